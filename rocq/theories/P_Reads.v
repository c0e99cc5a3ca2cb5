(** Consuming a given byte string from a memory source. *)
From Coq Require Import ZArith List Bool Lia ZifyBool ZifyNat.
From Verif Require Import Base Lemmas M_In P_In.
Import ListNotations.
Open Scope Z_scope.

(** [p] consumes exactly [bs] and returns [a], whatever comes before and after *)
Definition reads {A} (p : prog A) (bs : bytes) (a : A) : Prop :=
  forall d rest, run_block p (mkBlk d (bs ++ rest)) = Ok (a, mkBlk (rev bs ++ d) rest).

Lemma reads_ret {A} (a : A) : reads (Ret a) [] a.
Proof. intros d rest. reflexivity. Qed.

Lemma reads_bind {A B} (p : prog A) (f : A -> prog B) b1 b2 a c :
  reads p b1 a -> reads (f a) b2 c -> reads (pbind p f) (b1 ++ b2) c.
Proof.
  intros H1 H2 d rest. rewrite run_block_bind, <- app_assoc, H1. cbn [rbind].
  rewrite H2. rewrite rev_app_distr, app_assoc. reflexivity.
Qed.
Lemma reads_bind0 {A B} (p : prog A) (f : A -> prog B) b a c :
  reads p b a -> reads (f a) [] c -> reads (pbind p f) b c.
Proof. intros. rewrite <- (app_nil_r b). eapply reads_bind; eauto. Qed.

Lemma reads_move {A} n (k : prog A) b1 b2 a : n = zlen b1 -> n < two63 ->
  reads k b2 a -> reads (Move n k) (b1 ++ b2) a.
Proof.
  intros -> Hn K d rest. cbn [run_block b_rest b_done].
  replace (two63 <=? zlen b1) with false by lia.
  replace (zlen b1 <=? zlen ((b1 ++ b2) ++ rest)) with true by (rewrite !zlen_app; unfold zlen; lia).
  rewrite <- app_assoc. rewrite firstn_app_exact, skipn_app_exact by (unfold zlen; lia).
  rewrite rev_append_app, K, rev_app_distr, app_assoc. reflexivity.
Qed.

Lemma reads_block bs : zlen bs < two63 -> reads (read_block (zlen bs)) bs bs.
Proof.
  intros H d rest. unfold read_block. cbn [run_block b_rest b_done].
  replace (two63 <=? zlen bs) with false by lia.
  replace (zlen bs <=? zlen (bs ++ rest)) with true by (rewrite !zlen_app; unfold zlen; lia).
  rewrite firstn_app_exact, skipn_app_exact by (unfold zlen; lia).
  rewrite rev_append_app.
  replace (zlen bs <=? zlen (rev bs ++ d)) with true by (rewrite !zlen_app; unfold zlen; rewrite rev_length; lia).
  rewrite firstn_app_exact by (unfold zlen; rewrite rev_length; lia).
  rewrite rev_involutive. reflexivity.
Qed.
Lemma reads_block' n bs : n = zlen bs -> n < two63 -> reads (read_block n) bs bs.
Proof. intros ->. apply reads_block. Qed.
Lemma reads_num n bs : n = zlen bs -> n < two63 -> reads (read_move n) bs (unle bs).
Proof. intros -> H. apply reads_bind0 with (a := bs); [now apply reads_block|apply reads_ret]. Qed.
Lemma reads_byte b : reads (read_move 1) [b] b.
Proof. replace b with (unle [b]) at 2 by (cbn; lia). apply reads_num; [reflexivity|unfold two63; lia]. Qed.
Lemma reads_le n k x : k = Z.of_nat n -> 0 <= x < 256 ^ k -> k < two63 -> reads (read_move k) (le n x) x.
Proof.
  intros -> Hx Hk. rewrite <- (unle_le n x) at 2 by auto. apply reads_num; [unfold zlen; rewrite le_length; auto|auto].
Qed.

(** Programs that never ask how much input is left: their success does not depend on what follows. *)
Fixpoint plain {A} (p : prog A) : Prop :=
  match p with
  | Ret _ | Throw | Undef _ | OutOfFuel => True
  | NotNull k | Move _ k | Peek _ k | Adv _ k | Anchor _ k => plain k
  | TryPeek _ _ | LeftM1 _ => False
  | Deref _ k => forall c, plain (k c)
  | Back _ k => forall bs, plain (k bs)
  end.

Lemma plain_bind {A B} (p : prog A) (f : A -> prog B) : plain p -> (forall a, plain (f a)) -> plain (pbind p f).
Proof. induction p; cbn [plain pbind]; intros; auto; tauto. Qed.

Lemma plain_extend {A} (p : prog A) : plain p -> forall d r e a d' r',
  run_block p (mkBlk d r) = Ok (a, mkBlk d' r') -> run_block p (mkBlk d (r ++ e)) = Ok (a, mkBlk d' (r' ++ e)).
Proof.
  induction p as [r1|  |u| |p IHp|n p IHp|n p IHp|n p IHp|off p IHp|n p IHp|an p IHp|n p IHp|p IHp];
    cbn [plain]; intros P d r e a d' r' H0; cbn [run_block b_done b_rest] in *; try discriminate; try tauto.
  - injection H0 as <- <- <-. reflexivity.
  - destruct d, r; cbn [app] in *; try discriminate; exact (IHp P _ _ e _ _ _ H0).
  - destruct (two63 <=? n); [discriminate|]. destruct (n <=? zlen r) eqn:E; [|discriminate].
    replace (n <=? zlen (r ++ e)) with true by (rewrite zlen_app; unfold zlen in *; lia).
    specialize (IHp P _ _ e _ _ _ H0).
    rewrite firstn_app, skipn_app.
    replace (Z.to_nat n - length r)%nat with 0%nat by (unfold zlen in *; lia).
    cbn [firstn skipn]. rewrite app_nil_r. exact IHp.
  - destruct (two63 <=? n); [discriminate|]. destruct (n <=? zlen r) eqn:E; [|discriminate].
    replace (n <=? zlen (r ++ e)) with true by (rewrite zlen_app; unfold zlen in *; lia).
    now apply IHp.
  - destruct (nth_error r off) eqn:E; [|discriminate].
    rewrite nth_error_app1 by (apply nth_error_Some; congruence). rewrite E. now apply IHp.
  - destruct (n <=? length r)%nat eqn:E; [|discriminate].
    replace (n <=? length (r ++ e))%nat with true by (rewrite app_length; lia).
    specialize (IHp P _ _ e _ _ _ H0).
    rewrite firstn_app, skipn_app. replace (n - length r)%nat with 0%nat by lia.
    cbn [firstn skipn]. rewrite app_nil_r. exact IHp.
  - now apply IHp.
  - destruct (n <=? zlen d); [|discriminate]. now apply IHp.
Qed.

(** so a program that consumes [bs] does not succeed on a proper prefix of [bs] *)
Lemma plain_truncated {A} (p : prog A) bs a : plain p -> reads p bs a ->
  forall pre x, bs = pre ++ x -> x <> [] -> forall d r, run_block p (mkBlk d pre) <> Ok r.
Proof.
  intros P R pre x -> Hx d [a' [d' r']] H.
  apply (plain_extend _ P _ _ x) in H. specialize (R d []). rewrite app_nil_r in R. rewrite R in H.
  injection H as _ _ H. destruct r'; [cbn in H; congruence|discriminate H].
Qed.
