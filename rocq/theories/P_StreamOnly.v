(** What a stream yields, memory yields as well: no document loads from a stream only. *)
From Coq Require Import ZArith List Bool Lia ZifyBool ZifyNat.
From Verif Require Import Base Lemmas M_Types M_Conv M_Charset M_In S_Conv S_Doc M_OutOps M_Event M_Env M_Json M_PSrl M_MsgPack M_Tree M_TreeIO M_Object M_ObjIO P_In P_Reads P_PSrlDoc P_MsgPackSafe.
From Verif Require Import M_In P_In.
Import ListNotations.
Open Scope Z_scope.

(** the buffer of the stream together with what the stream still holds is what is left in memory *)
Record like (b : blk) (s : strm) : Prop := {
  l_eof : s_eof s = false;
  l_pos : (s_pos s <= length (s_win s))%nat;
  l_rest : b_rest b = skipn (s_pos s) (s_win s) ++ s_src s;
  l_done : exists pre, rev (b_done b) = pre ++ firstn (s_pos s) (s_win s);
  l_anchor : forall a, s_anchor s = Some a -> (a <= s_pos s)%nat;
  l_full : rev (b_done b) ++ b_rest b <> []
}.
Lemma like_start src : src <> [] -> like (set_block src) (set_stream src).
Proof.
  intros N. unfold set_stream, fetch. cbn. destruct src; [contradiction|constructor]; cbn; auto; try lia.
  - exists []. reflexivity.
  - intros a H; injection H as <-; lia.
Qed.

Lemma split_at a m (l : bytes) : (a <= m)%nat -> firstn a l ++ skipn a (firstn m l) = firstn m l.
Proof. intros H. rewrite <- (firstn_skipn a (firstn m l)) at 2. now rewrite firstn_firstn, Nat.min_l by lia. Qed.
Lemma need_like n b s ok s' : like b s -> need n s = (ok, s') ->
  (if ok then n <= zlen (b_rest b) /\ like b s' else zlen (b_rest b) < n /\ s_eof s' = true /\ s_src s' = [] /\
     (s_pos s' <= length (s_win s'))%nat /\ skipn (s_pos s') (s_win s') = b_rest b).
Proof.
  intros [Le Lp Lr Ld La Lf] E. unfold need in E. destruct (Z.of_nat (s_pos s) + n <? zlen (s_win s)) eqn:En.
  - injection E as <- <-. split; [|constructor; auto]. rewrite Lr. unfold zlen in *. rewrite app_length, skipn_length. lia.
  - unfold fetch in E. rewrite Le in E.
    set (lft := (length (s_win s) - s_pos s)%nat) in *. set (rl := Z.max n 1024 - Z.of_nat lft) in *.
    set (kp := match s_anchor s with Some a => a | None => s_pos s end) in *.
    assert (Kp : (kp <= s_pos s)%nat) by (unfold kp; destruct (s_anchor s) as [a|] eqn:Ea; [now apply La|lia]).
    set (mg := Nat.min kp 32) in *. set (dr := (kp - mg)%nat) in *. set (got := firstn (Z.to_nat rl) (s_src s)) in *.
    assert (W : skipn (s_pos s - dr) (skipn dr (s_win s) ++ got) = skipn (s_pos s) (s_win s) ++ got).
    { rewrite skipn_app, skipn_skipn, skipn_length. replace (dr + (s_pos s - dr))%nat with (s_pos s) by lia.
      replace (s_pos s - dr - (length (s_win s) - dr))%nat with 0%nat by lia. reflexivity. }
    assert (G : got ++ skipn (Z.to_nat rl) (s_src s) = s_src s) by apply firstn_skipn.
    assert (Ln : zlen (b_rest b) = Z.of_nat lft + zlen (s_src s)) by (rewrite Lr; unfold zlen; rewrite app_length, skipn_length; fold lft; lia).
    injection E as <- <-. destruct (zlen got + Z.of_nat lft <? n) eqn:F; cbn [negb].
    + assert (Gs : got = s_src s /\ skipn (Z.to_nat rl) (s_src s) = []).
      { destruct (le_lt_dec (length (s_src s)) (Z.to_nat rl)) as [H|H].
        - split; [now apply firstn_all2|now apply skipn_all2].
        - exfalso. assert (length got = Z.to_nat rl) by (unfold got; rewrite firstn_length; lia). unfold zlen in F. lia. }
      destruct Gs as [G1 G2]. split; [rewrite Ln, <- G1; lia|]. cbn [s_eof s_src s_pos s_win]. split; [reflexivity|]. split; [exact G2|].
      split; [rewrite app_length, skipn_length; lia|]. rewrite W, G1. now rewrite <- Lr.
    + assert (Lg : (length got <= length (s_src s))%nat) by (unfold got; rewrite firstn_length; lia).
      split; [unfold zlen in *; lia|]. constructor; cbn [s_eof s_src s_pos s_win s_anchor].
      * reflexivity.
      * rewrite app_length, skipn_length. lia.
      * rewrite W, <- app_assoc, G. exact Lr.
      * destruct Ld as [pre Ld]. exists (pre ++ firstn dr (s_win s)). rewrite Ld, <- app_assoc. f_equal.
        rewrite firstn_app, skipn_length. replace (s_pos s - dr - (length (s_win s) - dr))%nat with 0%nat by lia. cbn [firstn]. rewrite app_nil_r.
        rewrite firstn_skipn_comm. replace (dr + (s_pos s - dr))%nat with (s_pos s) by lia.
        symmetry. apply split_at. lia.
      * intros a Ea. destruct (s_anchor s); [discriminate|]. injection Ea as <-. unfold kp in *. lia.
      * exact Lf.
Qed.

(** a successful run on the stream is one on memory *)
Definition mirrors {A} (p : prog A) (b : blk) (s : strm) : Prop :=
  forall a s', run_stream p s = Ok (a, s') -> exists b', run_block p b = Ok (a, b') /\ like b' s'.

Lemma mirrors_ret {A} (a : A) b s : like b s -> mirrors (Ret a) b s.
Proof. intros L a' s' E. injection E as <- <-. exists b. auto. Qed.
Lemma mirrors_fail {A} (p : prog A) b s : (forall r, run_stream p s <> Ok r) -> mirrors p b s.
Proof. intros H a s' E. exfalso. eapply H; eauto. Qed.
Lemma mirrors_bind {A B} (p : prog A) (f : A -> prog B) b s : mirrors p b s ->
  (forall a b' s', like b' s' -> mirrors (f a) b' s') -> mirrors (pbind p f) b s.
Proof.
  intros H K a s' E. rewrite run_stream_bind in E. destruct (run_stream p s) as [[a1 s1]| | |] eqn:E1; try discriminate. cbn [rbind] in E.
  destruct (H a1 s1 E1) as (b1 & B1 & L1). destruct (K a1 b1 s1 L1 a s' E) as (b2 & B2 & L2). exists b2. rewrite run_block_bind, B1. auto.
Qed.
Lemma mirrors_move {A} n (k : prog A) b s : like b s -> (forall b' s', like b' s' -> mirrors k b' s') -> mirrors (Move n k) b s.
Proof.
  intros L K a s' E. cbn [run_stream run_block] in *. destruct (two63 <=? n); [discriminate|].
  destruct (need n s) as [ok s1] eqn:En. pose proof (need_like _ _ _ _ _ L En) as N. destruct ok; [|discriminate]. destruct N as [Nn [Le Lp Lr Ld La Lf]].
  replace (n <=? zlen (b_rest b)) with true by lia. set (b1 := mkBlk _ _). eapply K; [|exact E].
  assert (En' : need n s = (true, s1)) by exact En. clear En.
  assert (W : (s_pos s1 + Z.to_nat n <= length (s_win s1))%nat).
  { unfold need in En'. destruct (Z.of_nat (s_pos s) + n <? zlen (s_win s)) eqn:E1.
    - injection En' as <-. unfold zlen in E1. lia.
    - unfold fetch in En'. destruct (s_eof s); [discriminate|]. pose proof (f_equal fst En') as F1. pose proof (f_equal snd En') as F2. cbn [fst snd] in F1, F2. clear En'.
      apply negb_true_iff in F1. apply (f_equal (fun q => (length (s_win q), s_pos q))) in F2. cbn [s_win s_pos] in F2.
      pose proof (f_equal fst F2) as F3. pose proof (f_equal snd F2) as F4. cbn [fst snd] in F3, F4. rewrite <- F3, <- F4.
      rewrite app_length, skipn_length. destruct L as [Le0 Lp0 Lr0 Ld0 La0 _].
      assert (Kp : (match s_anchor s with Some a => a | None => s_pos s end <= s_pos s)%nat) by (destruct (s_anchor s) as [a0|]; [now apply La0|lia]).
      unfold zlen in F1. set (kp := match s_anchor s with Some _ => _ | None => _ end) in *. lia. }
  unfold b1. constructor; cbn [s_eof s_pos s_win s_src s_anchor b_rest b_done]; auto.
  - rewrite Lr, skipn_app, skipn_skipn, skipn_length. replace (Z.to_nat n - (length (s_win s1) - s_pos s1))%nat with 0%nat by lia.
    reflexivity.
  - destruct Ld as [pre Ld]. exists pre. rewrite rev_append_rev, rev_app_distr, rev_involutive, Ld, <- app_assoc. f_equal.
    rewrite Lr, firstn_app, skipn_length. replace (Z.to_nat n - (length (s_win s1) - s_pos s1))%nat with 0%nat by lia. cbn [firstn]. rewrite app_nil_r.
    rewrite firstn_skipn_comm. apply split_at. lia.
  - intros a0 Ha. apply La in Ha. lia.
  - now rewrite rev_append_rev, rev_app_distr, rev_involutive, <- app_assoc, firstn_skipn.
Qed.
Lemma mirrors_peek {A} n (k : prog A) b s : like b s -> (forall s', like b s' -> mirrors k b s') -> mirrors (Peek n k) b s.
Proof.
  intros L K a s' E. cbn [run_stream run_block] in *. destruct (two63 <=? n); [discriminate|].
  destruct (need n s) as [ok s1] eqn:En. pose proof (need_like _ _ _ _ _ L En) as N. destruct ok; [|discriminate]. destruct N as [Nn N].
  replace (n <=? zlen (b_rest b)) with true by lia. now apply (K s1).
Qed.
Lemma mirrors_trypeek {A} n (k : bool -> prog A) b s : like b s -> (n <= zlen (b_rest b) -> forall s', like b s' -> mirrors (k true) b s') ->
  (forall s', zlen (b_rest b) < n -> s_eof s' = true -> s_src s' = [] -> (s_pos s' <= length (s_win s'))%nat -> skipn (s_pos s') (s_win s') = b_rest b ->
     forall r, run_stream (k false) s' <> Ok r) -> mirrors (TryPeek n k) b s.
Proof.
  intros L K F a s' E. cbn [run_stream run_block] in *. destruct (need n s) as [ok s1] eqn:En. pose proof (need_like _ _ _ _ _ L En) as N. destruct ok.
  - destruct N as [Nn N]. replace (n <=? zlen (b_rest b)) with true by lia. now apply (K Nn s1).
  - destruct N as (N1 & N2 & N3 & N4 & N5). exfalso. eapply F; eauto.
Qed.
Lemma mirrors_deref {A} off (k : Z -> prog A) b s : like b s -> (forall c, nth_error (b_rest b) off = Some c -> mirrors (k c) b s) -> mirrors (Deref off k) b s.
Proof.
  intros L K a s' E. cbn [run_stream run_block] in *. destruct (nth_error (s_win s) (s_pos s + off)) as [c|] eqn:Ec; [|discriminate].
  assert (Eb : nth_error (b_rest b) off = Some c).
  { rewrite (l_rest _ _ L). assert (s_pos s + off < length (s_win s))%nat by (apply nth_error_Some; congruence).
    rewrite nth_error_app1 by (rewrite skipn_length; lia).
    rewrite <- (firstn_skipn (s_pos s) (s_win s)), nth_error_app2 in Ec by (rewrite firstn_length; lia).
    rewrite firstn_length, Nat.min_l in Ec by apply (l_pos _ _ L). now replace (s_pos s + off - s_pos s)%nat with off in Ec by lia. }
  rewrite Eb. now apply (K c Eb).
Qed.
Lemma mirrors_adv {A} n (k : prog A) b s : like b s -> (forall b' s', like b' s' -> mirrors k b' s') -> mirrors (Adv n k) b s.
Proof.
  intros L K a s' E. cbn [run_stream run_block] in *. destruct (s_pos s + n <=? length (s_win s))%nat eqn:En; [|discriminate]. destruct L as [Le Lp Lr Ld La Lf].
  replace (n <=? length (b_rest b))%nat with true by (rewrite Lr, app_length, skipn_length; lia). eapply K; [|exact E].
  constructor; cbn [s_eof s_pos s_win s_src s_anchor b_rest b_done]; auto.
  - lia.
  - rewrite Lr, skipn_app, skipn_skipn, skipn_length. replace (n - (length (s_win s) - s_pos s))%nat with 0%nat by lia. reflexivity.
  - destruct Ld as [pre Ld]. exists pre. rewrite rev_append_rev, rev_app_distr, rev_involutive, Ld, <- app_assoc. f_equal.
    rewrite Lr, firstn_app, skipn_length. replace (n - (length (s_win s) - s_pos s))%nat with 0%nat by lia. cbn [firstn]. rewrite app_nil_r.
    rewrite firstn_skipn_comm. apply split_at. lia.
  - intros a0 Ha. apply La in Ha. lia.
  - now rewrite rev_append_rev, rev_app_distr, rev_involutive, <- app_assoc, firstn_skipn.
Qed.
Lemma like_anchor b s an : like b s -> (forall a, an = Some a -> (a <= s_pos s)%nat) -> like b (mkStrm (s_win s) (s_pos s) an (s_src s) (s_eof s)).
Proof. intros [Le Lp Lr Ld La Lf] H. constructor; cbn [s_eof s_pos s_win s_src s_anchor]; auto. Qed.
Lemma mirrors_anchor {A} an (k : prog A) b s : like b s -> (forall s', like b s' -> mirrors k b s') -> mirrors (Anchor an k) b s.
Proof.
  intros L K a s' E. destruct an; cbn [run_stream run_block] in *; eapply K; try exact E; apply like_anchor; auto.
  - intros q Hq. injection Hq as <-. lia.
  - discriminate.
Qed.
Lemma mirrors_back {A} n (k : bytes -> prog A) b s : like b s -> (forall bs, mirrors (k bs) b s) -> mirrors (Back n k) b s.
Proof.
  intros L K a s' E. cbn [run_stream run_block] in *. destruct (n <=? Z.of_nat (s_pos s)) eqn:En; [|discriminate].
  destruct (l_done _ _ L) as [pre Ld]. pose proof (l_pos _ _ L) as Lp.
  assert (Ln : length (b_done b) = (length pre + s_pos s)%nat) by (rewrite <- rev_length, Ld, app_length, firstn_length; lia).
  replace (n <=? zlen (b_done b)) with true by (unfold zlen; lia).
  assert (X : rev (firstn (Z.to_nat n) (b_done b)) = firstn (Z.to_nat n) (skipn (s_pos s - Z.to_nat n) (s_win s))).
  { rewrite <- (rev_involutive (b_done b)), Ld, rev_app_distr.
    rewrite firstn_app, rev_length, firstn_length, Nat.min_l by lia. replace (Z.to_nat n - s_pos s)%nat with 0%nat by lia. cbn [firstn]. rewrite app_nil_r.
    rewrite <- (rev_involutive (firstn (Z.to_nat n) _)). rewrite firstn_rev. rewrite rev_involutive, rev_involutive. rewrite firstn_length, Nat.min_l by lia.
    rewrite firstn_skipn_comm. f_equal. f_equal. lia. }
  rewrite X. now apply (K _ a s').
Qed.
Lemma mirrors_notnull {A} (k : prog A) b s : like b s -> mirrors k b s -> mirrors (NotNull k) b s.
Proof.
  intros L H a s' E. cbn [run_stream run_block] in *. pose proof (l_full _ _ L) as N. destruct (b_done b); [|now apply H]. destruct (b_rest b); [contradiction|now apply H].
Qed.
Lemma mirrors_lift {A} (r : res A) b s : like b s -> mirrors (lift r) b s.
Proof. intros L. destruct r; cbn [lift]; [now apply mirrors_ret|apply mirrors_fail; discriminate..]. Qed.
Lemma mirrors_plain {A} (p : prog A) : plain p -> forall b s, like b s -> mirrors p b s.
Proof.
  induction p as [r|  |u| |p IH|n p IH|n p IH|n p IH|off p IH|n p IH|an p IH|n p IH|p IH]; intros P b s L; cbn [plain] in P; try contradiction.
  - now apply mirrors_ret.
  - apply mirrors_fail; discriminate.
  - apply mirrors_fail; discriminate.
  - apply mirrors_fail; discriminate.
  - apply mirrors_notnull; auto.
  - apply mirrors_move; auto.
  - apply mirrors_peek; auto.
  - apply mirrors_deref; auto.
  - apply mirrors_adv; auto.
  - apply mirrors_anchor; auto.
  - apply mirrors_back; auto.
Qed.

(** * JSON *)
Lemma mirrors_is_at ts : Forall (fun t => match t with TkPair _ _ => False | _ => True end) ts -> forall note, plain (is_at_token ts note).
Proof.
  induction 1 as [|t ts S1 _ IH]; intros note; [exact Logic.I|]. destruct t; cbn [is_at_token plain]; [|contradiction|auto].
  intros x. destruct (x =? c); [exact Logic.I|auto].
Qed.
Lemma plain_move_loop neg ts : Forall (fun t => match t with TkPair _ _ => False | _ => True end) ts -> forall fuel steps note, plain (move_loop fuel neg ts steps note).
Proof.
  intros H. induction fuel as [|f IH]; intros steps note; [exact Logic.I|]. cbn [move_loop]. apply plain_bind; [now apply mirrors_is_at|].
  intros [at_tok note']. destruct (Bool.eqb neg at_tok); [apply IH|exact Logic.I].
Qed.
(** a stream at its end, one byte left at most *)
Definition at_end (s : strm) : Prop := s_eof s = true /\ (length (s_win s) <= s_pos s + 1)%nat.
Lemma end_move {A} (k : prog A) s r : at_end s -> run_stream (Move 1 k) s <> Ok r.
Proof.
  intros [E L]. cbn [run_stream]. change (two63 <=? 1) with false. unfold need, fetch. rewrite E. replace (_ <? _) with false by (unfold zlen; lia). discriminate.
Qed.
Lemma mirrors_pair_loop p q : forall fuel steps note b s, like b s -> mirrors (move_loop fuel false [TkPair p q] steps note) b s.
Proof.
  induction fuel as [|f IH]; intros steps note b s L; [apply mirrors_fail; discriminate|]. cbn [move_loop is_at_token pbind].
  apply mirrors_trypeek; auto.
  - intros _ s1 L1. cbn [pbind]. apply mirrors_deref; auto. intros x _. destruct (x =? p); cbn [pbind Bool.eqb]; [|apply mirrors_move; auto].
    apply mirrors_deref; auto. intros y _. destruct (y =? q); cbn [pbind Bool.eqb]; [now apply mirrors_ret|apply mirrors_move; auto].
  - intros s1 Hz E S1 P W r. cbn [pbind Bool.eqb]. apply end_move. split; [exact E|].
    assert (length (b_rest b) = length (s_win s1) - s_pos s1)%nat by (rewrite <- W; apply skipn_length). unfold zlen in Hz. lia.
Qed.
Lemma mirrors_skip fuel b s : like b s -> b_rest b <> [] -> mirrors (skip_comment fuel) b s.
Proof.
  intros L N. unfold skip_comment. apply mirrors_trypeek; auto.
  - intros _ s1 L1. apply mirrors_deref; auto. intros c _. destruct (c =? 42); [|destruct (c =? 47); [|now apply mirrors_ret]].
    + apply mirrors_bind; [apply mirrors_notnull; [auto|now apply mirrors_pair_loop]|]. intros; now apply mirrors_ret.
    + apply mirrors_bind; [|intros; now apply mirrors_ret]. apply mirrors_plain; [|auto]. apply plain_move_loop. repeat constructor.
  - intros s1 Hz. destruct (b_rest b); [contradiction|]. unfold zlen in Hz. cbn [length] in Hz. lia.
Qed.
Lemma plain_put buf idx c n : plain (put buf idx c n).
Proof. apply plain_bind; [destruct (store buf idx [c]); exact Logic.I|intros; exact Logic.I]. Qed.
Lemma plain_lift {A} (r : res A) : plain (lift r).
Proof. destruct r; exact Logic.I. Qed.
Lemma plain_token buf idx left : plain (substitute_token buf idx left).
Proof.
  unfold substitute_token. destruct (2 <=? left); cbn [plain]; [|intros; apply plain_put]. intros a e. destruct (a =? 92); [|apply plain_put].
  destruct (substitute_of e); [apply plain_put|]. destruct (e =? 117); [|apply plain_put].
  apply plain_bind; [apply plain_read_block|]. intros bs. apply plain_bind; [apply plain_lift|intros; apply plain_lift].
Qed.
Lemma mirrors_sub delim : forall fuel buf bufsz steps b s, like b s -> mirrors (read_substitute fuel delim buf bufsz steps) b s.
Proof.
  induction fuel as [|f IH]; intros buf bufsz steps b s L; [apply mirrors_fail; discriminate|]. cbn [read_substitute].
  apply mirrors_peek; auto. intros s1 L1. apply mirrors_deref; auto. intros c Ec. destruct (c =? delim); [now apply mirrors_ret|].
  set (bufsz' := if bufsz <? steps + 1 then _ else bufsz). set (buf' := if bufsz <? steps + 1 then _ else buf). cbv zeta.
  apply mirrors_trypeek; auto.
  - intros _ s2 L2. apply mirrors_bind; [apply mirrors_plain; [apply plain_token|auto]|]. intros [n buf2] b' s' L'. now apply IH.
  - intros s2 Hz E S2 P W r. assert (Lr : (length (b_rest b) = length (s_win s2) - s_pos s2)%nat) by (rewrite <- W; apply skipn_length).
    destruct (b_rest b) as [|c0 rest] eqn:Eb; [discriminate|]. unfold zlen in Hz. cbn [length] in *. cbn [run_stream].
    replace (zlen (s_win s2) - Z.of_nat (s_pos s2) - 1) with 0 by (unfold zlen; lia). change (u64 0) with 0. unfold substitute_token. change (2 <=? 0) with false. cbv iota.
    cbn [pbind run_stream]. destruct (nth_error (s_win s2) (s_pos s2 + 0)) as [c1|]; [|discriminate].
    unfold put. rewrite run_stream_bind. destruct (store buf' steps [c1]) as [buf2| | |]; cbn [lift pbind run_stream rbind]; try discriminate.
    destruct (s_pos s2 + 1 <=? length (s_win s2))%nat; [|discriminate].
    cbn [rbind]. destruct f as [|f]; [discriminate|]. cbn [read_substitute run_stream]. change (two63 <=? 0) with false. cbv iota.
    unfold need, fetch. cbn [s_pos s_win s_eof]. rewrite E.
    replace (Z.of_nat (s_pos s2 + 1) + 0 <? zlen (s_win s2)) with false by (unfold zlen; lia). discriminate.
Qed.
Lemma mirrors_quote fuel st js b s : like b s -> mirrors (process_quote fuel st js) b s.
Proof.
  intros L. unfold process_quote. destruct (ty_eqb _ _); [apply mirrors_fail; discriminate|]. apply mirrors_move; auto. intros b1 s1 L1.
  apply mirrors_bind.
  - unfold read_unescape. apply mirrors_bind; [now apply mirrors_sub|]. intros [n buf] b' s' L'. now apply mirrors_ret.
  - intros [content buf] b2 s2 L2. apply mirrors_bind; [|intros; now apply mirrors_ret]. unfold process_string.
    destruct (_ || _); [now apply mirrors_ret|]. destruct (s_named js); [apply mirrors_fail; discriminate|now apply mirrors_ret].
Qed.
Lemma plain_char x fuel js : plain (process_char x fuel js).
Proof.
  unfold process_char. intros c. destruct (is_literal c); [|exact Logic.I]. apply plain_bind.
  - unfold read_block_until. cbn [plain]. apply plain_bind; [|intros [? ?] bs; exact Logic.I]. apply plain_move_loop. repeat constructor.
  - intros [block fp]. destruct (str_to_type x block _); [intros d; exact Logic.I|exact Logic.I].
Qed.
Lemma plain_bracket st c js : plain (process_bracket st c js).
Proof. unfold process_bracket. destruct (ty_eqb _ _); [destruct (j_stack st); exact Logic.I|exact Logic.I]. Qed.
Lemma mirrors_item x fuel st js b s : like b s -> mirrors (process_item x fuel st js) b s.
Proof.
  intros L. unfold process_item. apply mirrors_deref; auto. intros c Ec.
  destruct (c =? 34); [apply mirrors_bind; [now apply mirrors_quote|intros [? ?] ? ? ?; now apply mirrors_ret]|].
  destruct (c =? 58); [destruct (s_reading js); [apply mirrors_fail; discriminate|now apply mirrors_ret]|].
  destruct (existsb _ _); [apply mirrors_bind; [apply mirrors_plain; [apply plain_bracket|auto]|intros [? ?] ? ? ?; now apply mirrors_ret]|].
  destruct (c =? 47).
  - apply mirrors_bind; [|intros; now apply mirrors_ret]. apply mirrors_skip; auto. intros N. rewrite N in Ec. discriminate.
  - apply mirrors_bind; [apply mirrors_plain; [apply plain_char|auto]|]. intros [? ?] ? ? ?; now apply mirrors_ret.
Qed.
Lemma mirrors_json x fuel : forall n st js b s, like b s -> mirrors (json_loop x fuel n st js) b s.
Proof.
  induction n as [|n IH]; intros st js b s L; [apply mirrors_fail; discriminate|]. cbn [json_loop].
  apply mirrors_bind.
  - apply mirrors_plain; [|auto]. unfold seek_item. destruct (_ && _); apply plain_move_loop; repeat constructor.
  - intros ? b1 s1 L1. apply mirrors_bind; [now apply mirrors_item|]. intros [[st' js'] mv] b2 s2 L2. cbv zeta.
    assert (N : forall b3 s3, like b3 s3 -> mirrors (if s_complete js' then Ret (st', (s_name js', s_value js')) else json_loop x fuel n st' js') b3 s3)
      by (intros b3 s3 L3; destruct (s_complete js'); [now apply mirrors_ret|now apply IH]).
    destruct mv; [apply mirrors_move; auto|auto].
Qed.

(** * Any reading *)
Lemma mirrors_ecomp {St R} (rd : St -> prog (St * event)) : (forall st b s, like b s -> mirrors (rd st) b s) ->
  forall (p : eprog R) st b s, like b s -> mirrors (ecomp rd p st) b s.
Proof.
  intros H. induction p as [r| |u| |k IH]; intros st b s L; cbn [ecomp]; [now apply mirrors_ret|apply mirrors_fail; discriminate..|].
  apply mirrors_bind; [now apply H|]. intros [st' e] b' s' L'. now apply IH.
Qed.
Lemma mirrors_parser {R} x F q (p : eprog R) b s : like b s -> mirrors (with_parser x F q p) b s.
Proof.
  intros L. unfold with_parser. destruct (parser_clear q) as [st|st|st]; (apply mirrors_bind; [apply mirrors_ecomp; auto|intros [? ?] ? ? ?; now apply mirrors_ret]).
  - intros st1 b1 s1 L1. apply mirrors_plain; [apply plain_psrl_read|auto].
  - intros st1 b1 s1 L1. apply mirrors_plain; [apply plain_msgp_read|auto].
  - intros st1 b1 s1 L1. now apply mirrors_json.
Qed.
Lemma stream_empty {R} x F q (k : event -> eprog R) r : run_stream (with_parser x F q (ERead k)) (set_stream []) <> Ok r.
Proof.
  unfold with_parser. destruct q as [st|st|st]; cbn [parser_clear ecomp]; rewrite run_stream_bind, run_stream_bind.
  - discriminate.
  - discriminate.
  - unfold json_read. destruct F as [|F]; [discriminate|]. cbn [json_loop]. rewrite run_stream_bind. unfold seek_item. destruct (_ && _); discriminate.
Qed.
Lemma stream_only_memory {R} x F q (p : eprog R) src r s : run_stream (with_parser x F q p) (set_stream src) = Ok (r, s) ->
  exists b, run_block (with_parser x F q p) (set_block src) = Ok (r, b).
Proof.
  intros E. destruct src as [|c src].
  - destruct p as [v| |u| |k].
    + unfold with_parser in *. destruct (parser_clear q); injection E as <- _; eexists; reflexivity.
    + unfold with_parser in E. destruct (parser_clear q); discriminate.
    + unfold with_parser in E. destruct (parser_clear q); discriminate.
    + unfold with_parser in E. destruct (parser_clear q); discriminate.
    + exfalso. eapply stream_empty; eauto.
  - assert (N : c :: src <> []) by discriminate.
    destruct (mirrors_parser x F q p (set_block (c :: src)) (set_stream (c :: src)) (like_start _ N) _ _ E) as (b & B & _). eauto.
Qed.
