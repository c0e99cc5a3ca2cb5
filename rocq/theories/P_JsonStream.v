(** JSON from a stream: what loads from memory loads from a stream with the same result, unless a number or constant is very long. *)
From Coq Require Import ZArith List Bool Lia ZifyBool ZifyNat.
From Verif Require Import Base Lemmas M_Types M_Conv M_Charset M_In S_Conv S_Doc S_Json M_OutOps M_Event M_Env M_Json P_In P_Safe S_JsonStream.
Import ListNotations.
Open Scope Z_scope.

(** the next byte, if there is one, is in the buffer *)
Definition ready (b : blk) (g : ghost) : Prop := (Nat.min 1 (length (b_rest b)) <= g_vis g)%nat.
Definition free (b : blk) (g : ghost) : Prop := g_lit g = None /\ ready b g.
Definition tail (b b' : blk) : Prop := exists pre, b_rest b = pre ++ b_rest b'.
Lemma tail_refl b : tail b b.
Proof. exists []. reflexivity. Qed.
Lemma tail_trans a b c : tail a b -> tail b c -> tail a c.
Proof. intros [x X] [y Y]. exists (x ++ y). now rewrite X, Y, app_assoc. Qed.
Lemma tail_step c r d d' : tail (mkBlk d (c :: r)) (mkBlk d' r).
Proof. exists [c]. reflexivity. Qed.
Lemma short_tail b b' : tail b b' -> short_literals (b_rest b) -> short_literals (b_rest b').
Proof. intros [p X] H pre c run post E. apply (H (p ++ pre) c run post). now rewrite X, E, app_assoc. Qed.

Lemma agrees_deref0 {A} (k : Z -> prog A) b g Q : ready b g ->
  (forall c r, b_rest b = c :: r -> (1 <= g_vis g)%nat -> agrees (k c) b g Q) -> agrees (Deref 0 k) b g Q.
Proof.
  intros R H a b' E. unfold ready in R. cbn [run_block run_ghost] in *. destruct (b_rest b) as [|c r] eqn:Er; cbn [nth_error] in *; [discriminate|].
  cbn [length] in R. replace (0 <? g_vis g)%nat with true by lia. apply (H c r eq_refl ltac:(lia)). exact E.
Qed.
Lemma agrees_deref1 {A} (k : Z -> prog A) b g Q : (2 <= g_vis g)%nat ->
  (forall c, agrees (k c) b g Q) -> agrees (Deref 1 k) b g Q.
Proof.
  intros R H a b' E. cbn [run_block run_ghost] in *. destruct (nth_error (b_rest b) 1) as [c|]; [|discriminate].
  replace (1 <? g_vis g)%nat with true by lia. now apply H.
Qed.
Lemma run_move_one {A} (k : prog A) d c r : run_block (Move 1 k) (mkBlk d (c :: r)) = run_block k (mkBlk (c :: d) r).
Proof. cbn [run_block b_rest b_done]. unfold zlen. cbn [length]. change (two63 <=? 1) with false. replace (1 <=? Z.of_nat (S (length r))) with true by lia. reflexivity. Qed.
Lemma run_move_nil {A} (k : prog A) d : run_block (Move 1 k) (mkBlk d []) = Err.
Proof. reflexivity. Qed.
Lemma agrees_move1 {A} (k : prog A) d l g Q : g_lit g = None ->
  (forall c r g', l = c :: r -> free (mkBlk (c :: d) r) g' -> agrees k (mkBlk (c :: d) r) g' Q) -> agrees (Move 1 k) (mkBlk d l) g Q.
Proof.
  intros L H a b' E. destruct l as [|c r]; [discriminate|]. rewrite run_move_one in E. cbn [run_ghost b_rest b_done].
  change ((0 <=? 1) && (1 <? two63)) with true. replace (1 <=? zlen (c :: r)) with true by (unfold zlen; cbn [length]; lia). cbn [andb].
  rewrite L. change (skipn (Z.to_nat 1) (c :: r)) with r. change (rev_append (firstn (Z.to_nat 1) (c :: r)) d) with (c :: d).
  apply (H c r _ eq_refl); [|exact E]. split; [reflexivity|]. unfold ready, vis_after_move. cbn [g_vis b_rest]. change (1 <? 1024) with true. cbv iota. lia.
Qed.
Lemma agrees_peek0 {A} (k : prog A) b g Q : g_lit g = None ->
  (forall g', free b g' -> agrees k b g' Q) -> agrees (Peek 0 k) b g Q.
Proof.
  intros L H a b' E. cbn [run_block run_ghost] in *. change (two63 <=? 0) with false in E.
  destruct (0 <=? zlen (b_rest b)) eqn:Z0; [|discriminate]. change ((0 <=? 0) && (0 <? two63)) with true. cbn [andb]. rewrite L.
  apply H; auto. split; [reflexivity|]. unfold ready, vis_after_peek. cbn [g_vis]. change (0 <? 1024) with true. change (Z.to_nat 0) with 0%nat. cbv iota. lia.
Qed.
Lemma agrees_trypeek {A} n (k : bool -> prog A) b g Q : 0 <= n < 1024 -> g_lit g = None ->
  (n <= zlen (b_rest b) -> forall g', g_lit g' = None -> (Nat.min (Z.to_nat n + 1) (length (b_rest b)) <= g_vis g')%nat -> agrees (k true) b g' Q) ->
  (zlen (b_rest b) < n -> forall r, run_block (k false) b <> Ok r) -> agrees (TryPeek n k) b g Q.
Proof.
  intros N L H1 H2 a b' E. cbn [run_block run_ghost] in *. destruct (n <=? zlen (b_rest b)) eqn:E1.
  - replace (0 <=? n) with true by lia. cbn [andb]. rewrite L. apply H1; auto; [lia|].
    unfold vis_after_peek. cbn [g_vis]. replace (n <? 1024) with true by lia. lia.
  - exfalso. apply (H2 ltac:(lia) _ E).
Qed.
Lemma agrees_adv {A} n (k : prog A) b g Q : g_lit g = None -> (n <= g_vis g)%nat ->
  (forall b' g', tail b b' -> g_lit g' = None -> agrees k b' g' Q) -> agrees (Adv n k) b g Q.
Proof.
  intros L V H a b' E. cbn [run_block run_ghost] in *. destruct (n <=? length (b_rest b))%nat eqn:E1; [|discriminate].
  replace (n <=? g_vis g)%nat with true by lia. cbn [andb]. rewrite L. apply H; auto.
  exists (firstn n (b_rest b)). cbn [b_rest]. now rewrite firstn_skipn.
Qed.
Lemma agrees_notnull {A} (k : prog A) b g Q : agrees k b g Q -> agrees (NotNull k) b g Q.
Proof. intros H a b' E. cbn [run_block run_ghost] in *. destruct (b_done b), (b_rest b); try discriminate; auto. Qed.
Lemma agrees_lift {A} (r : res A) b g (Q : A -> blk -> ghost -> Prop) : (forall a, r = Ok a -> Q a b g) -> agrees (lift r) b g Q.
Proof. intros H. destruct r; cbn [lift]; [apply agrees_ret; auto|apply agrees_fail; discriminate..]. Qed.

(** * Scanning *)
Definition simple (t : token) : Prop := match t with TkPair _ _ => False | _ => True end.
Lemma agrees_is_at ts : Forall simple ts -> forall note b g, ready b g ->
  agrees (is_at_token ts note) b g (fun a b' g' => b' = b /\ g' = g).
Proof.
  induction 1 as [|t ts S1 _ IH]; intros note b g R; [now apply agrees_ret|].
  destruct t as [c|c1 c2|c]; cbn [is_at_token]; [|destruct S1|].
  - apply agrees_deref0; auto. intros x r _ _. destruct (x =? c); [now apply agrees_ret|auto].
  - apply agrees_deref0; auto.
Qed.
Lemma agrees_move_loop neg ts : Forall simple ts -> forall fuel steps note b g, free b g ->
  agrees (move_loop fuel neg ts steps note) b g (fun _ b' g' => tail b b' /\ free b' g').
Proof.
  intros S1. induction fuel as [|f IH]; intros steps note b g [L R]; [apply agrees_fail; discriminate|]. cbn [move_loop].
  apply agrees_bind. eapply agrees_conseq; [now apply agrees_is_at|]. intros [at_tok note'] b' g' [-> ->].
  destruct (Bool.eqb neg at_tok).
  - destruct b as [d l]. apply agrees_move1; auto. intros c r g' -> F. eapply agrees_conseq; [apply IH; auto|].
    intros ? b' g2 [T F2]. split; [|auto]. eapply tail_trans; [apply tail_step|exact T].
  - apply agrees_ret. split; [apply tail_refl|split; auto].
Qed.
Lemma pair_loop_short a c : forall fuel steps note b, (length (b_rest b) < 2)%nat -> forall r,
  run_block (move_loop fuel false [TkPair a c] steps note) b <> Ok r.
Proof.
  induction fuel as [|f IH]; intros steps note [d l] H r; [discriminate|]. cbn [b_rest] in H. cbn [move_loop is_at_token pbind].
  cbn [run_block b_rest]. replace (2 <=? zlen l) with false by (unfold zlen; lia). cbn [pbind]. destruct (Bool.eqb false false) eqn:E; [|discriminate].
  destruct l as [|x [|y l]]; [rewrite run_move_nil; discriminate|rewrite run_move_one; apply IH; cbn; lia|cbn [length] in H; lia].
Qed.
Lemma agrees_pair_loop p q : forall fuel steps note b g, g_lit g = None ->
  agrees (move_loop fuel false [TkPair p q] steps note) b g (fun _ b' g' => tail b b' /\ free b' g').
Proof.
  induction fuel as [|f IH]; intros steps note b g L; [apply agrees_fail; discriminate|].
  destruct (lt_dec (length (b_rest b)) 2) as [H|H]; [apply agrees_fail; intros r; now apply pair_loop_short|].
  cbn [move_loop is_at_token]. apply agrees_bind.
  apply agrees_conseq with (Q := fun _ b' g' => b' = b /\ g_lit g' = None /\ (2 <= g_vis g')%nat).
  - apply agrees_trypeek; [lia|auto| |unfold zlen; lia].
    intros _ g' L' V. assert (V2 : (2 <= g_vis g')%nat) by (change (Z.to_nat 2 + 1)%nat with 3%nat in V; lia).
    apply agrees_deref0; [unfold ready; lia|]. intros x r _ _. destruct (x =? p); [|now apply agrees_ret].
    apply agrees_deref1; auto. intros y. destruct (y =? q); now apply agrees_ret.
  - intros [at_tok note'] b' g' (-> & L' & V). destruct (Bool.eqb false at_tok).
    + destruct b as [d l]. apply agrees_move1; auto. intros c r g2 -> F. eapply agrees_conseq; [apply IH; apply F|].
      intros ? b' g3 [T F2]. split; [|auto]. eapply tail_trans; [apply tail_step|exact T].
    + apply agrees_ret. split; [apply tail_refl|]. split; [auto|]. unfold ready. lia.
Qed.

(** * Comments *)
Lemma agrees_skip fuel b g : g_lit g = None -> b_rest b <> [] ->
  agrees (skip_comment fuel) b g (fun _ b' g' => tail b b' /\ free b' g').
Proof.
  intros L N. unfold skip_comment. apply agrees_trypeek; [lia|auto| |].
  - intros _ g' L' V. change (Z.to_nat 1 + 1)%nat with 2%nat in V.
    destruct (b_rest b) as [|c0 [|c1 l]] eqn:Er; [contradiction| |].
    { apply agrees_fail. intros r. cbn [run_block]. rewrite Er. cbn. discriminate. }
    cbn [length] in V. apply agrees_deref1; [lia|]. intros c.
    assert (F : free b g') by (split; [auto|]; unfold ready; rewrite Er; cbn [length]; lia).
    destruct (c =? 42); [|destruct (c =? 47); [|apply agrees_ret; split; [apply tail_refl|auto]]].
    + apply agrees_bind. eapply agrees_conseq; [apply agrees_notnull, agrees_pair_loop; auto|]. intros ? b' g2 X. now apply agrees_ret.
    + apply agrees_bind. eapply agrees_conseq; [apply agrees_notnull, agrees_move_loop; auto; repeat constructor|]. intros ? b' g2 X. now apply agrees_ret.
  - intros Z. destruct (b_rest b); [contradiction|]. unfold zlen in Z. cbn [length] in Z. lia.
Qed.

(** * Strings *)
Lemma agrees_put buf idx c n b g : g_lit g = None -> (n <= g_vis g)%nat ->
  agrees (put buf idx c n) b g (fun _ b' g' => tail b b' /\ g_lit g' = None).
Proof.
  intros L V. unfold put. apply agrees_bind, agrees_lift. intros buf' _. apply agrees_adv; auto. intros b' g' T L'. now apply agrees_ret.
Qed.
Lemma agrees_uc buf idx b g : g_lit g = None -> agrees (uc_literal buf idx) b g (fun _ b' g' => tail b b' /\ g_lit g' = None).
Proof.
  intros L. unfold uc_literal. apply agrees_bind, agrees_read_block; [lia|]. intros bs b' g' _ [C _] L' _.
  apply agrees_bind, agrees_lift. intros hex _. apply agrees_lift. intros r _. split; [|auto]. now exists bs.
Qed.
Lemma sub_nil fuel delim buf bufsz steps d r : run_block (read_substitute fuel delim buf bufsz steps) (mkBlk d []) <> Ok r.
Proof. destruct fuel; discriminate. Qed.
Lemma put_inv buf idx c n b r b' : run_block (put buf idx c n) b = Ok (r, b') -> b_rest b' = skipn n (b_rest b).
Proof.
  unfold put. intros E. rewrite run_block_bind in E. destruct (store buf idx [c]); cbn [lift run_block rbind] in E; try discriminate.
  destruct (n <=? length (b_rest b))%nat; [|discriminate]. now injection E as _ <-.
Qed.
Lemma agrees_sub delim : forall fuel buf bufsz steps b g, g_lit g = None ->
  agrees (read_substitute fuel delim buf bufsz steps) b g (fun _ b' g' => tail b b' /\ free b' g').
Proof.
  induction fuel as [|f IH]; intros buf bufsz steps b g L; [apply agrees_fail; discriminate|]. cbn [read_substitute].
  apply agrees_peek0; auto. intros g1 [L1 R1]. apply agrees_deref0; auto. intros c r Er V1.
  destruct (c =? delim); [apply agrees_ret; split; [apply tail_refl|split; auto]|].
  set (bufsz' := if bufsz <? steps + 1 then _ else bufsz). set (buf' := if bufsz <? steps + 1 then _ else buf). cbv zeta.
  apply agrees_trypeek; [lia|auto| |].
  - intros Z g2 L2 V2. change (Z.to_nat 2 + 1)%nat with 3%nat in V2. assert (W : (2 <= g_vis g2)%nat) by (unfold zlen in Z; lia). apply agrees_bind.
    apply agrees_conseq with (Q := fun _ b' g' => tail b b' /\ g_lit g' = None).
    + unfold substitute_token. change (2 <=? 2) with true. cbv iota. apply agrees_deref0; [unfold ready; lia|]. intros a r' _ _.
      apply agrees_deref1; auto. intros e. destruct (a =? 92); [|apply agrees_put; auto; lia].
      destruct (substitute_of e); [apply agrees_put; auto|]. destruct (e =? 117); [now apply agrees_uc|apply agrees_put; auto; lia].
    + intros [n buf2] b' g' [T L']. eapply agrees_conseq; [now apply IH|]. intros ? b2 g3 [T2 F]. split; [eapply tail_trans; eauto|auto].
  - intros Z q. destruct b as [d l]. cbn [b_rest] in *. subst l. unfold zlen in Z. cbn [length] in Z. destruct r; [|cbn [length] in Z; lia].
    cbn [run_block b_rest]. change (zlen [c]) with 1. unfold substitute_token. change (2 <=? 1) with false. cbv iota.
    rewrite run_block_bind. cbn [run_block b_rest nth_error].
    destruct (run_block (put buf' steps c 1) (mkBlk d [c])) as [[[n buf2] b']| | |] eqn:E; cbn [rbind]; try discriminate.
    pose proof (put_inv _ _ _ _ _ _ _ E) as Hb. cbn [b_rest skipn] in Hb. destruct b' as [d' l']. cbn [b_rest] in Hb. subst l'. apply sub_nil.
Qed.

(** * Literals *)
Lemma is_literal_spec c : is_literal c = true -> literal_char c.
Proof.
  unfold is_literal, literal_char. intros H. apply orb_true_iff in H. destruct H as [H|H]; [left; lia|right].
  apply existsb_exists in H. destruct H as (y & Hy & E). assert (c = y) by lia. now subst.
Qed.
Definition lit_tokens : list token := [TkChar 44; TkChar 32; TkChar 125; TkChar 93; TkNotify 46].
Lemma lit_at note d c r : exists n, run_block (is_at_token lit_tokens note) (mkBlk d (c :: r)) = Ok ((existsb (Z.eqb c) [44; 32; 125; 93], n), mkBlk d (c :: r)).
Proof.
  unfold lit_tokens. cbn [is_at_token existsb]. cbn [run_block b_rest nth_error].
  destruct (c =? 44); [eexists; reflexivity|]. cbn [run_block b_rest nth_error]. destruct (c =? 32); [eexists; reflexivity|].
  cbn [run_block b_rest nth_error]. destruct (c =? 125); [eexists; reflexivity|]. cbn [run_block b_rest nth_error].
  destruct (c =? 93); eexists; reflexivity.
Qed.
Lemma agrees_lit_loop : forall fuel steps note b g k, g_lit g = Some k -> (k <= 1000)%nat -> ready b g ->
  ((1001 - k <= length (b_rest b))%nat -> exists e, In e (firstn (1001 - k) (b_rest b)) /\ literal_end e) -> steps = Z.of_nat k -> steps <= zlen (b_done b) ->
  agrees (move_loop fuel false lit_tokens steps note) b g (fun q b' g' => tail b b' /\ g_lit g' = Some (Z.to_nat (fst q)) /\ 0 <= fst q <= zlen (b_done b') /\ ready b' g').
Proof.
  induction fuel as [|f IH]; intros steps note b g k L K R H Hs Hd; [apply agrees_fail; discriminate|]. cbn [move_loop].
  intros q b' E. rewrite run_block_bind in E. destruct b as [d l]. cbn [b_rest b_done] in *. destruct l as [|c r]; [cbn in E; discriminate|].
  destruct (lit_at note d c r) as (n & En). rewrite En in E. cbn [rbind] in E.
  destruct (agrees_is_at lit_tokens ltac:(repeat constructor) note (mkBlk d (c :: r)) g R _ _ En) as (g1 & G1 & _ & ->). rewrite run_ghost_bind, G1.
  destruct (existsb (Z.eqb c) [44; 32; 125; 93]) eqn:Ex; cbn [Bool.eqb] in *.
  - injection E as <- <-. exists g. split; [reflexivity|]. cbn [fst b_done]. rewrite L. split; [apply tail_refl|]. split; [f_equal; lia|]. split; [lia|auto].
  - rewrite run_move_one in E. cbn [run_ghost b_rest b_done]. rewrite L.
    destruct r as [|c2 r]; [destruct f; cbn in E; discriminate|].
    assert (K2 : (k < 1000)%nat).
    { destruct (Nat.eq_dec k 1000) as [->|]; [exfalso|lia]. destruct H as (e & He & Le); [cbn [length]; lia|]. cbn [Nat.sub firstn] in He.
      destruct He as [<-|[]]. apply Bool.not_true_iff_false in Ex. apply Ex, existsb_exists. exists c. split; [exact Le|apply Z.eqb_refl]. }
    change ((0 <=? 1) && (1 <? two63)) with true. replace (1 <=? zlen (c :: c2 :: r)) with true by (unfold zlen; cbn [length]; lia). cbn [andb].
    change (1 =? 1) with true. cbv iota. replace ((k <? 1000)%nat && ((k =? 0)%nat || (2 <=? zlen (c :: c2 :: r)))) with true by (unfold zlen; cbn [length]; lia).
    change (skipn (Z.to_nat 1) (c :: c2 :: r)) with (c2 :: r). change (rev_append (firstn (Z.to_nat 1) (c :: c2 :: r)) d) with (c :: d).
    edestruct (IH (steps + 1) n (mkBlk (c :: d) (c2 :: r)) (mkGhost (vis_after_move 1 (length (c2 :: r))) 0 (Some (S k))) (S k)) as (g' & G & T & Lg & B & Rg).
    + reflexivity.
    + lia.
    + unfold ready, vis_after_move. cbn [b_rest g_vis]. change (1 <? 1024) with true. cbv iota. lia.
    + cbn [b_rest]. intros Hl. destruct H as (e & He & Le); [cbn [length] in *; lia|]. exists e. split; [|exact Le].
      replace (1001 - k)%nat with (S (1001 - S k)) in He by lia. cbn [firstn] in He. destruct He as [<-|He]; [|exact He].
      apply Bool.not_true_iff_false in Ex. exfalso. apply Ex, existsb_exists. exists c. split; [exact Le|apply Z.eqb_refl].
    + lia.
    + cbn [b_done]. unfold zlen in *. cbn [length]. lia.
    + exact E.
    + exists g'. split; [exact G|]. split; [eapply tail_trans; [apply tail_step|exact T]|auto].
Qed.
Lemma agrees_char x fuel s b g : free b g -> short_literals (b_rest b) ->
  agrees (process_char x fuel s) b g (fun _ b' g' => tail b b' /\ free b' g').
Proof.
  intros [L R] Sh. unfold process_char. apply agrees_deref0; auto. intros c r Er V.
  destruct (is_literal c) eqn:Lc; [|apply agrees_ret; split; [apply tail_refl|split; auto]].
  change [TkChar 44; TkChar 32; TkChar 125; TkChar 93; TkNotify 46] with lit_tokens. apply agrees_bind.
  apply agrees_conseq with (Q := fun _ b' g' => tail b b' /\ free b' g').
  - unfold read_block_until. intros q b' E. cbn [run_block] in E. cbn [run_ghost].
    revert q b' E. apply (agrees_bind (move_until fuel lit_tokens)). unfold move_until, move_until_gen. apply agrees_notnull.
    eapply agrees_conseq; [apply agrees_lit_loop with (k := 0%nat)|].
    + reflexivity.
    + lia.
    + exact R.
    + rewrite Er. cbn [Nat.sub firstn]. intros Hl. destruct (Sh [] c (firstn 1000 r) (skipn 1000 r)) as (e & He & Le).
      * cbn [app]. now rewrite firstn_skipn.
      * now apply is_literal_spec.
      * rewrite firstn_length. change (length (c :: r)) with (S (length r)) in Hl. lia.
      * exists e. split; [right; exact He|exact Le].
    + reflexivity.
    + unfold zlen. lia.
    + intros [steps note] b1 g1 (T & L1 & B & R1). cbn [fst] in *. intros q b2 E. cbn [run_block run_ghost] in *. rewrite L1. cbn [g_back g_lit].
      replace (steps <=? zlen (b_done b1)) with true in E by lia. cbn [run_block] in E. injection E as <- <-.
      replace ((0 <=? steps) && (steps <=? Z.of_nat (Z.to_nat steps)) && (steps <=? zlen (b_done b1))) with true by lia.
      eexists. split; [reflexivity|]. split; [exact T|]. split; [reflexivity|exact R1].
  - intros [block fp] b' g' [T [L' R']]. destruct (str_to_type x block _); [|apply agrees_fail; discriminate].
    apply agrees_deref0; auto. intros d r' _ _. apply agrees_ret. split; [auto|split; auto].
Qed.

(** * Items *)
Lemma agrees_quote fuel st s b g : g_lit g = None -> agrees (process_quote fuel st s) b g (fun _ b' g' => tail b b' /\ free b' g').
Proof.
  intros L. unfold process_quote. destruct (ty_eqb _ _); [apply agrees_fail; discriminate|]. destruct b as [d l].
  apply agrees_move1; auto. intros c r g' -> F. apply agrees_bind. unfold read_unescape. apply agrees_bind. eapply agrees_conseq; [apply agrees_sub, F|].
  intros [n buf] b' g2 [T F2]. apply agrees_ret. apply agrees_bind.
  assert (T' : tail (mkBlk d (c :: r)) b') by (eapply tail_trans; [apply tail_step|exact T]).
  unfold process_string. destruct (_ || _); [repeat apply agrees_ret; auto|]. destruct (s_named s); [apply agrees_fail; discriminate|]. repeat apply agrees_ret. auto.
Qed.
Lemma agrees_bracket st c s b g : free b g -> agrees (process_bracket st c s) b g (fun _ b' g' => tail b b' /\ free b' g').
Proof.
  intros F. unfold process_bracket. destruct (ty_eqb _ _); [|apply agrees_ret; split; [apply tail_refl|auto]].
  destruct (j_stack st); [apply agrees_fail; discriminate|apply agrees_ret; split; [apply tail_refl|auto]].
Qed.
Lemma agrees_item x fuel st s b g : free b g -> short_literals (b_rest b) ->
  agrees (process_item x fuel st s) b g (fun _ b' g' => tail b b' /\ free b' g').
Proof.
  intros F Sh. pose proof F as [L R]. unfold process_item. apply agrees_deref0; auto. intros c r Er _.
  destruct (c =? 34).
  { apply agrees_bind. eapply agrees_conseq; [now apply agrees_quote|]. intros [st' s'] b' g' X. now apply agrees_ret. }
  destruct (c =? 58). { destruct (s_reading s); [apply agrees_fail; discriminate|]. apply agrees_ret. split; [apply tail_refl|auto]. }
  destruct (existsb _ _).
  { apply agrees_bind. eapply agrees_conseq; [now apply agrees_bracket|]. intros [st' s'] b' g' X. now apply agrees_ret. }
  destruct (c =? 47).
  { apply agrees_bind. eapply agrees_conseq; [apply agrees_skip; [auto|rewrite Er; discriminate]|]. intros ? b' g' X. now apply agrees_ret. }
  apply agrees_bind. eapply agrees_conseq; [now apply agrees_char|]. intros [s' mv] b' g' X. now apply agrees_ret.
Qed.
Lemma agrees_seek fuel st s b g : free b g -> agrees (seek_item fuel st s) b g (fun _ b' g' => tail b b' /\ free b' g').
Proof. intros F. unfold seek_item. destruct (_ && _); apply agrees_notnull, agrees_move_loop; auto; repeat constructor. Qed.
Lemma agrees_loop x fuel : forall n st s b g, free b g -> short_literals (b_rest b) ->
  agrees (json_loop x fuel n st s) b g (fun _ b' g' => tail b b' /\ free b' g').
Proof.
  induction n as [|n IH]; intros st s b g F Sh; [apply agrees_fail; discriminate|]. cbn [json_loop].
  apply agrees_bind. eapply agrees_conseq; [now apply agrees_seek|]. intros ? b1 g1 [T1 F1].
  apply agrees_bind. eapply agrees_conseq; [apply agrees_item; [auto|eapply short_tail; eauto]|]. intros [[st' s'] mv] b2 g2 [T2 F2].
  assert (T : tail b b2) by (eapply tail_trans; eauto).
  assert (N : forall b3 g3, tail b2 b3 -> free b3 g3 ->
    agrees (if s_complete s' then Ret (st', (s_name s', s_value s')) else json_loop x fuel n st' s') b3 g3 (fun _ b' g' => tail b b' /\ free b' g')).
  { intros b3 g3 T3 F3. assert (T4 : tail b b3) by (eapply tail_trans; eauto). destruct (s_complete s'); [apply agrees_ret; auto|].
    eapply agrees_conseq; [apply IH; [auto|eapply short_tail; eauto]|]. intros ? b4 g4 [T5 F5]. split; [eapply tail_trans; eauto|auto]. }
  cbv zeta. destruct mv; [|apply N; [apply tail_refl|auto]].
  destruct b2 as [d l]. apply agrees_move1; [apply F2|]. intros c r g3 -> F3. apply N; [apply tail_step|auto].
Qed.
Lemma agrees_events x fuel : forall n st b g, free b g -> short_literals (b_rest b) ->
  agrees (read_events (json_read x fuel) n st) b g (fun _ b' g' => tail b b' /\ free b' g').
Proof.
  induction n as [|n IH]; intros st b g F Sh; [apply agrees_ret; split; [apply tail_refl|auto]|]. cbn [read_events].
  apply agrees_bind. eapply agrees_conseq; [now apply agrees_loop|]. intros [st1 e] b1 g1 [T1 F1].
  apply agrees_bind. eapply agrees_conseq; [apply IH; [auto|eapply short_tail; eauto]|]. intros [st2 es] b2 g2 [T2 F2].
  apply agrees_ret. split; [eapply tail_trans; eauto|auto].
Qed.

Lemma rel_start src : rel (set_block src) (mkGhost (Nat.min 1 (length src)) 0 None) (set_stream src).
Proof.
  unfold set_stream, fetch. cbn. destruct src; constructor; cbn; auto; try lia.
  - exists []. reflexivity.
  - intros a H; injection H as <-; lia.
  - exists []. reflexivity.
  - intros a H; injection H as <-; lia.
Qed.
Lemma json_stream_eq_block x fuel n st src r b : short_literals src ->
  run_block (read_events (json_read x fuel) n st) (set_block src) = Ok (r, b) ->
  exists s, run_stream (read_events (json_read x fuel) n st) (set_stream src) = Ok (r, s).
Proof.
  intros Sh E. destruct (agrees_events x fuel n st (set_block src) (mkGhost (Nat.min 1 (length src)) 0 None)) with (a := r) (b' := b) as (g & G & _); auto.
  { split; [reflexivity|]. unfold ready. cbn [set_block b_rest g_vis]. lia. }
  destruct (ghost_stream _ _ _ _ _ _ _ _ (rel_start src) G) as (s & Es & _). eauto.
Qed.

(** deciding [short_literals] *)
Fixpoint ends_within (n : nat) (l : bytes) : bool :=
  match n, l with
  | O, _ => false
  | S _, [] => true
  | S m, c :: r => if existsb (Z.eqb c) [44; 32; 125; 93] then true else ends_within m r
  end.
Fixpoint short_check (l : bytes) : bool :=
  match l with
  | [] => true
  | c :: r => (if is_literal c then ends_within 1000 r else true) && short_check r
  end.
Lemma ends_within_spec : forall n run post, length run = n -> ends_within n (run ++ post) = true -> exists e, In e run /\ literal_end e.
Proof.
  induction n as [|n IH]; intros [|c run] post L H; try discriminate. cbn [app ends_within] in H. destruct (existsb (Z.eqb c) _) eqn:E.
  - apply existsb_exists in E. destruct E as (y & Hy & E). assert (c = y) by lia. subst. exists y. split; [now left|exact Hy].
  - destruct (IH run post) as (e & He & Le); auto. exists e. split; [now right|auto].
Qed.
Lemma literal_is c : literal_char c -> is_literal c = true.
Proof.
  unfold literal_char, is_literal. intros [H|H]; apply orb_true_iff; [left; lia|right]. apply existsb_exists. exists c. split; [exact H|apply Z.eqb_refl].
Qed.
Lemma short_check_spec l : short_check l = true -> short_literals l.
Proof.
  intros H pre c run post E Lc L. subst l. revert H. induction pre as [|a pre IH]; cbn [app short_check]; intros H; apply andb_true_iff in H; destruct H as [H1 H2]; [|auto].
  rewrite (literal_is c Lc) in H1. now apply (ends_within_spec 1000 run post).
Qed.
