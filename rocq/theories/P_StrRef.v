(** Srl::String members. *)
From Coq Require Import ZArith List Bool Lia ZifyBool ZifyNat.
From Verif Require Import Base Lemmas M_Types M_Conv M_TpTools M_Charset S_Doc M_Env M_Event M_PSrl M_MsgPack M_Json M_Tree M_TreeIO M_Object M_ObjIO P_Reads P_TreeSafe P_Over P_Deliver P_Doc P_ObjSafe S_ObjIO M_StrRef S_StrRef.
From Verif Require Import M_In P_In.
Import ListNotations.
Open Scope Z_scope.

(** * Runs *)
Lemma run_input_bind {A B} (p : prog A) (f : A -> prog B) i :
  run_input (pbind p f) i = rbind (run_input p i) (fun '(a, i') => run_input (f a) i').
Proof.
  destruct i as [b|s]; cbn [run_input].
  - rewrite run_block_bind. now destruct (run_block p b) as [[a b']| | |].
  - rewrite run_stream_bind. now destruct (run_stream p s) as [[a b']| | |].
Qed.
Lemma input_bind_ok {A B} (p : prog A) (f : A -> prog B) i r i' : run_input (pbind p f) i = Ok (r, i') ->
  exists a i1, run_input p i = Ok (a, i1) /\ run_input (f a) i1 = Ok (r, i').
Proof. rewrite run_input_bind. destruct (run_input p i) as [[a i1]| | |]; cbn; intros H; try discriminate. eauto. Qed.
Lemma ecomp_bind_input {St A B} (rd : St -> prog (St * event)) (p : eprog A) (f : A -> eprog B) st i :
  run_input (ecomp rd (ebind p f) st) i = rbind (run_input (ecomp rd p st) i) (fun '((st', a), i') => run_input (ecomp rd (f a) st') i').
Proof.
  destruct i as [b|s]; cbn [run_input].
  - rewrite ecomp_bind, run_block_bind. destruct (run_block (ecomp rd p st) b) as [[[st' a] b']| | |]; reflexivity.
  - rewrite ecomp_bind_stream, run_stream_bind. destruct (run_stream (ecomp rd p st) s) as [[[st' a] b']| | |]; reflexivity.
Qed.
Lemma read_with_bind {A B} x F q (p : eprog A) (f : A -> eprog B) i :
  run_input (read_with x F q (ebind p f)) i = rbind (run_input (read_with x F q p) i) (fun '((q', a), i') => run_input (read_with x F q' (f a)) i').
Proof.
  destruct q as [st|st|st]; cbn [read_with]; rewrite !run_input_bind, ecomp_bind_input.
  - destruct (run_input (ecomp psrl_read p st) i) as [[[st' a] i']| | |]; cbn [rbind]; try reflexivity.
    replace (run_input (Ret (PsrlP st', a)) i') with (Ok (PsrlP st', a, i')) by (destruct i'; reflexivity). cbn [rbind read_with].
    rewrite run_input_bind. reflexivity.
  - destruct (run_input (ecomp msgp_read p st) i) as [[[st' a] i']| | |]; cbn [rbind]; try reflexivity.
    replace (run_input (Ret (MsgpP st', a)) i') with (Ok (MsgpP st', a, i')) by (destruct i'; reflexivity). cbn [rbind read_with].
    rewrite run_input_bind. reflexivity.
  - destruct (run_input (ecomp (json_read x F) p st) i) as [[[st' a] i']| | |]; cbn [rbind]; try reflexivity.
    replace (run_input (Ret (JsonP st', a)) i') with (Ok (JsonP st', a, i')) by (destruct i'; reflexivity). cbn [rbind read_with].
    rewrite run_input_bind. reflexivity.
Qed.
Lemma read_with_ret {A} x F q (a : A) i : run_input (read_with x F q (ERet a)) i = Ok (q, a, i).
Proof. destruct q, i; reflexivity. Qed.

(** * Inputs shorter than 2^32 bytes *)
Definition source_of (b : blk) : bytes := rev (b_done b) ++ b_rest b.
Definition extent (s : strm) : Z := zlen (s_win s) + zlen (s_src s).
Definition input_ok (i : input) : Prop :=
  match i with IBlock b => wf_blk b /\ zlen (source_of b) < 2 ^ 32 | IStream s => wf_strm s /\ extent s < 2 ^ 32 end.
Lemma moved_source n b : source_of (mkBlk (rev_append (firstn n (b_rest b)) (b_done b)) (skipn n (b_rest b))) = source_of b.
Proof. unfold source_of. cbn [b_done b_rest]. rewrite rev_append_rev, rev_app_distr, rev_involutive, <- app_assoc. now rewrite firstn_skipn. Qed.
Lemma run_source {A} (p : prog A) : forall b a b', run_block p b = Ok (a, b') -> source_of b' = source_of b.
Proof.
  induction p as [r| |u| |k IH|n k IH|n k IH|n k IH|o k IH|n k IH|bb k IH|n k IH|k IH]; cbn [run_block]; intros b a b' H; try discriminate H.
  - inversion H; subst. auto.
  - destruct (b_done b), (b_rest b); try discriminate H; eapply IH; eauto.
  - destruct (_ <=? n); [discriminate H|]. destruct (_ <=? _); [|discriminate H]. apply IH in H. now rewrite moved_source in H.
  - destruct (_ <=? n); [discriminate H|]. destruct (_ <=? _); [|discriminate H]. eapply IH; eauto.
  - eapply IH; eauto.
  - destruct (nth_error (b_rest b) o) as [c|] eqn:E; [|discriminate H]. eapply IH; eauto.
  - destruct (_ <=? _)%nat; [|discriminate H]. apply IH in H. now rewrite moved_source in H.
  - eapply IH; eauto.
  - destruct (n <=? zlen (b_done b)) eqn:L; [|discriminate H]. eapply IH; eauto.
  - eapply IH; eauto.
Qed.
Lemma extent_fetch n r s ok s' : fetch n r s = (ok, s') -> extent s' <= extent s.
Proof.
  unfold fetch. destruct (s_eof s); [intros X; inversion X; subst; lia|]. cbn zeta. intros X. inversion X; subst; clear X. unfold extent. cbn [s_win s_src].
  set (m := Z.to_nat _). pose proof (firstn_skipn m (s_src s)) as E. apply (f_equal (@length Z)) in E. rewrite app_length in E. unfold zlen. rewrite app_length.
  pose proof (skipn_length (match s_anchor s with Some a => a | None => s_pos s end - Nat.min (match s_anchor s with Some a => a | None => s_pos s end) 32) (s_win s)). lia.
Qed.
Lemma extent_need n s ok s' : need n s = (ok, s') -> extent s' <= extent s.
Proof. unfold need. destruct (_ <? _); [intros X; inversion X; subst; lia|apply extent_fetch]. Qed.
Lemma run_extent {A} (p : prog A) : forall s a s', run_stream p s = Ok (a, s') -> extent s' <= extent s.
Proof.
  induction p as [r| |u| |k IH|n k IH|n k IH|n k IH|o k IH|n k IH|bb k IH|n k IH|k IH]; cbn [run_stream]; intros s a s' H; try discriminate H.
  - inversion H; subst. lia.
  - eapply IH; eauto.
  - destruct (_ <=? n); [discriminate H|]. destruct (need n s) as [ok s1] eqn:N. apply extent_need in N. destruct ok; [|discriminate H]. apply IH in H. unfold extent in *. cbn [s_win s_src] in *. lia.
  - destruct (_ <=? n); [discriminate H|]. destruct (need n s) as [ok s1] eqn:N. apply extent_need in N. destruct ok; [|discriminate H]. apply IH in H. lia.
  - destruct (need n s) as [ok s1] eqn:N. apply extent_need in N. apply IH in H. lia.
  - destruct (nth_error (s_win s) (s_pos s + o)) as [c|] eqn:E; [|discriminate H]. eapply IH; eauto.
  - destruct (_ <=? _)%nat eqn:L; [|discriminate H]. apply IH in H. exact H.
  - destruct bb; apply IH in H; exact H.
  - destruct (n <=? _) eqn:L; [|discriminate H]. eapply IH; eauto.
  - eapply IH; eauto.
Qed.
Lemma gok_true {A} (p : prog A) : gok p (fun _ => True).
Proof. induction p; cbn; auto. Qed.
Lemma run_ok {A} (p : prog A) i a i' : input_ok i -> run_input p i = Ok (a, i') -> input_ok i'.
Proof.
  destruct i as [b|s]; cbn [run_input input_ok]; intros [W L] H.
  - destruct (run_block p b) as [[a1 b1]| | |] eqn:E; try discriminate H. cbn [rbind] in H. inversion H; subst. cbn [input_ok].
    split; [eapply gok_run; [apply gok_true|exact W|exact E]|]. now rewrite (run_source _ _ _ _ E).
  - destruct (run_stream p s) as [[a1 s1]| | |] eqn:E; try discriminate H. cbn [rbind] in H. inversion H; subst. cbn [input_ok].
    split; [eapply gok_stream; [apply gok_true|exact W|exact E]|]. pose proof (run_extent _ _ _ _ E). lia.
Qed.
Lemma run_gok {A} (p : prog A) Q i a i' : gok p Q -> input_ok i -> run_input p i = Ok (a, i') -> Q a.
Proof.
  destruct i as [b|s]; cbn [run_input input_ok]; intros G [W L] H.
  - destruct (run_block p b) as [[a1 b1]| | |] eqn:E; try discriminate H. cbn [rbind] in H. inversion H; subst. eapply gok_run; [exact G|exact W|exact E].
  - destruct (run_stream p s) as [[a1 s1]| | |] eqn:E; try discriminate H. cbn [rbind] in H. inversion H; subst. eapply gok_stream; [exact G|exact W|exact E].
Qed.

(** * The bytes that were read last *)
Definition recent (i : input) (bs : bytes) : Prop :=
  match i with
  | IBlock b => exists d, b_done b = rev bs ++ d
  | IStream s => (length bs <= s_pos s)%nat /\ firstn (length bs) (skipn (s_pos s - length bs) (s_win s)) = bs
  end.
Lemma block_recent n i bs i' : input_ok i -> run_input (read_block n) i = Ok (bs, i') -> recent i' bs /\ zlen bs < 2 ^ 32.
Proof.
  intros K H. pose proof (run_ok _ _ _ _ K H) as K'. destruct i as [b|s]; cbn [run_input] in H; unfold read_block in H.
  - cbn [run_block] in H. destruct (_ <=? n); [discriminate H|]. destruct (_ <=? _); [|discriminate H]. cbn [run_block] in H.
    set (b1 := mkBlk _ _) in H. clearbody b1. destruct (n <=? zlen (b_done b1)); [|discriminate H]. cbn [rbind] in H. inversion H; subst; clear H.
    cbn [recent]. split; [exists (skipn (Z.to_nat n) (b_done b1)); now rewrite rev_involutive, firstn_skipn|].
    cbn [input_ok] in K'. destruct K' as [_ K']. unfold source_of, zlen in *. rewrite app_length, rev_length in K'. rewrite rev_length, firstn_length.
    clear - K'. pose proof (Nat.le_min_r (Z.to_nat n) (length (b_done b1))). lia.
  - cbn [run_stream] in H. destruct (_ <=? n); [discriminate H|]. destruct (need n _) as [ok s1]. destruct ok; [|discriminate H]. cbn [run_stream] in H.
    set (s2 := mkStrm _ _ _ _ _) in H. clearbody s2. destruct (n <=? _) eqn:L; [|discriminate H]. cbn [rbind] in H. inversion H; subst; clear H.
    destruct K' as [(_ & _ & W & _) K']. assert (Ln : length (firstn (Z.to_nat n) (skipn (s_pos s2 - Z.to_nat n) (s_win s2))) = Z.to_nat n) by (rewrite firstn_length, skipn_length; lia).
    cbn [recent]. rewrite Ln. split; [split; [lia|reflexivity]|]. unfold extent, zlen in *. lia.
Qed.
Lemma trunc_short d : zlen d < 2 ^ 32 -> trunc_block d = d.
Proof. exact (trunc_block_id d). Qed.

(** values with a block are returned as soon as the block is read *)
Definition blocky (v : value) : bool := ty_eqb (v_type v) TString || ty_eqb (v_type v) TBinary.
Definition leaves {S} (r : S * event) (i : input) : Prop := blocky (snd (snd r)) = true -> recent i (v_data (snd (snd r))).
Lemma quiet_leaves {S} (p : prog (S * event)) i r i' : gok p (fun r => blocky (snd (snd r)) = false) -> input_ok i -> run_input p i = Ok (r, i') -> leaves r i'.
Proof. intros G K H B. rewrite (run_gok _ _ _ _ _ G K H) in B. discriminate B. Qed.
Lemma ret_input {A} (a : A) i r i' : run_input (Ret a) i = Ok (r, i') -> r = a /\ i' = i.
Proof. destruct i; cbn; intros H; inversion H; auto. Qed.
Lemma gok_map {A B} (p : prog A) (f : A -> prog B) Q : (forall a, gok (f a) Q) -> gok (pbind p f) Q.
Proof. intros H. apply gok_bind. eapply gok_weaken; [apply gok_true|]. auto. Qed.
Lemma leaves_psrl st i r i' : input_ok i -> run_input (psrl_read st) i = Ok (r, i') -> leaves r i'.
Proof.
  intros K H. unfold psrl_read in H. apply input_bind_ok in H. destruct H as ([st1 [flag name]] & i1 & H1 & H). pose proof (run_ok _ _ _ _ K H1) as K1.
  destruct (flag =? 0).
  { eapply quiet_leaves; [|exact K1|exact H]. destruct (ps_stack st1); [exact I|]. apply gok_map. intros; reflexivity. }
  destruct (flag_is_scope flag).
  { eapply quiet_leaves; [|exact K1|exact H]. destruct (has flag FObject); reflexivity. }
  destruct (has flag FNum).
  { eapply quiet_leaves; [|exact K1|exact H]. unfold psrl_read_num. repeat (destruct (has flag _)); try reflexivity; cbn [pbind];
      try (apply gok_bind; apply gok_map; intros; cbn [gok snd]; unfold blocky; try (destruct (has _ _)); try (destruct (_ =? _)); cbn; auto; try reflexivity). all: try (unfold val_f64; destruct (narrow64 _); reflexivity). }
  destruct (has flag (Z.lor FBinary FString)).
  { apply input_bind_ok in H. destruct H as (size & i2 & H2 & H). pose proof (run_ok _ _ _ _ K1 H2) as K2. apply input_bind_ok in H. destruct H as (bs & i3 & H3 & H).
    destruct (block_recent _ _ _ _ K2 H3) as [R Ln]. apply ret_input in H. destruct H as [-> ->]. intros _. cbn [snd val_block_enc v_data]. now rewrite trunc_short. }
  destruct (has flag FNull); [|destruct i1; discriminate H].
  apply ret_input in H. destruct H as [-> ->]. intros X. discriminate X.
Qed.

Lemma leaves_block {S} (sz : prog Z) (mk : bytes -> S * event) i r i' : input_ok i ->
  (forall bs, v_data (snd (snd (mk bs))) = trunc_block bs) ->
  run_input (let! n := sz in let! bs := read_block n in Ret (mk bs)) i = Ok (r, i') -> leaves r i'.
Proof.
  intros K E H. apply input_bind_ok in H. destruct H as (size & i2 & H2 & H). pose proof (run_ok _ _ _ _ K H2) as K2.
  apply input_bind_ok in H. destruct H as (bs & i3 & H3 & H). destruct (block_recent _ _ _ _ K2 H3) as [R Ln].
  apply ret_input in H. destruct H as [-> ->]. intros _. rewrite E. now rewrite trunc_short.
Qed.
Lemma leaves_value st name p i r i' : input_ok i -> run_input (mp_read_value st name p) i = Ok (r, i') -> leaves r i'.
Proof.
  intros K H. unfold mp_read_value in H.
  destruct (prefix_is_scope p).
  { eapply quiet_leaves; [|exact K|exact H]. apply gok_bind. eapply gok_weaken with (Q := fun r => fst r = TObject \/ fst r = TArray); [|intros [t n] [E|E]; cbn in *; subst; reflexivity].
    unfold mp_scope_info. destruct (negb (Z.land p 64 =? 0)); [|destruct (negb _); cbn; auto].
    destruct (negb (Z.land p 1 =? 0)); apply gok_map; intros; destruct (negb _); cbn; auto. }
  destruct (prefix_is_str p).
  { unfold mp_read_str in H. apply input_bind_ok in H. destruct H as (v & i1 & H1 & H). apply ret_input in H. destruct H as [-> ->].
    assert (X : run_input (let! n := mp_str_size p in let! bs := read_block n in Ret (st, (name, val_block_enc bs TString EUTF8))) i = Ok ((st, (name, v)), i1)).
    { apply input_bind_ok in H1. destruct H1 as (n & i2 & H2 & H3). rewrite run_input_bind, H2. cbn [rbind]. apply input_bind_ok in H3. destruct H3 as (bs & i3 & H4 & H5).
      rewrite run_input_bind, H4. cbn [rbind]. apply ret_input in H5. destruct H5 as [-> ->]. destruct i3; reflexivity. }
    eapply leaves_block; [exact K| |exact X]. reflexivity. }
  destruct (prefix_is_scalar p).
  { eapply quiet_leaves; [|exact K|exact H]. apply gok_bind. eapply gok_weaken with (Q := fun v => blocky v = false); [|intros v B; exact B].
    unfold mp_read_scalar. destruct (_ || _); [reflexivity|]. destruct (_ && _).
    - unfold mp_read_num. repeat (destruct (p =? _)); try exact I; try (unfold mp_read_int; apply gok_map; intros; reflexivity); apply gok_map; intros; cbn [gok]; unfold val_f64; try (destruct (narrow64 _)); reflexivity.
    - destruct (p =? 192); [reflexivity|]. unfold mp_read_fixnum. reflexivity. }
  destruct (prefix_is_bin p); [|destruct i; discriminate H].
  unfold mp_read_bin in H. apply input_bind_ok in H. destruct H as (v & i1 & H1 & H). apply ret_input in H. destruct H as [-> ->].
  assert (X : run_input (let! n := mp_bin_size p in let! bs := read_block n in Ret (st, (name, val_block bs TBinary))) i = Ok ((st, (name, v)), i1)).
  { apply input_bind_ok in H1. destruct H1 as (n & i2 & H2 & H3). rewrite run_input_bind, H2. cbn [rbind]. apply input_bind_ok in H3. destruct H3 as (bs & i3 & H4 & H5).
    rewrite run_input_bind, H4. cbn [rbind]. apply ret_input in H5. destruct H5 as [-> ->]. destruct i3; reflexivity. }
  eapply leaves_block; [exact K| |exact X]. reflexivity.
Qed.
Lemma leaves_msgp st i r i' : input_ok i -> run_input (msgp_read st) i = Ok (r, i') -> leaves r i'.
Proof.
  intros K H. unfold msgp_read in H. destruct (mp_stack st) as [|s stack].
  - apply input_bind_ok in H. destruct H as (p & i1 & H1 & H). eapply leaves_value; [exact (run_ok _ _ _ _ K H1)|exact H].
  - destruct (ms_elems s <? 1); [apply ret_input in H; destruct H as [-> ->]; intros X; discriminate X|].
    apply input_bind_ok in H. destruct H as (p & i1 & H1 & H). pose proof (run_ok _ _ _ _ K H1) as K1. destruct (ty_eqb (ms_type s) TObject); [|eapply leaves_value; eauto].
    apply input_bind_ok in H. destruct H as (name & i2 & H2 & H). pose proof (run_ok _ _ _ _ K1 H2) as K2. apply input_bind_ok in H. destruct H as (p2 & i3 & H3 & H).
    eapply leaves_value; [exact (run_ok _ _ _ _ K2 H3)|exact H].
Qed.

(** * PJson: the value buffer *)
Definition in_buffer (st : pjson) (e : event) : Prop :=
  blocky (snd e) = true -> fst e <> [] -> firstn (length (v_data (snd e))) (j_vbuf st) = v_data (snd e).
Definition js_ok (st : pjson) (s : jstate) : Prop :=
  (s_named s = false -> s_name s = []) /\ in_buffer st (s_name s, s_value s).
Lemma prefix_firstn n (l : bytes) : firstn (length (firstn n l)) l = firstn n l.
Proof. rewrite firstn_length. destruct (Nat.le_gt_cases n (length l)); [now rewrite Nat.min_l|rewrite Nat.min_r by lia; now rewrite !firstn_all2 by lia]. Qed.
Lemma j_quote f st s : js_ok st s -> blocky (s_value s) = false -> gok (process_quote f st s) (fun r => js_ok (fst r) (snd r) /\ (s_complete (snd r) = false -> blocky (s_value (snd r)) = false)).
Proof.
  intros [N V] B. unfold process_quote. destruct (ty_eqb (j_type st) TNull); [exact I|]. cbn [gok]. apply gok_bind.
  eapply gok_weaken with (Q := fun r => exists n, fst r = firstn n (snd r)).
  { unfold read_unescape. apply gok_map. intros [n b]. cbn. eauto. }
  intros [content buf] [n E]. cbn [fst snd] in E. apply gok_bind. unfold process_string.
  destruct (s_reading s || ty_eqb _ TArray) eqn:R.
  - cbn [gok fst snd]. split; [|intros X; discriminate X]. split; [exact N|]. cbn [s_name s_value fst snd]. intros _ Nn. cbn [fst snd val_string v_data] in *.
    destruct (s_named s) eqn:Sn; [|exfalso; apply Nn; cbn [s_name]; auto]. cbn [j_vbuf]. unfold trunc_block. rewrite E, firstn_firstn. apply prefix_firstn.
  - destruct (s_named s) eqn:Sn; [exact I|]. cbn [gok fst snd s_complete s_value]. split; [|auto]. split; [discriminate|]. cbn [s_value s_name]. intros X. cbn in X. rewrite B in X. discriminate X.
Qed.
Lemma str_to_type_plain x bs h v : str_to_type x bs h = Some v -> blocky v = false.
Proof.
  unfold str_to_type. destruct (trim_space bs) as [|c0 r] eqn:T; [discriminate|]. rewrite <- T. cbv zeta.
  destruct (_ && _ && _); [intros X; inversion X; reflexivity|]. destruct (_ && _ && _); [intros X; inversion X; reflexivity|]. destruct (_ && _ && _); [intros X; inversion X; reflexivity|].
  assert (FP : match x_strtod x (trim_space bs) with Some bits => Some (val_f64 bits) | None => None end = Some v -> blocky v = false).
  { destruct (x_strtod x (trim_space bs)) as [d|] eqn:E; [|discriminate]. intros X. inversion X. unfold val_f64. destruct (narrow64 d); reflexivity. }
  destruct (is_fp h); [exact FP|]. destruct (str_to_int _) as [[i sg] ok]. destruct ok; [|exact FP]. intros X. inversion X. destruct sg; reflexivity.
Qed.
Definition js_fine (r : pjson * jstate) : Prop := js_ok (fst r) (snd r) /\ (s_complete (snd r) = false -> blocky (s_value (snd r)) = false).
Lemma j_item x f st s : js_ok st s -> blocky (s_value s) = false -> s_complete s = false -> gok (process_item x f st s) (fun r => js_fine (fst r)).
Proof.
  intros Js B C. unfold process_item. cbn [gok]. intros c _. destruct (c =? 34).
  { apply gok_bind. eapply gok_weaken; [apply j_quote; eauto|]. intros [a b] H. exact H. }
  destruct (c =? 58).
  { destruct (s_reading s); [exact I|]. split; [|intros _; exact B]. exact Js. }
  destruct (existsb _ _).
  { apply gok_bind. eapply gok_weaken with (Q := js_fine); [|intros [a b] H; exact H]. unfold process_bracket. destruct Js as [N _].
    assert (G : forall stk t t0, js_fine (mkPjson (j_compact st) stk t (j_closed st) (j_nbuf st) (j_vbuf st), mkJs (s_name s) (val_type t0) true (s_named s) (s_reading s)) \/ blocky (val_type t0) = true).
    { intros stk t t0. destruct (blocky (val_type t0)) eqn:E; [now right|left]. split; [|discriminate]. split; [exact N|]. intros X. change (blocky (val_type t0) = true) in X. rewrite E in X. discriminate X. }
    destruct (c =? 123); cbn [ty_eqb]; [|destruct (c =? 91); cbn [ty_eqb]; [|destruct (j_stack st) as [|t0 rest]; [exact I|]]]; cbn [gok]; edestruct G as [H|H]; [exact H|discriminate H|exact H|discriminate H|exact H|discriminate H]. }
  destruct (c =? 47).
  { apply gok_map. intros _. cbn [gok fst snd]. split; auto. }
  apply gok_bind. eapply gok_weaken with (Q := fun r => js_fine (st, fst r)); [|intros [a b] H; exact H]. unfold process_char. cbn [gok]. intros d _.
  destruct (is_literal d); [|split; auto]. apply gok_map. intros [bs fp]. destruct (str_to_type x bs _) as [v|] eqn:E; [|exact I]. cbn [gok]. intros e _.
  apply str_to_type_plain in E. destruct Js as [N _]. split; [|discriminate]. split; [exact N|]. intros X. change (blocky v = true) in X. rewrite E in X. discriminate X.
Qed.
Lemma j_loop x f : forall n st s, js_ok st s -> blocky (s_value s) = false -> s_complete s = false -> gok (json_loop x f n st s) (fun r => in_buffer (fst r) (snd r)).
Proof.
  induction n as [|n IH]; intros st s Js B C; cbn [json_loop]; [exact I|]. apply gok_map. intros _. apply gok_bind. eapply gok_weaken; [now apply j_item|].
  intros [[st' s'] mv] [J1 J2]. cbn [fst snd] in *.
  assert (N : gok (if s_complete s' then Ret (st', (s_name s', s_value s')) else json_loop x f n st' s') (fun r => in_buffer (fst r) (snd r))).
  { destruct (s_complete s') eqn:C'; [exact (proj2 J1)|]. apply IH; auto. }
  destruct mv; exact N.
Qed.
Lemma j_read x f st : gok (json_read x f st) (fun r => in_buffer (fst r) (snd r)).
Proof. apply j_loop; [|reflexivity|reflexivity]. split; [reflexivity|]. intros X. discriminate X. Qed.

(** * A value that was just read is where its parser left it *)
Definition item : eprog event := ERead (fun e => ERet e).
Lemma read_first {R} x F q (k : event -> eprog R) i :
  run_input (read_with x F q (ERead k)) i = rbind (run_input (read_with x F q item) i) (fun '((q', e), i') => run_input (read_with x F q' (k e)) i').
Proof. exact (read_with_bind x F q item k i). Qed.
Definition there (q : parser) (i : input) (v : value) : Prop :=
  forall e, bytes_at q i (mkSs (fresh_place q i v) (zlen (v_data v)) e) = Ok (v_data v).
Lemma bytes_same (a : bytes) : bytes_eqb a a = true.
Proof. apply bytes_eqb_eq. reflexivity. Qed.
Lemma recent_there q i v : is_json q = false -> recent i (v_data v) -> there q i v.
Proof.
  intros J R e. destruct q as [st|st|st]; try discriminate J; destruct i as [b|s]; cbn [bytes_at ss_place fresh_place ss_len recent] in *; unfold zlen; rewrite Nat2Z.id.
  1, 3: destruct R as [d E]; rewrite E, rev_app_distr, rev_involutive, app_length, rev_length; replace (Z.to_nat (Z.of_nat (length (v_data v) + length d) - Z.of_nat (length (v_data v)))) with (length (rev d)) by (rewrite rev_length; lia);
    rewrite <- app_assoc, skipn_app_exact, firstn_app_exact by reflexivity; reflexivity.
  all: rewrite bytes_same; destruct R as [_ R]; now rewrite R.
Qed.
Lemma item_there x F q i q' k v i' : input_ok i -> run_input (read_with x F q item) i = Ok ((q', (k, v)), i') -> blocky v = true -> k <> [] -> there q' i' v.
Proof.
  intros K H B N. destruct q as [st|st|st]; cbn [read_with item ecomp] in H.
  - apply input_bind_ok in H. destruct H as ([st1 e] & i1 & H1 & H). apply ret_input in H. destruct H as [E ->]. inversion E; subst; clear E.
    apply input_bind_ok in H1. destruct H1 as ([st2 e] & i2 & H1 & H2). apply ret_input in H2. destruct H2 as [E ->]. inversion E; subst; clear E.
    apply recent_there; [reflexivity|]. exact (leaves_psrl _ _ _ _ K H1 B).
  - apply input_bind_ok in H. destruct H as ([st1 e] & i1 & H1 & H). apply ret_input in H. destruct H as [E ->]. inversion E; subst; clear E.
    apply input_bind_ok in H1. destruct H1 as ([st2 e] & i2 & H1 & H2). apply ret_input in H2. destruct H2 as [E ->]. inversion E; subst; clear E.
    apply recent_there; [reflexivity|]. exact (leaves_msgp _ _ _ _ K H1 B).
  - apply input_bind_ok in H. destruct H as ([st1 e] & i1 & H1 & H). apply ret_input in H. destruct H as [E ->]. inversion E; subst; clear E.
    apply input_bind_ok in H1. destruct H1 as ([st2 e] & i2 & H1 & H2). apply ret_input in H2. destruct H2 as [E ->]. inversion E; subst; clear E.
    pose proof (run_gok _ _ _ _ _ (j_read x F st) K H1 B N) as G. cbn [fst snd] in G.
    intros e. cbn [bytes_at ss_place fresh_place ss_len]. rewrite Z.eqb_refl. unfold zlen. rewrite Nat2Z.id. now rewrite G.
Qed.
Lemma scan_there x F p : forall f q i n q' k v n' i', input_ok i -> run_input (read_with x F q (scan f false p n)) i = Ok ((q', (Some (k, v), n')), i') ->
  p k = true /\ (blocky v = true -> k <> [] -> there q' i' v).
Proof.
  induction f as [|f IH]; intros q i n q' k v n' i' K H; cbn [scan] in H.
  { destruct q, i; discriminate H. }
  destruct (l_parsed n). { rewrite read_with_ret in H. inversion H. }
  rewrite read_first in H. destruct (run_input (read_with x F q item) i) as [[[q1 [k1 v1]] i1]| | |] eqn:E; cbn [rbind] in H; try discriminate H.
  pose proof (run_ok _ _ _ _ K E) as K1.
  destruct (ty_eqb (v_type v1) TScopeEnd). { rewrite read_with_ret in H. inversion H. }
  destruct (Bool.eqb (is_scope (v_type v1)) false && p k1) eqn:M.
  - rewrite read_with_ret in H. inversion H; subst. apply andb_true_iff in M. split; [apply M|]. intros B N. exact (item_there _ _ _ _ _ _ _ _ K E B N).
  - rewrite read_with_bind in H. destruct (run_input (read_with x F q1 (keep_item f n k1 v1)) i1) as [[[q2 n2] i2]| | |] eqn:E2; cbn [rbind] in H; try discriminate H.
    eapply IH; [exact (run_ok _ _ _ _ K1 E2)|exact H].
Qed.

(** * One member *)
Definition member (k : bytes) : field := mkField k false (CStr EUTF8).
(** the member shows [bs], or it is a short one that was read before it was asked for *)
Definition shows (q : parser) (i : input) (bs : bytes) (s : sstring) : Prop :=
  unwrap q i s = Ok bs \/ (ss_place s = PlGone /\ 1 <= ss_len s <= 8).
Lemma unwrap_nothing e s : unwrap_text EUTF8 e [] = Ok s -> s = [].
Proof. destruct e; vm_compute; intros H; inversion H; reflexivity. Qed.
Lemma unwraps q i pl v bs : bytes_at q i (mkSs pl (zlen (v_data v)) (v_enc v)) = Ok (v_data v) -> unwrap_text EUTF8 (v_enc v) (v_data v) = Ok bs ->
  unwrap q i (mkSs pl (zlen (v_data v)) (v_enc v)) = Ok bs.
Proof.
  intros B U. unfold unwrap. cbn [ss_len ss_enc]. destruct (zlen (v_data v) <? 1) eqn:L.
  - destruct (v_data v) as [|c d]; [|unfold zlen in L; cbn in L; lia]. f_equal. symmetry. eapply unwrap_nothing, U.
  - rewrite B. exact U.
Qed.
Lemma as_string w old v c : paste_value w (CStr EUTF8) old v = Ok c -> blocky v = true -> exists bs, c = VStr bs /\ unwrap_text EUTF8 (v_enc v) (v_data v) = Ok bs.
Proof.
  cbn [paste_value]. unfold blocky. destruct v as [t raw d e]. cbn [v_type v_data v_enc]. intros H B.
  destruct t; try discriminate B; cbn [ty_eqb negb is_scalar] in H.
  all: try discriminate H.
  destruct (unwrap_text EUTF8 e d) as [s| | |]; try discriminate H. cbn [rbind] in H. inversion H; subst. eauto.
Qed.
Lemma one_member w pn x F q i n k old s q1 c n1 s1 i1 : input_ok i -> k <> [] ->
  run_input (read_with x F q (paste_field w pn (pred F) (CStr EUTF8) (IdName k) old n s)) i = Ok ((q1, (c, n1, s1)), i1) ->
  paste_string x F k q i n = Err \/ exists bs m, c = VStr bs /\ paste_string x F k q i n = Ok (q1, i1, n1, m) /\ shows q1 i1 bs m.
Proof.
  intros K N H. unfold paste_field in H. change (scoped (CStr EUTF8)) with false in H. cbv iota in H. rewrite read_with_bind in H. unfold paste_string.
  destruct (run_input (read_with x F q (field_value (pred F) (IdName k) n)) i) as [[[q2 [[v stored] n2]] i2]| | |] eqn:E; cbn [rbind] in H |- *; try discriminate H.
  cbn [fst snd] in H. rewrite read_with_bind in H.
  destruct (paste_value w (CStr EUTF8) old v) as [c'| | |] eqn:P; cbn [elift] in H; try (destruct q2, i2; discriminate H).
  rewrite read_with_ret in H. cbn [rbind] in H. rewrite read_with_ret in H. inversion H; subst q2 c' n2 s1 i2; clear H.
  destruct (negb (ty_eqb (v_type v) TString) && negb (ty_eqb (v_type v) TBinary)) eqn:T; [now left|right].
  assert (B : blocky v = true) by (unfold blocky; destruct (ty_eqb (v_type v) TString), (ty_eqb (v_type v) TBinary); auto).
  destruct (as_string _ _ _ _ P B) as (bs & -> & U). eexists bs, _. split; [reflexivity|]. split; [reflexivity|].
  destruct (l_parsed n) eqn:Lp. { left. apply unwraps; auto. }
  destruct stored.
  { destruct (zlen (v_data v) <=? 8) eqn:L8; [|left; apply unwraps; auto]. destruct (v_data v) as [|a d] eqn:D.
    - left. unfold unwrap. change (ss_len _ <? 1) with true. cbv iota. f_equal. symmetry. eapply unwrap_nothing, U.
    - right. split; [reflexivity|]. cbn [ss_len]. unfold zlen in *. cbn [length] in *. lia. }
  left. apply unwraps; [|exact U]. apply (fun G : there q1 i1 v => G (v_enc v)).
  unfold field_value in E. rewrite Lp in E. rewrite read_with_bind in E. unfold consume_value in E.
  destruct (l_node n) as [t vs ns] eqn:Ln. rewrite read_with_bind in E.
  destruct (stored_at (IdName k) vs) as [o| | |] eqn:So; cbn [elift] in E; try (destruct q, i; discriminate E).
  rewrite read_with_ret in E. cbn [rbind] in E. destruct (pick vs o) as [[k0 v0]|] eqn:Pk.
  { rewrite read_with_ret in E. cbn [rbind fst snd M_Object.need ebind] in E. rewrite read_with_ret in E. inversion E. }
  rewrite read_with_bind in E. destruct (run_input (read_with x F q (scan (pred F) false (id_matches (IdName k)) n)) i) as [[[q3 [o3 n3]] i3]| | |] eqn:Sc; cbn [rbind] in E; try discriminate E.
  destruct o3 as [[k3 v3]|]; rewrite read_with_ret in E; cbn [rbind fst snd M_Object.need ebind] in E.
  - rewrite read_with_ret in E. inversion E; subst. destruct (scan_there _ _ _ _ _ _ _ _ _ _ _ _ K Sc) as [M G]. apply G; [exact B|].
    cbn [id_matches] in M. apply bytes_eqb_eq in M. now subst.
  - destruct q3, i3; discriminate E.
Qed.
Lemma paste_string_ok x F k q i n q1 i1 n1 m : input_ok i -> paste_string x F k q i n = Ok (q1, i1, n1, m) -> input_ok i1.
Proof.
  intros K H. unfold paste_string in H. destruct (run_input (read_with x F q (field_value (pred F) (IdName k) n)) i) as [[[q2 [[v stored] n2]] i2]| | |] eqn:E; cbn [rbind] in H; try discriminate H.
  destruct (_ && _); [discriminate H|]. inversion H; subst. exact (run_ok _ _ _ _ K E).
Qed.

(** * All members *)
(** what the members show when they are pasted one after the other; [later]: what is known about the rest *)
Fixpoint pasted (x : fp_text) (F : nat) (ks : list bytes) (q : parser) (i : input) (n : lnode) (vs : list cv) (ss : list sstring) : Prop :=
  match ks, vs, ss with
  | [], [], [] => True
  | k :: ks', v :: vs', s :: ss' => exists q1 i1 n1 bs, paste_string x F k q i n = Ok (q1, i1, n1, s) /\ v = VStr bs /\ shows q1 i1 bs s /\ pasted x F ks' q1 i1 n1 vs' ss'
  | _, _, _ => False
  end.
Lemma all_members w pn x F : forall ks olds q i n s vi ni q1 vs n1 s1 i1, input_ok i -> Forall (fun k => k <> []) ks ->
  run_input (read_with x F q (paste_fields w pn (pred F) (map member ks) olds n s vi ni)) i = Ok ((q1, (vs, n1, s1)), i1) ->
  paste_strings x F ks q i n = Err \/ exists ss, paste_strings x F ks q i n = Ok (q1, i1, n1, ss) /\ pasted x F ks q i n vs ss.
Proof.
  induction ks as [|k ks IH]; intros olds q i n s vi ni q1 vs n1 s1 i1 K N H; cbn [map paste_fields paste_strings] in *.
  { rewrite read_with_ret in H. inversion H; subst. right. exists []. cbn. auto. }
  destruct olds as [|old olds]; [destruct q, i; discriminate H|]. change (f_type (member k)) with (CStr EUTF8) in H. change (f_name (member k)) with k in H. change (f_opt (member k)) with false in H.
  change (scoped (CStr EUTF8)) with false in H. cbv iota zeta in H. cbn [ebind fst snd negb] in H.
  inversion N as [|k0 ks0 Nk Nks]; subst k0 ks0. replace (0 <? zlen k) with true in H by (destruct k; [contradiction|reflexivity]).
  rewrite read_with_bind in H.
  destruct (run_input (read_with x F q (paste_field w pn (pred F) (CStr EUTF8) (IdName k) old n s)) i) as [[[q2 [[c n2] s2]] i2]| | |] eqn:E; cbn [rbind] in H; try discriminate H.
  rewrite read_with_bind in H.
  destruct (run_input (read_with x F q2 (paste_fields w pn (pred F) (map member ks) olds n2 s2 (vi + 1) ni)) i2) as [[[q3 [[vs3 n3] s3]] i3]| | |] eqn:E3; cbn [rbind] in H; try discriminate H.
  rewrite read_with_ret in H. inversion H; subst; clear H.
  destruct (one_member _ _ _ _ _ _ _ _ _ _ _ _ _ _ _ K Nk E) as [X|(bs & m & -> & X & Sh)]; [left; now rewrite X|].
  pose proof (paste_string_ok _ _ _ _ _ _ _ _ _ _ K X) as K2. rewrite X. cbn [rbind].
  destruct (IH _ _ _ _ _ _ _ _ _ _ _ _ K2 Nks E3) as [Y|(ss & Y & G)]; [left; now rewrite Y|]. right. rewrite Y. cbn [rbind]. exists (m :: ss). split; [reflexivity|].
  cbn [pasted]. exists q2, i2, n2, bs. auto.
Qed.

(** * From memory, with a binary format *)
Definition binary_at (src : bytes) (q : parser) (i : input) : Prop :=
  is_json q = false /\ match i with IBlock b => source_of b = src | IStream _ => False end.
Lemma same_bytes src q i q' i' s : binary_at src q i -> binary_at src q' i' -> bytes_at q i s = bytes_at q' i' s.
Proof.
  intros [J A] [J' A']. destruct i as [b|]; [|contradiction]. destruct i' as [b'|]; [|contradiction]. unfold bytes_at. fold (source_of b) (source_of b'). rewrite A, A'.
  destruct (ss_place s); destruct q, q'; try discriminate; reflexivity.
Qed.
Lemma same_shows src q i q' i' bs s : binary_at src q i -> binary_at src q' i' -> shows q i bs s -> shows q' i' bs s.
Proof. intros A A' [H|H]; [left|now right]. unfold unwrap in *. now rewrite <- (same_bytes src q i q' i' s). Qed.
Lemma read_binary {A} src x F q (p : eprog A) i q' a i' : binary_at src q i -> run_input (read_with x F q p) i = Ok ((q', a), i') -> binary_at src q' i'.
Proof.
  intros [J B] H. destruct i as [b|]; [|contradiction]. cbn [run_input] in H. destruct (run_block (read_with x F q p) b) as [[[q1 a1] b1]| | |] eqn:E; cbn [rbind] in H; try discriminate H.
  inversion H; subst; clear H. split; [|now rewrite (run_source _ _ _ _ E)].
  destruct q; try discriminate J; cbn [read_with] in E; rewrite run_block_bind in E.
  - destruct (run_block (ecomp psrl_read p st) b) as [[[st' r] b']| | |]; cbn [rbind run_block] in E; try discriminate E. inversion E; reflexivity.
  - destruct (run_block (ecomp msgp_read p st) b) as [[[st' r] b']| | |]; cbn [rbind run_block] in E; try discriminate E. inversion E; reflexivity.
Qed.
Lemma paste_binary src x F k q i n q1 i1 n1 m : binary_at src q i -> paste_string x F k q i n = Ok (q1, i1, n1, m) -> binary_at src q1 i1.
Proof.
  intros B H. unfold paste_string in H. destruct (run_input (read_with x F q (field_value (pred F) (IdName k) n)) i) as [[[q2 [[v stored] n2]] i2]| | |] eqn:E; cbn [rbind] in H; try discriminate H.
  destruct (_ && _); [discriminate H|]. inversion H; subst. eapply read_binary; eauto.
Qed.
Lemma pasted_binary src x F qe ie : binary_at src qe ie -> forall ks q i n vs ss, binary_at src q i -> pasted x F ks q i n vs ss ->
  Forall2 (fun v s => exists bs, v = VStr bs /\ shows qe ie bs s) vs ss.
Proof.
  intros Be. induction ks as [|k ks IH]; intros q i n vs ss B H; destruct vs as [|v vs], ss as [|s ss]; cbn [pasted] in H; try contradiction; [constructor|].
  destruct H as (q1 & i1 & n1 & bs & P & -> & Sh & H). pose proof (paste_binary _ _ _ _ _ _ _ _ _ _ _ B P) as B1. constructor; [|eapply IH; eauto].
  exists bs. split; [reflexivity|]. eapply same_shows; eauto.
Qed.
(** the last member, with any format and source *)
Lemma pasted_last x F : forall ks q i n vs ss qe ie ne, ks <> [] -> pasted x F ks q i n vs ss -> paste_strings x F ks q i n = Ok (qe, ie, ne, ss) ->
  exists bs, last vs VNone = VStr bs /\ shows qe ie bs (last ss (mkSs PlGone 0 EUTF8)).
Proof.
  induction ks as [|k ks IH]; intros q i n vs ss qe ie ne N H P; [contradiction|].
  destruct vs as [|v vs], ss as [|s ss]; cbn [pasted] in H; try contradiction. destruct H as (q1 & i1 & n1 & bs & P1 & -> & Sh & H).
  cbn [paste_strings] in P. rewrite P1 in P. cbn [rbind] in P. destruct (paste_strings x F ks q1 i1 n1) as [[[[q2 i2] n2] ss2]| | |] eqn:E; cbn [rbind] in P; try discriminate P.
  inversion P; subst; clear P. destruct ks as [|k2 ks].
  - cbn [paste_strings] in E. inversion E; subst. cbn [pasted] in H. destruct vs; [|contradiction]. cbn [last]. eauto.
  - destruct vs as [|v2 vs], ss as [|s2 ss]; cbn [pasted] in H; try contradiction. exact (IH q1 i1 n1 (v2 :: vs) (s2 :: ss) qe ie ne ltac:(discriminate) H E).
Qed.

(** * Tree::restore *)
Lemma read_with_any {R} x F q (p : eprog R) : with_parser x F q p = read_with x F (parser_clear q) p.
Proof. unfold with_parser, read_with. destruct (parser_clear q); reflexivity. Qed.
Lemma restored x f w c ks olds q i q1 v s1 i1 : input_ok i -> Forall (fun k => k <> []) ks -> w_cls w c = map member ks ->
  run_input (restore_object x (S f) w q (CCls c) (VList olds)) i = Ok ((q1, (v, s1)), i1) ->
  restore_strings x (S f) ks q i = Err \/
  exists e q0 i0 ne vs ss, run_input (read_with x (S f) (parser_clear q) item) i = Ok ((q0, e), i0) /\ v = VList vs /\
    let n0 := mkL false (empty_node (v_type (snd e))) in
    pasted x (S f) ks q0 i0 n0 vs ss /\ paste_strings x (S f) ks q0 i0 n0 = Ok (q1, i1, ne, ss) /\ restore_strings x (S f) ks q i = Ok (q1, i1, ss).
Proof.
  intros K N W H. unfold restore_object in H. rewrite read_with_any in H. unfold restore_prog in H. rewrite read_first in H. unfold restore_strings. fold item.
  destruct (run_input (read_with x (S f) (parser_clear q) item) i) as [[[q0 [k0 v0]] i0]| | |] eqn:E; cbn [rbind] in H |- *; try discriminate H.
  destruct (is_scope (v_type v0)) eqn:T; cbn [negb] in H |- *; [|now left].
  change (scoped (CCls c)) with true in H. cbv iota in H. cbn [paste_node paste_step] in H. change (n_type (l_node (mkL false (empty_node (v_type v0))))) with (v_type v0) in H. rewrite T in H. cbn [negb] in H.
  rewrite W in H. rewrite read_with_bind in H. rewrite read_with_bind in H.
  destruct (run_input (read_with x (S f) q0 (paste_fields w (paste_node f w) f (map member ks) olds (mkL false (empty_node (v_type v0))) rs_new 0 0)) i0) as [[[q2 [[vs n2] s2]] i2]| | |] eqn:P; cbn [rbind] in H; try discriminate H.
  rewrite read_with_ret in H. cbn [rbind] in H. rewrite read_with_ret in H. inversion H; subst; clear H. cbn [fst snd].
  destruct (all_members w (paste_node f w) x (S f) ks olds q0 i0 _ rs_new 0 0 _ _ _ _ _ (run_ok _ _ _ _ K E) N P) as [X|(ss & X & G)]; [left; now rewrite X|].
  right. exists (k0, v0), q0, i0, n2, vs, ss. split; [reflexivity|]. split; [reflexivity|]. cbn zeta. cbn [snd]. split; [exact G|]. split; [exact X|]. rewrite X. reflexivity.
Qed.

(** * Documents whose items come in the order of the members *)
Fixpoint chain (x : fp_text) (F : nat) (q : parser) (i : input) (es : list event) : Prop :=
  match es with
  | [] => True
  | e :: es' => exists q1 i1, run_input (read_with x F q item) i = Ok ((q1, e), i1) /\ chain x F q1 i1 es'
  end.
Lemma chain_app x F : forall es es' q i, chain x F q i (es ++ es') -> chain x F q i es.
Proof. induction es as [|e es IH]; intros es' q i H; cbn [app chain] in *; [exact I|]. destruct H as (q1 & i1 & H & G). eauto. Qed.
Lemma chain_events {St} x F (rd : St -> prog (St * event)) (mk : St -> parser) :
  (forall R (p : eprog R) st, read_with x F (mk st) p = let! (st', r) := ecomp rd p st in Ret (mk st', r)) ->
  forall n st b st' es b', run_block (read_events rd n st) b = Ok ((st', es), b') -> chain x F (mk st) (IBlock b) es.
Proof.
  intros M. induction n as [|n IH]; intros st b st' es b' H; cbn [read_events] in H.
  { cbn [run_block] in H. inversion H. exact I. }
  rewrite run_block_bind in H. destruct (run_block (rd st) b) as [[[st1 e] b1]| | |] eqn:E; cbn [rbind] in H; try discriminate H.
  rewrite run_block_bind in H. destruct (run_block (read_events rd n st1) b1) as [[[st2 es2] b2]| | |] eqn:E2; cbn [rbind run_block] in H; try discriminate H.
  inversion H; subst; clear H. cbn [chain]. exists (mk st1), (IBlock b1). split; [|eapply IH; eauto].
  rewrite M. rewrite run_input_bind. cbn [item ecomp]. rewrite run_input_bind. cbn [run_input]. rewrite E. reflexivity.
Qed.
Lemma holds_chain x F q b d : holds x F q b d -> chain x F (parser_clear q) (IBlock b) (events d).
Proof.
  intros (q' & b' & H). unfold parse_items in H. destruct (parser_clear q) as [st|st|st]; rewrite run_block_bind in H.
  - destruct (run_block (read_events psrl_read _ st) b) as [[[st1 es] b1]| | |] eqn:E; cbn [rbind run_block] in H; try discriminate H. inversion H; subst.
    eapply (chain_events x F psrl_read PsrlP); [reflexivity|exact E].
  - destruct (run_block (read_events msgp_read _ st) b) as [[[st1 es] b1]| | |] eqn:E; cbn [rbind run_block] in H; try discriminate H. inversion H; subst.
    eapply (chain_events x F msgp_read MsgpP); [reflexivity|exact E].
  - destruct (run_block (read_events (json_read x F) _ st) b) as [[[st1 es] b1]| | |] eqn:E; cbn [rbind run_block] in H; try discriminate H. inversion H; subst.
    eapply (chain_events x F (json_read x F) JsonP); [reflexivity|exact E].
Qed.
Lemma next_value x F f q i t k v q1 i1 : (exists h, hash_string (k, EUTF8) = Ok h) -> blocky v = true ->
  run_input (read_with x F q item) i = Ok ((q1, (k, v)), i1) ->
  run_input (read_with x F q (field_value (S f) (IdName k) (mkL false (empty_node t)))) i = Ok ((q1, (v, false, mkL false (empty_node t))), i1).
Proof.
  intros [h Hh] B E. unfold field_value. cbn [l_parsed]. rewrite read_with_bind. unfold consume_value. cbn [l_node empty_node]. rewrite read_with_bind.
  cbn [stored_at]. unfold find_stored. rewrite Hh. cbn [rbind find_loop elift]. rewrite read_with_ret. cbn [rbind pick]. rewrite read_with_bind. cbn [scan l_parsed].
  rewrite read_first, E. cbn [rbind id_matches]. rewrite bytes_same.
  assert (T : ty_eqb (v_type v) TScopeEnd = false /\ is_scope (v_type v) = false).
  { unfold blocky in B. destruct (v_type v); try discriminate B; split; reflexivity. }
  destruct T as [-> ->]. cbn [Bool.eqb andb]. rewrite read_with_ret. cbn [rbind]. rewrite read_with_ret. cbn [rbind fst snd M_Object.need ebind]. rewrite read_with_ret. reflexivity.
Qed.
Lemma next_member x f q i t k v q1 i1 bs : input_ok i -> k <> [] -> v_type v = TString -> unwrap_text EUTF8 (v_enc v) (v_data v) = Ok bs ->
  run_input (read_with x (S (S f)) q item) i = Ok ((q1, (k, v)), i1) ->
  exists m, paste_string x (S (S f)) k q i (mkL false (empty_node t)) = Ok (q1, i1, mkL false (empty_node t), m) /\ unwrap q1 i1 m = Ok bs.
Proof.
  intros K N T U E. assert (B : blocky v = true) by (unfold blocky; now rewrite T). unfold paste_string. cbn [pred].
  rewrite (next_value _ _ _ _ _ _ _ _ _ _ (ex_intro _ _ (hash_utf8 k)) B E). cbn [rbind l_parsed]. rewrite T. cbn [ty_eqb negb andb].
  eexists. split; [reflexivity|]. apply unwraps; [|exact U]. exact (item_there _ _ _ _ _ _ _ _ K E B N (v_enc v)).
Qed.
Lemma in_order src x f : forall (kvs : list (bytes * value)) more q i t, input_ok i -> binary_at src q i ->
  Forall (fun kv => fst kv <> [] /\ v_type (snd kv) = TString /\ exists bs, unwrap_text EUTF8 (v_enc (snd kv)) (v_data (snd kv)) = Ok bs) kvs ->
  chain x (S (S f)) q i (kvs ++ more) ->
  exists qe ie ne ss, paste_strings x (S (S f)) (map fst kvs) q i (mkL false (empty_node t)) = Ok (qe, ie, ne, ss) /\ binary_at src qe ie /\
    Forall2 (fun kv s => unwrap qe ie s = unwrap_text EUTF8 (v_enc (snd kv)) (v_data (snd kv))) kvs ss.
Proof.
  induction kvs as [|[k v] kvs IH]; intros more q i t K B G C; cbn [map fst snd app chain paste_strings] in *.
  { eexists _, _, _, []. repeat split; try apply B. constructor. }
  destruct C as (q1 & i1 & E & C). inversion G as [|? ? (N & T & bs & U) G']; subst. cbn [fst snd] in *.
  destruct (next_member x f q i t k v q1 i1 bs K N T U E) as (m & P & Sh). rewrite P. cbn [rbind].
  pose proof (paste_binary _ _ _ _ _ _ _ _ _ _ _ B P) as B1.
  destruct (IH more q1 i1 t (paste_string_ok _ _ _ _ _ _ _ _ _ _ K P) B1 G' C) as (qe & ie & ne & ss & P2 & Be & Fa). rewrite P2. cbn [rbind].
  exists qe, ie, ne, (m :: ss). split; [reflexivity|]. split; [exact Be|]. constructor; [|exact Fa]. cbn [snd]. rewrite U, <- Sh. unfold unwrap. now rewrite (same_bytes src q1 i1 qe ie m B1 Be).
Qed.
Lemma clear_json q : is_json (parser_clear q) = is_json q.
Proof. destruct q; reflexivity. Qed.
Lemma start_ok src : wf_bytes src -> zlen src < 4294967296 -> input_ok (block_input src).
Proof. intros W L. split; [split; [constructor|exact W]|]. exact L. Qed.
(** a document that the parser reads, in which the members come first and in order *)
Lemma ordered x f q src r t kvs more : is_json q = false -> wf_bytes src -> zlen src < 4294967296 ->
  holds x (S (S f)) q (set_block src) (DScope r t (map (fun kv => DVal (fst kv) (snd kv)) kvs ++ more)) ->
  is_scope t = true ->
  Forall (fun kv => fst kv <> [] /\ v_type (snd kv) = TString /\ exists bs, unwrap_text EUTF8 (v_enc (snd kv)) (v_data (snd kv)) = Ok bs) kvs ->
  exists qe ie ss, restore_strings x (S (S f)) (map fst kvs) q (block_input src) = Ok (qe, ie, ss) /\
    Forall2 (fun kv s => unwrap qe ie s = unwrap_text EUTF8 (v_enc (snd kv)) (v_data (snd kv))) kvs ss.
Proof.
  intros J W L H T G. pose proof (start_ok src W L) as K. apply holds_chain in H. cbn [events] in H.
  destruct H as (q1 & i1 & E & H). unfold restore_strings. fold item.
  change (IBlock (set_block src)) with (block_input src) in E. rewrite E. cbn [rbind val_type v_type]. rewrite T. cbn [negb].
  assert (B : binary_at src (parser_clear q) (block_input src)).
  { split; [now rewrite clear_json|]. reflexivity. }
  pose proof (read_binary _ _ _ _ _ _ _ _ _ B E) as B1. pose proof (run_ok _ _ _ _ K E) as K1.
  assert (Ev : flat_map events (map (fun kv : bytes * value => DVal (fst kv) (snd kv)) kvs ++ more) ++ [ev_end] = kvs ++ (flat_map events more ++ [ev_end])).
  { rewrite flat_map_app, <- app_assoc. f_equal. clear. induction kvs as [|[k v] l IH]; cbn [map flat_map events app fst snd]; [reflexivity|now rewrite IH]. }
  rewrite Ev in H. destruct (in_order src x f kvs _ q1 i1 t K1 B1 G H) as (qe & ie & ne & ss & P & _ & Fa).
  rewrite P. cbn [rbind]. exists qe, ie, ss. auto.
Qed.

(** * The statements *)
Lemma shows_gone q i bs s : shows q i bs s -> unwrap q i s = Ok bs \/ (unwrap q i s = UB UbDangling /\ 1 <= ss_len s <= 8).
Proof.
  intros [H|[P L]]; [now left|right]. split; [|exact L]. unfold unwrap. replace (ss_len s <? 1) with false by lia. unfold bytes_at. rewrite P. destruct q, i; reflexivity.
Qed.
Lemma from_memory x f w c ks olds q src q1 v s1 i1 : is_json q = false -> wf_bytes src -> zlen src < 2 ^ 32 -> string_class w c ks ->
  run_input (restore_object x (S f) w q (CCls c) (VList olds)) (block_input src) = Ok ((q1, (v, s1)), i1) ->
  restore_strings x (S f) ks q (block_input src) = Err \/
  exists vs ss, v = VList vs /\ restore_strings x (S f) ks q (block_input src) = Ok (q1, i1, ss) /\
    memory_at src q1 i1 /\ forall qe ie, memory_at src qe ie -> Forall2 (says_or_gone qe ie) vs ss.
Proof.
  intros J W L [C N] H. destruct (restored x f w c ks olds q _ _ _ _ _ (start_ok src W L) N C H) as [X|(e & q0 & i0 & ne & vs & ss & E & -> & P & Q & R)]; [now left|right].
  exists vs, ss. split; [reflexivity|]. split; [exact R|].
  assert (B : binary_at src (parser_clear q) (block_input src)) by (split; [now rewrite clear_json|reflexivity]).
  pose proof (read_binary _ _ _ _ _ _ _ _ _ B E) as B0. split.
  - assert (G : forall ks q i n qe ie ne ss, binary_at src q i -> paste_strings x (S f) ks q i n = Ok (qe, ie, ne, ss) -> binary_at src qe ie).
    { clear. induction ks as [|k ks IH]; intros q i n qe ie ne ss B P; cbn [paste_strings] in P. { inversion P; now subst. }
      destruct (paste_string x (S f) k q i n) as [[[[q1 i1] n1] s1]| | |] eqn:E; cbn [rbind] in P; try discriminate P.
      destruct (paste_strings x (S f) ks q1 i1 n1) as [[[[q2 i2] n2] ss2]| | |] eqn:E2; cbn [rbind] in P; try discriminate P. inversion P; subst.
      eapply IH; [|exact E2]. eapply paste_binary; eauto. }
    exact (G _ _ _ _ _ _ _ _ B0 Q).
  - intros qe ie Be. pose proof (pasted_binary src x (S f) qe ie Be ks q0 i0 _ vs ss B0 P) as Fa. clear - Fa.
    induction Fa as [|a b la lb (bs & Ea & Sh) Fa IH]; constructor; [|exact IH]. exists bs. split; [exact Ea|]. now apply shows_gone.
Qed.
Lemma source_ok src i : source src i -> input_ok i.
Proof.
  intros (W & L & [-> | ->]); [now apply start_ok|]. split.
  - unfold set_stream. destruct (fetch 0 1 (mkStrm [] 0 None src false)) as [ok s'] eqn:E. eapply wf_fetch; [|exact E]. repeat split; [constructor|exact W|cbn; lia].
  - unfold set_stream. destruct (fetch 0 1 (mkStrm [] 0 None src false)) as [ok s'] eqn:E. pose proof (extent_fetch _ _ _ _ _ E). cbn [snd]. unfold extent in *. cbn [s_win s_src] in *. unfold zlen in *. cbn [length] in *. lia.
Qed.
Lemma from_anywhere x f w c ks olds q src i q1 v s1 i1 : source src i -> string_class w c ks -> ks <> [] ->
  run_input (restore_object x (S f) w q (CCls c) (VList olds)) i = Ok ((q1, (v, s1)), i1) ->
  restore_strings x (S f) ks q i = Err \/
  exists vs ss, v = VList vs /\ restore_strings x (S f) ks q i = Ok (q1, i1, ss) /\ length ss = length vs /\
    says_or_gone q1 i1 (last vs VNone) (last ss (mkSs PlGone 0 EUTF8)).
Proof.
  intros K [C N] Ne H. destruct (restored x f w c ks olds q _ _ _ _ _ (source_ok src i K) N C H) as [X|(e & q0 & i0 & ne & vs & ss & E & -> & P & Q & R)]; [now left|right].
  exists vs, ss. split; [reflexivity|]. split; [exact R|]. split.
  - clear - P. cbn zeta in P. revert P. generalize (mkL false (empty_node (v_type (snd e)))). revert q0 i0 vs ss. induction ks as [|k ks IH]; intros q0 i0 vs ss n P; destruct vs, ss; cbn [pasted] in P; try contradiction; [reflexivity|].
    destruct P as (? & ? & ? & ? & _ & _ & _ & P). cbn [length]. f_equal. eapply IH, P.
  - destruct (pasted_last x (S f) ks q0 i0 _ vs ss q1 i1 ne Ne P Q) as (bs & -> & Sh). exists bs. split; [reflexivity|]. now apply shows_gone.
Qed.
Lemma members_tree w pn F n s : forall (ks : list bytes) olds vi ni vs n1 s1 q i, Forall (fun k => k <> []) ks ->
  paste_fields w pn F (map member ks) olds (mkL true n) s vi ni = ERet (vs, n1, s1) ->
  members_of_tree ks n = Err \/ exists ss, members_of_tree ks n = Ok ss /\ Forall2 (says q i) vs ss.
Proof.
  induction ks as [|k ks IH]; intros olds vi ni vs n1 s1 q i N H; cbn [map paste_fields members_of_tree] in *.
  { inversion H; subst. right. exists []. split; [reflexivity|constructor]. }
  destruct olds as [|old olds]; [discriminate H|]. change (f_type (member k)) with (CStr EUTF8) in H. change (f_name (member k)) with k in H. change (f_opt (member k)) with false in H.
  change (scoped (CStr EUTF8)) with false in H. cbv iota zeta in H. cbn [ebind fst snd negb] in H.
  inversion N as [|k0 ks0 Nk Nks]; subst k0 ks0. replace (0 <? zlen k) with true in H by (destruct k; [contradiction|reflexivity]).
  unfold paste_field in H. change (scoped (CStr EUTF8)) with false in H. cbv iota in H. unfold field_value in H. cbn [l_parsed l_node] in H.
  destruct (value_named n (k, EUTF8)) as [kv| | |]; cbn [elift ebind rbind fst snd] in H |- *; try discriminate H. cbv zeta.
  destruct (paste_value w (CStr EUTF8) old (snd kv)) as [c'| | |] eqn:P; cbn [elift ebind rbind fst snd] in H; try discriminate H.
  destruct (negb (ty_eqb (v_type (snd kv)) TString) && negb (ty_eqb (v_type (snd kv)) TBinary)) eqn:T; [now left|].
  assert (B : blocky (snd kv) = true) by (unfold blocky; destruct (ty_eqb (v_type (snd kv)) TString), (ty_eqb (v_type (snd kv)) TBinary); auto).
  destruct (as_string _ _ _ _ P B) as (bs & -> & U).
  destruct (paste_fields w pn F (map member ks) olds (mkL true n) s (vi + 1) ni) as [[[vs2 n2] s2]| | | |] eqn:E; cbn [ebind] in H; try discriminate H.
  inversion H; subst; clear H. destruct (IH olds _ _ _ _ _ q i Nks E) as [X|(ss & X & Fa)]; [left; now rewrite X|right].
  rewrite X. cbn [rbind]. eexists. split; [reflexivity|]. constructor; [|exact Fa]. exists bs. split; [reflexivity|]. apply unwraps; [reflexivity|exact U].
Qed.
Lemma of_tree F w c ks olds n s v s1 q i : string_class w c ks -> unwrap_prog (S F) w (CCls c) (VList olds) n s = ERet (v, s1) ->
  strings_of_tree ks n = Err \/ exists vs ss, v = VList vs /\ strings_of_tree ks n = Ok ss /\ Forall2 (says q i) vs ss.
Proof.
  intros [C N] H. unfold unwrap_prog in H. change (scoped (CCls c)) with true in H. cbv iota in H. cbn [paste_node paste_step] in H. change (l_node (mkL true n)) with n in H.
  unfold strings_of_tree. destruct (is_scope (n_type n)); cbn [negb] in H |- *; [|now left]. rewrite C in H. change (fun k => mkField k false (CStr EUTF8)) with member in H.
  destruct (paste_fields w (paste_node F w) F (map member ks) olds (mkL true n) s 0 0) as [[[vs n2] s2]| | | |] eqn:E; cbn [ebind] in H; try discriminate H.
  inversion H; subst; clear H. destruct (members_tree _ _ _ _ _ _ _ _ _ _ _ _ q i N E) as [X|(ss & X & Fa)]; [now left|right]. exists vs, ss. auto.
Qed.
