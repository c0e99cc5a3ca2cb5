(** Property C100: VecWrap objects that are kept and copied. *)
From Coq Require Import ZArith List Bool Lia ZifyBool ZifyNat.
From Verif Require Import Base Lemmas M_Types M_Conv S_Conv S_Json M_Bits S_Bits P_Bits M_Wraps S_Wraps P_Wraps.
Import ListNotations.
Open Scope Z_scope.

(** * C100 VecWrap objects can be kept, copied and used again.
    Full statement: a VecWrap, or a copy of one, stores what its vector holds and restores into it, at any time while the vector exists.
    False once the vector was changed: the wrap stores what it was, or reads memory that was released *)
Definition fill (x : vec) : wstate := mkWs x 0 [].
Theorem C100_kept_refuted : exists x bs old bs', vec_ok x /\
  snd (wrun exact_grow 1 (fill x) [WNew; WSet bs false; WInsert 0]) = [Ok None; Ok None; Ok (Some (val_block old TBinary))] /\ old <> bs /\
  snd (wrun exact_grow 1 (fill x) [WNew; WSet bs' false; WInsert 0]) = [Ok None; Ok None; UB UbDangling].
Proof. exists (mkVec [1; 2] 3), [1; 2; 3], [1; 2], [1; 2; 3; 4]. repeat split; try (vm_compute; congruence). Qed.
(** false of a copy that was restored with: it stores other bytes, or reads memory that was released *)
Theorem C100_copy_refuted : exists x v bs, vec_ok x /\ brings bs v /\
  snd (wrun exact_grow 1 (fill x) [WNew; WCopy 0; WPaste 1 v; WInsert 1]) = [Ok None; Ok None; Ok None; UB UbDangling] /\
  snd (wrun exact_grow 1 (fill vec_new) [WNew; WCopy 0; WPaste 1 v; WInsert 1]) = [Ok None; Ok None; Ok None; Ok (Some (val_block [] TBinary))].
Proof.
  exists (mkVec [1; 2] 2), (val_block [5; 6; 7] TBinary), [5; 6; 7]. repeat split; try (vm_compute; congruence); try (now left). repeat constructor; unfold is_byte; lia.
Qed.
(** false of a copy whose original is gone: for whatever is restored *)
Theorem C100_copy_outlives : forall grow u s i k v, live_wrap s i = Some k -> live_wrap s (k_this k) = None -> v_type v = TString \/ v_type v = TBinary ->
  snd (wstep grow u s (WPaste i v)) = UB UbDangling.
Proof.
  intros grow u s i k v L N T. cbn [wstep]. rewrite L. unfold wrap_paste. replace (bits_type v) with true by (unfold bits_type; destruct T as [-> | ->]; reflexivity). cbn [negb]. rewrite N. reflexivity.
Qed.
Theorem C100_copy_outlives_refuted : exists x v bs, vec_ok x /\ brings bs v /\
  snd (wrun exact_grow 1 (fill x) [WNew; WCopy 0; WEnd 0; WPaste 1 v]) = [Ok None; Ok None; Ok None; UB UbDangling].
Proof.
  exists (mkVec [1; 2] 2), (val_block [] TBinary), []. repeat split; try (vm_compute; congruence); try (now left).
Qed.
(** True of any sequence of such steps in which wraps store only if they were made after the last change of the vector, copied from such a wrap, or
    the last change was restoring with them or with one of their copies, and restore only while the wrap they are copies of exists
    ([does]): nothing is undefined, every block stored is what the vector holds, and the vector holds what was restored or assigned last *)
Theorem C100_protocol_partial : forall grow u x os V rs, grows grow -> 1 <= u -> vec_ok x -> do_all u (mkView [] [] [] (x_data x)) os V rs ->
  snd (wrun grow u (fill x) os) = rs /\ x_data (g_vec (fst (wrun grow u (fill x) os))) = held V.
Proof.
  intros grow u x os V rs G U X D. destruct (run_does grow u G U os _ _ _ _ (start_agree x X) D) as (s' & E & A). unfold fill. rewrite E. split; [reflexivity|apply A].
Qed.
(** The bytes of a copy after restoring with it, in general: the first ones of the vector, as many as there were before, if the memory did not move *)
Theorem C100_copy_stale : forall grow u x v bs, grows grow -> 1 <= u -> vec_ok x -> x_data x <> [] -> brings bs v -> zlen bs mod u = 0 ->
  nth_error (snd (wrun grow u (fill x) [WNew; WCopy 0; WPaste 1 v; WInsert 1])) 3 =
  Some (if x_mem x <? zlen bs then UB UbDangling else if zlen bs <? zlen (x_data x) then UB UbOob else Ok (Some (val_block (firstn (length (x_data x)) bs) TBinary))).
Proof.
  intros grow u x v bs G U X NE B M. destruct (brings_plain bs v B) as (B1 & B2 & B3). destruct (vec_back grow u x bs v G U M B) as (m & VP & Mm).
  assert (ZL : Z.of_nat (length bs) / u * u = zlen bs). { unfold zlen in *. pose proof (Z.div_mod (Z.of_nat (length bs)) u ltac:(lia)). lia. }
  set (k := mkWrap true 0 (x_mem x =? 0) (zlen (x_data x)) 0). cbn [wrun].
  replace (wstep grow u (fill x) WNew) with (mkWs x 0 [k], @Ok (option value) None) by reflexivity. replace (wstep grow u (mkWs x 0 [k]) (WCopy 0)) with (mkWs x 0 [k; k], @Ok (option value) None) by reflexivity.
  assert (E : exists k', wstep grow u (mkWs x 0 [k; k]) (WPaste 1 v) = (mkWs (mkVec bs m) (if x_mem x <? zlen bs then 1%nat else 0%nat) [k'; k], Ok None)).
  { cbn [wstep]. change (live_wrap (mkWs x 0 [k; k]) 1) with (Some k). cbv iota beta. unfold wrap_paste. rewrite B1. change (live_wrap (mkWs x 0 [k; k]) (k_this k)) with (Some k). cbn [negb g_vec g_gen g_wraps]. rewrite VP, B3, ZL.
    change (k_this k) with 0%nat. cbn [put_wrap firstn skipn app rbind]. eauto. }
  destruct E as [k' ->]. cbn [wstep]. change (live_wrap (mkWs (mkVec bs m) (if x_mem x <? zlen bs then 1%nat else 0%nat) [k'; k]) 1) with (Some k). cbv iota beta. unfold wrap_insert, k. cbn [k_size k_null k_gen g_gen g_vec x_data snd nth_error]. clear k k'.
  assert (P : 0 < zlen (x_data x)) by (unfold zlen; destruct (x_data x); [congruence|cbn [length]; lia]). replace (zlen (x_data x) =? 0) with false by lia. unfold vec_ok in X. replace (x_mem x =? 0) with false by lia.
  destruct (Z.ltb_spec (x_mem x) (zlen bs)); cbn [Nat.eqb negb rbind]; [reflexivity|]. destruct (Z.ltb_spec (zlen bs) (zlen (x_data x))); cbn [rbind]; [reflexivity|]. unfold zlen. now rewrite Nat2Z.id.
Qed.
Print Assumptions C100_kept_refuted.
Print Assumptions C100_copy_refuted.
Print Assumptions C100_copy_outlives.
Print Assumptions C100_copy_outlives_refuted.
Print Assumptions C100_protocol_partial.
Print Assumptions C100_copy_stale.

(** A vector of 16 bit numbers; restoring twice with the same wrap, once with a copy, from text and blocks: *)
Definition steps : list wop :=
  [WNew; WInsert 0; WPaste 0 (val_block [1; 0; 2; 0] TBinary); WInsert 0; WCopy 0; WInsert 1; WPaste 1 (val_string (b64_text [9; 9]) EUTF8); WInsert 0; WSet [3; 0; 4; 0; 5; 0] false; WNew; WInsert 2;
   WPaste 0 (val_type TNull)].
Example C100_ex_steps : snd (wrun exact_grow 2 (fill (mkVec [7; 7] 2)) steps) =
  [Ok None; Ok (Some (val_block [7; 7] TBinary)); Ok None; Ok (Some (val_block [1; 0; 2; 0] TBinary)); Ok None; Ok (Some (val_block [1; 0; 2; 0] TBinary)); Ok None; Ok (Some (val_block [9; 9] TBinary));
   Ok None; Ok None; Ok (Some (val_block [3; 0; 4; 0; 5; 0] TBinary)); Err].
Proof. vm_compute. reflexivity. Qed.
Ltac here := split; [cbn [made length app]; lia|cbn [gone In]; tauto].
Ltac stores := lazymatch goal with |- does _ ?V (WInsert ?i) _ _ => refine (do_store 2 V i _ _); [here|now left] end.
Example C100_ex_does : exists V, do_all 2 (mkView [] [] [] [7; 7]) steps V (snd (wrun exact_grow 2 (fill (mkVec [7; 7] 2)) steps)) /\ held V = [3; 0; 4; 0; 5; 0].
Proof.
  rewrite C100_ex_steps. eexists. unfold steps. split.
  - eapply da_cons; [apply do_new|cbn [made gone fresh held app length existsb Nat.eqb orb]]. eapply da_cons; [stores|cbn [made gone fresh held app length existsb Nat.eqb orb]].
    eapply da_cons; [apply (do_restore 2 _ 0 0 _ [1; 0; 2; 0]); [here|reflexivity|here|split; [repeat constructor; unfold is_byte; lia|split; [vm_compute; reflexivity|now left]]|reflexivity]|cbn [made gone fresh held app length existsb Nat.eqb orb]].
    eapply da_cons; [stores|cbn [made gone fresh held app length existsb Nat.eqb orb]]. eapply da_cons; [eapply do_copy; [here|reflexivity|reflexivity]|cbn [made gone fresh held app length existsb Nat.eqb orb]]. eapply da_cons; [stores|cbn [made gone fresh held app length existsb Nat.eqb orb]].
    eapply da_cons; [apply (do_restore 2 _ 1 0 _ [9; 9]); [here|reflexivity|here|split; [repeat constructor; unfold is_byte; lia|split; [vm_compute; reflexivity|now right]]|reflexivity]|cbn [made gone fresh held app length existsb Nat.eqb orb]].
    eapply da_cons; [stores|cbn [made gone fresh held app length existsb Nat.eqb orb]]. eapply da_cons; [apply do_set|cbn [made gone fresh held app length existsb Nat.eqb orb]]. eapply da_cons; [apply do_new|cbn [made gone fresh held app length existsb Nat.eqb orb]]. eapply da_cons; [stores|cbn [made gone fresh held app length existsb Nat.eqb orb]].
    eapply da_cons; [apply do_refuse; [here|discriminate|discriminate]|]. apply da_nil.
  - reflexivity.
Qed.
(** a block that is not a whole number of elements, restored into a vector without memory, leaves a wrap that cannot be stored *)
Example C100_ex_null : snd (wrun exact_grow 4 (fill vec_new) [WNew; WPaste 0 (val_block [1; 2; 3] TBinary); WInsert 0]) = [Ok None; Err; Err].
Proof. vm_compute. reflexivity. Qed.
