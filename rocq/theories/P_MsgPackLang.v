(** The exact language of PMsgPack. *)
From Coq Require Import ZArith List Bool Lia ZifyBool ZifyNat.
From Verif Require Import Base Lemmas M_Types M_Conv M_In S_Doc M_OutOps S_Out M_Event S_MsgPack M_MsgPack S_MsgPackLang M_Tree S_Tree M_TreeIO
  P_In P_Reads P_Safe P_Exact P_Float P_Doc P_PSrlDoc P_PSrlSafe P_MsgPack P_MsgPackDoc P_MsgPackConf P_MsgPackSafe P_Tree P_TreeSafe.
Import ListNotations.
Open Scope Z_scope.

Scheme pk_doc_ind2 := Induction for pk_doc Sort Prop with pk_items_ind2 := Induction for pk_items Sort Prop.

(** * What is read is in the language *)
Lemma le_unle_n bs n : wf_bytes bs -> zlen bs = Z.of_nat n -> le n (unle bs) = bs.
Proof. intros W L. replace n with (length bs) by (unfold zlen in L; lia). now apply le_unle. Qed.
Lemma be_unle bs n : wf_bytes bs -> zlen bs = Z.of_nat n -> be n (unle (rev bs)) = bs.
Proof.
  intros W L. rewrite be_swapped. unfold swapped. rewrite le_unle_n; [apply rev_involutive|now apply Forall_rev|]. unfold zlen in *. now rewrite rev_length.
Qed.
Lemma be1 x : 0 <= x < 256 -> be 1 x = [x].
Proof. intros. cbn [be]. now rewrite Z.div_1_r, Z.mod_small by lia. Qed.
Lemma rev_be n x : rev (be n x) = le n x.
Proof. rewrite be_swapped. unfold swapped. apply rev_involutive. Qed.

Section Inv.
  Variable b : blk.
  Hypothesis B : bytes_left b.
  Lemma i_block n : 0 <= n < two63 -> triple no_ub (read_block n) b (fun a b' => consumed a b b' /\ zlen a = n /\ wf_bytes a /\ bytes_left b').
  Proof. intros N. apply triple_read_block; [lia|lia|]. intros bs b' L C. destruct (consumed_wf _ _ _ B C). auto. Qed.
  Lemma i_move n : 0 <= n <= 8 -> triple no_ub (read_move n) b (fun a b' => consumed (le (Z.to_nat n) a) b b' /\ 0 <= a < 256 ^ n /\ bytes_left b').
  Proof.
    intros N. apply triple_read_move; [unfold_words; lia|]. intros bs b' L C. destruct (consumed_wf _ _ _ B C) as [W W'].
    rewrite le_unle_n by (auto; lia). split; [auto|]. split; [rewrite <- L; now apply unle_bound|auto].
  Qed.
  Lemma i_swapped n : 0 <= n <= 8 -> triple no_ub (read_swapped n) b (fun a b' => consumed (be (Z.to_nat n) a) b b' /\ 0 <= a < 256 ^ n /\ bytes_left b').
  Proof.
    intros N. apply triple_bind. eapply triple_conseq; [apply i_block; unfold_words; lia|]. intros bs b' (C & L & W & W'). apply triple_ret.
    rewrite be_unle by (auto; lia). split; [auto|]. split; [|auto].
    replace n with (zlen (rev bs)) by (unfold zlen in *; rewrite rev_length; auto). apply unle_bound. now apply Forall_rev.
  Qed.
End Inv.

Lemma i_str p b : bytes_left b -> 0 <= p < 256 -> prefix_is_str p = true ->
  triple no_ub (mp_read_str p) b (fun v b' => bytes_left b' /\ exists bs s, consumed bs b b' /\ v = val_block_enc s TString EUTF8 /\ zlen s < two32 /\ pk_str s (p :: bs)).
Proof.
  intros B P S. unfold mp_read_str. apply triple_bind.
  apply triple_conseq with (Q := fun n b' => bytes_left b' /\ 0 <= n < two32 /\ exists l, consumed l b b' /\ forall s, zlen s = n -> pk_str s (p :: l ++ s)).
  { unfold mp_str_size. destruct ((160 <=? p) && (p <=? 191)) eqn:E.
    - apply triple_ret. replace 31 with (2 ^ 5 - 1) by reflexivity. rewrite land_ones_mod by lia. pose proof (Z.mod_pos_bound p (2 ^ 5) ltac:(lia)).
      split; [auto|]. split; [unfold_words; lia|]. exists []. split; [apply consumed_nil|]. intros s L.
      assert (p mod 2 ^ 5 = p - 160). { symmetry. apply Z.mod_unique with (q := 5); lia. }
      cbn [app]; rewrite (ltac:(lia) : p = 160 + zlen s). apply PKfixstr. lia.
    - destruct (p =? 217) eqn:E1; [|destruct (p =? 218) eqn:E2].
      + replace p with 217 by lia. eapply triple_conseq; [apply i_move; [auto|lia]|]. intros n b' (C & R & W).
        change (256 ^ 1) with 256 in R. split; [auto|]. split; [unfold_words; lia|]. eexists. split; [exact C|]. intros s L.
        change (Z.to_nat 1) with 1%nat. cbn [le]. rewrite Z.mod_small by lia. rewrite <- L. apply PKstr8. lia.
      + replace p with 218 by lia. eapply triple_conseq; [apply i_move; [auto|lia]|]. intros n b' (C & R & W).
        change (256 ^ 2) with 65536 in R. split; [auto|]. split; [unfold_words; lia|]. eexists. split; [exact C|]. intros s L.
        change (Z.to_nat 2) with 2%nat. rewrite <- L, <- rev_be. apply PKstr16. lia.
      + replace p with 219 by (unfold prefix_is_str in S; lia). eapply triple_conseq; [apply i_move; [auto|lia]|]. intros n b' (C & R & W).
        change (256 ^ 4) with 4294967296 in R. split; [auto|]. split; [unfold_words; lia|]. eexists. split; [exact C|]. intros s L.
        change (Z.to_nat 4) with 4%nat. rewrite <- L, <- rev_be. apply PKstr32. lia. }
  intros n b1 (B1 & N & l & C1 & H). apply triple_bind. eapply triple_conseq; [apply i_block; [auto|unfold_words; lia]|].
  intros s b2 (C2 & L & W & B2). apply triple_ret. split; [auto|]. exists (l ++ s), s. split; [eapply consumed_trans; eauto|]. split; [reflexivity|]. split; [lia|]. now apply H.
Qed.

Lemma i_bin p b : bytes_left b -> 0 <= p < 256 -> prefix_is_bin p = true ->
  triple no_ub (mp_read_bin p) b (fun v b' => bytes_left b' /\ exists bs s, consumed bs b b' /\ v = val_block s TBinary /\ zlen s < two32 /\ pk_value (MeBin s) (p :: bs)).
Proof.
  intros B P S. unfold mp_read_bin. apply triple_bind.
  apply triple_conseq with (Q := fun n b' => bytes_left b' /\ 0 <= n < two32 /\ exists l, consumed l b b' /\ forall s, zlen s = n -> pk_value (MeBin s) (p :: l ++ s)).
  { unfold mp_bin_size. destruct (p =? 196) eqn:E1; [|destruct (p =? 197) eqn:E2].
      + replace p with 196 by lia. eapply triple_conseq; [apply i_move; [auto|lia]|]. intros n b' (C & R & W).
        change (256 ^ 1) with 256 in R. split; [auto|]. split; [unfold_words; lia|]. eexists. split; [exact C|]. intros s L.
        change (Z.to_nat 1) with 1%nat. rewrite <- L, <- rev_be. rewrite be1 by lia. change (rev [zlen s]) with [zlen s]. apply PKspec. rewrite <- (be1 (zlen s)) by lia. apply MPbin8. lia.
      + replace p with 197 by lia. eapply triple_conseq; [apply i_move; [auto|lia]|]. intros n b' (C & R & W).
        change (256 ^ 2) with 65536 in R. split; [auto|]. split; [unfold_words; lia|]. eexists. split; [exact C|]. intros s L.
        change (Z.to_nat 2) with 2%nat. rewrite <- L, <- rev_be. apply PKbin16. lia.
      + replace p with 198 by (unfold prefix_is_bin in S; lia). eapply triple_conseq; [apply i_move; [auto|lia]|]. intros n b' (C & R & W).
        change (256 ^ 4) with 4294967296 in R. split; [auto|]. split; [unfold_words; lia|]. eexists. split; [exact C|]. intros s L.
        change (Z.to_nat 4) with 4%nat. rewrite <- L, <- rev_be. apply PKbin32. lia. }
  intros n b1 (B1 & N & l & C1 & H). apply triple_bind. eapply triple_conseq; [apply i_block; [auto|unfold_words; lia]|].
  intros s b2 (C2 & L & W & B2). apply triple_ret. split; [auto|]. exists (l ++ s), s. split; [eapply consumed_trans; eauto|]. split; [reflexivity|]. split; [lia|]. now apply H.
Qed.

Definition good_value (v : value) (b : bytes) : Prop := plain_value v /\ pk_value (meaning_of v) b.
Lemma good_int t n b : In t int_types -> in_range t n -> mp_value false (MeInt n) b -> good_value (val_int t n) b.
Proof.
  intros T R M. split; [split; cbn in T; repeat (destruct T as [<-|T]; [first [reflexivity|discriminate]|]); contradiction|].
  rewrite meaning_int by auto. now apply PKspec.
Qed.

Lemma i_int t b p : bytes_left b -> In t int_types -> p = int_prefix t ->
  triple no_ub (mp_read_int t) b (fun v b' => bytes_left b' /\ exists bs, consumed bs b b' /\ good_value v (p :: bs)).
Proof.
  intros B T ->. unfold mp_read_int. apply triple_bind. eapply triple_conseq; [apply i_swapped; [auto|destruct t; cbn; lia]|].
  intros x b' (C & R & W). apply triple_ret. split; [auto|]. eexists. split; [exact C|]. rewrite Nat2Z.id.
  assert (S : forall m, (m = 1 \/ m = 2 \/ m = 4 \/ m = 8)%nat -> 0 <= x < 256 ^ Z.of_nat m -> to_signed m x mod 256 ^ Z.of_nat m = x).
  { intros m _ X. unfold to_signed. destruct (_ <? _); [now apply Z.mod_small|]. replace (x - 256 ^ Z.of_nat m) with (x + (-1) * 256 ^ Z.of_nat m) by lia. rewrite Z.mod_add by lia. now apply Z.mod_small. }
  cbn in T. repeat (destruct T as [<-|T]; [|]); [..|contradiction]; cbn [is_signed int_bytes int_prefix] in *;
  (apply good_int; [cbn; tauto|unfold in_range, to_signed; cbn [int_min int_max] in *; unfold_words; try destruct (_ <? _) eqn:?; cbn in *; lia|]).
  - cbn [is_signed]. replace (be 1 x) with (be 1 (to_signed 1 x mod 256 ^ Z.of_nat 1)) by (now rewrite S by auto). apply MPi8. unfold to_signed. destruct (_ <? _) eqn:?; cbn in *; lia.
  - apply MPu8. cbn in *; lia.
  - cbn [is_signed]. replace (be 2 x) with (be 2 (to_signed 2 x mod 256 ^ Z.of_nat 2)) by (now rewrite S by auto). apply MPi16. unfold to_signed. destruct (_ <? _) eqn:?; cbn in *; lia.
  - apply MPu16. cbn in *; lia.
  - cbn [is_signed]. replace (be 4 x) with (be 4 (to_signed 4 x mod 256 ^ Z.of_nat 4)) by (now rewrite S by auto). apply MPi32. unfold to_signed. destruct (_ <? _) eqn:?; cbn in *; lia.
  - apply MPu32. cbn in *; lia.
  - cbn [is_signed]. replace (be 8 x) with (be 8 (to_signed 8 x mod 256 ^ Z.of_nat 8)) by (now rewrite S by auto). apply MPi64. unfold to_signed. destruct (_ <? _) eqn:?; cbn in *; lia.
  - apply MPu64. cbn in *; lia.
Qed.

Lemma fix_byte n p : 0 <= p < 256 -> p < 128 \/ 224 <= p \/ p = 193 -> n = (if p <? 128 then p else if p =? 193 then -31 else p - 256) -> mp_read_fixnum p = val_int TI32 n.
Proof.
  intros P C ->.
  pose proof (byte_cases (fun p => negb ((p <? 128) || (224 <=? p) || (p =? 193)) ||
    ((if negb (Z.land 128 p =? 0) then Z.land 31 p - 32 else Z.land 127 p) =? (if p <? 128 then p else if p =? 193 then -31 else p - 256))) eq_refl p P) as B.
  cbv beta in B. apply orb_prop in B. destruct B as [B|B]; [lia|]. unfold mp_read_fixnum. f_equal. lia.
Qed.
Lemma i_scalar p b : bytes_left b -> 0 <= p < 256 -> prefix_is_scope p = false -> prefix_is_str p = false -> prefix_is_scalar p = true ->
  triple no_ub (mp_read_scalar p) b (fun v b' => bytes_left b' /\ exists bs, consumed bs b b' /\ good_value v (p :: bs)).
Proof.
  intros B P S1 S2 S3. unfold prefix_is_scope, prefix_is_str, prefix_is_scalar in *. unfold mp_read_scalar.
  assert (Z : forall v, good_value v [p] -> bytes_left b /\ exists bs, consumed bs b b /\ good_value v (p :: bs)).
  { intros v G. split; [auto|]. exists []. split; [apply consumed_nil|exact G]. }
  destruct ((p =? 194) || (p =? 195)) eqn:E1.
  { apply triple_ret, Z. split; [split; [reflexivity|discriminate]|]. apply PKspec. destruct (p =? 195) eqn:E.
    - replace p with 195 by lia. apply MPtrue.
    - replace p with 194 by lia. apply MPfalse. }
  destruct ((202 <=? p) && (p <=? 211)) eqn:E2.
  { unfold mp_read_num. 
    destruct (p =? 202) eqn:Q. { replace p with 202 by lia. apply triple_bind. eapply triple_conseq; [apply i_swapped; [auto|lia]|]. intros x b' (C & R & W). apply triple_ret. split; [auto|].
      eexists. split; [exact C|]. change (Z.to_nat 4) with 4%nat. change (256 ^ 4) with 4294967296 in R. split; [split; [reflexivity|discriminate]|].
      replace (meaning_of (val_f32 x)) with (MeFloat (f32_to_f64 x)). { apply PKspec, MPf32. lia. }
      unfold meaning_of, v_double, v_fp32, val_f32. cbn [v_type v_raw ty_eqb]. now rewrite Z.mod_small by (unfold_words; lia). }
    destruct (p =? 203) eqn:Q1. { replace p with 203 by lia. apply triple_bind. eapply triple_conseq; [apply i_swapped; [auto|lia]|]. intros x b' (C & R & W). apply triple_ret. split; [auto|].
      eexists. split; [exact C|]. change (Z.to_nat 8) with 8%nat. change (256 ^ 8) with 18446744073709551616 in R.
      assert (T : v_type (val_f64 x) = TFP32 \/ v_type (val_f64 x) = TFP64) by (unfold val_f64; destruct (narrow64 x); auto).
      split; [destruct T as [T|T]; unfold plain_value; rewrite T; split; [reflexivity|discriminate|reflexivity|discriminate]|].
      replace (meaning_of (val_f64 x)) with (MeFloat x). { apply PKspec, MPf64. lia. }
      rewrite <- (val_f64_roundtrip x) at 1 by (unfold_words; lia). unfold meaning_of. destruct T as [-> | ->]; reflexivity. }
    destruct (p =? 204) eqn:Q2; [apply i_int; [auto|cbn; tauto|cbn; lia]|]. destruct (p =? 205) eqn:Q3; [apply i_int; [auto|cbn; tauto|cbn; lia]|].
    destruct (p =? 206) eqn:Q4; [apply i_int; [auto|cbn; tauto|cbn; lia]|]. destruct (p =? 207) eqn:Q5; [apply i_int; [auto|cbn; tauto|cbn; lia]|].
    destruct (p =? 208) eqn:Q6; [apply i_int; [auto|cbn; tauto|cbn; lia]|]. destruct (p =? 209) eqn:Q7; [apply i_int; [auto|cbn; tauto|cbn; lia]|].
    destruct (p =? 210) eqn:Q8; [apply i_int; [auto|cbn; tauto|cbn; lia]|]. destruct (p =? 211) eqn:Q9; [apply i_int; [auto|cbn; tauto|cbn; lia]|].
    exact I. }
  destruct (p =? 192) eqn:E3.
  { apply triple_ret, Z. replace p with 192 by lia. split; [split; [reflexivity|discriminate]|]. apply PKspec, MPnil. }
  apply triple_ret, Z. rewrite (fix_byte (if p <? 128 then p else if p =? 193 then -31 else p - 256)) by (auto; lia).
  destruct (p <? 128) eqn:F1; [|destruct (p =? 193) eqn:F2].
  - apply good_int; [cbn; tauto|unfold in_range; cbn; unfold_words; lia|]. apply MPpfix. lia.
  - replace p with 193 by lia. split; [split; [reflexivity|discriminate]|]. rewrite meaning_int; [apply PKunused|cbn; tauto|unfold in_range; cbn; unfold_words; lia].
  - apply good_int; [cbn; tauto|unfold in_range; cbn; unfold_words; lia|]. pose proof (MPnfix false (p - 256) ltac:(lia)) as M. now replace (256 + (p - 256)) with p in M by lia.
Qed.
Lemma i_scope_info p b : bytes_left b -> 0 <= p < 256 -> prefix_is_scope p = true ->
  triple no_ub (mp_scope_info p) b (fun r b' => bytes_left b' /\ 0 <= snd r < two32 /\ is_scope (fst r) = true /\ exists bs, consumed bs b b' /\ mp_head (fst r) (snd r) (p :: bs)).
Proof.
  intros B P S. unfold mp_scope_info.
  destruct (p <? 160) eqn:E.
  - pose proof (byte_cases (fun q => negb ((128 <=? q) && (q <? 160)) ||
      (Z.land q 64 =? 0) && Bool.eqb (Z.land q 16 =? 0) (q <? 144) && (Z.land 15 q =? if q <? 144 then q - 128 else q - 144)) eq_refl p P) as H.
    cbv beta in H. unfold prefix_is_scope in S. apply orb_prop in H. destruct H as [H|H]; [lia|]. apply andb_prop in H. destruct H as [H H3]. apply andb_prop in H. destruct H as [H1 H2].
    rewrite H1. apply eqb_prop in H2. rewrite H2. cbn [negb]. apply triple_ret. cbn [fst snd]. split; [auto|]. apply Z.eqb_eq in H3. rewrite H3.
    destruct (p <? 144) eqn:G; cbn [negb]; (split; [unfold_words; lia|]); (split; [reflexivity|]); exists []; (split; [apply consumed_nil|]).
    + pose proof (MPfixmap (p - 128) ltac:(lia)) as M. now replace (128 + (p - 128)) with p in M by lia.
    + pose proof (MPfixarray (p - 144) ltac:(lia)) as M. now replace (144 + (p - 144)) with p in M by lia.
  - assert (T : forall n t (c : Z), (n = 2 \/ n = 4) -> is_scope t = true -> (forall x, 0 <= x < 256 ^ n -> mp_head t x (p :: be (Z.to_nat n) x)) ->
      triple no_ub (let! m := read_swapped n in Ret (t, m)) b (fun r b' => bytes_left b' /\ 0 <= snd r < two32 /\ is_scope (fst r) = true /\ exists bs, consumed bs b b' /\ mp_head (fst r) (snd r) (p :: bs))).
    { intros n t _ N T M. apply triple_bind. eapply triple_conseq; [apply i_swapped; [auto|lia]|]. intros x b' (C & R & W). apply triple_ret. cbn [fst snd]. split; [auto|].
      split; [destruct N as [-> | ->]; cbn in R; unfold_words; lia|]. split; [exact T|]. eexists. split; [exact C|]. now apply M. }
    assert (Q : p = 220 \/ p = 221 \/ p = 222 \/ p = 223) by (unfold prefix_is_scope in S; lia).
    destruct Q as [-> |[-> |[-> | ->]]].
    + apply (T 2 TArray 0); [auto|reflexivity|]. intros x X. apply MParray16. cbn in X; lia.
    + apply (T 4 TArray 0); [auto|reflexivity|]. intros x X. apply MParray32. cbn in X; lia.
    + apply (T 2 TObject 0); [auto|reflexivity|]. intros x X. apply MPmap16. cbn in X; lia.
    + apply (T 4 TObject 0); [auto|reflexivity|]. intros x X. apply MPmap32. cbn in X; lia.
Qed.

(** the first event of an item *)
Definition item_of (st : msgp) (name : bytes) (r : msgp * event) (b : bytes) : Prop :=
  (exists v, r = (st, (name, v)) /\ good_value v b) \/
  (exists t n, r = (mkMsgp (mkScope t n 0 :: mp_stack st) (mp_next st), (name, val_type t)) /\ is_scope t = true /\ 0 <= n /\ mp_head t n b).
Lemma i_value st name p b : bytes_left b -> 0 <= p < 256 ->
  triple no_ub (mp_read_value st name p) b (fun r b' => bytes_left b' /\ exists bs, consumed bs b b' /\ item_of st name r (p :: bs)).
Proof.
  intros B P. unfold mp_read_value. destruct (prefix_is_scope p) eqn:S1.
  { apply triple_bind. eapply triple_conseq; [apply i_scope_info; auto|]. intros [t n] b' (W & R & T & bs & C & M). cbn [fst snd] in *. apply triple_ret. split; [auto|].
    exists bs. split; [exact C|]. right. exists t, n. unfold u32. rewrite Z.mod_small by lia. repeat split; auto; lia. }
  destruct (prefix_is_str p) eqn:S2.
  { apply triple_bind. eapply triple_conseq; [apply i_str; auto|]. intros v b' (W & bs & s & C & -> & L & K). apply triple_ret. split; [auto|].
    exists bs. split; [exact C|]. left. eexists. split; [reflexivity|]. split; [split; [reflexivity|discriminate]|].
    unfold meaning_of, val_block_enc. cbn [v_type v_data]. rewrite trunc_block_id by exact L. now apply PKstr. }
  destruct (prefix_is_scalar p) eqn:S3.
  { apply triple_bind. eapply triple_conseq; [apply i_scalar; auto|]. intros v b' (W & bs & C & G). apply triple_ret. split; [auto|]. exists bs. split; [exact C|]. left. eauto. }
  destruct (prefix_is_bin p) eqn:S4; [|exact I].
  apply triple_bind. eapply triple_conseq; [apply i_bin; auto|]. intros v b' (W & bs & s & C & -> & L & K). apply triple_ret. split; [auto|].
  exists bs. split; [exact C|]. left. eexists. split; [reflexivity|]. split; [split; [reflexivity|discriminate]|].
  unfold meaning_of, val_block. cbn [v_type v_data]. now rewrite trunc_block_id by exact L.
Qed.
Lemma i_byte b : bytes_left b -> triple no_ub (read_move 1) b (fun p b' => bytes_left b' /\ 0 <= p < 256 /\ consumed [p] b b').
Proof.
  intros B. eapply triple_conseq; [apply i_move; [auto|lia]|]. intros p b' (C & R & W). change (256 ^ 1) with 256 in R. split; [auto|]. split; [auto|].
  change (Z.to_nat 1) with 1%nat in C. cbn [le] in C. now rewrite Z.mod_small in C by lia.
Qed.
Lemma i_read_root st b : bytes_left b -> mp_stack st = [] ->
  triple no_ub (msgp_read st) b (fun r b' => bytes_left b' /\ exists bs, consumed bs b b' /\ item_of st [] r bs).
Proof.
  intros B E. unfold msgp_read. rewrite E. apply triple_bind. eapply triple_conseq; [apply i_byte; auto|]. intros p b1 (B1 & P & C1).
  eapply triple_conseq; [apply i_value; auto|]. intros r b2 (B2 & bs & C2 & T). split; [auto|]. exists ([p] ++ bs). split; [eapply consumed_trans; eauto|exact T].
Qed.
Lemma i_read_item t k j stk nx b : bytes_left b -> 1 <= k -> is_scope t = true ->
  triple no_ub (msgp_read (with_top t k j stk nx)) b (fun r b' => bytes_left b' /\ exists name ks bs, consumed (ks ++ bs) b b' /\
     (if ty_eqb t TObject then pk_key name ks else name = [] /\ ks = []) /\ item_of (with_top t (k - 1) j stk nx) name r bs).
Proof.
  intros B K T. unfold msgp_read, with_top. cbn [mp_stack ms_elems ms_type ms_ticket mp_next]. replace (k <? 1) with false by lia.
  apply triple_bind. eapply triple_conseq; [apply i_byte; auto|]. intros p b1 (B1 & P & C1). destruct (ty_eqb t TObject).
  - apply triple_bind. apply triple_conseq with (Q := fun name b2 => bytes_left b2 /\ exists ks, consumed ks b b2 /\ pk_key name ks).
    { destruct (prefix_is_str p) eqn:S.
      - unfold mp_read_name. apply triple_bind. eapply triple_conseq; [apply i_str; auto|]. intros v b2 (B2 & bs & s & C2 & -> & L & Q). apply triple_ret. split; [auto|].
        unfold val_block_enc. cbn [v_data]. rewrite trunc_block_id by exact L. exists ([p] ++ bs). split; [eapply consumed_trans; eauto|]. now apply PKname.
      - apply triple_ret. split; [auto|]. exists [p]. split; [exact C1|]. apply PKlost; [auto|]. unfold str_byte. unfold prefix_is_str in S. lia. }
    intros name b2 (B2 & ks & C2 & Q). apply triple_bind. eapply triple_conseq; [apply i_byte; auto|]. intros q b3 (B3 & P3 & C3).
    eapply triple_conseq; [apply i_value; auto|]. intros r b4 (B4 & bs & C4 & I4). split; [auto|]. exists name, ks, ([q] ++ bs).
    split; [eapply consumed_trans; [exact C2|]; eapply consumed_trans; eauto|]. split; [exact Q|exact I4].
  - eapply triple_conseq; [apply i_value; auto|]. intros r b2 (B2 & bs & C2 & I2). split; [auto|]. exists [], [], ([p] ++ bs).
    split; [change (consumed ([p] ++ bs) b b2); eapply consumed_trans; eauto|]. split; [auto|exact I2].
Qed.

(** * Whole documents *)
Lemma head_nonneg t n h : mp_head t n h -> 0 <= n.
Proof. intros H; destruct H; lia. Qed.
Lemma pk_cons t d its ks b bs : is_scope t = true -> (if ty_eqb t TObject then pk_key (mname d) ks else mname d = [] /\ ks = []) -> pk_doc d b -> pk_items t its bs ->
  pk_items t (d :: its) (ks ++ b ++ bs).
Proof.
  intros T K D I. destruct t; cbn [is_scope ty_eqb] in *; try discriminate T.
  all: first [now apply PKfield|destruct K as [N ->]; cbn [app]; now apply PKitem].
Qed.
Lemma i_source : forall F dp n0 t k j stk nx b, bytes_left b -> is_scope t = true -> 0 <= k -> 0 <= dp <= max_depth ->
  forall r b', run_block (ecomp msgp_read (read_source F dp n0) (with_top t k j stk nx)) b = Ok (r, b') ->
  exists its bs, bytes_left b' /\ consumed bs b b' /\ pk_items t (map mdoc_of its) bs /\ zlen its = k /\ all_shaped its /\
    r = (mkMsgp stk nx, add_items n0 its) /\ dp + Z.of_nat (deepest its) <= max_depth.
Proof.
  induction F as [|F IH]; intros dp n0 t k j stk nx b B T K D r b' E; [discriminate E|].
  cbn [read_source ecomp] in E. rewrite run_block_bind in E.
  destruct (Z.ltb_spec k 1) as [K1|K1].
  - unfold msgp_read, with_top in E. cbn [mp_stack ms_elems] in E. replace (k <? 1) with true in E by lia. cbn [run_block rbind mp_next] in E.
    change (v_type (val_type TScopeEnd)) with TScopeEnd in E. cbn [ty_eqb ecomp run_block] in E. injection E as <- <-.
    exists [], []. split; [auto|]. split; [apply consumed_nil|]. split; [constructor|]. split; [unfold zlen; cbn; lia|]. split; [constructor|]. split; [|cbn; lia].
    unfold add_items, vals_of, subs_of. cbn [flat_map]. rewrite !app_nil_r. now destruct n0.
  - pose proof (i_read_item t k j stk nx b B K1 T) as R. unfold triple in R.
    destruct (run_block (msgp_read (with_top t k j stk nx)) b) as [[[st1 [name v]] b1]| | |]; try discriminate E. cbn [rbind] in E.
    destruct R as (B1 & nm & ks & bs & C1 & N & [(v0 & R & G1 & G2)|(t1 & n1 & R & T1 & N1 & H1)]).
    + injection R as -> -> ->. destruct G1 as [V1 V2]. replace (ty_eqb (v_type v0) TScopeEnd) with false in E by (destruct (v_type v0); cbn; congruence).
      rewrite V1 in E. cbn [negb] in E. rewrite store_value_utf8 in E. cbn [elift ebind] in E.
      destruct (IH dp _ t (k - 1) j stk nx b1 B1 T ltac:(lia) D _ _ E) as (its & bs2 & B2 & C2 & I2 & L2 & S2 & -> & D2).
      exists (DVal nm v0 :: its), (ks ++ bs ++ bs2). split; [auto|]. split; [rewrite app_assoc; eapply consumed_trans; eauto|].
      split. { cbn [map]. apply pk_cons; auto. now constructor. }
      split; [rewrite zlen_cons; lia|]. split; [constructor; [split; auto|auto]|]. split.
      { unfold add_items. cbn [n_type n_values n_nodes vals_of subs_of flat_map app]. now rewrite <- app_assoc. }
      cbn [deepest fold_right depth]. change (fold_right _ 0%nat its) with (deepest its). lia.
    + injection R as -> -> ->. change (v_type (val_type t1)) with t1 in E. rewrite (scope_not_end t1 T1), T1 in E. cbn [negb] in E.
      destruct (Z.ltb_spec max_depth (dp + 1)) as [M|M]; [discriminate E|]. rewrite ecomp_bind in E. rewrite run_block_bind in E.
      destruct (run_block (ecomp msgp_read (read_source F (dp + 1) (empty_node t1)) _) b1) as [[r1 b2]| | |] eqn:E1; try discriminate E.
      cbn [mp_stack mp_next with_top] in E1. cbn [rbind] in E.
      destruct (IH (dp + 1) _ t1 n1 0%nat _ nx b1 B1 T1 N1 ltac:(lia) _ _ E1) as (sub & bs2 & B2 & C2 & I2 & L2 & S2 & -> & D2).
      rewrite store_node_utf8 in E. cbn [elift ebind] in E.
      destruct (IH dp _ t (k - 1) j stk nx b2 B2 T ltac:(lia) D _ _ E) as (its & bs3 & B3 & C3 & I3 & L3 & S3 & -> & D3).
      exists (DScope nm t1 sub :: its), (ks ++ (bs ++ bs2) ++ bs3). split; [auto|].
      split. { rewrite <- (app_assoc bs), app_assoc. eapply consumed_trans; [exact C1|]. eapply consumed_trans; eauto. }
      split. { cbn [map]. apply pk_cons; auto. cbn [mdoc_of]. apply PKscope; [|auto]. replace (zlen (map mdoc_of sub)) with n1; [exact H1|]. rewrite <- L2. unfold zlen. now rewrite map_length. }
      split; [rewrite zlen_cons; lia|]. split; [constructor; [apply shaped_scope; auto|auto]|]. split.
      { unfold add_items, subs_of, vals_of. cbn [n_type n_values n_nodes flat_map app]. rewrite doc_node_eq. now rewrite <- app_assoc. }
      cbn [deepest fold_right]. rewrite depth_scope. change (fold_right _ 0%nat its) with (deepest its). lia.
Qed.
Lemma lang_sound x F st src r b' : wf_bytes src -> run_block (load_tree x F (MsgpP st)) (set_block src) = Ok (r, b') ->
  exists t its bs, r = (MsgpP msgp_init, ([], doc_node (DScope [] t its))) /\ src = bs ++ b_rest b' /\ pk_doc (mdoc_of (DScope [] t its)) bs /\ shaped (DScope [] t its) /\ (depth (DScope [] t its) <= 129)%nat.
Proof.
  intros W E. unfold load_tree in E. cbn [parser_clear] in E. rewrite run_block_bind in E. unfold load_prog in E. cbn [ecomp] in E. rewrite run_block_bind in E.
  pose proof (i_read_root (msgp_clear st) (set_block src) W eq_refl) as R. unfold triple in R.
  destruct (run_block (msgp_read (msgp_clear st)) (set_block src)) as [[[st1 [name v]] b1]| | |]; try discriminate E. cbn [rbind] in E.
  destruct R as (B1 & bs & C1 & [(v0 & R & G1 & G2)|(t & n & R & T & N & H)]).
  - injection R as -> -> ->. destruct G1 as [V1 V2]. rewrite V1 in E. discriminate E.
  - injection R as -> -> ->. change (v_type (val_type t)) with t in E. rewrite T in E. cbn [negb] in E. rewrite ecomp_bind, run_block_bind in E.
    destruct (run_block (ecomp msgp_read (read_source F 0 (empty_node t)) _) b1) as [[r1 b2]| | |] eqn:E1; try discriminate E.
    cbn [mp_stack mp_next msgp_clear] in E1.
    destruct (i_source F 0 (empty_node t) t n 0%nat [] 0%nat b1 B1 T N ltac:(unfold max_depth; lia) _ _ E1) as (its & bs2 & B2 & C2 & I2 & L2 & S2 & -> & D2).
    cbn [rbind ecomp run_block] in E. injection E as <- <-. exists t, its, (bs ++ bs2). split; [now rewrite doc_node_eq|].
    split. { destruct (consumed_trans _ _ _ _ _ C1 C2) as [C _]. exact C. }
    split. { cbn [mdoc_of]. apply PKscope; [|auto]. replace (zlen (map mdoc_of its)) with n; [exact H|]. rewrite <- L2. unfold zlen. now rewrite map_length. }
    split; [apply shaped_scope; auto|]. rewrite depth_scope. unfold max_depth in D2. lia.
Qed.

(** * What is in the language is read *)
Lemma pk_str_reads s b : pk_str s b ->
  exists p bs, b = p :: bs /\ 0 <= p < 256 /\ prefix_is_str p = true /\ prefix_is_scope p = false /\
    reads (mp_read_str p) bs (val_block_enc s TString EUTF8) /\ zlen s < two32.
Proof.
  intros H. destruct H as [s L|s L|s L|s L]; pose proof (zlen_nonneg s).
  - destruct (str_conf_reads s _ (MPfixstr false s L)) as (p & bs & E & A & B & C & D). pose proof (f_equal (hd 0) E) as E1. cbn [hd] in E1. exists p, bs. split; [exact E|]. split; [lia|]. split; [exact A|]. split; [exact B|]. split; [exact C|unfold_words; lia].
  - destruct (str_conf_reads s _ (MPstr8 false s L)) as (p & bs & E & A & B & C & D). exists p, bs. rewrite be1 in E by lia. injection E as <- <-. cbn [app]. split; [reflexivity|]. split; [lia|]. split; [exact A|]. split; [exact B|]. split; [exact C|unfold_words; lia].
  - eexists _, _. split; [reflexivity|]. split; [lia|]. split; [reflexivity|]. split; [reflexivity|]. split; [|unfold_words; lia].
    unfold mp_read_str, mp_str_size; cbn [Z.leb Z.eqb Z.compare Pos.compare Pos.compare_cont Pos.eqb andb].
    rewrite rev_be. eapply reads_bind; [apply reads_le; [reflexivity|cbn; lia|reflexivity]|].
    eapply reads_bind0; [apply reads_block'; [reflexivity|unfold_words; lia]|]. apply reads_ret.
  - eexists _, _. split; [reflexivity|]. split; [lia|]. split; [reflexivity|]. split; [reflexivity|]. split; [|unfold_words; lia].
    unfold mp_read_str, mp_str_size; cbn [Z.leb Z.eqb Z.compare Pos.compare Pos.compare_cont Pos.eqb andb].
    rewrite rev_be. eapply reads_bind; [apply reads_le; [reflexivity|cbn; lia|reflexivity]|].
    eapply reads_bind0; [apply reads_block'; [reflexivity|unfold_words; lia]|]. apply reads_ret.
Qed.
Lemma pk_value_reads m b : pk_value m b ->
  exists v p bs, b = p :: bs /\ meaning_of v = m /\ is_scope (v_type v) = false /\ v_type v <> TScopeEnd /\
    forall st name, reads (mp_read_value st name p) bs (st, (name, v)).
Proof.
  intros H. destruct H as [m b H| |s b H|s L|s L].
  - now apply value_conf_reads.
  - exists (val_int TI32 (-31)), 193, []. split; [reflexivity|]. split; [reflexivity|]. split; [reflexivity|]. split; [discriminate|]. intros st name.
    unfold mp_read_value. cbn [Z.leb Z.eqb Z.compare Pos.compare Pos.compare_cont Pos.eqb andb orb prefix_is_scope prefix_is_str prefix_is_scalar mp_read_scalar].
    change (mp_read_fixnum 193) with (val_int TI32 (-31)). apply reads_ret.
  - destruct (pk_str_reads s b H) as (p & bs & -> & P & S1 & S2 & R & L). exists (val_block_enc s TString EUTF8), p, bs. split; [reflexivity|].
    split. { unfold meaning_of, val_block_enc. cbn [v_type v_data]. now rewrite trunc_block_id by exact L. }
    split; [reflexivity|]. split; [discriminate|]. intros st name. unfold mp_read_value. rewrite S2, S1. eapply reads_bind0; [exact R|]. apply reads_ret.
  - exists (val_block s TBinary). eexists _, _. split; [reflexivity|]. pose proof (zlen_nonneg s).
    split. { unfold meaning_of, val_block. cbn [v_type v_data]. rewrite trunc_block_id by (unfold_words; lia). reflexivity. }
    split; [reflexivity|]. split; [discriminate|]. intros st name. unfold mp_read_value.
    cbn [Z.leb Z.eqb Z.compare Pos.compare Pos.compare_cont Pos.eqb andb orb prefix_is_scope prefix_is_str prefix_is_scalar prefix_is_bin].
    eapply reads_bind0; [|apply reads_ret]. unfold mp_read_bin, mp_bin_size. cbn [Z.eqb Pos.eqb].
    rewrite rev_be. eapply reads_bind; [apply reads_le; [reflexivity|cbn; lia|reflexivity]|].
    eapply reads_bind0; [apply reads_block'; [reflexivity|unfold_words; lia]|]. apply reads_ret.
  - exists (val_block s TBinary). eexists _, _. split; [reflexivity|]. pose proof (zlen_nonneg s).
    split. { unfold meaning_of, val_block. cbn [v_type v_data]. rewrite trunc_block_id by (unfold_words; lia). reflexivity. }
    split; [reflexivity|]. split; [discriminate|]. intros st name. unfold mp_read_value.
    cbn [Z.leb Z.eqb Z.compare Pos.compare Pos.compare_cont Pos.eqb andb orb prefix_is_scope prefix_is_str prefix_is_scalar prefix_is_bin].
    eapply reads_bind0; [|apply reads_ret]. unfold mp_read_bin, mp_bin_size. cbn [Z.eqb Pos.eqb].
    rewrite rev_be. eapply reads_bind; [apply reads_le; [reflexivity|cbn; lia|reflexivity]|].
    eapply reads_bind0; [apply reads_block'; [reflexivity|unfold_words; lia]|]. apply reads_ret.
Qed.

Definition pk_reads (d : doc) (b : bytes) : Prop :=
  (doc_name d = [] -> forall n, reads (read_events msgp_read (length (events d)) (mkMsgp [] n)) b (mkMsgp [] n, events d)) /\
  (doc_name d = [] -> forall k j r n, 1 <= k ->
     reads (read_events msgp_read (length (events d)) (with_top TArray k j r n)) b (with_top TArray (k - 1) j r n, events d)) /\
  (forall key, pk_key (doc_name d) key -> forall k j r n, 1 <= k ->
     reads (read_events msgp_read (length (events d)) (with_top TObject k j r n)) (key ++ b) (with_top TObject (k - 1) j r n, events d)).

Lemma pk_first name p bs b2 st2 m evs (v : value) :
  (forall st, exists st', reads (mp_read_value st name p) bs (st', (name, v)) /\ st' = st2 st) ->
  (forall st, reads (read_events msgp_read m (st2 st)) b2 (st, evs)) ->
  (name = [] -> forall n, reads (read_events msgp_read (S m) (mkMsgp [] n)) ((p :: bs) ++ b2) (mkMsgp [] n, (name, v) :: evs)) /\
  (name = [] -> forall k j r n, 1 <= k ->
     reads (read_events msgp_read (S m) (with_top TArray k j r n)) ((p :: bs) ++ b2) (with_top TArray (k - 1) j r n, (name, v) :: evs)) /\
  (forall key, pk_key name key -> forall k j r n, 1 <= k ->
     reads (read_events msgp_read (S m) (with_top TObject k j r n)) (key ++ (p :: bs) ++ b2) (with_top TObject (k - 1) j r n, (name, v) :: evs)).
Proof.
  intros HV HR. destruct (first_event name p bs b2 st2 m evs v HV HR) as (F1 & F2 & _). split; [exact F1|]. split; [exact F2|].
  intros key Hk k j r n K. rewrite app_assoc. eapply reads_events_cons; [|apply HR]. unfold msgp_read, with_top. cbn [mp_stack ms_elems ms_type ms_ticket mp_next].
  replace (k <? 1) with false by lia. cbn [ty_eqb].
  destruct (HV (mkMsgp (mkScope TObject (k - 1) j :: r) n)) as (st' & R & ->). destruct Hk as [s key Hk|q Q1 Q2].
  - destruct (pk_str_reads s key Hk) as (q & qs & -> & P & S1 & S2 & RQ & L). rewrite <- app_comm_cons.
    apply (reads_bind _ _ [q] (qs ++ p :: bs) q); [apply reads_byte|]. rewrite S1.
    apply reads_bind with (a := s).
    + unfold mp_read_name. eapply reads_bind0; [exact RQ|]. unfold val_block_enc. cbn [v_data]. rewrite trunc_block_id by exact L. apply reads_ret.
    + apply (reads_bind _ _ [p] bs p); [apply reads_byte|exact R].
  - apply (reads_bind _ _ [q] (p :: bs) q); [apply reads_byte|]. replace (prefix_is_str q) with false by (unfold str_byte in Q2; unfold prefix_is_str; lia).
    apply (reads_bind _ _ [] (p :: bs) []); [apply reads_ret|]. apply (reads_bind _ _ [p] bs p); [apply reads_byte|exact R].
Qed.

Lemma pk_all m b : pk_doc m b -> exists d, mdoc_of d = m /\ shaped d /\ pk_reads d b.
Proof.
  intros H. induction H as [n m b Hv|n t its h bs Hh Hi IHi|t|d its k b bs Hk Hd IHd Hi IHi|d its b bs Hn Hd IHd Hi IHi]
    using pk_doc_ind2 with (P0 := fun t its bs _ => forall x, mp_head t (zlen its) x ->
      exists ds, map mdoc_of ds = its /\ all_shaped ds /\ forall j r n,
        reads (read_events msgp_read (length (flat_map events ds)) (with_top t (zlen its) j r n)) bs (with_top t 0 j r n, flat_map events ds)).
  - destruct (pk_value_reads m b Hv) as (v & p & bs & -> & M & Sc & Se & R). exists (DVal n v). cbn [mdoc_of]. rewrite M. split; [reflexivity|]. split; [split; auto|].
    unfold pk_reads. cbn [doc_name events length]. rewrite <- (app_nil_r (p :: bs)).
    apply (pk_first n p bs [] (fun st => st) 0 [] v).
    + intros st. exists st. split; [apply R|reflexivity].
    + intros st. apply reads_events_nil.
  - destruct (IHi h Hh) as (ds & <- & Sh & R). destruct (head_conf_reads _ _ _ Hh) as (Rn & T & p & ps & -> & P1 & P2 & RH).
    exists (DScope n t ds). split; [reflexivity|]. split; [apply shaped_scope; split; [destruct T; subst; reflexivity|auto]|]. unfold pk_reads. cbn [doc_name events length].
    apply (pk_first n p ps bs (fun st => mkMsgp (mkScope t (zlen (map mdoc_of ds)) 0 :: mp_stack st) (mp_next st))
             (length (flat_map events ds ++ [ev_end])) (flat_map events ds ++ [ev_end]) (val_type t)).
    + intros st. eexists. split; [|reflexivity]. unfold mp_read_value. rewrite P1. eapply reads_bind0; [exact RH|]. cbv beta iota.
      unfold u32. rewrite Z.mod_small by (unfold two32; lia). apply reads_ret.
    + intros st. rewrite app_length. rewrite <- (app_nil_r bs). eapply reads_events_app; [apply (R 0%nat (mp_stack st) (mp_next st))|].
      cbn [length]. rewrite <- (app_nil_r []). destruct st as [stk nx]. eapply reads_events_cons; [apply reads_msgp_end|apply reads_events_nil].
  - intros x Hx. exists []. split; [reflexivity|]. split; [constructor|]. intros j r n. apply reads_events_nil.
  - intros x Hx. destruct IHd as (d0 & <- & S0 & _ & _ & R3).
    destruct (head_conf_reads _ _ _ Hx) as ((N1 & N2) & _).
    destruct (IHi (223 :: be 4 (zlen its))) as (ds & <- & Sh & R). { apply MPmap32. rewrite zlen_cons in N2. pose proof (zlen_nonneg its). lia. }
    exists (d0 :: ds). split; [reflexivity|]. split; [constructor; auto|]. intros j r n. cbn [flat_map]. rewrite app_length, app_assoc.
    rewrite mname_mdoc in Hk.
    eapply reads_events_app; [apply (R3 k Hk); rewrite zlen_cons; pose proof (zlen_nonneg (map mdoc_of ds)); lia|].
    replace (zlen (mdoc_of d0 :: map mdoc_of ds) - 1) with (zlen (map mdoc_of ds)) by (rewrite zlen_cons; lia). apply R.
  - intros x Hx. destruct IHd as (d0 & <- & S0 & _ & R2 & _). rewrite mname_mdoc in Hn.
    destruct (head_conf_reads _ _ _ Hx) as ((N1 & N2) & _).
    destruct (IHi (221 :: be 4 (zlen its))) as (ds & <- & Sh & R). { apply MParray32. rewrite zlen_cons in N2. pose proof (zlen_nonneg its). lia. }
    exists (d0 :: ds). split; [reflexivity|]. split; [constructor; auto|]. intros j r n. cbn [flat_map]. rewrite app_length.
    eapply reads_events_app; [apply (R2 Hn); rewrite zlen_cons; pose proof (zlen_nonneg (map mdoc_of ds)); lia|].
    replace (zlen (mdoc_of d0 :: map mdoc_of ds) - 1) with (zlen (map mdoc_of ds)) by (rewrite zlen_cons; lia). apply R.
Qed.

Lemma lang_complete x st m bs : pk_doc m bs -> is_root m ->
  exists d, mdoc_of d = m /\ forall F rest, (length (events d) <= F)%nat ->
    run_block (load_tree x F (MsgpP st)) (set_block (bs ++ rest)) =
      if Nat.leb (depth d) 129 then Ok ((MsgpP msgp_init, ([], doc_node d)), mkBlk (rev bs) rest) else Err.
Proof.
  intros P R. destruct (pk_all m bs P) as (d & M & Sh & R1 & _). exists d. split; [exact M|]. intros F rest L.
  destruct d as [n v|n t its]; cbn [mdoc_of] in M; subst m; [contradiction|]. destruct n; [|contradiction].
  specialize (R1 eq_refl 0%nat [] rest). change (mkBlk [] (bs ++ rest)) with (set_block (bs ++ rest)) in R1. rewrite app_nil_r in R1.
  pose proof (load_events (DScope [] t its) [] F Sh Logic.I L) as E. rewrite app_nil_r in E.
  unfold load_tree. cbn [parser_clear]. rewrite run_block_bind. change (msgp_clear st) with (mkMsgp [] 0).
  destruct (Nat.leb _ _).
  - rewrite (ecomp_block msgp_read _ _ _ _ _ _ _ _ R1 E). reflexivity.
  - rewrite (ecomp_block_err msgp_read _ _ _ _ _ _ _ R1 E). reflexivity.
Qed.
Lemma lang_reject x F st src : wf_bytes src -> (2 * length src < F)%nat ->
  (forall m bs rest, src = bs ++ rest -> pk_doc m bs -> ~ is_root m) -> run_block (load_tree x F (MsgpP st)) (set_block src) = Err.
Proof.
  intros W L N. pose proof (load_any x (MsgpP st) F src W L) as T. unfold triple in T.
  destruct (run_block (load_tree x F (MsgpP st)) (set_block src)) as [[r b']| | |] eqn:E; [|reflexivity|contradiction|contradiction].
  destruct (lang_sound x F st src r b' W E) as (t & its & bs & _ & S & P & _). exfalso. exact (N _ _ _ S P Logic.I).
Qed.

(** * How it relates to MessagePack *)
Lemma pk_str_narrow s b : pk_str s b -> Forall (fun p => ~ deviant p) b -> mp_str false s b.
Proof.
  intros H N. destruct H as [s L|s L|s L|s L]; pose proof (zlen_nonneg s).
  - now constructor.
  - rewrite <- (be1 (zlen s)) by lia. now constructor.
  - inversion N as [|? ? D _]; subst. exfalso. apply D. cbn; tauto.
  - inversion N as [|? ? D _]; subst. exfalso. apply D. cbn; tauto.
Qed.
Lemma pk_value_narrow m b : pk_value m b -> Forall (fun p => ~ deviant p) b -> mp_value false m b.
Proof.
  intros H N. destruct H as [m b H| |s b H|s L|s L]; [exact H| |apply MPstr; now apply pk_str_narrow| |].
  all: inversion N as [|? ? D _]; subst; exfalso; apply D; cbn; tauto.
Qed.
Lemma pk_narrow m b : pk_doc m b -> all_named m -> Forall (fun p => ~ deviant p) b -> mp_doc false m b.
Proof.
  intros H. induction H as [n m b Hv|n t its h bs Hh Hi IHi|t|d its k b bs Hk Hd IHd Hi IHi|d its b bs Hn Hd IHd Hi IHi]
    using pk_doc_ind2 with (P0 := fun t its bs _ => Forall all_named its -> (t = TObject -> Forall (fun d => mname d <> []) its) -> Forall (fun p => ~ deviant p) bs -> mp_items false t its bs).
  - intros _ N. constructor. now apply pk_value_narrow.
  - intros A N. apply Forall_app in N. inversion A; subst. constructor; [exact Hh|]. apply IHi; tauto.
  - constructor.
  - intros A B N. apply Forall_app in N. destruct N as [N1 N]. apply Forall_app in N. inversion A; subst. specialize (B eq_refl). inversion B; subst.
    apply MPfield; [|tauto|apply IHi; tauto]. destruct Hk as [s k Hk|p _ _]; [now apply pk_str_narrow|congruence].
  - intros A B N. apply Forall_app in N. inversion A; subst. apply MPitem; [exact Hn|tauto|apply IHi; [tauto|discriminate|tauto]].
Qed.
Lemma mp_str_first w s b : mp_str w s b -> exists p bs, b = p :: bs /\ 160 <= p.
Proof. intros H. destruct H; eexists _, _; (split; [reflexivity|]); pose proof (zlen_nonneg s); lia. Qed.
Lemma mp_value_first w m b : mp_value w m b -> exists p bs, b = p :: bs /\ p <> 193 /\ p <> 145 /\ p <> 129.
Proof.
  intros H. destruct H; try (eexists _, _; split; [reflexivity|lia]).
  match goal with H : mp_str _ _ _ |- _ => destruct H end; eexists _, _; (split; [reflexivity|]); pose proof (zlen_nonneg s); lia.
Qed.
Lemma mp_head_first t n h : mp_head t n h -> exists p bs, h = p :: bs /\ p <> 193 /\ (p = 145 -> t = TArray /\ n = 1 /\ bs = []) /\ (p = 129 -> t = TObject /\ n = 1 /\ bs = []).
Proof. intros H. destruct H; eexists _, _; (split; [reflexivity|]); (split; [lia|]); split; intros; repeat split; lia. Qed.
Lemma mp_first w m b : mp_doc w m b -> exists p bs, b = p :: bs /\ p <> 193 /\
  (p = 145 -> exists d, mp_doc w d bs) /\ (p = 129 -> exists k k' c, mp_str w k k' /\ bs = k' ++ c).
Proof.
  intros H. destruct H as [n m b H|n t its h bs Hh Hi].
  - destruct (mp_value_first w m b H) as (p & bs & -> & A & B & C). exists p, bs. split; [reflexivity|]. split; [exact A|]. split; congruence.
  - destruct (mp_head_first t _ h Hh) as (p & ps & -> & A & B & C). exists p, (ps ++ bs). split; [reflexivity|]. split; [exact A|]. split; intros E.
    + destruct (B E) as (-> & L & ->). inversion Hi; subst; [discriminate L|]. rewrite zlen_cons in L.
      match goal with H : mp_items _ _ ?l _ |- _ => destruct l as [|x l]; [|rewrite zlen_cons in L; pose proof (zlen_nonneg l); lia]; inversion H; subst end.
      cbn [app]. rewrite app_nil_r. eauto.
    + destruct (C E) as (-> & L & ->). inversion Hi; subst; [discriminate L|]. cbn [app]. eauto.
Qed.
Lemma not_msgpack_193 w m bs rest : [145; 193] = bs ++ rest -> ~ mp_doc w m bs.
Proof.
  intros E H. destruct (mp_first w m bs H) as (p & ps & -> & _ & A & _). cbn [app] in E. injection E as <- E. destruct (A eq_refl) as (d & D).
  destruct (mp_first w d ps D) as (q & qs & -> & N & _). cbn [app] in E. injection E as <- _. now apply N.
Qed.
Lemma not_msgpack_key w m bs rest : [129; 205; 1; 44; 2] = bs ++ rest -> ~ mp_doc w m bs.
Proof.
  intros E H. destruct (mp_first w m bs H) as (p & ps & -> & _ & _ & A). cbn [app] in E. injection E as <- E. destruct (A eq_refl) as (k & k' & c & K & ->).
  remember (205 :: [1; 44; 2]) as l eqn:El. rewrite <- app_assoc in E. revert E El. generalize (c ++ rest). intros r E El.
  destruct K as [s L|s L|s _ L|s _ L]; rewrite El in E; cbn [app] in E; try discriminate E. pose proof (f_equal (hd 0) E) as X. cbn [hd] in X. lia.
Qed.

(** * One reading *)
Lemma events_prefix : forall d d' a b, shaped d -> shaped d' -> events d ++ a = events d' ++ b -> d = d' /\ a = b.
Proof.
  induction d as [n v|n t its IH] using doc_ind2; intros d' a b S S' E; destruct d' as [n' v'|n' t' its'].
  - injection E as -> -> ->. auto.
  - exfalso. cbn [events app] in E. injection E as -> -> _. apply shaped_scope in S'. destruct S as [S _]. cbn in S. destruct S'. congruence.
  - exfalso. cbn [events app] in E. injection E as -> <- _. apply shaped_scope in S. destruct S' as [S' _]. cbn in S'. destruct S. congruence.
  - apply shaped_scope in S. apply shaped_scope in S'. destruct S as [_ S]. destruct S' as [_ S'].
    assert (Vt : v_type (val_type t) = v_type (val_type t')) by (cbn [events app] in E; congruence).
    cbn [events app] in E. rewrite <- !app_assoc in E. cbn [app] in E. assert (Nn : n = n') by congruence.
    assert (E' : flat_map events its ++ ev_end :: a = flat_map events its' ++ ev_end :: b) by congruence. clear E.
    assert (L : its = its' /\ a = b).
    { clear Vt Nn. revert its' S' E'. induction IH as [|x l Hx Hl IHl]; intros its' S' E'.
      - destruct its' as [|x' l']; [cbn in E'; injection E' as ->; auto|]. exfalso. inversion S' as [|? ? Sx _]; subst. cbn [flat_map app] in E'. rewrite <- app_assoc in E'.
        destruct x' as [n0 v0|n0 t0 i0]; cbn [events app] in E'; injection E' as _ E' _.
        + subst v0. destruct Sx as [_ Sx]. now apply Sx.
        + apply shaped_scope in Sx. destruct Sx as [Sx _]. subst t0. discriminate Sx.
      - inversion S as [|? ? S1 S2]; subst. destruct its' as [|x' l'].
        + exfalso. cbn [flat_map app] in E'. rewrite <- app_assoc in E'.
          destruct x as [n0 v0|n0 t0 i0]; cbn [events app] in E'; injection E' as _ E' _.
          * subst v0. destruct S1 as [_ Sx]. now apply Sx.
          * apply shaped_scope in S1. destruct S1 as [Sx _]. subst t0. discriminate Sx.
        + inversion S' as [|? ? S1' S2']; subst. cbn [flat_map] in E'. rewrite <- !app_assoc in E'. destruct (Hx x' _ _ S1 S1' E') as [-> E2].
          destruct (IHl S2 l' S2' E2) as [-> ->]. auto. }
    destruct L as [-> ->]. change t with (v_type (val_type t)). rewrite Vt, Nn. auto.
Qed.
Lemma one_reading_le d d' bs bs' r r' : shaped d -> shaped d' -> doc_name d = [] -> doc_name d' = [] -> pk_reads d bs -> pk_reads d' bs' -> bs ++ r = bs' ++ r' ->
  (length (events d) <= length (events d'))%nat -> d = d' /\ bs = bs'.
Proof.
  intros S S' N N' [R _] [R' _] E L. specialize (R N 0%nat [] r). specialize (R' N' 0%nat [] r'). rewrite <- E in R'. pose proof R' as R0.
  replace (length (events d')) with (length (events d) + (length (events d') - length (events d)))%nat in R' by lia.
  pose proof (read_events_app msgp_read (length (events d)) (length (events d') - length (events d)) (mkMsgp [] 0)) as A. rewrite A in R'. clear A.
  rewrite run_block_bind, R in R'. cbn [rbind] in R'. rewrite run_block_bind in R'.
  destruct (run_block (read_events msgp_read (length (events d') - length (events d)) (mkMsgp [] 0)) _) as [[[st2 e2] b2]| | |]; try discriminate R'. cbn [rbind run_block] in R'.
  assert (Ev : events d ++ e2 = events d') by congruence. destruct (events_prefix d d' e2 [] S S') as [-> _]; [now rewrite app_nil_r|]. split; [reflexivity|].
  rewrite R in R0. assert (X : rev bs ++ [] = rev bs' ++ []) by congruence. rewrite !app_nil_r in X. apply (f_equal (@rev Z)) in X. now rewrite !rev_involutive in X.
Qed.
Lemma one_reading m m' bs bs' r r' : pk_doc m bs -> pk_doc m' bs' -> mname m = [] -> mname m' = [] -> bs ++ r = bs' ++ r' -> m = m' /\ bs = bs'.
Proof.
  intros P P' N N' E. destruct (pk_all m bs P) as (d & <- & S & R). destruct (pk_all m' bs' P') as (d' & <- & S' & R'). rewrite mname_mdoc in N, N'.
  destruct (Nat.le_ge_cases (length (events d)) (length (events d'))) as [L|L].
  - destruct (one_reading_le d d' bs bs' r r' S S' N N' R R' E L) as [-> ->]. auto.
  - destruct (one_reading_le d' d bs' bs r' r S' S N' N R' R (eq_sym E) L) as [-> ->]. auto.
Qed.
