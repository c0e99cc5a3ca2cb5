(** Proofs about MessagePack values and documents. *)
From Coq Require Import ZArith List Bool Lia ZifyBool ZifyNat.
From Verif Require Import Base Lemmas M_Types M_Conv M_In S_Doc M_OutOps S_Out M_Event S_MsgPack M_MsgPack P_In P_Reads P_Float P_Doc P_PSrlDoc.
Import ListNotations.
Open Scope Z_scope.

(** facts about single bytes by enumeration *)
Lemma byte_cases (f : Z -> bool) : forallb f (map Z.of_nat (seq 0 256)) = true -> forall p, 0 <= p < 256 -> f p = true.
Proof.
  intros H p Hp. rewrite forallb_forall in H. apply H. apply in_map_iff. exists (Z.to_nat p). split; [lia|]. apply in_seq. lia.
Qed.

Lemma swapped_length n x : length (swapped n x) = n.
Proof. unfold swapped. now rewrite rev_length, le_length. Qed.
Lemma unle_swapped n x : 0 <= x < 256 ^ Z.of_nat n -> unle (rev (swapped n x)) = x.
Proof. intros. unfold swapped. rewrite rev_involutive. now apply unle_le. Qed.
Lemma le_snoc n : forall x, le (S n) x = le n x ++ [(x / 256 ^ Z.of_nat n) mod 256].
Proof.
  induction n as [|n IH]; intros x; [cbn; now rewrite Z.div_1_r|].
  change (le (S (S n)) x) with (x mod 256 :: le (S n) (x / 256)). rewrite IH. cbn [le app]. do 3 f_equal.
  rewrite Z.div_div by (try apply Z.pow_pos_nonneg; lia). do 2 f_equal.
  replace (Z.of_nat (S n)) with (1 + Z.of_nat n) by lia. rewrite Z.pow_add_r by lia. reflexivity.
Qed.
Lemma swapped_be n x : swapped n x = be n x.
Proof.
  induction n as [|n IH]; [reflexivity|]. unfold swapped in *. rewrite le_snoc, rev_app_distr. cbn [rev app be]. now rewrite IH.
Qed.
Lemma reads_swapped k n x : k = Z.of_nat n -> 0 <= x < 256 ^ k -> k < two63 -> reads (read_swapped k) (swapped n x) x.
Proof.
  intros -> H K. unfold read_swapped. apply reads_bind0 with (a := swapped n x).
  - apply reads_block'; [unfold zlen; now rewrite swapped_length|auto].
  - rewrite unle_swapped by auto. apply reads_ret.
Qed.

(** what a value is read back as *)
Definition mp_norm_v (v : value) : value :=
  match v_type v with
  | TFP32 => val_f32 (v_raw v)
  | TFP64 => val_f64 (v_raw v)
  | TBool => val_bool (negb (v_raw v =? 0))
  | TString => val_block_enc (v_data v) TString EUTF8
  | TBinary => val_block (v_data v) TBinary
  | TNull | TObject | TArray | TScopeEnd => val_type (v_type v)
  | t => let n := int_value v in
         if ((0 <=? n) && (n <=? 127)) || (is_signed t && (-31 <=? n) && (n <=? -1)) then val_int TI32 n else val_int t n
  end.

Lemma mp_norm_meaning v : wf_value v -> meaning_of (mp_norm_v v) = meaning_of v.
Proof.
  intros W. unfold wf_value in W. unfold mp_norm_v. unfold meaning_of at 2.
  assert (I : forall t n (c : bool), in_range t n -> v_raw v = u64 n -> v_type v = t -> (c = true -> -31 <= n <= 127) ->
     In t [TI8; TUI8; TI16; TUI16; TI32; TUI32; TI64; TUI64] ->
     int_value v = n /\ meaning_of (if c then val_int TI32 n else val_int t n) = MeInt n).
  { intros t n c Rn Raw Vt Hc It. split.
    - unfold int_value. rewrite Vt, Raw. unfold in_range in Rn.
      cbn in It; repeat (destruct It as [<-|It];
        [cbn in Rn |- *; first [apply s64_u64; unfold_words; lia | apply Z.mod_small; unfold_words; lia]|]); contradiction.
    - destruct c; apply meaning_int; auto; [cbn; tauto|]. specialize (Hc eq_refl). unfold in_range. cbn. unfold_words. lia. }
  assert (J : forall t n, in_range t n -> v_raw v = u64 n -> v_type v = t ->
     In t [TI8; TUI8; TI16; TUI16; TI32; TUI32; TI64; TUI64] ->
     meaning_of (let n := int_value v in
         if ((0 <=? n) && (n <=? 127)) || (is_signed t && (-31 <=? n) && (n <=? -1)) then val_int TI32 n else val_int t n) = MeInt (int_value v)).
  { intros t n Rn Raw Vt It.
    destruct (I t n (((0 <=? n) && (n <=? 127)) || (is_signed t && (-31 <=? n) && (n <=? -1))) Rn Raw Vt ltac:(lia) It) as [-> E]. exact E. }
  destruct (v_type v) eqn:Vt; try contradiction;
    try (destruct W as (n & Rn & Raw); exact (J _ n Rn Raw eq_refl ltac:(cbn; tauto))).
  - destruct W as [-> | ->]; reflexivity.
  - unfold meaning_of, val_f32. cbn [v_type]. unfold v_double. cbn [v_type v_raw]. rewrite Vt. reflexivity.
  - assert (M : meaning_of (val_f64 (v_raw v)) = MeFloat (v_double (val_f64 (v_raw v)))).
    { unfold meaning_of, val_f64. destruct (narrow64 (v_raw v)); reflexivity. }
    rewrite M, val_f64_roundtrip by exact W. unfold v_double. rewrite Vt. reflexivity.
  - reflexivity.
  - unfold val_block_enc, meaning_of. cbn [v_type v_data]. rewrite trunc_block_id by (unfold_words; lia). reflexivity.
  - unfold val_block, meaning_of. cbn [v_type v_data]. rewrite trunc_block_id by (unfold_words; lia). reflexivity.
Qed.

(** * strings and names *)
Lemma write_str_reads b : wf_name b -> writes_only (mp_write_str b) /\
  exists p bs, flat (mp_write_str b) = p :: bs /\ prefix_is_str p = true /\ prefix_is_scope p = false /\
    reads (mp_read_str p) bs (val_block_enc b TString EUTF8).
Proof.
  intros [W L]. pose proof (zlen_nonneg b) as N. unfold mp_write_str.
  destruct (zlen b <=? 31) eqn:E1.
  - split; [wo|]. cbn [app flat flat_map]. rewrite app_nil_r. exists (Z.lor 160 (zlen b)), b. split; [reflexivity|].
    pose proof (byte_cases (fun p => let q := Z.lor 160 p in (31 <? p) || prefix_is_str q && negb (prefix_is_scope q) && (160 <=? q) && (q <=? 191) && (Z.land q 31 =? p)) eq_refl (zlen b) ltac:(lia)) as B.
    cbv beta zeta in B. set (q := Z.lor 160 (zlen b)) in *.
    apply orb_prop in B. destruct B as [B|B]; [lia|]. repeat (apply andb_prop in B; destruct B as [B ?]).
    split; [assumption|]. split; [now apply negb_true_iff|]. unfold mp_read_str, mp_str_size. replace ((160 <=? q) && (q <=? 191)) with true by lia.
    cbn [pbind]. eapply reads_bind0; [apply reads_block'; [lia|unfold_words; lia]|]. apply reads_ret.
  - destruct (zlen b <=? 254) eqn:E2; [|destruct (zlen b <=? 65534) eqn:E3]; (split; [wo|]); cbn [app flat flat_map];
    rewrite app_nil_r; (eexists _, _; split; [reflexivity|]; split; [reflexivity|]; split; [reflexivity|]);
    unfold mp_read_str, mp_str_size; cbn [Z.leb Z.eqb Z.compare Pos.compare Pos.compare_cont Pos.eqb andb].
    + replace (u8 (zlen b)) with (zlen b) by (unfold u8; rewrite Z.mod_small; unfold two8; lia).
      apply (reads_bind _ _ [zlen b] b (zlen b)); [apply reads_byte|].
      eapply reads_bind0; [apply reads_block'; [lia|unfold_words; lia]|]. apply reads_ret.
    + apply (reads_bind _ _ (le 2 (zlen b)) b (zlen b)); [apply reads_le; [reflexivity|lia|reflexivity]|].
      eapply reads_bind0; [apply reads_block'; [lia|unfold_words; lia]|]. apply reads_ret.
    + replace (u32 (zlen b)) with (zlen b) by (unfold u32; rewrite Z.mod_small; unfold two32; lia).
      apply (reads_bind _ _ (le 4 (zlen b)) b (zlen b)); [apply reads_le; [reflexivity|lia|reflexivity]|].
      eapply reads_bind0; [apply reads_block'; [lia|unfold_words; lia]|]. apply reads_ret.
Qed.
Lemma write_bin_reads b : wf_name b -> writes_only (mp_write_bin b) /\
  exists p bs, flat (mp_write_bin b) = p :: bs /\ prefix_is_bin p = true /\ prefix_is_str p = false /\
    prefix_is_scope p = false /\ prefix_is_scalar p = false /\
    reads (mp_read_bin p) bs (val_block b TBinary).
Proof.
  intros [W L]. pose proof (zlen_nonneg b) as N. unfold mp_write_bin.
  destruct (zlen b <=? 255) eqn:E2; [|destruct (zlen b <=? 65534) eqn:E3]; (split; [wo|]); cbn [app flat flat_map];
    rewrite app_nil_r; (eexists _, _; split; [reflexivity|]; do 4 (split; [reflexivity|]));
    unfold mp_read_bin, mp_bin_size; cbn [Z.leb Z.eqb Z.compare Pos.compare Pos.compare_cont Pos.eqb andb].
    + replace (u8 (zlen b)) with (zlen b) by (unfold u8; rewrite Z.mod_small; unfold two8; lia).
      apply (reads_bind _ _ [zlen b] b (zlen b)); [apply reads_byte|].
      eapply reads_bind0; [apply reads_block'; [lia|unfold_words; lia]|]. apply reads_ret.
    + apply (reads_bind _ _ (le 2 (zlen b)) b (zlen b)); [apply reads_le; [reflexivity|lia|reflexivity]|].
      eapply reads_bind0; [apply reads_block'; [lia|unfold_words; lia]|]. apply reads_ret.
    + replace (u32 (zlen b)) with (zlen b) by (unfold u32; rewrite Z.mod_small; unfold two32; lia).
      apply (reads_bind _ _ (le 4 (zlen b)) b (zlen b)); [apply reads_le; [reflexivity|lia|reflexivity]|].
      eapply reads_bind0; [apply reads_block'; [lia|unfold_words; lia]|]. apply reads_ret.
Qed.

(** * integers *)
Definition int_types := [TI8; TUI8; TI16; TUI16; TI32; TUI32; TI64; TUI64].

Lemma to_signed_mod k n : (0 < k)%nat -> - (256 ^ Z.of_nat k / 2) <= n < 256 ^ Z.of_nat k / 2 -> to_signed k (n mod 256 ^ Z.of_nat k) = n.
Proof.
  intros K R. unfold to_signed.
  assert (E : exists m, 256 ^ Z.of_nat k = 2 * m /\ 0 < m).
  { exists (128 * 256 ^ Z.of_nat (k - 1)). replace (Z.of_nat k) with (1 + Z.of_nat (k - 1)) by lia. rewrite Z.pow_add_r by lia.
    pose proof (Z.pow_pos_nonneg 256 (Z.of_nat (k - 1)) ltac:(lia) ltac:(lia)). lia. }
  destruct E as (m & E & M). rewrite E in *. replace (2 * m / 2) with m in * by (rewrite Z.mul_comm, Z.div_mul; lia).
  destruct (Z_lt_dec n 0).
  - replace (n mod (2 * m)) with (n + 2 * m); [|apply (Z.mod_unique_pos _ _ (-1)); lia]. replace (n + 2 * m <? m) with false by lia. lia.
  - rewrite Z.mod_small by lia. replace (n <? m) with true by lia. reflexivity.
Qed.
Lemma int_mod t n : In t int_types -> in_range t n ->
  if is_signed t then to_signed (int_bytes t) (n mod 256 ^ Z.of_nat (int_bytes t)) = n else n mod 256 ^ Z.of_nat (int_bytes t) = n /\ 0 <= n.
Proof.
  intros It R. unfold in_range in R. cbn in It.
  repeat (destruct It as [<-|It]; [
    first [ apply to_signed_mod; [cbn; lia|]; destruct R as [R1 R2]; split; [eapply Z.le_trans; [|exact R1]|eapply Z.le_lt_trans; [exact R2|]]; vm_compute; congruence
          | cbn [is_signed]; destruct R as [R1 R2]; split; [apply Z.mod_small; split; [exact R1|eapply Z.le_lt_trans; [exact R2|reflexivity]]|exact R1]] |]).
  contradiction.
Qed.

(** the three encodings of an integer, for proofs *)
Lemma mp_write_int_cases t n : In t int_types -> in_range t n ->
  (0 <= n <= 127 /\ mp_write_int t (u64 n) = [OWrite [n]]) \/
  (is_signed t = true /\ -31 <= n <= -1 /\ mp_write_int t (u64 n) = [OWrite [256 + n]]) \/
  ((n < -31 \/ 127 < n) /\ mp_write_int t (u64 n) = [OWrite [int_prefix t]; OWrite (swapped (int_bytes t) (n mod 256 ^ Z.of_nat (int_bytes t)))]).
Proof.
  intros It R. unfold in_range in R.
  assert (M : u64 n mod 256 ^ Z.of_nat (int_bytes t) = n mod 256 ^ Z.of_nat (int_bytes t)).
  { unfold u64. symmetry. apply Znumtheory.Zmod_div_mod; [apply Z.pow_pos_nonneg; lia|reflexivity|].
    exists (256 ^ Z.of_nat (8 - int_bytes t)). destruct t; reflexivity. }
  unfold mp_write_int. rewrite M.
  pose proof (int_mod t n It R) as S.
  destruct (is_signed t).
  - rewrite S. destruct ((0 <=? n) && (n <=? 127)) eqn:E1; [left; split; [lia|reflexivity]|].
    destruct (negb ((-1 <? n) || (n <? -31))) eqn:E2.
    + right; left. split; [reflexivity|]. split; [lia|]. do 2 f_equal.
      pose proof (byte_cases (fun p => (p <? 225) || (Z.lor 224 p =? p)) eq_refl (u8 n) ltac:(unfold u8, two8; apply Z.mod_pos_bound; lia)) as B.
      cbv beta in B. assert (u8 n = 256 + n) by (unfold u8, two8; Z.div_mod_to_equations; lia). f_equal. lia.
    + right; right. split; [lia|reflexivity].
  - destruct S as [S S2]. rewrite S. destruct (n <=? 127) eqn:E; [left; split; [lia|reflexivity]|right; right; split; [lia|reflexivity]].
Qed.

Lemma mp_read_fixnum_pos n : 0 <= n <= 127 -> mp_read_fixnum n = val_int TI32 n.
Proof.
  intros H. unfold mp_read_fixnum.
  pose proof (byte_cases (fun p => (127 <? p) || (Z.land 128 p =? 0) && (Z.land 127 p =? p)) eq_refl n ltac:(lia)) as B.

  cbv beta in B. replace (Z.land 128 n =? 0) with true by lia. cbn [negb]. f_equal. lia.
Qed.
Lemma mp_read_fixnum_neg n : -32 <= n <= -1 -> mp_read_fixnum (256 + n) = val_int TI32 n.
Proof.
  intros H. unfold mp_read_fixnum.
  pose proof (byte_cases (fun p => (p <? 224) || negb (Z.land 128 p =? 0) && (Z.land 31 p =? p - 224)) eq_refl (256 + n) ltac:(lia)) as B.

  cbv beta in B. replace (Z.land 128 (256 + n) =? 0) with false by lia. cbn [negb]. f_equal. lia.
Qed.

Lemma reads_int t n : In t int_types -> in_range t n ->
  reads (mp_read_int t) (swapped (int_bytes t) (n mod 256 ^ Z.of_nat (int_bytes t))) (val_int t n).
Proof.
  intros It R. unfold mp_read_int. set (k := int_bytes t).
  assert (K : (k <= 8)%nat) by (unfold k; destruct t; cbn; lia).
  eapply reads_bind0; [apply reads_swapped; [reflexivity| |unfold_words; lia]|].
  - apply Z.mod_pos_bound. apply Z.pow_pos_nonneg; lia.
  - pose proof (int_mod t n It R) as S. fold k in S. destruct (is_signed t); [rewrite S|rewrite (proj1 S)]; apply reads_ret.
Qed.

(** * single values *)
Lemma srl_to_msgp_reads v : wf_value v -> exists ops, srl_to_msgp v = Ok ops /\ writes_only ops /\
  exists p bs, flat ops = p :: bs /\
    forall st name, reads (mp_read_value st name p) bs (st, (name, mp_norm_v v)).
Proof.
  intros W. unfold wf_value in W. unfold srl_to_msgp, mp_norm_v.
  assert (I : forall t, In t int_types -> v_type v = t -> (exists n, in_range t n /\ v_raw v = u64 n) ->
    writes_only (mp_write_int t (v_raw v)) /\ exists p bs, flat (mp_write_int t (v_raw v)) = p :: bs /\
    forall st name, reads (mp_read_value st name p) bs (st, (name,
      let n := int_value v in
      if ((0 <=? n) && (n <=? 127)) || (is_signed t && (-31 <=? n) && (n <=? -1)) then val_int TI32 n else val_int t n))).
  { intros t It Vt (n & R & Raw). rewrite Raw.
    assert (Iv : int_value v = n).
    { unfold int_value. rewrite Vt, Raw. unfold in_range in R.
      cbn in It; repeat (destruct It as [<-|It];
        [cbn in R |- *; first [apply s64_u64; unfold_words; lia | apply Z.mod_small; unfold_words; lia]|]); contradiction. }
    rewrite Iv. cbv zeta.
    assert (Rng : is_signed t = false -> 0 <= n).
    { unfold in_range in R. cbn in It; repeat (destruct It as [<-|It]; [cbn in R |- *; intros; first [discriminate|lia]|]); contradiction. }
    destruct (mp_write_int_cases t n It R) as [(Rn & ->)|[(Sg & Rn & ->)|(Rn & ->)]]; (split; [wo|]); cbn [flat flat_map app].
    - exists n, []. split; [reflexivity|]. intros st name. unfold mp_read_value.
      replace (prefix_is_scope n) with false by (unfold prefix_is_scope; lia).
      replace (prefix_is_str n) with false by (unfold prefix_is_str; lia).
      replace (prefix_is_scalar n) with true by (unfold prefix_is_scalar; lia).
      unfold mp_read_scalar. replace ((n =? 194) || (n =? 195)) with false by lia.
      replace ((202 <=? n) && (n <=? 211)) with false by lia. replace (n =? 192) with false by lia.
      cbn [pbind]. rewrite mp_read_fixnum_pos by lia.
      replace ((0 <=? n) && (n <=? 127) || _) with true by lia. apply reads_ret.
    - exists (256 + n), []. split; [reflexivity|]. intros st name. unfold mp_read_value.
      set (p := 256 + n).
      replace (prefix_is_scope p) with false by (unfold prefix_is_scope; lia).
      replace (prefix_is_str p) with false by (unfold prefix_is_str; lia).
      replace (prefix_is_scalar p) with true by (unfold prefix_is_scalar; lia).
      unfold mp_read_scalar. replace ((p =? 194) || (p =? 195)) with false by lia.
      replace ((202 <=? p) && (p <=? 211)) with false by lia. replace (p =? 192) with false by lia.
      cbn [pbind]. unfold p. rewrite mp_read_fixnum_neg by lia. rewrite Sg.
      replace ((0 <=? n) && (n <=? 127) || _) with true by lia. apply reads_ret.
    - eexists _, _. split; [reflexivity|]. rewrite app_nil_r. intros st name.
      replace ((0 <=? n) && (n <=? 127) || (is_signed t && (-31 <=? n) && (n <=? -1))) with false by (destruct (is_signed t); lia).
      pose proof (reads_int t n It R) as RI. unfold mp_read_value.
      assert (Q : prefix_is_scope (int_prefix t) = false /\ prefix_is_str (int_prefix t) = false /\
                  prefix_is_scalar (int_prefix t) = true /\ mp_read_scalar (int_prefix t) = mp_read_int t).
      { cbn in It; repeat (destruct It as [<-|It]; [repeat split; reflexivity|]); contradiction. }
      destruct Q as (-> & -> & -> & ->). eapply reads_bind0; [exact RI|]. apply reads_ret. }
  destruct (v_type v) eqn:Vt; try contradiction;
    try (match type of Vt with _ = ?t => destruct (I t ltac:(cbn; tauto) eq_refl W) as (X1 & X2) end; eexists; split; [reflexivity|]; split; [exact X1|exact X2]).
  - (* bool *) eexists. split; [reflexivity|]. split; [wo|]. eexists _, _. split; [reflexivity|]. intros st name.
    destruct W as [-> | ->]; apply reads_ret.
  - (* fp32 *) eexists. split; [reflexivity|]. split; [wo|]. cbn [flat flat_map app]. eexists _, _. split; [reflexivity|]. intros st name.
    rewrite app_nil_r. replace (v_fp32 v) with (v_raw v) by (unfold v_fp32; rewrite Z.mod_small; unfold_words; lia).
    unfold mp_read_value. cbn [Z.leb Z.eqb Z.compare Pos.compare Pos.compare_cont Pos.eqb andb orb prefix_is_scope prefix_is_str prefix_is_scalar mp_read_scalar mp_read_num].
    eapply reads_bind0; [|apply reads_ret]. eapply reads_bind0; [apply reads_swapped; [reflexivity|lia|reflexivity]|]. apply reads_ret.
  - (* fp64 *) eexists. split; [reflexivity|]. split; [wo|]. cbn [flat flat_map app]. eexists _, _. split; [reflexivity|]. intros st name.
    rewrite app_nil_r.
    unfold mp_read_value. cbn [Z.leb Z.eqb Z.compare Pos.compare Pos.compare_cont Pos.eqb andb orb prefix_is_scope prefix_is_str prefix_is_scalar mp_read_scalar mp_read_num].
    eapply reads_bind0; [|apply reads_ret]. eapply reads_bind0; [apply reads_swapped; [reflexivity|lia|reflexivity]|]. apply reads_ret.
  - (* null *) eexists. split; [reflexivity|]. split; [wo|]. eexists _, _. split; [reflexivity|]. intros st name. apply reads_ret.
  - (* string *) destruct (write_str_reads (v_data v) W) as (X1 & p & bs & X2 & X3 & X4 & X5).
    eexists. split; [reflexivity|]. split; [exact X1|]. exists p, bs. split; [exact X2|]. intros st name.
    unfold mp_read_value. rewrite X4, X3. eapply reads_bind0; [exact X5|]. apply reads_ret.
  - (* binary *) destruct (write_bin_reads (v_data v) W) as (X1 & p & bs & X2 & X3 & X4 & X5 & X6 & X7).
    eexists. split; [reflexivity|]. split; [exact X1|]. exists p, bs. split; [exact X2|]. intros st name.
    unfold mp_read_value. rewrite X5, X4, X6, X3. eapply reads_bind0; [exact X7|]. apply reads_ret.
Qed.
