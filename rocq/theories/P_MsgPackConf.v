(** MessagePack: what is written conforms to the specification, what conforms is read. *)
From Coq Require Import ZArith List Bool Lia ZifyBool ZifyNat.
From Verif Require Import Base Lemmas M_Types M_Conv M_In S_Doc M_OutOps S_Out M_Event S_MsgPack M_MsgPack P_In P_Reads P_Safe P_Exact P_Float P_Doc P_PSrlDoc P_PSrlSafe P_MsgPack P_MsgPackDoc P_MsgPackSafe.
Import ListNotations.
Open Scope Z_scope.

(** * bytes *)
Lemma swapped_wf n x : wf_bytes (swapped n x).
Proof. apply Forall_rev, le_wf. Qed.
Lemma wf_cons c l : is_byte c -> wf_bytes l -> wf_bytes (c :: l).
Proof. constructor; auto. Qed.
Lemma u8_byte x : is_byte (u8 x).
Proof. apply Z.mod_pos_bound. reflexivity. Qed.
Lemma write_str_wf n : wf_name n -> wf_bytes (flat (mp_write_str n)).
Proof.
  intros [W L]. pose proof (zlen_nonneg n). unfold mp_write_str. destruct (zlen n <=? 31) eqn:E.
  - cbn [flat flat_map app]. rewrite app_nil_r. apply wf_cons; [|exact W].
    pose proof (byte_cases (fun p => (31 <? p) || (Z.lor 160 p =? 160 + p)) eq_refl (zlen n) ltac:(lia)) as B. cbv beta in B. unfold is_byte. lia.
  - destruct (_ <=? 254); [|destruct (_ <=? 65534)]; cbn [flat flat_map app]; rewrite app_nil_r; (apply wf_cons; [unfold is_byte; lia|]).
    + apply wf_cons; [apply u8_byte|exact W].
    + apply wf_bytes_app. split; [apply le_wf|exact W].
    + apply wf_bytes_app. split; [apply le_wf|exact W].
Qed.
Lemma write_bin_wf n : wf_name n -> wf_bytes (flat (mp_write_bin n)).
Proof.
  intros [W L]. unfold mp_write_bin.
  destruct (_ <=? 255); [|destruct (_ <=? 65534)]; cbn [flat flat_map app]; rewrite app_nil_r; (apply wf_cons; [unfold is_byte; lia|]).
  + apply wf_cons; [apply u8_byte|exact W].
  + apply wf_bytes_app. split; [apply le_wf|exact W].
  + apply wf_bytes_app. split; [apply le_wf|exact W].
Qed.
Lemma wf_value_int v : wf_value v -> In (v_type v) int_types -> exists n, in_range (v_type v) n /\ v_raw v = u64 n.
Proof. unfold wf_value. intros W H. cbn in H. intuition (match goal with H : _ = v_type v |- _ => rewrite <- H in * end; exact W). Qed.
Lemma value_wf v ops : wf_value v -> srl_to_msgp v = Ok ops -> wf_bytes (flat ops).
Proof.
  intros W. pose proof (wf_value_int v W) as WI. unfold wf_value in W. unfold srl_to_msgp.
  assert (I : forall t, v_type v = t -> In t int_types -> Ok (mp_write_int t (v_raw v)) = Ok ops -> wf_bytes (flat ops)).
  { intros t T It E. rewrite T in WI. destruct (WI It) as (n & R & Raw). injection E as <-. rewrite Raw.
    assert (P : is_byte (int_prefix t)) by (unfold is_byte; destruct t; cbn; lia).
    destruct (mp_write_int_cases t n It R) as [(Rn & ->)|[(_ & Rn & ->)|(_ & ->)]]; cbn [flat flat_map app].
    - apply wf_cons; [unfold is_byte; lia|constructor].
    - apply wf_cons; [unfold is_byte; lia|constructor].
    - rewrite app_nil_r. apply wf_cons; [exact P|apply swapped_wf]. }
  destruct (v_type v) eqn:T; try contradiction; intros E; try (match type of T with _ = ?t => apply (I t eq_refl ltac:(cbn; tauto) E) end);
    injection E as <-; try (apply write_str_wf; exact W); try (apply write_bin_wf; exact W); cbn [flat flat_map app].
  - apply wf_cons; [destruct (_ =? 0); unfold is_byte; lia|constructor].
  - rewrite app_nil_r. apply wf_cons; [unfold is_byte; lia|apply swapped_wf].
  - rewrite app_nil_r. apply wf_cons; [unfold is_byte; lia|apply swapped_wf].
  - apply wf_cons; [unfold is_byte; lia|constructor].
Qed.
Lemma enc_wf d : wf_doc d -> forall nm, wf_bytes (enc nm d).
Proof.
  assert (N : forall nm n, wf_name n -> wf_bytes (enc_name nm n)) by (intros [|] n W; [now apply write_str_wf|constructor]).
  induction d as [n v|n t its IH] using doc_ind2; intros W nm.
  - cbn in W. cbn [enc]. apply wf_bytes_app. split; [apply N; tauto|]. destruct (srl_to_msgp v) eqn:E; try constructor. eapply value_wf; [|exact E]. tauto.
  - apply wf_doc_scope in W. destruct W as (Wn & Wt & Wi). cbn [enc]. apply wf_bytes_app. split; [apply N; tauto|].
    apply wf_bytes_app. split; [apply wf_cons; [destruct (ty_eqb t TObject); unfold is_byte; lia|apply swapped_wf]|].
    generalize (ty_eqb t TObject). intros b. clear - IH Wi. induction IH as [|x l Hx Hl IHl]; [constructor|]. inversion Wi; subst.
    cbn [flat_map]. apply wf_bytes_app. auto.
Qed.

(** * the written bytes conform *)
Lemma write_str_conf n : zlen n < 255 -> mp_str false n (flat (mp_write_str n)).
Proof.
  intros L. pose proof (zlen_nonneg n). unfold mp_write_str. destruct (zlen n <=? 31) eqn:E.
  - cbn [flat flat_map app]. rewrite app_nil_r.
    pose proof (byte_cases (fun p => (31 <? p) || (Z.lor 160 p =? 160 + p)) eq_refl (zlen n) ltac:(lia)) as B. cbv beta in B.
    replace (Z.lor 160 (zlen n)) with (160 + zlen n) by lia. constructor. lia.
  - replace (zlen n <=? 254) with true by lia. cbn [flat flat_map app]. rewrite app_nil_r.
    change ([u8 (zlen n)]) with (be 0 0 ++ [u8 (zlen n)]).
    replace (u8 (zlen n) :: n) with (be 1 (zlen n) ++ n) by (cbn [be app]; rewrite Z.div_1_r; reflexivity). apply MPstr8. lia.
Qed.
Lemma value_conf v ops : wf_value v -> zlen (v_data v) < 255 -> srl_to_msgp v = Ok ops -> mp_value false (meaning_of v) (flat ops).
Proof.
  intros W L. pose proof (wf_value_int v W) as WI. pose proof (mp_norm_meaning v W) as NM. unfold wf_value in W. unfold srl_to_msgp, meaning_of.
  assert (I : forall t, v_type v = t -> In t int_types -> Ok (mp_write_int t (v_raw v)) = Ok ops -> mp_value false (MeInt (int_value v)) (flat ops)).
  { intros t T It E. rewrite T in WI. destruct (WI It) as (n & R & Raw). injection E as <-.
    assert (Iv : int_value v = n).
    { unfold int_value. rewrite T, Raw. unfold in_range in R.
      cbn in It; repeat (destruct It as [<-|It];
        [cbn in R |- *; first [apply s64_u64; unfold_words; lia | apply Z.mod_small; unfold_words; lia]|]); contradiction. }
    rewrite Iv, Raw.
    destruct (mp_write_int_cases t n It R) as [(Rn & ->)|[(_ & Rn & ->)|(_ & ->)]]; cbn [flat flat_map app].
    - apply MPpfix. lia.
    - apply MPnfix. lia.
    - rewrite app_nil_r, swapped_be. clear - It R. unfold in_range in R.
      assert (Sm : 0 <= n -> n <= int_max t -> is_signed t = false -> n mod 256 ^ Z.of_nat (int_bytes t) = n).
      { intros A B S. apply Z.mod_small. split; [exact A|]. eapply Z.le_lt_trans; [exact B|].
        cbn in It; repeat (destruct It as [<-|It]; [first [discriminate S|reflexivity]|]); contradiction. }
      cbn in It. repeat (destruct It as [<-|It]; [
        first [rewrite Sm by (try reflexivity; apply R); cbn [int_prefix int_bytes]; constructor; cbn in R; unfold_words; lia
              | cbn [int_prefix int_bytes]; change (256 ^ Z.of_nat 1) with (2 ^ 8); change (256 ^ Z.of_nat 2) with (2 ^ 16);
                change (256 ^ Z.of_nat 4) with (2 ^ 32); change (256 ^ Z.of_nat 8) with (2 ^ 64); constructor; cbn in R; unfold_words; lia] |]).
      contradiction. }
  destruct (v_type v) eqn:T; try contradiction; intros E; try (match type of T with _ = ?t => apply (I t eq_refl ltac:(cbn; tauto) E) end); injection E as <-.
  - cbn. destruct W as [-> | ->]; constructor.
  - cbn [flat flat_map app]. rewrite app_nil_r, swapped_be. unfold v_double. rewrite T. cbn [ty_eqb].
    replace (v_fp32 v) with (v_raw v) by (unfold v_fp32; rewrite Z.mod_small; unfold_words; lia). constructor. exact W.
  - cbn [flat flat_map app]. rewrite app_nil_r, swapped_be. unfold v_double. rewrite T. cbn [ty_eqb]. constructor. exact W.
  - constructor.
  - constructor. now apply write_str_conf.
  - unfold mp_write_bin. replace (zlen (v_data v) <=? 255) with true by lia. cbn [flat flat_map app]. rewrite app_nil_r.
    pose proof (zlen_nonneg (v_data v)). replace (u8 (zlen (v_data v)) :: v_data v) with (be 1 (zlen (v_data v)) ++ v_data v) by (cbn [be app]; rewrite Z.div_1_r; reflexivity).
    apply MPbin8. lia.
Qed.

Lemma short_doc_scope n t its : short_doc (DScope n t its) <-> zlen n < 255 /\ Forall short_doc its.
Proof.
  cbn [short_doc]. split; intros [A C]; (split; [exact A|]).
  - clear A. induction its; constructor; [tauto|apply IHits; tauto].
  - clear A. induction C; [exact I|split; auto].
Qed.
Lemma denote_name nm d : mname (denote nm d) = if nm then doc_name d else [].
Proof. destruct d; reflexivity. Qed.

Lemma enc_split nm d : enc nm d = enc_name nm (doc_name d) ++ enc false d.
Proof. destruct d; reflexivity. Qed.

Lemma enc_conf d : wf_doc d -> small_scopes d -> short_doc d -> forall nm, mp_doc false (denote nm d) (enc false d).
Proof.
  induction d as [n v|n t its IH] using doc_ind2; intros W S H nm.
  - cbn in W, H. cbn [enc denote enc_name app]. destruct (srl_to_msgp_reads v) as (ops & E & _); [tauto|]. rewrite E. constructor.
    apply value_conf; tauto.
  - apply wf_doc_scope in W. destruct W as (Wn & Wt & Wi). apply small_scopes_scope in S. destruct S as [Sl Si]. apply short_doc_scope in H. destruct H as [Hn Hi].
    cbn [enc denote enc_name app]. pose proof (zlen_nonneg its).
    assert (Lm : zlen (map (denote (ty_eqb t TObject)) its) = zlen its) by (unfold zlen; now rewrite map_length).
    assert (Hd : mp_head t (zlen (map (denote (ty_eqb t TObject)) its)) ((if ty_eqb t TObject then 223 else 221) :: swapped 4 (zlen its))).
    { rewrite Lm, swapped_be. destruct Wt; subst; cbn [ty_eqb]; constructor; lia. }
    rewrite app_comm_cons.
    apply MPscope; [exact Hd|]. clear Hd Lm Sl Hn Wn.
    induction IH as [|x l Hx Hl IHl]; [apply MPnone|]. inversion Wi; inversion Si; inversion Hi; subst. cbn [flat_map map].
    destruct Wt; subst; cbn [ty_eqb] in *.
    + rewrite (enc_split true), <- app_assoc. apply MPfield; [|apply Hx; auto|apply IHl; auto; apply zlen_nonneg].
      rewrite denote_name. cbn [enc_name]. apply write_str_conf. destruct x; cbn in *; tauto.
    + apply MPitem; [apply denote_name|apply Hx; auto|apply IHl; auto; apply zlen_nonneg].
Qed.

(** the specification fixes the bytes of the length *)
Lemma mp_str_218 w s x : mp_str w s (218 :: x) -> x = be 2 (zlen s) ++ s.
Proof.
  intros H. remember (218 :: x) as b eqn:E. pose proof (f_equal (hd 0) E) as E1. pose proof (f_equal (@tl Z) E) as E2. clear E.
  destruct H as [s L|s L|s _ L|s _ L]; cbn [hd tl] in *; try discriminate; [exfalso; lia|congruence].
Qed.

(** * what conforms is read *)
Lemma mname_mdoc d : mname (mdoc_of d) = doc_name d.
Proof. destruct d; reflexivity. Qed.

Lemma be_swapped n x : be n x = swapped n x.
Proof. symmetry. apply swapped_be. Qed.

Lemma str_conf_reads s b : mp_str false s b ->
  exists p bs, b = p :: bs /\ prefix_is_str p = true /\ prefix_is_scope p = false /\
    reads (mp_read_str p) bs (val_block_enc s TString EUTF8) /\ zlen s < 256.
Proof.
  intros H. destruct H as [s L|s L|s X L|s X L]; try discriminate; pose proof (zlen_nonneg s).
  - exists (160 + zlen s), s. split; [reflexivity|].
    pose proof (byte_cases (fun p => (31 <? p) || (let q := 160 + p in prefix_is_str q && negb (prefix_is_scope q) && (160 <=? q) && (q <=? 191) && (Z.land q 31 =? p))) eq_refl (zlen s) ltac:(lia)) as B.
    cbv beta zeta in B. set (q := 160 + zlen s) in *.
    apply orb_prop in B. destruct B as [B|B]; [lia|]. repeat (apply andb_prop in B; destruct B as [B ?]).
    split; [assumption|]. split; [now apply negb_true_iff|]. split; [|lia]. unfold mp_read_str, mp_str_size.
    replace ((160 <=? q) && (q <=? 191)) with true by lia.
    cbn [pbind]. eapply reads_bind0; [apply reads_block'; [lia|unfold_words; lia]|]. apply reads_ret.
  - eexists _, _. split; [reflexivity|]. split; [reflexivity|]. split; [reflexivity|]. split; [|lia].
    unfold mp_read_str, mp_str_size; cbn [Z.leb Z.eqb Z.compare Pos.compare Pos.compare_cont Pos.eqb andb].
    apply reads_bind with (a := zlen s).
    + cbn [be]. rewrite Z.div_1_r, Z.mod_small by lia. apply reads_byte.
    + eapply reads_bind0; [apply reads_block'; [lia|unfold_words; lia]|]. apply reads_ret.
Qed.

Lemma value_conf_reads m b : mp_value false m b ->
  exists v p bs, b = p :: bs /\ meaning_of v = m /\ is_scope (v_type v) = false /\ v_type v <> TScopeEnd /\
    forall st name, reads (mp_read_value st name p) bs (st, (name, v)).
Proof.
  assert (I : forall t n, In t int_types -> in_range t n ->
    exists v p bs, int_prefix t :: be (int_bytes t) (n mod 256 ^ Z.of_nat (int_bytes t)) = p :: bs /\ meaning_of v = MeInt n /\ is_scope (v_type v) = false /\ v_type v <> TScopeEnd /\
    forall st name, reads (mp_read_value st name p) bs (st, (name, v))).
  { intros t n It R. exists (val_int t n). eexists _, _. split; [reflexivity|]. split; [apply meaning_int; auto|].
    split; [cbn in It; repeat (destruct It as [<-|It]; [reflexivity|]); contradiction|].
    split; [cbn in It; repeat (destruct It as [<-|It]; [discriminate|]); contradiction|]. intros st name.
    pose proof (reads_int t n It R) as RI. unfold mp_read_value.
    assert (Q : prefix_is_scope (int_prefix t) = false /\ prefix_is_str (int_prefix t) = false /\
                prefix_is_scalar (int_prefix t) = true /\ mp_read_scalar (int_prefix t) = mp_read_int t).
    { cbn in It; repeat (destruct It as [<-|It]; [repeat split; reflexivity|]); contradiction. }
    destruct Q as (-> & -> & -> & ->). rewrite be_swapped. eapply reads_bind0; [exact RI|]. apply reads_ret. }
  intros H. destruct H.
  - exists (val_type TNull), 192, []. split; [reflexivity|]. split; [reflexivity|]. split; [reflexivity|]. split; [discriminate|]. intros. apply reads_ret.
  - exists (val_bool false), 194, []. split; [reflexivity|]. split; [reflexivity|]. split; [reflexivity|]. split; [discriminate|]. intros. apply reads_ret.
  - exists (val_bool true), 195, []. split; [reflexivity|]. split; [reflexivity|]. split; [reflexivity|]. split; [discriminate|]. intros. apply reads_ret.
  - exists (val_int TI32 n), n, []. split; [reflexivity|]. split; [apply meaning_int; [cbn; tauto|unfold in_range; cbn; unfold_words; lia]|].
    split; [reflexivity|]. split; [discriminate|]. intros st name. unfold mp_read_value.
    replace (prefix_is_scope n) with false by (unfold prefix_is_scope; lia).
    replace (prefix_is_str n) with false by (unfold prefix_is_str; lia).
    replace (prefix_is_scalar n) with true by (unfold prefix_is_scalar; lia).
    unfold mp_read_scalar. replace ((n =? 194) || (n =? 195)) with false by lia.
    replace ((202 <=? n) && (n <=? 211)) with false by lia. replace (n =? 192) with false by lia.
    cbn [pbind]. rewrite mp_read_fixnum_pos by lia. apply reads_ret.
  - exists (val_int TI32 n), (256 + n), []. split; [reflexivity|]. split; [apply meaning_int; [cbn; tauto|unfold in_range; cbn; unfold_words; lia]|].
    split; [reflexivity|]. split; [discriminate|]. intros st name. unfold mp_read_value. set (p := 256 + n).
    replace (prefix_is_scope p) with false by (unfold prefix_is_scope; lia).
    replace (prefix_is_str p) with false by (unfold prefix_is_str; lia).
    replace (prefix_is_scalar p) with true by (unfold prefix_is_scalar; lia).
    unfold mp_read_scalar. replace ((p =? 194) || (p =? 195)) with false by lia.
    replace ((202 <=? p) && (p <=? 211)) with false by lia. replace (p =? 192) with false by lia.
    cbn [pbind]. unfold p. rewrite mp_read_fixnum_neg by lia. apply reads_ret.
  - pose proof (I TUI8 n ltac:(cbn; tauto) ltac:(unfold in_range; cbn; unfold_words; lia)) as J. cbn [int_prefix int_bytes] in J. rewrite Z.mod_small in J; [exact J|cbn; lia].
  - pose proof (I TUI16 n ltac:(cbn; tauto) ltac:(unfold in_range; cbn; unfold_words; lia)) as J. cbn [int_prefix int_bytes] in J. rewrite Z.mod_small in J; [exact J|cbn; lia].
  - pose proof (I TUI32 n ltac:(cbn; tauto) ltac:(unfold in_range; cbn; unfold_words; lia)) as J. cbn [int_prefix int_bytes] in J. rewrite Z.mod_small in J; [exact J|cbn; lia].
  - pose proof (I TUI64 n ltac:(cbn; tauto) ltac:(unfold in_range; cbn; unfold_words; lia)) as J. cbn [int_prefix int_bytes] in J. rewrite Z.mod_small in J; [exact J|cbn; lia].
  - exact (I TI8 n ltac:(cbn; tauto) ltac:(unfold in_range; cbn; unfold_words; lia)).
  - exact (I TI16 n ltac:(cbn; tauto) ltac:(unfold in_range; cbn; unfold_words; lia)).
  - exact (I TI32 n ltac:(cbn; tauto) ltac:(unfold in_range; cbn; unfold_words; lia)).
  - exact (I TI64 n ltac:(cbn; tauto) ltac:(unfold in_range; cbn; unfold_words; lia)).
  - exists (val_f32 b). eexists _, _. split; [reflexivity|].
    split. { unfold meaning_of, v_double, v_fp32, val_f32. cbn [v_type v_raw ty_eqb]. now rewrite Z.mod_small by (unfold_words; lia). }
    split; [reflexivity|]. split; [discriminate|]. intros st name. rewrite be_swapped.
    unfold mp_read_value. cbn [Z.leb Z.eqb Z.compare Pos.compare Pos.compare_cont Pos.eqb andb orb prefix_is_scope prefix_is_str prefix_is_scalar mp_read_scalar mp_read_num].
    eapply reads_bind0; [|apply reads_ret]. eapply reads_bind0; [apply reads_swapped; [reflexivity|lia|reflexivity]|]. apply reads_ret.
  - exists (val_f64 b). eexists _, _. split; [reflexivity|].
    assert (T : v_type (val_f64 b) = TFP32 \/ v_type (val_f64 b) = TFP64) by (unfold val_f64; destruct (narrow64 b); auto).
    split. { rewrite <- (val_f64_roundtrip b) at 2 by (unfold_words; lia). unfold meaning_of. destruct T as [-> | ->]; reflexivity. }
    split; [destruct T as [-> | ->]; reflexivity|]. split; [destruct T as [-> | ->]; discriminate|]. intros st name. rewrite be_swapped.
    unfold mp_read_value. cbn [Z.leb Z.eqb Z.compare Pos.compare Pos.compare_cont Pos.eqb andb orb prefix_is_scope prefix_is_str prefix_is_scalar mp_read_scalar mp_read_num].
    eapply reads_bind0; [|apply reads_ret]. eapply reads_bind0; [apply reads_swapped; [reflexivity|lia|reflexivity]|]. apply reads_ret.
  - destruct (str_conf_reads s b H) as (p & bs & -> & S1 & S2 & R & L). exists (val_block_enc s TString EUTF8), p, bs. split; [reflexivity|].
    split. { unfold meaning_of, val_block_enc. cbn [v_type v_data]. rewrite trunc_block_id by (unfold_words; lia). reflexivity. }
    split; [reflexivity|]. split; [discriminate|]. intros st name. unfold mp_read_value. rewrite S2, S1.
    eapply reads_bind0; [exact R|]. apply reads_ret.
  - exists (val_block s TBinary). eexists _, _. split; [reflexivity|]. pose proof (zlen_nonneg s).
    split. { unfold meaning_of, val_block. cbn [v_type v_data]. rewrite trunc_block_id by (unfold_words; lia). reflexivity. }
    split; [reflexivity|]. split; [discriminate|]. intros st name. unfold mp_read_value.
    cbn [Z.leb Z.eqb Z.compare Pos.compare Pos.compare_cont Pos.eqb andb orb prefix_is_scope prefix_is_str prefix_is_scalar prefix_is_bin].
    eapply reads_bind0; [|apply reads_ret]. unfold mp_read_bin, mp_bin_size. cbn [Z.eqb Pos.eqb].
    apply reads_bind with (a := zlen s).
    + cbn [be]. rewrite Z.div_1_r, Z.mod_small by lia. apply reads_byte.
    + eapply reads_bind0; [apply reads_block'; [lia|unfold_words; lia]|]. apply reads_ret.
  - discriminate.
  - discriminate.
Qed.

Lemma head_conf_reads t n h : mp_head t n h -> 0 <= n < 2 ^ 32 /\ (t = TObject \/ t = TArray) /\
  exists p bs, h = p :: bs /\ prefix_is_scope p = true /\ prefix_is_str p = false /\ reads (mp_scope_info p) bs (t, n).
Proof.
  assert (W : forall k x, 0 <= x < 256 ^ Z.of_nat k -> (k <= 8)%nat -> reads (read_swapped (Z.of_nat k)) (be k x) x).
  { intros k x Hx Hk. rewrite be_swapped. apply reads_swapped; auto. unfold_words. lia. }
  assert (F : forall p t n, 0 <= n < 16 -> (t = TObject /\ p = 128 + n \/ t = TArray /\ p = 144 + n) ->
    prefix_is_scope p = true /\ prefix_is_str p = false /\ mp_scope_info p = Ret (t, n)).
  { intros p t0 n0 Hn Hp. 
    pose proof (byte_cases (fun q => negb ((128 <=? q) && (q <? 160)) || prefix_is_scope q && negb (prefix_is_str q) &&
      (Z.land q 64 =? 0) && Bool.eqb (Z.land q 16 =? 0) (q <? 144) && (Z.land 15 q =? if q <? 144 then q - 128 else q - 144)) eq_refl p ltac:(lia)) as B.
    cbv beta in B. apply orb_prop in B. destruct B as [B|B]; [lia|]. repeat (apply andb_prop in B; destruct B as [B ?]).
    split; [exact B|]. split; [now apply negb_true_iff|]. unfold mp_scope_info.
    replace (Z.land p 64 =? 0) with true by lia. cbn [negb].
    match goal with H : Bool.eqb _ _ = true |- _ => apply eqb_prop in H; rewrite H in * end.
    destruct Hp as [(-> & Hp)|(-> & Hp)]; [replace (p <? 144) with true in * by lia|replace (p <? 144) with false in * by lia]; cbn [negb];
    do 2 f_equal; lia. }
  intros H. destruct H; (split; [lia|]); (split; [auto|]).
  - destruct (F (128 + n) TObject n H ltac:(auto)) as (A & B & C). exists (128 + n), []. rewrite C. split; [reflexivity|]. split; [auto|]. split; [auto|apply reads_ret].
  - eexists _, _. split; [reflexivity|]. split; [reflexivity|]. split; [reflexivity|]. apply (reads_bind0 _ _ (be 2 n) n); [apply (W 2%nat); lia|apply reads_ret].
  - eexists _, _. split; [reflexivity|]. split; [reflexivity|]. split; [reflexivity|]. apply (reads_bind0 _ _ (be 4 n) n); [apply (W 4%nat); lia|apply reads_ret].
  - destruct (F (144 + n) TArray n H ltac:(auto)) as (A & B & C). exists (144 + n), []. rewrite C. split; [reflexivity|]. split; [auto|]. split; [auto|apply reads_ret].
  - eexists _, _. split; [reflexivity|]. split; [reflexivity|]. split; [reflexivity|]. apply (reads_bind0 _ _ (be 2 n) n); [apply (W 2%nat); lia|apply reads_ret].
  - eexists _, _. split; [reflexivity|]. split; [reflexivity|]. split; [reflexivity|]. apply (reads_bind0 _ _ (be 4 n) n); [apply (W 4%nat); lia|apply reads_ret].
Qed.

(** [b] read as an item without key resp. with the key [k] *)
Definition reads_item (d : doc) (b : bytes) : Prop :=
  (doc_name d = [] -> forall n, reads (read_events msgp_read (length (events d)) (mkMsgp [] n)) b (mkMsgp [] n, events d)) /\
  (doc_name d = [] -> forall k j r n, 1 <= k ->
     reads (read_events msgp_read (length (events d)) (with_top TArray k j r n)) b (with_top TArray (k - 1) j r n, events d)) /\
  (forall key, mp_str false (doc_name d) key -> forall k j r n, 1 <= k ->
     reads (read_events msgp_read (length (events d)) (with_top TObject k j r n)) (key ++ b) (with_top TObject (k - 1) j r n, events d)).

Scheme mp_doc_ind2 := Induction for mp_doc Sort Prop with mp_items_ind2 := Induction for mp_items Sort Prop.

(** reading the first event of an item *)
Lemma first_event name p bs b2 st2 m evs (v : value) :
  (forall st, exists st', reads (mp_read_value st name p) bs (st', (name, v)) /\ st' = st2 st) ->
  (forall st, reads (read_events msgp_read m (st2 st)) b2 (st, evs)) ->
  (name = [] -> forall n, reads (read_events msgp_read (S m) (mkMsgp [] n)) ((p :: bs) ++ b2) (mkMsgp [] n, (name, v) :: evs)) /\
  (name = [] -> forall k j r n, 1 <= k ->
     reads (read_events msgp_read (S m) (with_top TArray k j r n)) ((p :: bs) ++ b2) (with_top TArray (k - 1) j r n, (name, v) :: evs)) /\
  (forall key, mp_str false name key -> forall k j r n, 1 <= k ->
     reads (read_events msgp_read (S m) (with_top TObject k j r n)) (key ++ (p :: bs) ++ b2) (with_top TObject (k - 1) j r n, (name, v) :: evs)).
Proof.
  intros HV HR. split; [|split].
  - intros -> n. eapply reads_events_cons; [|apply HR]. unfold msgp_read. cbn [mp_stack].
    destruct (HV (mkMsgp [] n)) as (st' & R & ->). apply (reads_bind _ _ [p] bs p); [apply reads_byte|exact R].
  - intros -> k j r n K. eapply reads_events_cons; [|apply HR]. unfold msgp_read, with_top. cbn [mp_stack ms_elems ms_type ms_ticket mp_next].
    replace (k <? 1) with false by lia. cbn [ty_eqb].
    destruct (HV (mkMsgp (mkScope TArray (k - 1) j :: r) n)) as (st' & R & ->). apply (reads_bind _ _ [p] bs p); [apply reads_byte|exact R].
  - intros key Hk k j r n K. rewrite app_assoc. eapply reads_events_cons; [|apply HR]. unfold msgp_read, with_top. cbn [mp_stack ms_elems ms_type ms_ticket mp_next].
    replace (k <? 1) with false by lia. cbn [ty_eqb].
    destruct (HV (mkMsgp (mkScope TObject (k - 1) j :: r) n)) as (st' & R & ->).
    destruct (str_conf_reads name key Hk) as (q & qs & -> & S1 & S2 & RQ & L). rewrite <- app_comm_cons.
    apply (reads_bind _ _ [q] (qs ++ p :: bs) q); [apply reads_byte|]. rewrite S1.
    apply reads_bind with (a := name).
    + unfold mp_read_name. eapply reads_bind0; [exact RQ|]. unfold val_block_enc. cbn [v_data].
      rewrite trunc_block_id by (unfold_words; lia). apply reads_ret.
    + apply (reads_bind _ _ [p] bs p); [apply reads_byte|exact R].
Qed.

Lemma conf_reads m b : mp_doc false m b -> exists d, mdoc_of d = m /\ reads_item d b.
Proof.
  intros H. induction H as [n m b Hv|n t its h bs Hh Hi IHi|t|d its k b bs Hk Hd IHd Hi IHi|d its b bs Hn Hd IHd Hi IHi]
    using mp_doc_ind2 with (P0 := fun t its bs _ => forall x, mp_head t (zlen its) x ->
      exists ds, map mdoc_of ds = its /\ forall j r n,
        reads (read_events msgp_read (length (flat_map events ds)) (with_top t (zlen its) j r n)) bs (with_top t 0 j r n, flat_map events ds)).
  - destruct (value_conf_reads m b Hv) as (v & p & bs & -> & M & Sc & Se & R). exists (DVal n v). cbn [mdoc_of]. rewrite M. split; [reflexivity|].
    unfold reads_item. cbn [doc_name events length]. rewrite <- (app_nil_r (p :: bs)).
    apply (first_event n p bs [] (fun st => st) 0 [] v).
    + intros st. exists st. split; [apply R|reflexivity].
    + intros st. apply reads_events_nil.
  - destruct (IHi h Hh) as (ds & <- & R). destruct (head_conf_reads _ _ _ Hh) as (Rn & T & p & ps & -> & P1 & P2 & RH).
    exists (DScope n t ds). split; [reflexivity|]. unfold reads_item. cbn [doc_name events length].
    apply (first_event n p ps bs (fun st => mkMsgp (mkScope t (zlen (map mdoc_of ds)) 0 :: mp_stack st) (mp_next st))
             (length (flat_map events ds ++ [ev_end])) (flat_map events ds ++ [ev_end]) (val_type t)).
    + intros st. eexists. split; [|reflexivity]. unfold mp_read_value. rewrite P1. eapply reads_bind0; [exact RH|]. cbv beta iota.
      unfold u32. rewrite Z.mod_small by (unfold two32; lia). apply reads_ret.
    + intros st. rewrite app_length. rewrite <- (app_nil_r bs). eapply reads_events_app; [apply (R 0%nat (mp_stack st) (mp_next st))|].
      cbn [length]. rewrite <- (app_nil_r []). destruct st as [stk nx]. eapply reads_events_cons; [apply reads_msgp_end|apply reads_events_nil].
  - intros x Hx. exists []. split; [reflexivity|]. intros j r n. apply reads_events_nil.
  - intros x Hx. destruct IHd as (d0 & <- & _ & _ & R3).
    destruct (head_conf_reads _ _ _ Hx) as ((N1 & N2) & _).
    destruct (IHi (223 :: be 4 (zlen its))) as (ds & <- & R). { apply MPmap32. rewrite zlen_cons in N2. pose proof (zlen_nonneg its). lia. }
    exists (d0 :: ds). split; [reflexivity|]. intros j r n. cbn [flat_map]. rewrite app_length, app_assoc.
    rewrite mname_mdoc in Hk.
    eapply reads_events_app; [apply (R3 k Hk); rewrite zlen_cons; pose proof (zlen_nonneg (map mdoc_of ds)); lia|].
    replace (zlen (mdoc_of d0 :: map mdoc_of ds) - 1) with (zlen (map mdoc_of ds)) by (rewrite zlen_cons; lia). apply R.
  - intros x Hx. destruct IHd as (d0 & <- & _ & R2 & _). rewrite mname_mdoc in Hn.
    destruct (head_conf_reads _ _ _ Hx) as ((N1 & N2) & _).
    destruct (IHi (221 :: be 4 (zlen its))) as (ds & <- & R). { apply MParray32. rewrite zlen_cons in N2. pose proof (zlen_nonneg its). lia. }
    exists (d0 :: ds). split; [reflexivity|]. intros j r n. cbn [flat_map]. rewrite app_length.
    eapply reads_events_app; [apply (R2 Hn); rewrite zlen_cons; pose proof (zlen_nonneg (map mdoc_of ds)); lia|].
    replace (zlen (mdoc_of d0 :: map mdoc_of ds) - 1) with (zlen (map mdoc_of ds)) by (rewrite zlen_cons; lia). apply R.
Qed.
