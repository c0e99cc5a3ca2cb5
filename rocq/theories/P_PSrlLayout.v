(** The bytes written by PSrl are those of the independent layout in S_PSrl. *)
From Coq Require Import ZArith List Bool Lia ZifyBool ZifyNat.
From Verif Require Import Base Lemmas M_Types M_Conv M_In S_Doc M_OutOps S_Out M_Event S_PSrl M_PSrl P_In P_Reads P_Float P_Doc P_PSrl P_PSrlDoc.
Import ListNotations.
Open Scope Z_scope.

Lemma pow7 k : 0 <= k -> 128 ^ k = 2 ^ (7 * k).
Proof. intros. change 128 with (2 ^ 7). rewrite <- Z.pow_mul_r by lia. reflexivity. Qed.

Lemma encode_varint n : 0 <= n < two64 -> encode_integer n = Ok (varint n).
Proof.
  intros Hn. destruct (encode_integer_spec n Hn) as (k & Hk & E & B & M). rewrite E. unfold varint. do 2 f_equal.
  unfold groups7. destruct M as [M|M].
  - subst k. replace (Z.log2 n / 7) with 0; [reflexivity|]. symmetry. apply Z.div_small.
    destruct (Z.eq_dec n 0) as [->|]; [cbn; lia|]. split; [apply Z.log2_nonneg|]. apply Z.log2_lt_pow2; [lia|].
    change (2 ^ 7) with 128. change (128 ^ Z.of_nat 1) with 128 in B. lia.
  - destruct (Nat.eq_dec k 1) as [->|K1].
    { change (128 ^ Z.of_nat (1 - 1)) with 1 in M. change (128 ^ Z.of_nat 1) with 128 in B.
      replace (Z.log2 n / 7) with 0; [reflexivity|]. symmetry. apply Z.div_small.
      split; [apply Z.log2_nonneg|]. apply Z.log2_lt_pow2; lia. }
    rewrite pow7 in M, B by lia.
    assert (P : 0 < n). { assert (0 < 2 ^ (7 * Z.of_nat (k - 1))) by (apply Z.pow_pos_nonneg; lia). lia. }
    assert (L1 : 7 * Z.of_nat (k - 1) <= Z.log2 n) by (apply Z.log2_le_pow2; lia).
    assert (L2 : Z.log2 n < 7 * Z.of_nat k) by (apply Z.log2_lt_pow2; lia).
    replace (Z.log2 n / 7) with (Z.of_nat (k - 1)); [lia|].
    apply Z.div_unique with (r := Z.log2 n - 7 * Z.of_nat (k - 1)); lia.
Qed.

Lemma seen_in n prev : seen n prev = true <-> In n prev.
Proof.
  unfold seen. rewrite existsb_exists. split.
  - intros (x & I & E). apply bytes_eqb_eq in E. congruence.
  - intros I. exists n. split; [auto|]. now apply bytes_eqb_eq.
Qed.
Lemma in_distinct n l : In n (distinct l) <-> In n l.
Proof.
  induction l as [|x l IH]; cbn [distinct In]; [tauto|]. rewrite filter_In, IH.
  destruct (bytes_eqb_spec x n) as [->|Q]; cbn; [tauto|]. intuition.
Qed.
Lemma distinct_snoc l n : distinct (l ++ [n]) = if seen n l then distinct l else distinct l ++ [n].
Proof.
  induction l as [|x l IH]; [reflexivity|]. cbn [app distinct]. rewrite IH.
  unfold seen in *. cbn [existsb]. destruct (bytes_eqb_spec n x) as [->|Q]; cbn [orb].
  - destruct (existsb (bytes_eqb x) l); [reflexivity|]. rewrite filter_app. cbn [filter].
    rewrite bytes_eqb_refl. cbn. now rewrite app_nil_r.
  - destruct (existsb (bytes_eqb n) l); [reflexivity|]. rewrite filter_app. cbn [filter].
    destruct (bytes_eqb_spec x n); [congruence|]. reflexivity.
Qed.
Lemma distinct_nodup l : NoDup (distinct l).
Proof.
  induction l as [|x l IH]; cbn [distinct]; constructor.
  - rewrite filter_In. rewrite bytes_eqb_refl. cbn. intros [_ H]; discriminate.
  - apply NoDup_filter, IH.
Qed.
Lemma distinct_le l : (length (distinct l) <= length l)%nat.
Proof.
  induction l as [|x l IH]; cbn [distinct length]; [lia|].
  assert (F : forall (f : bytes -> bool) m, (length (filter f m) <= length m)%nat).
  { intros f m. induction m as [|y m IHm]; cbn [filter length]; [lia|]. destruct (f y); cbn [length]; lia. }
  pose proof (F (fun y => negb (bytes_eqb x y)) (distinct l)). lia.
Qed.
Lemma index_of_position n l : index_of n l = if seen n l then Some (Z.to_nat (position n l)) else None.
Proof.
  assert (P : forall m, 0 <= position n m) by (induction m as [|y m IHm]; cbn [position]; [lia|]; destruct (bytes_eqb y n); lia).
  unfold seen. induction l as [|x l IH]; [reflexivity|]. cbn [index_of existsb position]. rewrite IH.
  destruct (bytes_eqb_spec x n) as [->|Q].
  - rewrite bytes_eqb_refl. reflexivity.
  - destruct (bytes_eqb_spec n x); [congruence|]. cbn [orb]. destruct (existsb _ _); [|reflexivity].
    cbn [option_map]. specialize (P l). f_equal. lia.
Qed.
Lemma position_nonneg n l : 0 <= position n l.
Proof. induction l as [|y m IHm]; cbn [position]; [lia|]; destruct (bytes_eqb y n); lia. Qed.
Lemma position_le n l : position n l <= zlen l.
Proof. induction l as [|y m IHm]; cbn [position]; [unfold zlen; cbn; lia|]; rewrite zlen_cons; pose proof (zlen_nonneg m); destruct (bytes_eqb y n); lia. Qed.
Lemma seen_distinct n l : seen n (distinct l) = seen n l.
Proof.
  pose proof (seen_in n (distinct l)) as A. pose proof (seen_in n l) as B. pose proof (in_distinct n l) as C.
  destruct (seen n l), (seen n (distinct l)); try reflexivity; exfalso; intuition discriminate.
Qed.

Lemma kind_flag v : wf_value v \/ In v [val_type TObject; val_type TArray; val_type TScopeEnd] -> build_flag v = kind v.
Proof.
  intros [W|W].
  - unfold wf_value in W. unfold build_flag, kind, meaning_of.
    destruct (v_type v) eqn:Vt; try contradiction; cbn; try reflexivity;
    try (destruct W as (n & Rn & Raw); unfold int_value, v_i64; rewrite Vt; cbn; destruct (s64 (v_raw v) <? 0); reflexivity).
    + unfold v_i64, s64. destruct W as [-> | ->]; reflexivity.
    + destruct W as (n & Rn & Raw); unfold int_value; rewrite Vt, Raw; cbn. unfold u64.
      destruct (Z.ltb_spec (n mod two64) 0); [|reflexivity]. pose proof (Z.mod_pos_bound n two64 ltac:(unfold_words; lia)). lia.
    + destruct W as (n & Rn & Raw); unfold int_value; rewrite Vt, Raw; cbn. unfold u64.
      destruct (Z.ltb_spec (n mod two64) 0); [|reflexivity]. pose proof (Z.mod_pos_bound n two64 ltac:(unfold_words; lia)). lia.
    + destruct W as (n & Rn & Raw); unfold int_value; rewrite Vt, Raw; cbn. unfold u64.
      destruct (Z.ltb_spec (n mod two64) 0); [|reflexivity]. pose proof (Z.mod_pos_bound n two64 ltac:(unfold_words; lia)). lia.
    + destruct W as (n & Rn & Raw); unfold int_value; rewrite Vt, Raw; cbn. unfold u64.
      destruct (Z.ltb_spec (n mod two64) 0); [|reflexivity]. pose proof (Z.mod_pos_bound n two64 ltac:(unfold_words; lia)). lia.
  - cbn in W. repeat (destruct W as [<-|W]; [reflexivity|]). contradiction.
Qed.

Lemma int_value_abs v n : wf_value v -> int_value v = n -> meaning_of v = MeInt n -> n <> - 2 ^ 63 ->
  (if is_signed (v_type v) && (v_i64 v <? 0)
   then (if v_i64 v =? - two63 then UB UbSigned else Ok (u64 (- v_i64 v)))
   else Ok (v_raw v)) = Ok (Z.abs n) /\ 0 <= Z.abs n < two64.
Proof.
  intros W I M N. unfold wf_value in W. unfold meaning_of in M. unfold int_value, v_i64 in *.
  assert (G : exists m, v_raw v = u64 m /\ (is_signed (v_type v) = true /\ - two63 <= m < two63 \/ is_signed (v_type v) = false /\ 0 <= m < two64)).
  { destruct (v_type v) eqn:Vt; try discriminate; destruct W as (m & Rm & Raw); exists m; (split; [exact Raw|]);
    unfold in_range in Rm; cbn in Rm |- *; unfold_words; lia. }
  destruct G as (m & Raw & G). clear M W. rewrite Raw in *.
  destruct G as [[S R]|[S R]]; rewrite S in *; cbn [andb].
  - rewrite s64_u64 in I |- * by exact R. subst n. destruct (m <? 0) eqn:Q.
    + replace (m =? - two63) with false by (unfold_words; lia). unfold u64. rewrite Z.mod_small by (unfold_words; lia).
      unfold_words. split; [f_equal; lia|lia].
    + unfold u64. rewrite Z.mod_small by (unfold_words; lia). unfold_words. split; [f_equal; lia|lia].
  - unfold u64 in *. rewrite Z.mod_small in I |- * by exact R. subst n. unfold_words. split; [f_equal; lia|lia].
Qed.

Definition name_bytes (prev : list bytes) (n : bytes) (k : Z) : bytes :=
  if seen n prev then (k + 6) :: varint (position n (distinct prev)) else (k + 2) :: varint (zlen n) ++ n.

Lemma psrl_head_layout w prev stack flag n w' ops : ps_scope w = top stack -> Forall (fun t => t = TObject \/ t = TArray) stack ->
  ps_hashed w = distinct prev -> flag_ok flag -> wf_name n -> Z.of_nat (length prev) < 2 ^ 63 ->
  psrl_write_head w flag n = Ok (w', ops) ->
  ps_scope w' = ps_scope w /\ ps_stack w' = ps_stack w /\
  (if negb (zlen n =? 0) && ty_eqb (top stack) TObject
   then flat ops = name_bytes prev n flag /\ ps_hashed w' = distinct (prev ++ [n])
   else flat ops = [flag] /\ ps_hashed w' = distinct prev).
Proof.
  intros Hs Ht Hh F Wn L H. unfold psrl_write_head in H. rewrite Hs in H.
  pose proof (zlen_nonneg n) as Zn.
  assert (T : top stack = TNull \/ top stack = TObject \/ top stack = TArray).
  { destruct Ht as [|x l [->| ->] _]; cbn; auto. }
  destruct ((zlen n <? 1) || ty_eqb (top stack) TNull || ty_eqb (top stack) TArray) eqn:E.
  - injection H as <- <-. split; [auto|]. split; [auto|].
    replace (negb (zlen n =? 0) && ty_eqb (top stack) TObject) with false.
    { split; [reflexivity|exact Hh]. }
    destruct T as [T|[T|T]]; rewrite T in *; try (rewrite andb_false_r; reflexivity).
    change (ty_eqb TObject TNull) with false in E. change (ty_eqb TObject TArray) with false in E.
    rewrite !orb_false_r in E. replace (zlen n =? 0) with true by lia. reflexivity.
  - assert (TO : top stack = TObject).
    { destruct T as [T|[T|T]]; [exfalso|exact T|exfalso]; rewrite T in E; destruct (zlen n <? 1); discriminate E. }
    rewrite TO in *. change (ty_eqb TObject TObject) with true. rewrite andb_true_r.
    replace (zlen n =? 0) with false by (destruct (zlen n <? 1) eqn:Q; [discriminate E|lia]). cbn [negb].
    assert (F2 : Z.lor flag FNamed = flag + 2 /\ Z.lor (Z.lor flag FNamed) FIndexed = flag + 6).
    { cbn in F. repeat (destruct F as [<-|F]; [split; reflexivity|]). contradiction. }
    destruct F2 as [F2 F6].
    rewrite Hh, index_of_position, seen_distinct in H. unfold name_bytes. rewrite distinct_snoc.
    destruct (seen n prev).
    + rewrite F6, Z2Nat.id in H by apply position_nonneg. rewrite encode_varint in H.
      2:{ pose proof (position_nonneg n (distinct prev)). pose proof (position_le n (distinct prev)).
          pose proof (distinct_le prev). unfold zlen in *. unfold_words. lia. }
      cbn [rbind] in H. injection H as <- <-. split; [auto|]. split; [auto|]. cbn [flat flat_map]. rewrite app_nil_r. auto.
    + rewrite F2, encode_varint in H by (destruct Wn; unfold_words; lia).
      cbn [rbind] in H. injection H as <- <-. cbn. rewrite app_nil_r. auto.
Qed.

Lemma psrl_layout : forall es w stack prev w' ops,
  ps_scope w = top stack -> ps_stack w = stack -> Forall (fun t => t = TObject \/ t = TArray) stack -> ps_hashed w = distinct prev ->
  evs_ok not_int64_min stack es -> Z.of_nat (length prev + length es) < 2 ^ 63 ->
  write_events psrl_write w es = Ok (w', ops) -> flat ops = layout stack prev es.
Proof.
  induction es as [|[n v] es IH]; intros w stack prev w' ops Hs Hst Ht Hh E L H.
  { injection H as _ <-. reflexivity. }
  cbn [write_events] in H. destruct (psrl_write w (n, v)) as [[w1 o1]| | |] eqn:E1; try discriminate. cbn [rbind] in H.
  destruct (write_events psrl_write w1 es) as [[w2 o2]| | |] eqn:E2; try discriminate. injection H as <- <-.
  destruct E as [[Wn Ev] Er]. cbn [fst snd] in *. rewrite flat_app. cbn [layout].
  unfold psrl_write in E1.
  assert (Ty : wf_value v \/ In v [val_type TObject; val_type TArray; val_type TScopeEnd]).
  { cbn. destruct Ev as [[W _]|[[->| ->]|[-> _]]]; tauto. }
  rewrite (kind_flag v Ty) in E1. cbn [length] in L.
  destruct (kind v =? 0) eqn:K0.
  { assert (V : v = val_type TScopeEnd /\ stack <> []).
    { destruct Ev as [[W _]|[[->| ->]|X]]; [exfalso|discriminate K0|discriminate K0|exact X].
      unfold kind, meaning_of, wf_value in *. destruct (v_type v); try contradiction; try discriminate K0;
      try (destruct (int_value v <? 0); discriminate K0). destruct (negb _); discriminate K0. }
    destruct V as [-> Ns]. destruct stack as [|t st]; [congruence|].
    unfold psrl_pop in E1. rewrite Hst in E1. cbn [rbind] in E1. injection E1 as <- <-.
    replace (negb (zlen n =? 0) && match t with TObject => negb (ty_eqb (v_type (val_type TScopeEnd)) TScopeEnd) | _ => false end) with false
      by (destruct t; cbn; now rewrite ?andb_false_r).
    cbn [flat flat_map app]. f_equal. cbn [payload meaning_of v_type val_type app tl].
    cbn [next_stack snd v_type val_type tl] in Er. inversion Ht; subst.
    eapply IH; [| | | |exact Er| |exact E2]; cbn; auto. lia. }
  assert (FK : flag_ok (kind v)).
  { destruct Ev as [[W _]|[[->| ->]|[-> _]]]; try (cbn; tauto); try discriminate K0.
    unfold kind, meaning_of, wf_value in *. destruct (v_type v); try contradiction; try (cbn; tauto);
      try (destruct (int_value v <? 0); cbn; tauto). destruct (negb _); cbn; tauto. }
  destruct (psrl_write_head w (kind v) n) as [[wh oh]| | |] eqn:Eh; try discriminate. cbn [rbind] in E1.
  destruct (psrl_head_layout w prev stack (kind v) n wh oh Hs Ht Hh FK Wn ltac:(lia) Eh) as (Hs1 & Hst1 & HL).
  set (nmd := negb (zlen n =? 0) && match stack with TObject :: _ => negb (ty_eqb (v_type v) TScopeEnd) | _ => false end).
  assert (NM : negb (zlen n =? 0) && ty_eqb (top stack) TObject = nmd).
  { unfold nmd. destruct stack as [|[] st]; cbn [top]; rewrite ?andb_false_r; try reflexivity.
    replace (ty_eqb (v_type v) TScopeEnd) with false; [reflexivity|].
    destruct Ev as [[W _]|[[->| ->]|[-> _]]]; try reflexivity; [|discriminate K0].
    unfold wf_value in W. destruct (v_type v); try reflexivity; contradiction. }
  rewrite NM in HL. 
  set (prev' := if nmd then prev ++ [n] else prev).
  assert (HL1 : flat oh = if nmd then name_bytes prev n (kind v) else [kind v]) by (destruct nmd; tauto).
  assert (HL2 : ps_hashed wh = distinct prev') by (unfold prev'; destruct nmd; tauto).
  assert (Lp : Z.of_nat (length prev' + length es) < 2 ^ 63).
  { unfold prev'. destruct nmd; rewrite ?app_length; cbn [length]; lia. }
  set (stack' := match meaning_of v with MeObj => TObject :: stack | MeArr => TArray :: stack | MeEnd => tl stack | _ => stack end).
  assert (G : flat o1 = flat oh ++ payload v /\ ps_scope w1 = top stack' /\ ps_stack w1 = stack' /\ ps_hashed w1 = ps_hashed wh
              /\ Forall (fun t => t = TObject \/ t = TArray) stack' /\ next_stack stack (n, v) = stack').
  { destruct Ev as [[W NI]|[Hv|[-> _]]]; [| |discriminate K0].
    2:{ assert (T : exists t, v = val_type t /\ (t = TObject \/ t = TArray)) by (destruct Hv; eauto). clear Hv.
        destruct T as (t & -> & Ht2). cbn [v_type val_type] in E1.
        replace (is_scope t) with true in E1 by (destruct Ht2; subst; reflexivity). injection E1 as <- <-.
        unfold stack'. destruct Ht2; subst t; cbn; rewrite app_nil_r; rewrite Hst1, Hst; repeat split; auto. }
    assert (SS : stack' = stack /\ next_stack stack (n, v) = stack).
    { unfold stack', next_stack, meaning_of, wf_value in *. cbn [snd]. destruct (v_type v); try contradiction; auto. }
    destruct SS as [-> NS]. rewrite NS.
    assert (X : flat o1 = flat oh ++ payload v /\ w1 = wh).
    { unfold not_int64_min in NI. pose proof W as W0. unfold wf_value in W0.
      destruct (v_type v) eqn:Vt; try contradiction;
      cbn [is_scope is_integral ty_eqb ty_num Z.eqb Z.ltb Z.compare Pos.eqb Pos.compare Pos.compare_cont orb] in E1;
      try (injection E1 as <- <-; unfold payload, meaning_of; rewrite Vt; cbn [ty_eqb ty_num Z.eqb Pos.eqb]; rewrite ?flat_app; cbn [flat flat_map]; rewrite ?app_nil_r; auto; fail);
      try (assert (M : meaning_of v = MeInt (int_value v)) by (unfold meaning_of; rewrite Vt; reflexivity);
           destruct (int_value_abs v (int_value v) W eq_refl M ltac:(congruence)) as [A B];
           rewrite Vt in A; rewrite A in E1; cbn [rbind] in E1; rewrite encode_varint in E1 by exact B; cbn [rbind] in E1;
           injection E1 as <- <-; rewrite flat_app; cbn [flat flat_map]; rewrite app_nil_r;
           unfold payload; rewrite M; auto; fail).
      - injection E1 as <- <-. unfold payload, meaning_of. rewrite Vt. cbn [ty_eqb ty_num Z.eqb Pos.eqb]. rewrite flat_app. cbn [flat flat_map].
        rewrite app_nil_r. replace (v_fp32 v) with (v_raw v) by (unfold v_fp32; rewrite Z.mod_small; unfold_words; lia). auto.
      - rewrite encode_varint in E1 by (pose proof (zlen_nonneg (v_data v)); unfold_words; lia). cbn [rbind] in E1.
        injection E1 as <- <-. unfold payload, meaning_of. rewrite Vt, flat_app. cbn [flat flat_map]. rewrite app_nil_r. auto.
      - rewrite encode_varint in E1 by (pose proof (zlen_nonneg (v_data v)); unfold_words; lia). cbn [rbind] in E1.
        injection E1 as <- <-. unfold payload, meaning_of. rewrite Vt, flat_app. cbn [flat flat_map]. rewrite app_nil_r. auto. }
    destruct X as [X ->]. split; [exact X|]. rewrite Hs1, Hst1, Hs, Hst. auto. }
  destruct G as (G1 & G2 & G3 & G4 & G5 & G6).
  assert (IHr : flat o2 = layout stack' prev' es).
  { eapply IH; [exact G2|exact G3|exact G5|now rewrite G4| |exact Lp|exact E2]. now rewrite <- G6. }
  rewrite G1, HL1, IHr. unfold prev', name_bytes. destruct nmd; [now rewrite <- app_assoc|reflexivity].
Qed.
