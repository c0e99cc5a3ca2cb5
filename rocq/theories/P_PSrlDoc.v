(** Proofs about whole PSrl events and documents. *)
From Coq Require Import ZArith List Bool Lia ZifyBool ZifyNat.
From Verif Require Import Base Lemmas M_Types M_Conv M_In S_Doc M_OutOps S_Out M_Event S_PSrl M_PSrl P_In P_Reads P_Float P_Doc P_PSrl.
Import ListNotations.
Open Scope Z_scope.

Ltac wo := repeat (apply Forall_cons; [eexists; reflexivity|]); apply Forall_nil.

(** * single events *)

Definition psrl_norm_v (v : value) : value :=
  match v_type v with
  | TFP32 => val_f32 (v_raw v)
  | TFP64 => val_f64 (v_raw v)
  | TBool => val_bool (negb (v_raw v =? 0))
  | TString | TBinary => val_block_enc (v_data v) (v_type v) EUTF8
  | TNull | TObject | TArray | TScopeEnd => val_type (v_type v)
  | _ => let n := int_value v in if n <? 0 then val_int TI64 n else val_int TUI64 n
  end.
Definition psrl_norm := ev_norm psrl_norm_v.

(** values PSrl can store: all but INT64_MIN *)
Definition not_int64_min (v : value) : Prop := meaning_of v <> MeInt (- 2 ^ 63).

Definition ev_ok := ev_ok_gen not_int64_min.

(** correspondence of the writing and the reading parser *)
Record psrl_rel (stack : list ty) (w r : psrl) : Prop := {
  pr_stack : Forall (fun t => t = TObject \/ t = TArray) stack;
  pr_w : ps_stack w = stack;
  pr_ws : ps_scope w = top stack;
  pr_r : ps_stack r = stack;
  pr_rs : ps_scope r = top stack;
  pr_names : ps_indexed r = ps_hashed w
}.

Lemma index_of_nth n l i : index_of n l = Some i -> nth_error l i = Some n.
Proof.
  revert i. induction l as [|x l IH]; intros i H; [discriminate|]. cbn [index_of] in H.
  destruct (bytes_eqb_spec x n) as [->|Q]; [injection H as <-; reflexivity|].
  destruct (index_of n l); [|discriminate]. injection H as <-. cbn. now apply IH.
Qed.
Lemma index_of_lt n l i : index_of n l = Some i -> (i < length l)%nat.
Proof. intros H. apply index_of_nth in H. apply nth_error_Some. congruence. Qed.

(** the flags in use *)
Definition flag_ok (f : Z) : Prop := In f [1; 9; 17; 33; 65; 129; 8; 16; 32; 64; 128].

Lemma reads_head stack w r flag name : psrl_rel stack w r -> wf_name name -> flag_ok flag ->
  Z.of_nat (length (ps_hashed w)) < two64 ->
  exists w' ops r' fl, psrl_write_head w flag name = Ok (w', ops) /\ writes_only ops /\
    reads (psrl_read_head r) (flat ops) (r', (fl, if ty_eqb (top stack) TObject then name else [])) /\
    psrl_rel stack w' r' /\ (fl = flag \/ fl = Z.lor flag 2 \/ fl = Z.lor flag 6) /\
    (length (ps_hashed w') <= S (length (ps_hashed w)))%nat.
Proof.
  intros [Hs Hw Hws Hr Hrs Hn] [Wn Ln] F B. unfold psrl_write_head. rewrite Hws.
  assert (T : top stack = TNull \/ top stack = TObject \/ top stack = TArray).
  { destruct Hs as [|x l [->| ->] _]; cbn; auto. }
  destruct ((zlen name <? 1) || ty_eqb (top stack) TNull || ty_eqb (top stack) TArray) eqn:E.
  - exists w, [OWrite [flag]], r, flag. split; [reflexivity|]. split; [wo|].
    split; [|split; [constructor; auto|split; [auto|lia]]].
    unfold psrl_read_head. cbn [flat flat_map app].
    eapply reads_bind0; [apply reads_byte|]. 
    replace (negb (has flag FNamed)) with true.
    2:{ cbn in F. repeat (destruct F as [<-|F]; [reflexivity|]). contradiction. }
    cbn [orb]. replace (if ty_eqb (top stack) TObject then name else []) with (@nil Z).
    { apply reads_ret. }
    destruct name; [destruct (ty_eqb (top stack) TObject); reflexivity|]. rewrite zlen_cons in E. pose proof (zlen_nonneg name).
    destruct T as [T|[T|T]]; rewrite T in *; try reflexivity. exfalso.
    apply orb_prop in E; destruct E as [E|E]; [apply orb_prop in E; destruct E as [E|E]; [lia|discriminate E]|discriminate E].
  - assert (TO : top stack = TObject).
    { destruct T as [T|[T|T]]; [exfalso|exact T|exfalso]; rewrite T in E; destruct (zlen name <? 1); discriminate E. }
    rewrite TO in *. cbn [ty_eqb].
    assert (RH : forall fl, negb (has fl FNamed) || ty_eqb (ps_scope r) TNull || ty_eqb (ps_scope r) TArray = negb (has fl FNamed)).
    { intros. rewrite Hrs. cbn. now rewrite !orb_false_r. }
    assert (N2 : has (Z.lor flag 2) FNamed = true /\ has (Z.lor flag 2) FIndexed = false /\
                 has (Z.lor (Z.lor flag 2) 4) FNamed = true /\ has (Z.lor (Z.lor flag 2) 4) FIndexed = true).
    { cbn in F. repeat (destruct F as [<-|F]; [repeat split; reflexivity|]). contradiction. }
    destruct N2 as (N1 & N2 & N3 & N4).
    destruct (index_of name (ps_hashed w)) as [i|] eqn:I.
    + pose proof (index_of_lt _ _ _ I). destruct (encode_integer_spec (Z.of_nat i)) as (k & Hk & Ek & _); [lia|].
      change FIndexed with 4 in *; change FNamed with 2 in *. rewrite Ek. cbn [rbind].
      eexists _, _, r, (Z.lor (Z.lor flag 2) 4). split; [reflexivity|]. split; [wo|].
      split; [|split; [constructor; rewrite ?TO; auto|split; [right; right|lia]]].
      2:{ now rewrite <- Z.lor_assoc. }
      unfold psrl_read_head. cbn [flat flat_map app].
      change (Z.lor (Z.lor flag 2) 4 :: vlq k (Z.of_nat i) ++ []) with ([Z.lor (Z.lor flag 2) 4] ++ (vlq k (Z.of_nat i) ++ [])).
      eapply reads_bind; [apply reads_byte|]. change FIndexed with 4; change FNamed with 2. rewrite RH, N3. cbn [negb]. rewrite N4.
      rewrite app_nil_r. eapply reads_bind0; [apply reads_integer; [|exact Ek]; lia|].
      replace (zlen (ps_indexed r) <=? Z.of_nat i) with false by (rewrite Hn; unfold zlen; lia).
      rewrite Nat2Z.id, Hn, (index_of_nth _ _ _ I). apply reads_ret.
    + destruct (encode_integer_spec (zlen name)) as (k & Hk & Ek & _).
      { pose proof (zlen_nonneg name). unfold_words. lia. }
      rewrite Ek. cbn [rbind].
      eexists _, _, _, _. split; [reflexivity|]. split; [wo|].
      split; [|split].
      * unfold psrl_read_head. cbn [flat flat_map]. rewrite app_nil_r.
        eapply reads_bind; [apply reads_byte|]. change FNamed with 2 in *; change FIndexed with 4 in *. rewrite RH, N1. cbn [negb]. rewrite N2.
        eapply reads_bind; [apply reads_integer; [|exact Ek]; pose proof (zlen_nonneg name); unfold_words; lia|].
        eapply reads_bind0; [apply reads_block; unfold_words; lia|]. apply reads_ret.
      * constructor; cbn; rewrite ?TO; auto. now rewrite Hn.
      * split; [now right; left|]. cbn. rewrite app_length. cbn. lia.
Qed.

(* the two families of cases of [psrl_step] *)
Ltac ints v Hints Wv Vt Nm :=
    let n := fresh "n" in let Rn := fresh "Rn" in let Raw := fresh "Raw" in
    destruct Wv as (n & Rn & Raw);
    assert (Iv : int_value v = n) by
      (unfold int_value, in_range in *; rewrite ?Vt in *; cbn in Rn |- *; rewrite Raw;
       first [apply s64_u64; unfold_words; lia | apply Z.mod_small; unfold_words; lia]);
    apply (Hints n Iv);
    [ rewrite Iv in Nm; unfold in_range in Rn; cbn in Rn; assert (n <> - 2 ^ 63) by congruence; unfold_words; lia
    | exact Raw | cbn; tauto
    | intros Q; unfold in_range in Rn; cbn in Rn, Q; unfold_words; first [discriminate Q|lia]
    | intros Q; unfold in_range in Rn; cbn in Rn, Q; unfold_words; first [lia|discriminate Q]
    | unfold build_flag; rewrite ?Vt; unfold v_i64; rewrite Raw; unfold in_range in Rn; cbn in Rn;
      first [rewrite s64_u64 by (unfold_words; lia); cbn; destruct (n <? 0); reflexivity
            |cbn; replace (n <? 0) with false by lia; reflexivity]
    | unfold psrl_norm_v; rewrite Vt, Iv; reflexivity ].
Ltac blocks v G Wv Vt fl Fl :=
    destruct Wv as [Wb Wl];
    destruct (encode_integer_spec (zlen (v_data v))) as (k & Hk & Ek & _);
      [pose proof (zlen_nonneg (v_data v)); unfold_words; lia|]; rewrite Ek; cbn [rbind];
    apply G; [wo|];
    assert (Q : flag_is_scope fl = false /\ has fl FNum = false /\ has fl (Z.lor FBinary FString) = true /\
                (if has fl FBinary then TBinary else TString) = v_type v) by
      (unfold build_flag in Fl; rewrite Vt in Fl |- *; destruct Fl as [->|[->| ->]]; repeat split; reflexivity);
    destruct Q as (-> & -> & -> & ->); cbn [flat flat_map]; rewrite app_nil_r;
    eapply reads_bind; [apply reads_integer; [|exact Ek]; pose proof (zlen_nonneg (v_data v)); unfold_words; lia|];
    eapply reads_bind0; [apply reads_block; unfold_words; lia|];
    unfold psrl_norm_v; rewrite Vt; apply reads_ret.

Lemma psrl_step stack w r e : psrl_rel stack w r -> ev_ok stack e -> Z.of_nat (length (ps_hashed w)) < two64 ->
  exists w' ops r', psrl_write w e = Ok (w', ops) /\ writes_only ops /\
    reads (psrl_read r) (flat ops) (r', psrl_norm (top stack) e) /\
    psrl_rel (next_stack stack e) w' r' /\ (length (ps_hashed w') <= S (length (ps_hashed w)))%nat.
Proof.
  intros R [Wn Hv] B. destruct e as [name v]. cbn [fst snd] in *.
  destruct (Z.eq_dec (build_flag v) 0) as [F0|F0].
  { (* scope end *)
    assert (V : v = val_type TScopeEnd /\ stack <> []).
    { destruct Hv as [[Wv _]|[[->| ->]|Hv]]; [|discriminate F0|discriminate F0|exact Hv].
      exfalso. unfold build_flag, wf_value in *. destruct (v_type v); cbn in *; try discriminate; try contradiction;
        repeat match type of F0 with context [if ?b then _ else _] => destruct b end; discriminate. }
    destruct V as [-> Ns]. destruct R as [Hs Hw Hws Hr Hrs Hn]. destruct stack as [|t st]; [congruence|].
    unfold psrl_write. cbn [build_flag v_type val_type]. cbn [is_num is_integral is_fp is_scope ty_eqb ty_num andb orb Z.eqb Z.ltb Z.compare]. 
    change (build_flag (val_type TScopeEnd) =? 0) with true.
    unfold psrl_pop at 1. rewrite Hw. cbn [rbind].
    eexists _, _, _. split; [reflexivity|]. split; [wo|].
    split; [|split].
    - unfold psrl_read. cbn [flat flat_map app].
      eapply reads_bind0; [eapply reads_bind0; [apply reads_byte|]|].
      { change (negb (has 0 FNamed)) with true. cbn [orb]. apply reads_ret. }
      cbn iota beta. change (0 =? 0) with true. cbv iota. rewrite Hr.
      unfold psrl_pop. rewrite Hr. cbn [lift pbind].
      unfold psrl_norm, ev_norm. cbn [snd fst v_type val_type]. cbn [ty_eqb ty_num Z.eqb negb]. rewrite andb_false_r. apply reads_ret.
    - cbn [next_stack snd v_type val_type tl]. inversion Hs; subst. constructor; cbn; auto.
    - cbn. lia. }
  unfold psrl_write. replace (build_flag v =? 0) with false by lia.
  assert (FK : flag_ok (build_flag v)).
  { destruct Hv as [[Wv _]|[[->| ->]|[-> _]]]; [|cbn; tauto|cbn; tauto|exfalso; apply F0; reflexivity].
    unfold build_flag in *. unfold wf_value in Wv. destruct (v_type v); cbn in *; try contradiction; try tauto;
      try (destruct (v_i64 v <? 0); cbn; tauto); try (destruct (v_i64 v =? 0); cbn; tauto). }
  destruct (reads_head stack w r (build_flag v) name R Wn FK B) as (w1 & ops & r1 & fl & Wh & Wo & Rh & R1 & Fl & Bl).
  rewrite Wh. cbn [rbind].
  set (nm := if ty_eqb (top stack) TObject then name else []) in *.
  (* it suffices to read the rest after the head *)
  assert (K : forall ops2 (r2 : psrl) v2, writes_only ops2 ->
     (reads (if flag_is_scope fl then Ret (psrl_push r1 (if has fl FObject then TObject else TArray), (nm, val_type (if has fl FObject then TObject else TArray)))
             else if has fl FNum then let! v := psrl_read_num fl in Ret (r1, (nm, v))
             else if has fl (Z.lor FBinary FString) then
               let! size := decode_integer in let! block := read_block size in
               Ret (r1, (nm, val_block_enc block (if has fl FBinary then TBinary else TString) EUTF8))
             else if has fl FNull then Ret (r1, (nm, val_type TNull)) else Throw) (flat ops2) (r2, (nm, v2))) ->
     writes_only (ops ++ ops2) /\ reads (psrl_read r) (flat (ops ++ ops2)) (r2, (nm, v2))).
  { intros ops2 r2 v2 W2 H. split; [apply writes_only_app; auto|]. rewrite flat_app. unfold psrl_read.
    eapply reads_bind; [exact Rh|]. cbv beta iota. 
    replace (fl =? 0) with false; [exact H|].
    assert (0 < fl); [|lia].
    clear - Fl FK. cbn in FK. repeat (destruct FK as [Q|FK]; [rewrite <- Q in Fl; destruct Fl as [->|[->| ->]]; reflexivity|]). contradiction. }
  assert (NM : psrl_norm (top stack) (name, v) = (nm, psrl_norm_v v)).
  { unfold psrl_norm, ev_norm, nm. cbn [fst snd]. destruct (ty_eqb (v_type v) TScopeEnd) eqn:Q; [|now rewrite andb_true_r].
    exfalso. apply F0. unfold ty_eqb in Q. destruct v as [t ? ? ?]; destruct t; cbn in Q; try discriminate. reflexivity. }
  rewrite NM.
  destruct Hv as [[Wv Nm]|[Hv|[Hv _]]]; [| |subst v; exfalso; apply F0; reflexivity].
  2:{ (* scopes *)
    assert (T : exists t, v = val_type t /\ (t = TObject \/ t = TArray)) by (destruct Hv; eauto). clear Hv.
    destruct T as (t & -> & Ht). cbn [v_type val_type].
    replace (is_scope t) with true by (destruct Ht; subst; reflexivity).
    exists (psrl_push w1 t), (ops ++ []), (psrl_push r1 t). rewrite app_nil_r. split; [reflexivity|].
    replace ops with (ops ++ []) by apply app_nil_r.
    destruct (K [] (psrl_push r1 t) (val_type t)) as [K1 K2]; [constructor| |].
    { assert (Q : flag_is_scope fl = true /\ (if has fl FObject then TObject else TArray) = t).
      { clear - Fl Ht. destruct Ht; subst t; cbn in Fl; destruct Fl as [->|[->| ->]]; split; reflexivity. }
      destruct Q as [-> ->]. apply reads_ret. }
    split; [exact K1|]. split.
    { unfold psrl_norm_v. cbn [v_type val_type]. destruct Ht; subst t; exact K2. }
    split; [|exact Bl].
    destruct R1 as [Hs Hw Hws Hr Hrs Hn].
    destruct Ht; subst t; cbn; constructor; cbn; auto; congruence. }
  (* values *)
  assert (NS : next_stack stack (name, v) = stack).
  { unfold next_stack, wf_value in *. cbn [snd]. destruct (v_type v); try contradiction; reflexivity. }
  rewrite NS.
  assert (G : forall ops2, writes_only ops2 ->
     reads (if flag_is_scope fl then Ret (psrl_push r1 (if has fl FObject then TObject else TArray), (nm, val_type (if has fl FObject then TObject else TArray)))
             else if has fl FNum then let! v := psrl_read_num fl in Ret (r1, (nm, v))
             else if has fl (Z.lor FBinary FString) then
               let! size := decode_integer in let! block := read_block size in
               Ret (r1, (nm, val_block_enc block (if has fl FBinary then TBinary else TString) EUTF8))
             else if has fl FNull then Ret (r1, (nm, val_type TNull)) else Throw) (flat ops2) (r1, (nm, psrl_norm_v v)) ->
     exists w' ops' r', Ok (w1, ops ++ ops2) = Ok (w', ops') /\ writes_only ops' /\
       reads (psrl_read r) (flat ops') (r', (nm, psrl_norm_v v)) /\ psrl_rel stack w' r' /\
       (length (ps_hashed w') <= S (length (ps_hashed w)))%nat).
  { intros ops2 W2 H. destruct (K ops2 r1 (psrl_norm_v v) W2 H) as [K1 K2].
    exists w1, (ops ++ ops2), r1. auto. }
  clear K NS NM.
  assert (Hints : forall n, int_value v = n -> (0 <= n < two64 \/ - two63 < n < 0) -> v_raw v = u64 n ->
     In (v_type v) [TI8; TUI8; TI16; TUI16; TI32; TUI32; TI64; TUI64] ->
     (is_signed (v_type v) = true -> n < two63) -> (is_signed (v_type v) = false -> 0 <= n) ->
     build_flag v = (if n <? 0 then 9 else 1) ->
     psrl_norm_v v = (if n <? 0 then val_int TI64 n else val_int TUI64 n) ->
     exists w' ops' r',
       (let* n := (if is_signed (v_type v) && (v_i64 v <? 0)
                   then (if v_i64 v =? - two63 then UB UbSigned else Ok (u64 (- v_i64 v)))
                   else Ok (v_raw v)) in
        let* e := encode_integer n in Ok (w1, ops ++ [OWrite e])) = Ok (w', ops') /\ writes_only ops' /\
       reads (psrl_read r) (flat ops') (r', (nm, psrl_norm_v v)) /\ psrl_rel stack w' r' /\
       (length (ps_hashed w') <= S (length (ps_hashed w)))%nat).
  { intros n Iv Hn Raw Ity Sg Us Bf Nv.
    assert (I64 : is_signed (v_type v) = true -> v_i64 v = n).
    { intros S. unfold v_i64. rewrite Raw. apply s64_u64. specialize (Sg S). lia. }
    destruct (Z_lt_dec n 0) as [Neg|Pos].
    - assert (S : is_signed (v_type v) = true) by (destruct (is_signed (v_type v)); [auto|specialize (Us eq_refl); lia]).
      rewrite S, (I64 S). replace (n <? 0) with true in * by lia. cbn [andb].
      replace (n =? - two63) with false by lia. cbn [rbind].
      assert (U : u64 (- n) = - n) by (unfold u64; apply Z.mod_small; unfold_words; lia). rewrite U.
      destruct (encode_integer_spec (- n)) as (k & Hk & Ek & _); [unfold_words; lia|]. rewrite Ek. cbn [rbind].
      apply G; [wo|]. cbn [flat flat_map]. rewrite app_nil_r.
      assert (Q : flag_is_scope fl = false /\ has fl FNum = true /\ has fl (Z.lor FTrue FFalse) = false /\ has fl FFP32 = false /\
                  has fl FFP64 = false /\ has fl FSigned = true).
      { rewrite Bf in Fl. destruct Fl as [->|[->| ->]]; repeat split; reflexivity. }
      destruct Q as (-> & -> & Q). unfold psrl_read_num. destruct Q as (-> & -> & -> & ->).
      eapply reads_bind0; [|apply reads_ret].
      eapply reads_bind0; [apply reads_integer; [|exact Ek]; unfold_words; lia|].
      assert (S6 : s64 (- n) = - n) by (unfold s64; replace (- n <? two63) with true by lia; reflexivity).
      rewrite S6. replace (- n =? - two63) with false by (unfold_words; lia).
      rewrite Z.opp_involutive, Nv. apply reads_ret.
    - assert (E : (if is_signed (v_type v) && (v_i64 v <? 0)
                   then (if v_i64 v =? - two63 then UB UbSigned else Ok (u64 (- v_i64 v)))
                   else Ok (v_raw v)) = Ok n).
      { destruct (is_signed (v_type v)) eqn:S; cbn [andb].
        - rewrite (I64 eq_refl). replace (n <? 0) with false by lia. rewrite Raw. unfold u64. rewrite Z.mod_small by lia. auto.
        - rewrite Raw. unfold u64. rewrite Z.mod_small by lia. auto. }
      rewrite E. cbn [rbind]. replace (n <? 0) with false in * by lia.
      destruct (encode_integer_spec n) as (k & Hk & Ek & _); [lia|]. rewrite Ek. cbn [rbind].
      apply G; [wo|]. cbn [flat flat_map]. rewrite app_nil_r.
      assert (Q : flag_is_scope fl = false /\ has fl FNum = true /\ has fl (Z.lor FTrue FFalse) = false /\ has fl FFP32 = false /\
                  has fl FFP64 = false /\ has fl FSigned = false).
      { rewrite Bf in Fl. destruct Fl as [->|[->| ->]]; repeat split; reflexivity. }
      destruct Q as (-> & -> & Q). unfold psrl_read_num. destruct Q as (-> & -> & -> & ->).
      eapply reads_bind0; [|apply reads_ret].
      eapply reads_bind0; [apply reads_integer; [|exact Ek]; lia|].
      rewrite Nv. apply reads_ret. }
  unfold wf_value in Wv. unfold not_int64_min, meaning_of in Nm.
  destruct (v_type v) eqn:Vt; try contradiction; cbn [is_scope is_integral ty_eqb ty_num Z.eqb Z.ltb Z.compare Pos.eqb Pos.compare Pos.compare_cont orb].
  - (* bool *)
    assert (I : v_i64 v = v_raw v) by (unfold v_i64, s64; destruct Wv as [-> | ->]; reflexivity).
    destruct (G []) as (w' & ops' & r' & E & X); [constructor| |].
    + assert (Q : flag_is_scope fl = false /\ has fl FNum = true /\ has fl (Z.lor FTrue FFalse) = true /\ has fl FTrue = negb (v_raw v =? 0)).
      { unfold build_flag in Fl. rewrite Vt, I in Fl.
        destruct Wv as [Wr|Wr]; rewrite Wr in Fl |- *; destruct Fl as [->|[->| ->]]; repeat split; reflexivity. }
      destruct Q as (-> & -> & Q). unfold psrl_read_num. destruct Q as (-> & ->).
      unfold psrl_norm_v. rewrite Vt. apply reads_ret.
    + exists w', ops', r'. rewrite app_nil_r in E. split; [exact E|exact X].
  - ints v Hints Wv Vt Nm.
  - ints v Hints Wv Vt Nm.
  - ints v Hints Wv Vt Nm.
  - ints v Hints Wv Vt Nm.
  - ints v Hints Wv Vt Nm.
  - ints v Hints Wv Vt Nm.
  - ints v Hints Wv Vt Nm.
  - ints v Hints Wv Vt Nm.
  - (* float *)
    destruct (G [OWrite (le 4 (v_fp32 v))]) as (w' & ops' & r' & E & X); [wo| |].
    + assert (Q : flag_is_scope fl = false /\ has fl FNum = true /\ has fl (Z.lor FTrue FFalse) = false /\ has fl FFP32 = true).
      { unfold build_flag in Fl. rewrite Vt in Fl. destruct Fl as [->|[->| ->]]; repeat split; reflexivity. }
      destruct Q as (-> & -> & Q). unfold psrl_read_num. destruct Q as (-> & ->).
      eapply reads_bind0; [|apply reads_ret].
      cbn [flat flat_map]. rewrite app_nil_r. eapply reads_bind0; [apply reads_le; [reflexivity|unfold v_fp32; unfold_words; apply Z.mod_pos_bound; lia|unfold_words; lia]|].
      unfold psrl_norm_v, v_fp32. rewrite Vt, Z.mod_small by (unfold_words; lia). apply reads_ret.
    + exists w', ops', r'. split; [exact E|exact X].
  - (* double *)
    destruct (G [OWrite (le 8 (v_raw v))]) as (w' & ops' & r' & E & X); [wo| |].
    + assert (Q : flag_is_scope fl = false /\ has fl FNum = true /\ has fl (Z.lor FTrue FFalse) = false /\ has fl FFP32 = false /\ has fl FFP64 = true).
      { unfold build_flag in Fl. rewrite Vt in Fl. destruct Fl as [->|[->| ->]]; repeat split; reflexivity. }
      destruct Q as (-> & -> & Q). unfold psrl_read_num. destruct Q as (-> & -> & ->).
      eapply reads_bind0; [|apply reads_ret].
      cbn [flat flat_map]. rewrite app_nil_r. eapply reads_bind0; [apply reads_le; [reflexivity|exact Wv|unfold_words; lia]|].
      unfold psrl_norm_v. rewrite Vt. apply reads_ret.
    + exists w', ops', r'. split; [exact E|exact X].
  - (* null *)
    destruct (G []) as (w' & ops' & r' & E & X); [constructor| |].
    + assert (Q : flag_is_scope fl = false /\ has fl FNum = false /\ has fl (Z.lor FBinary FString) = false /\ has fl FNull = true).
      { unfold build_flag in Fl. rewrite Vt in Fl. destruct Fl as [->|[->| ->]]; repeat split; reflexivity. }
      destruct Q as (-> & -> & -> & ->). unfold psrl_norm_v. rewrite Vt. apply reads_ret.
    + exists w', ops', r'. rewrite app_nil_r in E. split; [exact E|exact X].
  - blocks v G Wv Vt fl Fl.
  - blocks v G Wv Vt fl Fl.
Qed.

(** * documents *)

Lemma psrl_norm_meaning v : wf_value v -> meaning_of (psrl_norm_v v) = meaning_of v.
Proof.
  intros W. unfold wf_value in W. unfold psrl_norm_v. unfold meaning_of at 2.
  assert (I : forall t n, in_range t n -> v_raw v = u64 n -> v_type v = t ->
     In t [TI8; TUI8; TI16; TUI16; TI32; TUI32; TI64; TUI64] ->
     int_value v = n /\ meaning_of (if n <? 0 then val_int TI64 n else val_int TUI64 n) = MeInt n).
  { intros t n Rn Raw Vt It. split.
    - unfold int_value. rewrite Vt, Raw. unfold in_range in Rn.
      cbn in It; repeat (destruct It as [<-|It];
        [cbn in Rn |- *; first [apply s64_u64; unfold_words; lia | apply Z.mod_small; unfold_words; lia]|]); contradiction.
    - unfold in_range in Rn. destruct (n <? 0) eqn:E; apply meaning_int; try (cbn; tauto); unfold in_range;
      cbn in It; repeat (destruct It as [<-|It]; [cbn in Rn |- *; unfold_words; lia|]); contradiction. }
  destruct (v_type v) eqn:Vt; try contradiction.
  - destruct W as [-> | ->]; reflexivity.
  - destruct W as (n & Rn & Raw). destruct (I _ n Rn Raw eq_refl ltac:(cbn; tauto)) as [-> ->]. reflexivity.
  - destruct W as (n & Rn & Raw). destruct (I _ n Rn Raw eq_refl ltac:(cbn; tauto)) as [-> ->]. reflexivity.
  - destruct W as (n & Rn & Raw). destruct (I _ n Rn Raw eq_refl ltac:(cbn; tauto)) as [-> ->]. reflexivity.
  - destruct W as (n & Rn & Raw). destruct (I _ n Rn Raw eq_refl ltac:(cbn; tauto)) as [-> ->]. reflexivity.
  - destruct W as (n & Rn & Raw). destruct (I _ n Rn Raw eq_refl ltac:(cbn; tauto)) as [-> ->]. reflexivity.
  - destruct W as (n & Rn & Raw). destruct (I _ n Rn Raw eq_refl ltac:(cbn; tauto)) as [-> ->]. reflexivity.
  - destruct W as (n & Rn & Raw). destruct (I _ n Rn Raw eq_refl ltac:(cbn; tauto)) as [-> ->]. reflexivity.
  - destruct W as (n & Rn & Raw). destruct (I _ n Rn Raw eq_refl ltac:(cbn; tauto)) as [-> ->]. reflexivity.
  - unfold meaning_of, val_f32. cbn [v_type]. unfold v_double. cbn [v_type v_raw]. rewrite Vt. reflexivity.
  - assert (M : meaning_of (val_f64 (v_raw v)) = MeFloat (v_double (val_f64 (v_raw v)))).
    { unfold meaning_of, val_f64. destruct (narrow64 (v_raw v)); reflexivity. }
    rewrite M, val_f64_roundtrip by exact W. unfold v_double. rewrite Vt. reflexivity.
  - reflexivity.
  - unfold val_block_enc, meaning_of. cbn [v_type v_data]. rewrite trunc_block_id by (unfold_words; lia). reflexivity.
  - unfold val_block_enc, meaning_of. cbn [v_type v_data]. rewrite trunc_block_id by (unfold_words; lia). reflexivity.
Qed.

Lemma doc_norm_denote nv d : (forall v, wf_value v -> meaning_of (nv v) = meaning_of v) -> wf_doc d ->
  forall nm, mdoc_of (doc_norm nv nm d) = denote nm d.
Proof.
  intros Hn. induction d as [n v|n t its IH] using doc_ind2; intros W nm.
  - cbn in W. cbn [doc_norm mdoc_of denote]. now rewrite Hn by tauto.
  - apply wf_doc_scope in W. destruct W as (_ & _ & Wi). cbn [doc_norm mdoc_of denote]. f_equal.
    rewrite map_map. induction IH as [|x l Hx Hl IHl]; cbn [map]; [reflexivity|].
    inversion Wi; subst. rewrite Hx by auto. f_equal. auto.
Qed.

Definition psrl_rel_k (k : nat) (st : list ty) (w r : psrl) : Prop :=
  psrl_rel st w r /\ Z.of_nat (length (ps_hashed w) + k) <= two64.

Lemma psrl_step_k k st a b e : psrl_rel_k (S k) st a b -> ev_ok_gen not_int64_min st e ->
    exists a' ops b', psrl_write a e = Ok (a', ops) /\ writes_only ops /\ reads (psrl_read b) (flat ops) (b', ev_norm psrl_norm_v (top st) e) /\
      psrl_rel_k k (next_stack st e) a' b'.
Proof.
  intros [R B] E. destruct (psrl_step st a b e R E ltac:(lia)) as (a' & ops & b' & X1 & X2 & X3 & X4 & X5).
  exists a', ops, b'. repeat split; try tauto; try apply X4. lia.
Qed.

Lemma psrl_doc d : wf_doc d -> all_vals (fun _ v => not_int64_min v) d -> Z.of_nat (length (events d)) <= 2 ^ 64 ->
  forall st w r, psrl_rel st w r -> ps_hashed w = [] ->
  exists w' ops r', write_events psrl_write w (events d) = Ok (w', ops) /\ writes_only ops /\
    reads (read_events psrl_read (length (events d)) r) (flat ops)
      (r', events (doc_norm psrl_norm_v (ty_eqb (top st) TObject) d)) /\ psrl_rel st w' r'.
Proof.
  intros W A L st w r R H0.
  destruct (evs_ok_doc not_int64_min d W A st) as [E1 E2].
  destruct (stepwise _ _ psrl_write psrl_read _ _ _ psrl_step_k (events d) 0%nat st w r) as (w' & ops & r' & X1 & X2 & X3 & X4).
  { split; [exact R|]. rewrite H0. cbn [length]. unfold_words. lia. }
  { exact E1. }
  rewrite E2 in X4. rewrite (evs_norm_doc not_int64_min) in X3; auto.
  2:{ intros t It. cbn in It. repeat (destruct It as [<-|It]; [reflexivity|]). contradiction. }
  exists w', ops, r'. destruct X4. auto.
Qed.

Lemma psrl_rel_init : psrl_rel [] psrl_init psrl_init.
Proof. constructor; auto. Qed.

Lemma psrl_roundtrip d : wf_doc d -> all_vals (fun _ v => meaning_of v <> MeInt (- 2 ^ 63)) d ->
  Z.of_nat (length (events d)) < 2 ^ 63 ->
  exists w' ops, write_events psrl_write psrl_init (events d) = Ok (w', ops) /\ valid_ops [] ops /\
  exists r' d', mdoc_of d' = denote false d /\ length (events d') = length (events d) /\
    reads (read_events psrl_read (length (events d)) psrl_init) (spec_out ops) (r', events d').
Proof.
  intros W A L.
  destruct (psrl_doc d W A ltac:(lia) [] psrl_init psrl_init psrl_rel_init eq_refl) as (w' & ops & r' & X1 & X2 & X3 & _).
  exists w', ops. split; [exact X1|]. split; [now apply writes_only_valid|].
  exists r', (doc_norm psrl_norm_v false d). split; [apply doc_norm_denote; auto using psrl_norm_meaning|].
  split; [apply events_norm_length|]. rewrite writes_only_out by auto. exact X3.
Qed.

(** * the reader never asks how much is left *)

Lemma plain_read_block n : plain (read_block n).
Proof. cbn. auto. Qed.
Lemma plain_read_move n : plain (read_move n).
Proof. cbn. auto. Qed.
Lemma plain_decode : plain decode_integer.
Proof.
  unfold decode_integer. cbn [plain]. intros c.
  assert (G : forall f b o s, plain (decode_loop f b o s)).
  { induction f; intros; cbn [decode_loop]; [exact I|]. destruct (has b 128).
    - cbn [plain]. intros. destruct (64 <=? s); [exact I|apply IHf].
    - destruct (70 <? s); cbn; exact I. }
  apply G.
Qed.
Lemma plain_psrl_read st : plain (psrl_read st).
Proof.
  unfold psrl_read. apply plain_bind.
  - unfold psrl_read_head. apply plain_bind; [apply plain_read_move|]. intros f.
    destruct (_ || _); [exact I|]. destruct (has f FIndexed).
    + apply plain_bind; [apply plain_decode|]. intros i. destruct (_ <=? _); [exact I|]. destruct (nth_error _ _); exact I.
    + apply plain_bind; [apply plain_decode|]. intros i. apply plain_bind; [apply plain_read_block|]. intros; exact I.
  - intros [st1 [f n]]. destruct (f =? 0).
    + destruct (ps_stack st1) as [|t s] eqn:E; [exact I|]. unfold psrl_pop. rewrite E. cbn. exact I.
    + destruct (flag_is_scope f); [exact I|]. destruct (has f FNum).
      * apply plain_bind; [|intros; exact I]. unfold psrl_read_num. destruct (has f _); [exact I|].
        destruct (has f FFP32); [apply plain_bind; [apply plain_read_move|intros; exact I]|].
        destruct (has f FFP64); [apply plain_bind; [apply plain_read_move|intros; exact I]|].
        apply plain_bind; [apply plain_decode|]. intros i. destruct (has f FSigned); [|exact I]. destruct (_ =? _); exact I.
      * destruct (has f _); [|destruct (has f FNull); exact I].
        apply plain_bind; [apply plain_decode|]. intros i. apply plain_bind; [apply plain_read_block|]. intros; exact I.
Qed.
