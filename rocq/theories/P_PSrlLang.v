(** The exact language of PSrl. *)
From Coq Require Import ZArith List Bool Lia ZifyBool ZifyNat.
From Verif Require Import Base Lemmas M_Types M_Conv M_In S_Doc M_OutOps S_Out M_Event S_MsgPack S_PSrl M_PSrl S_MsgPackLang S_PSrlLang M_Tree S_Tree M_TreeIO
  P_In P_Reads P_Safe P_Exact P_Float P_Doc P_PSrl P_PSrlDoc P_PSrlSafe P_MsgPackSafe P_MsgPack P_MsgPackDoc P_Tree P_TreeSafe P_MsgPackLang.
Import ListNotations.
Open Scope Z_scope.

Scheme ps_doc_ind2 := Induction for ps_doc Sort Prop with ps_items_ind2 := Induction for ps_items Sort Prop.

(** * Flags *)
Lemma flags f : 0 <= f < 256 ->
  has f FNum = f # 0 /\ has f FNamed = f # 1 /\ has f FIndexed = f # 2 /\ has f FSigned = f # 3 /\ has f FFP32 = f # 4 /\ has f FFP64 = f # 5 /\
  has f FTrue = f # 6 /\ has f (Z.lor FTrue FFalse) = f # 6 || f # 7 /\ has f (Z.lor FBinary FString) = f # 4 || f # 5 /\
  flag_is_scope f = negb (f # 0) && (f # 6 || f # 7).
Proof.
  intros B. pose proof (byte_cases (fun f => Bool.eqb (has f FNum) (f # 0) && Bool.eqb (has f FNamed) (f # 1) && Bool.eqb (has f FIndexed) (f # 2) && Bool.eqb (has f FSigned) (f # 3) &&
    Bool.eqb (has f FFP32) (f # 4) && Bool.eqb (has f FFP64) (f # 5) && Bool.eqb (has f FTrue) (f # 6) && Bool.eqb (has f (Z.lor FTrue FFalse)) (f # 6 || f # 7) &&
    Bool.eqb (has f (Z.lor FBinary FString)) (f # 4 || f # 5) && Bool.eqb (flag_is_scope f) (negb (f # 0) && (f # 6 || f # 7))) eq_refl f B) as H.
  cbv beta in H. apply andb_prop in H as [H H10]. apply andb_prop in H as [H H9]. apply andb_prop in H as [H H8]. apply andb_prop in H as [H H7]. apply andb_prop in H as [H H6].
  apply andb_prop in H as [H H5]. apply andb_prop in H as [H H4]. apply andb_prop in H as [H H3]. apply andb_prop in H as [H1 H2].
  apply eqb_prop in H1, H2, H3, H4, H5, H6, H7, H8, H9, H10. auto 12.
Qed.

(** * Numbers *)
Lemma digits_len m bs : digits m bs -> (1 <= length bs)%nat /\ 0 <= m < 128 ^ Z.of_nat (length bs).
Proof.
  intros H. induction H as [b B|b n bs B H [IH1 IH2]]; cbn [length].
  - split; [lia|]. change (128 ^ Z.of_nat 1) with 128. lia.
  - split; [lia|]. rewrite Nat2Z.inj_succ, Z.pow_succ_r by lia. lia.
Qed.
Lemma digits_wf m bs : digits m bs -> wf_bytes bs.
Proof. intros H. induction H; constructor; auto; unfold is_byte; lia. Qed.

(** one more digit; [o] is what the digits before make, [s] the bits they have *)
Lemma next_digit o a s : 0 <= o < 2 ^ s -> 0 <= s < 64 -> 0 <= a -> Z.lor o (u64 (Z.shiftl a s)) = (o + a * 2 ^ s) mod 2 ^ 64.
Proof.
  intros O S A. rewrite Z.shiftl_mul_pow2 by lia. unfold u64, two64. change 18446744073709551616 with (2 ^ 64).
  assert (P : 2 ^ 64 = 2 ^ (64 - s) * 2 ^ s) by (rewrite <- Z.pow_add_r by lia; f_equal; lia).
  assert (P1 : 0 < 2 ^ s) by (apply Z.pow_pos_nonneg; lia). assert (P2 : 0 < 2 ^ (64 - s)) by (apply Z.pow_pos_nonneg; lia).
  rewrite <- (Z.add_mod_idemp_r o) by lia. rewrite P. rewrite Z.mul_mod_distr_r by lia. set (a' := a mod 2 ^ (64 - s)).
  assert (A' : 0 <= a' < 2 ^ (64 - s)) by (apply Z.mod_pos_bound; lia).
  rewrite (Z.mod_small (o + a' * 2 ^ s)) by nia. rewrite Z.lor_comm, lor_add by lia. lia.
Qed.
Lemma i_loop : forall f j c o before d r, (f + j = 12)%nat -> (1 <= j)%nat -> wf_bytes (c :: r) -> 0 <= before < 128 ^ Z.of_nat (j - 1) ->
  o = (before + (c mod 128) * 128 ^ Z.of_nat (j - 1)) mod 2 ^ 64 ->
  forall n b', run_block (decode_loop f c o (7 * Z.of_nat j)) (mkBlk d (c :: r)) = Ok (n, b') ->
  exists m bs, consumed (c :: bs) (mkBlk d (c :: r)) b' /\ digits m (c :: bs) /\ (length (c :: bs) + (j - 1) <= 10)%nat /\ n = (before + m * 128 ^ Z.of_nat (j - 1)) mod 2 ^ 64.
Proof.
  induction f as [|f IH]; intros j c o before d r F J W B O n b' E; [discriminate E|]. cbn [decode_loop] in E.
  inversion W as [|? ? Wc Wr]; subst. unfold is_byte in Wc. rewrite has_128 in E by lia. destruct (Z.leb_spec 128 c) as [C|C].
  - rewrite run_move1, run_deref0 in E. destruct r as [|c2 r]; [discriminate E|]. destruct (Z.leb_spec 64 (7 * Z.of_nat j)) as [Sh|Sh]; [discriminate E|].
    inversion Wr as [|? ? Wc2 Wr2]; subst. unfold is_byte in Wc2.
    assert (Cm : c mod 128 = c - 128) by (replace c with ((c - 128) + 1 * 128) at 1 by lia; rewrite Z.mod_add, Z.mod_small by lia; reflexivity).
    assert (Pj : 128 ^ Z.of_nat j = 128 * 128 ^ Z.of_nat (j - 1)) by (rewrite <- Z.pow_succ_r by lia; f_equal; lia).
    assert (P0 : 0 < 128 ^ Z.of_nat (j - 1)) by (apply Z.pow_pos_nonneg; lia).
    set (X := before + c mod 128 * 128 ^ Z.of_nat (j - 1)) in *. assert (BX : 0 <= X < 128 ^ Z.of_nat j) by (unfold X; rewrite Cm, Pj; nia).
    assert (Small : 128 ^ Z.of_nat j <= 2 ^ 63) by (rewrite pow128; apply Z.pow_le_mono_r; lia).
    rewrite (Z.mod_small X) in E by (change (2 ^ 64) with (2 * 2 ^ 63); lia).
    rewrite next_digit in E; [|rewrite <- pow128; exact BX|lia|apply Z.land_nonneg; lia]. rewrite land_127, <- pow128 in E.
    replace (7 * Z.of_nat j + 7) with (7 * Z.of_nat (S j)) in E by lia.
    destruct (IH (S j) c2 _ X (c :: d) r ltac:(lia) ltac:(lia) Wr ltac:(now replace (S j - 1)%nat with j by lia) ltac:(now replace (S j - 1)%nat with j by lia) n b' E) as (m & bs & C1 & D & L & N).
    replace (S j - 1)%nat with j in * by lia. exists (c - 128 + 128 * m), (c2 :: bs). split.
    { destruct C1 as [C1 C2]. split; cbn [b_rest b_done] in *; [cbn [app]; cbn [app] in C1; now rewrite C1|]. rewrite C2. cbn [rev]. now rewrite <- !app_assoc. }
    split; [apply DMore; [lia|exact D]|]. split; [cbn [length] in *; lia|]. rewrite N. f_equal. unfold X. rewrite Cm, Pj. lia.
  - destruct (Z.ltb_spec 70 (7 * Z.of_nat j)) as [Sh|Sh]; [discriminate E|]. rewrite run_move1 in E. cbn [run_block] in E. injection E as <- <-.
    exists c, []. split; [split; reflexivity|]. split; [apply DLast; lia|]. split; [cbn [length]; lia|]. now rewrite (Z.mod_small c) by lia.
Qed.
Definition any_ub (u : ub) : Prop := True.
Lemma i_num b : bytes_left b -> triple any_ub decode_integer b (fun n b' => bytes_left b' /\ 0 <= n < 2 ^ 64 /\ exists bs, consumed bs b b' /\ ps_num n bs).
Proof.
  intros B. pose proof (decode_triple b) as T. unfold triple in *. destruct (run_block decode_integer b) as [[n b']| | |] eqn:E; auto; [|exact Logic.I].
  destruct b as [d r]. unfold decode_integer in E. rewrite run_deref0 in E. destruct r as [|c r]; [discriminate E|].
  assert (Wc : 0 <= c < 256) by (inversion B as [|? ? W]; exact W).
  change 7 with (7 * Z.of_nat 1) in E.
  destruct (i_loop 11 1 c (Z.land 127 c) 0 d r eq_refl ltac:(lia) B ltac:(cbn; lia)
    ltac:(rewrite land_127; change (128 ^ Z.of_nat (1 - 1)) with 1; pose proof (Z.mod_pos_bound c 128 ltac:(lia)); rewrite (Z.mod_small _ (2 ^ 64)); lia) n b' E) as (m & bs & C & D & L & N).
  destruct (consumed_wf _ _ _ B C) as [_ W]. split; [exact W|]. cbn [Nat.sub] in *. change (128 ^ Z.of_nat 0) with 1 in N. rewrite Z.mul_1_r, Z.add_0_l in N.
  split; [rewrite N; apply Z.mod_pos_bound; reflexivity|]. exists (c :: bs). split; [exact C|]. exists m. split; [exact D|]. split; [lia|exact N].
Qed.

(** * Names, values, items *)
Definition top (stk : list ty) : ty := match stk with [] => TNull | t :: _ => t end.
Definition at_scope (stk : list ty) (tab : list bytes) (h : list bytes) : psrl := mkPsrl (top stk) stk tab h.
Definition ok_scopes (stk : list ty) : Prop := Forall (fun t => is_scope t = true) stk.
Lemma scope_top stk : ok_scopes stk -> ty_eqb (top stk) TNull || ty_eqb (top stk) TArray = false <-> top stk = TObject.
Proof. intros H. destruct stk as [|t stk]; cbn [top]; [split; discriminate|]. inversion H as [|? ? T _]; subst. destruct t; cbn in T |- *; try discriminate T; split; congruence. Qed.
Lemma named_scope stk f : ok_scopes stk -> negb (f # 1) || ty_eqb (top stk) TNull || ty_eqb (top stk) TArray = true <-> top stk <> TObject \/ f # 1 = false.
Proof.
  intros H. pose proof (scope_top stk H) as T. destruct (f # 1); cbn [negb orb]; [|split; auto].
  destruct (ty_eqb (top stk) TNull || ty_eqb (top stk) TArray); [split; [|auto]; intros _; left; intros X; apply T in X; discriminate X|].
  split; [discriminate|]. intros [X|X]; [|discriminate X]. exfalso. apply X, T. reflexivity.
Qed.
Lemma a_byte b : bytes_left b -> triple any_ub (read_move 1) b (fun p b' => bytes_left b' /\ 0 <= p < 256 /\ consumed [p] b b').
Proof. intros B. eapply triple_weaken; [|intros a b' H; exact H|apply i_byte; exact B]. intros u _. exact Logic.I. Qed.
Lemma a_move n b : bytes_left b -> 0 <= n <= 8 -> triple any_ub (read_move n) b (fun a b' => consumed (le (Z.to_nat n) a) b b' /\ 0 <= a < 256 ^ n /\ bytes_left b').
Proof. intros B N. eapply triple_weaken; [|intros a b' H; exact H|apply i_move; auto]. intros u _. exact Logic.I. Qed.
Lemma a_block b : bytes_left b -> triple any_ub (let! n := decode_integer in read_block n) b (fun s b' => bytes_left b' /\ wf_bytes s /\ exists bs, consumed bs b b' /\ ps_block s bs).
Proof.
  intros B. apply triple_bind. eapply triple_conseq; [apply i_num; exact B|]. intros n b1 (B1 & N & ls & C1 & P).
  unfold triple. rewrite run_read_block. destruct (Z.leb_spec two63 n) as [H|H]; [exact Logic.I|].
  pose proof (triple_read_block any_ub n b1 (fun s b' => bytes_left b' /\ wf_bytes s /\ exists bs, consumed bs b b' /\ ps_block s bs) ltac:(lia) ltac:(lia)) as T.
  unfold triple in T. rewrite run_read_block in T. replace (two63 <=? n) with false in T by lia. apply T. intros s b2 L C2. destruct (consumed_wf _ _ _ B1 C2) as [Ws W2].
  split; [exact W2|]. split; [exact Ws|]. exists (ls ++ s). split; [eapply consumed_trans; eauto|]. exists ls. rewrite L. split; [exact P|]. split; [unfold_words; lia|reflexivity].
Qed.
Lemma triple_two {A B C} U (p : prog A) (f : A -> prog B) (g : B -> prog C) b Q :
  triple U (let! x := (let! a := p in f a) in g x) b Q -> triple U (let! a := p in let! x := f a in g x) b Q.
Proof.
  unfold triple. rewrite !run_block_bind. destruct (run_block p b) as [[a b1]| | |]; cbn [rbind]; auto. now rewrite run_block_bind.
Qed.
Lemma i_head stk tab h b : bytes_left b -> ok_scopes stk ->
  triple any_ub (psrl_read_head (at_scope stk tab h)) b (fun r b' => bytes_left b' /\ exists f n tab' ns, r = (at_scope stk tab' h, (f, n)) /\ 0 <= f < 256 /\
    consumed (f :: ns) b b' /\ ps_name (top stk) tab f n tab' ns).
Proof.
  intros B K. unfold psrl_read_head. apply triple_bind. eapply triple_conseq; [apply a_byte; exact B|]. intros f b1 (B1 & F & C1).
  destruct (flags f F) as (_ & F1 & F2 & _). rewrite F1, F2. cbn [ps_scope at_scope ps_stack ps_indexed ps_hashed].
  destruct (negb (f # 1) || ty_eqb (top stk) TNull || ty_eqb (top stk) TArray) eqn:E.
  { apply named_scope in E; [|exact K]. apply triple_ret. split; [exact B1|]. exists f, [], tab, []. split; [reflexivity|]. split; [exact F|]. split; [exact C1|]. now constructor. }
  assert (T : top stk = TObject /\ f # 1 = true).
  { destruct (f # 1) eqn:E1; [|discriminate E]. split; [|reflexivity]. apply scope_top; [exact K|]. exact E. }
  destruct T as [T1 T2]. destruct (f # 2) eqn:E2.
  - apply triple_bind. eapply triple_conseq; [apply i_num; exact B1|]. intros i b2 (B2 & I & bs & C2 & P). destruct (Z.leb_spec (zlen tab) i) as [L|L]; [exact Logic.I|].
    destruct (nth_error tab (Z.to_nat i)) as [n|] eqn:N; [|exact Logic.I]. apply triple_ret. split; [exact B2|]. exists f, n, tab, bs. split; [reflexivity|]. split; [exact F|].
    split; [apply (consumed_trans [f] bs _ _ _ C1 C2)|]. eapply PSindex; eauto.
  - apply triple_two, triple_bind. eapply triple_conseq; [apply a_block; exact B1|]. intros n b2 (B2 & W & bs & C2 & P). apply triple_ret. split; [exact B2|].
    exists f, n, (tab ++ [n]), bs. split; [reflexivity|]. split; [exact F|]. split; [apply (consumed_trans [f] bs _ _ _ C1 C2)|]. now apply PSnew.
Qed.
Definition ps_good (f : Z) (v : value) (bs : bytes) : Prop := plain_value v /\ ps_value f (meaning_of v) bs.
Lemma cut_eq s : ps_cut s = trunc_block s.
Proof. reflexivity. Qed.
Lemma meaning_f64 x : 0 <= x < 2 ^ 64 -> plain_value (val_f64 x) /\ meaning_of (val_f64 x) = MeFloat x.
Proof.
  intros X. assert (T : v_type (val_f64 x) = TFP32 \/ v_type (val_f64 x) = TFP64) by (unfold val_f64; destruct (narrow64 x); auto).
  split; [destruct T as [T|T]; unfold plain_value; rewrite T; split; [reflexivity|discriminate|reflexivity|discriminate]|].
  rewrite <- (val_f64_roundtrip x) at 2 by (unfold_words; lia). unfold meaning_of. destruct T as [-> | ->]; reflexivity.
Qed.
Lemma meaning_f32 x : 0 <= x < 2 ^ 32 -> meaning_of (val_f32 x) = MeFloat (f32_to_f64 x).
Proof. intros X. unfold meaning_of, v_double, v_fp32, val_f32. cbn [v_type v_raw ty_eqb]. now rewrite Z.mod_small by (unfold_words; lia). Qed.
Lemma meaning_neg n : 0 <= n < 2 ^ 64 -> n <> 2 ^ 63 -> s64 n <> - two63 /\ meaning_of (val_int TI64 (- s64 n)) = MeInt (if n <? 2 ^ 63 then - n else 2 ^ 64 - n).
Proof.
  intros N M. assert (E : - s64 n = if n <? 2 ^ 63 then - n else 2 ^ 64 - n).
  { unfold s64. unfold_words. destruct (n <? _) eqn:?; lia. }
  split; [|rewrite meaning_int; [now rewrite E|cbn; tauto|]]; unfold in_range; cbn [int_min int_max]; destruct (Z.ltb_spec n (2 ^ 63)); unfold_words; lia.
Qed.
Lemma i_num_value f b : bytes_left b -> 0 <= f < 256 -> f # 0 = true -> triple any_ub (psrl_read_num f) b (fun v b' => bytes_left b' /\ exists bs, consumed bs b b' /\ ps_good f v bs).
Proof.
  intros B F F0. unfold psrl_read_num. destruct (flags f F) as (_ & _ & _ & F3 & F4 & F5 & F6 & F67 & _). rewrite F67, F6, F4, F5.
  destruct (f # 6 || f # 7) eqn:E67.
  { apply triple_ret. split; [exact B|]. exists []. split; [apply consumed_nil|]. split; [split; [reflexivity|discriminate]|].
    replace (meaning_of (val_bool (f # 6))) with (MeBool (f # 6)) by (destruct (f # 6); reflexivity). now apply PSbool. }
  destruct (f # 4) eqn:E4.
  { apply triple_bind. eapply triple_conseq; [apply a_move; [exact B|lia]|]. intros x b1 (C & X & B1). apply triple_ret. split; [exact B1|]. eexists. split; [exact C|].
    change (256 ^ 4) with (2 ^ 32) in X. split; [split; [reflexivity|discriminate]|]. rewrite meaning_f32 by exact X. change (Z.to_nat 4) with 4%nat. rewrite <- rev_be. now apply PSf32. }
  destruct (f # 5) eqn:E5.
  { apply triple_bind. eapply triple_conseq; [apply a_move; [exact B|lia]|]. intros x b1 (C & X & B1). apply triple_ret. split; [exact B1|]. eexists. split; [exact C|].
    change (256 ^ 8) with (2 ^ 64) in X. destruct (meaning_f64 x X) as [M1 M2]. split; [exact M1|]. rewrite M2. change (Z.to_nat 8) with 8%nat. rewrite <- rev_be. now apply PSf64. }
  apply triple_bind. eapply triple_conseq; [apply i_num; exact B|]. intros n b1 (B1 & N & bs & C & P). rewrite F3. destruct (f # 3) eqn:E3.
  - destruct (Z.eq_dec n (2 ^ 63)) as [->|M]; [exact Logic.I|]. destruct (meaning_neg n N M) as [M1 M2]. destruct (Z.eqb_spec (s64 n) (- two63)) as [X|X]; [contradiction|].
    apply triple_ret. split; [exact B1|]. exists bs. split; [exact C|]. split; [split; [reflexivity|discriminate]|]. rewrite M2. apply PSneg; auto. now rewrite E4, E5.
  - apply triple_ret. split; [exact B1|]. exists bs. split; [exact C|]. split; [split; [reflexivity|discriminate]|].
    rewrite meaning_int; [|cbn; tauto|unfold in_range; cbn [int_min int_max]; unfold_words; lia]. apply PSnat; auto. now rewrite E4, E5.
Qed.
(** what one call of read finds *)
Inductive found (stk : list ty) (tab h : list bytes) : psrl * event -> bytes -> Prop :=
| FEnd t stk' : stk = t :: stk' -> found stk tab h (at_scope stk' tab h, ev_end) [0]
| FVal f n v tab' ns bs : 0 <= f < 256 -> ps_name (top stk) tab f n tab' ns -> ps_good f v bs -> found stk tab h (at_scope stk tab' h, (n, v)) (f :: ns ++ bs)
| FScope f n tab' ns t : 0 <= f < 256 -> f # 0 = false -> f # 6 || f # 7 = true -> ps_name (top stk) tab f n tab' ns -> t = (if f # 6 then TObject else TArray) ->
    found stk tab h (at_scope (t :: stk) tab' h, (n, val_type t)) (f :: ns).
Lemma i_read stk tab h b : bytes_left b -> ok_scopes stk ->
  triple any_ub (psrl_read (at_scope stk tab h)) b (fun r b' => bytes_left b' /\ exists bs, consumed bs b b' /\ found stk tab h r bs).
Proof.
  intros B K. unfold psrl_read. apply triple_bind. eapply triple_conseq; [apply i_head; auto|]. intros r b1 (B1 & f & n & tab' & ns & -> & F & C1 & P).
  destruct (flags f F) as (F0 & _ & _ & F3 & F4 & F5 & F6 & F67 & F45 & Fs). change FObject with FTrue. rewrite Fs, F0, F6, F45. cbn [ps_stack at_scope].
  destruct (Z.eqb_spec f 0) as [->|Nz].
  { destruct stk as [|t stk]; [exact Logic.I|]. unfold psrl_pop, at_scope. cbn [ps_stack ps_indexed ps_hashed lift pbind]. apply triple_ret.
    inversion P as [N|i n0 bs0 T X|n0 bs0 T X]; subst; [|discriminate X|discriminate X]. split; [exact B1|]. exists [0]. split; [exact C1|].
    change (found (t :: stk) tab' h (at_scope stk tab' h, ev_end) [0]). now apply FEnd with t. }
  assert (V : forall v b' bs, consumed bs b1 b' -> bytes_left b' -> ps_good f v bs -> bytes_left b' /\ exists bs, consumed bs b b' /\ found stk tab h (at_scope stk tab' h, (n, v)) bs).
  { intros v b' bs C B' G. split; [exact B'|]. exists (f :: ns ++ bs). split; [apply (consumed_trans (f :: ns) bs _ _ _ C1 C)|]. now apply FVal. }
  destruct (f # 0) eqn:E0; cbn [negb andb].
  - apply triple_bind. eapply triple_conseq; [apply i_num_value; auto|]. intros v b2 (B2 & bs & C2 & G). apply triple_ret. eapply V; eauto.
  - destruct (f # 6 || f # 7) eqn:E67.
    { apply triple_ret. split; [exact B1|]. exists (f :: ns). split; [exact C1|]. now apply FScope. }
    destruct (f # 4 || f # 5) eqn:E45.
    + apply triple_two, triple_bind. eapply triple_conseq; [apply a_block; exact B1|]. intros s b2 (B2 & W & bs & C2 & Q). apply triple_ret. eapply V; eauto.
      change FBinary with FFP32. rewrite F4. destruct (f # 4) eqn:E4; (split; [split; [reflexivity|discriminate]|]).
      * apply PSbin; auto.
      * apply PSstr; auto.
    + change FNull with FSigned. rewrite F3. destruct (f # 3) eqn:E3; [|exact Logic.I]. apply triple_ret. eapply V; [apply consumed_nil|exact B1|].
      split; [split; [reflexivity|discriminate]|]. now apply PSnull.
Qed.

(** * Whole documents *)
Lemma scope_ty (f : bool) : is_scope (if f then TObject else TArray) = true.
Proof. now destruct f. Qed.
Lemma i_source : forall F dp n0 t stk tab h b, bytes_left b -> is_scope t = true -> ok_scopes stk -> 0 <= dp <= max_depth ->
  forall r b', run_block (ecomp psrl_read (read_source F dp n0) (at_scope (t :: stk) tab h)) b = Ok (r, b') ->
  exists its tab' bs, bytes_left b' /\ consumed (bs ++ [0]) b b' /\ ps_items t tab (map mdoc_of its) tab' bs /\ all_shaped its /\
    r = (at_scope stk tab' h, add_items n0 its) /\ dp + Z.of_nat (deepest its) <= max_depth.
Proof.
  induction F as [|F IH]; intros dp n0 t stk tab h b B T K D r b' E; [discriminate E|]. assert (K1 : ok_scopes (t :: stk)) by (constructor; auto).
  cbn [read_source ecomp] in E. rewrite run_block_bind in E. pose proof (i_read (t :: stk) tab h b B K1) as R. unfold triple in R.
  destruct (run_block (psrl_read (at_scope (t :: stk) tab h)) b) as [[[st1 [name v]] b1]| | |]; try discriminate E. cbn [rbind] in E.
  destruct R as (B1 & bs & C1 & R). inversion R as [t0 stk' S E0 E1|f n v0 tab1 ns vs Hf P G E0 E1|f n tab1 ns t1 Hf F0 F67 P T1 E0 E1]; subst.
  - injection S as <- <-. change (v_type (val_type TScopeEnd)) with TScopeEnd in E. cbn [ty_eqb ecomp run_block] in E. injection E as <- <-.
    exists [], tab, []. split; [exact B1|]. split; [exact C1|]. split; [constructor|]. split; [constructor|]. split; [|cbn; lia].
    unfold add_items, vals_of, subs_of. cbn [flat_map]. rewrite !app_nil_r. now destruct n0.
  - destruct G as [[V1 V2] G]. replace (ty_eqb (v_type v) TScopeEnd) with false in E by (destruct (v_type v); cbn; congruence).
    rewrite V1 in E. cbn [negb] in E. rewrite store_value_utf8 in E. cbn [elift ebind] in E.
    destruct (IH dp _ t stk tab1 h b1 B1 T K D _ _ E) as (its & tab2 & bs2 & B2 & C2 & I2 & S2 & -> & D2).
    exists (DVal name v :: its), tab2, ((f :: ns ++ vs) ++ bs2). split; [exact B2|]. split; [rewrite <- app_assoc; eapply consumed_trans; eauto|].
    split; [cbn [map mdoc_of]; eapply PSitem; [apply PSval; eauto|exact I2]|]. split; [constructor; [split; auto|auto]|]. split.
    { unfold add_items. cbn [n_type n_values n_nodes vals_of subs_of flat_map app]. now rewrite <- app_assoc. }
    cbn [deepest fold_right depth]. change (fold_right _ 0%nat its) with (deepest its). lia.
  - pose proof (scope_ty (f # 6)) as T1. change (v_type (val_type (if f # 6 then TObject else TArray))) with (if f # 6 then TObject else TArray) in E.
    rewrite (scope_not_end _ T1), T1 in E. cbn [negb] in E.
    destruct (Z.ltb_spec max_depth (dp + 1)) as [M|M]; [discriminate E|]. rewrite ecomp_bind in E. rewrite run_block_bind in E.
    destruct (run_block (ecomp psrl_read (read_source F (dp + 1) _) _) b1) as [[r1 b2]| | |] eqn:E1; try discriminate E. cbn [rbind] in E.
    destruct (IH (dp + 1) _ _ (t :: stk) tab1 h b1 B1 T1 K1 ltac:(lia) _ _ E1) as (sub & tab2 & bs2 & B2 & C2 & I2 & S2 & -> & D2).
    rewrite store_node_utf8 in E. cbn [elift ebind] in E.
    destruct (IH dp _ t stk tab2 h b2 B2 T K D _ _ E) as (its & tab3 & bs3 & B3 & C3 & I3 & S3 & -> & D3).
    exists (DScope name (if f # 6 then TObject else TArray) sub :: its), tab3, ((f :: ns ++ bs2 ++ [0]) ++ bs3). split; [exact B3|].
    split. { replace (((f :: ns ++ bs2 ++ [0]) ++ bs3) ++ [0]) with ((f :: ns) ++ (bs2 ++ [0]) ++ bs3 ++ [0]) by (cbn [app]; now rewrite <- !app_assoc). eapply consumed_trans; [exact C1|]. eapply consumed_trans; eauto. }
    split; [cbn [map mdoc_of]; eapply PSitem; [eapply PSscope; eauto|exact I3]|]. split; [constructor; [apply shaped_scope; auto|auto]|]. split.
    { unfold add_items, subs_of, vals_of. cbn [n_type n_values n_nodes flat_map app]. rewrite doc_node_eq. now rewrite <- app_assoc. }
    cbn [deepest fold_right]. rewrite depth_scope. change (fold_right _ 0%nat its) with (deepest its). lia.
Qed.
Lemma ps_sound x F st src r b' : wf_bytes src -> run_block (load_tree x F (PsrlP st)) (set_block src) = Ok (r, b') ->
  exists t its tab bs, r = (PsrlP (mkPsrl TNull [] tab []), ([], doc_node (DScope [] t its))) /\ src = bs ++ b_rest b' /\
    ps_doc TNull [] (mdoc_of (DScope [] t its)) tab bs /\ shaped (DScope [] t its) /\ (depth (DScope [] t its) <= 129)%nat.
Proof.
  intros W E. unfold load_tree in E. cbn [parser_clear] in E. rewrite run_block_bind in E. unfold load_prog in E. cbn [ecomp] in E. rewrite run_block_bind in E.
  change (psrl_clear st) with (at_scope [] [] []) in E.
  pose proof (i_read [] [] [] (set_block src) W ltac:(constructor)) as R. unfold triple in R.
  destruct (run_block (psrl_read (at_scope [] [] [])) (set_block src)) as [[[st1 [name v]] b1]| | |]; try discriminate E. cbn [rbind] in E.
  destruct R as (B1 & bs & C1 & R). inversion R as [t0 stk' S E0 E1|f n v0 tab1 ns vs Hf P G E0 E1|f n tab1 ns t1 Hf F0 F67 P T1 E0 E1]; subst; [discriminate S| |].
  - destruct G as [[V1 V2] _]. rewrite V1 in E. discriminate E.
  - pose proof (scope_ty (f # 6)) as T1. change (v_type (val_type (if f # 6 then TObject else TArray))) with (if f # 6 then TObject else TArray) in E. rewrite T1 in E.
    cbn [negb] in E. rewrite ecomp_bind, run_block_bind in E.
    destruct (run_block (ecomp psrl_read (read_source F 0 _) _) b1) as [[r1 b2]| | |] eqn:E1; try discriminate E.
    destruct (i_source F 0 _ _ [] tab1 [] b1 B1 T1 ltac:(constructor) ltac:(unfold max_depth; lia) _ _ E1) as (its & tab2 & bs2 & B2 & C2 & I2 & S2 & -> & D2).
    cbn [rbind ecomp run_block] in E. injection E as <- <-. 
    assert (N : name = []) by (inversion P as [N|i n0 bs0 T X|n0 bs0 T X]; subst; [reflexivity|discriminate T|discriminate T]). subst name.
    exists (if f # 6 then TObject else TArray), its, tab2, ((f :: ns) ++ bs2 ++ [0]). split; [rewrite doc_node_eq; reflexivity|].
    split. { destruct (consumed_trans _ _ _ _ _ C1 C2) as [C _]. exact C. }
    split. { cbn [mdoc_of]. change ((f :: ns) ++ bs2 ++ [0]) with (f :: ns ++ bs2 ++ [0]). eapply PSscope; eauto. }
    split; [apply shaped_scope; auto|]. rewrite depth_scope. unfold max_depth in D2. lia.
Qed.

(** * What is in the language is read *)
Lemma c_loop : forall f j m c bs o before d rest, (f + j = 12)%nat -> (1 <= j)%nat -> digits m (c :: bs) -> (length (c :: bs) + (j - 1) <= 10)%nat -> 0 <= before < 128 ^ Z.of_nat (j - 1) ->
  o = (before + (c mod 128) * 128 ^ Z.of_nat (j - 1)) mod 2 ^ 64 ->
  run_block (decode_loop f c o (7 * Z.of_nat j)) (mkBlk d (c :: bs ++ rest)) = Ok ((before + m * 128 ^ Z.of_nat (j - 1)) mod 2 ^ 64, mkBlk (rev (c :: bs) ++ d) rest).
Proof.
  induction f as [|f IH]; intros j m c bs o before d rest F J D L B O; [cbn [length] in L; lia|]. cbn [decode_loop].
  inversion D as [b Hb E1 E2|b n bs0 Hb Dn E1 E2]; subst.
  - rewrite has_128 by lia. replace (128 <=? c) with false by lia. replace (70 <? 7 * Z.of_nat j) with false by (cbn [length] in L; lia). cbn [app]. rewrite run_move1.
    cbn [run_block rev app]. now rewrite (Z.mod_small c 128) by lia.
  - rewrite has_128 by lia. replace (128 <=? c) with true by lia. rewrite run_move1, run_deref0. pose proof (digits_len _ _ Dn) as [L1 _]. destruct bs as [|c2 bs]; [cbn [length] in L1; lia|].
    cbn [app]. cbn [length] in L. replace (64 <=? 7 * Z.of_nat j) with false by lia. pose proof (digits_wf _ _ Dn) as Wd. inversion Wd as [|? ? Wc2 _]; subst. unfold is_byte in Wc2.
    assert (Cm : c mod 128 = c - 128) by (replace c with ((c - 128) + 1 * 128) at 1 by lia; rewrite Z.mod_add, Z.mod_small by lia; reflexivity).
    assert (Pj : 128 ^ Z.of_nat j = 128 * 128 ^ Z.of_nat (j - 1)) by (rewrite <- Z.pow_succ_r by lia; f_equal; lia).
    assert (P0 : 0 < 128 ^ Z.of_nat (j - 1)) by (apply Z.pow_pos_nonneg; lia).
    set (X := before + c mod 128 * 128 ^ Z.of_nat (j - 1)). assert (BX : 0 <= X < 128 ^ Z.of_nat j) by (unfold X; rewrite Cm, Pj; nia).
    assert (Small : 128 ^ Z.of_nat j <= 2 ^ 63) by (rewrite pow128; apply Z.pow_le_mono_r; lia).
    rewrite (Z.mod_small X) by (change (2 ^ 64) with (2 * 2 ^ 63); lia).
    rewrite next_digit; [|rewrite <- pow128; exact BX|lia|apply Z.land_nonneg; lia]. rewrite land_127, <- pow128.
    replace (7 * Z.of_nat j + 7) with (7 * Z.of_nat (S j)) by lia.
    rewrite (IH (S j) n c2 bs _ X); [|lia|lia|exact Dn|cbn [length]; lia|now replace (S j - 1)%nat with j by lia|now replace (S j - 1)%nat with j by lia].
    replace (S j - 1)%nat with j by lia. f_equal. f_equal; [f_equal; unfold X; rewrite Cm, Pj; lia|]. f_equal. cbn [rev]. now rewrite <- !app_assoc.
Qed.
Lemma c_num n bs : ps_num n bs -> reads decode_integer bs n /\ 0 <= n < 2 ^ 64.
Proof.
  intros (m & D & L & ->). split; [|apply Z.mod_pos_bound; reflexivity]. intros d rest. pose proof (digits_len _ _ D) as [L1 _]. destruct bs as [|c bs]; [cbn in L1; lia|].
  unfold decode_integer. cbn [app]. rewrite run_deref0. pose proof (digits_wf _ _ D) as W. inversion W as [|? ? Wc _]; subst. unfold is_byte in Wc.
  change 7 with (7 * Z.of_nat 1). rewrite (c_loop 11 1 m c bs (Z.land 127 c) 0 d rest); [|reflexivity|lia|exact D|cbn [length] in *; lia|cbn; lia|].
  - cbn [Nat.sub]. change (128 ^ Z.of_nat 0) with 1. now rewrite Z.mul_1_r, Z.add_0_l.
  - rewrite land_127. change (128 ^ Z.of_nat (1 - 1)) with 1. pose proof (Z.mod_pos_bound c 128 ltac:(lia)). rewrite (Z.mod_small _ (2 ^ 64)); lia.
Qed.
Lemma c_block {B} s bs (g : bytes -> prog B) r : ps_block s bs -> reads (g s) [] r -> reads (let! n := decode_integer in let! s := read_block n in g s) bs r.
Proof.
  intros (ls & P & L & ->) R. destruct (c_num _ _ P) as [N _]. eapply reads_bind; [exact N|]. eapply reads_bind0; [|exact R]. apply reads_block. unfold_words. lia.
Qed.
Lemma c_head stk tab h f n tab' ns : ok_scopes stk -> 0 <= f < 256 -> ps_name (top stk) tab f n tab' ns ->
  reads (psrl_read_head (at_scope stk tab h)) (f :: ns) (at_scope stk tab' h, (f, n)).
Proof.
  intros K F P. unfold psrl_read_head. apply (reads_bind _ _ [f] ns f); [apply reads_byte|].
  destruct (flags f F) as (_ & F1 & F2 & _). rewrite F1, F2. cbn [ps_scope at_scope ps_stack ps_indexed ps_hashed]. pose proof (named_scope stk f K) as Q.
  destruct P as [N|i n bs T X Y P N|n bs T X Y P].
  - apply Q in N. rewrite N. apply reads_ret.
  - destruct (negb (f # 1) || ty_eqb (top stk) TNull || ty_eqb (top stk) TArray). { exfalso. destruct Q as [Q _]. destruct (Q eq_refl); congruence. }
    rewrite Y. destruct (c_num _ _ P) as [R B]. eapply reads_bind0; [exact R|].
    assert (L : (Z.to_nat i < length tab)%nat) by (apply nth_error_Some; congruence). replace (zlen tab <=? i) with false by (unfold zlen; lia). rewrite N. apply reads_ret.
  - destruct (negb (f # 1) || ty_eqb (top stk) TNull || ty_eqb (top stk) TArray). { exfalso. destruct Q as [Q _]. destruct (Q eq_refl); congruence. }
    rewrite Y. eapply c_block; [exact P|]. apply reads_ret.
Qed.
Lemma reads_move_be n x : (n <= 8)%nat -> 0 <= x < 256 ^ Z.of_nat n -> reads (read_move (Z.of_nat n)) (rev (be n x)) x.
Proof. intros N X. rewrite rev_be. apply reads_le; [reflexivity|exact X|unfold_words; lia]. Qed.
Lemma c_value f m bs : 0 <= f < 256 -> ps_value f m bs ->
  exists v, plain_value v /\ meaning_of v = m /\ forall h s tab0 tab' n' ns', ok_scopes s -> ps_name (top s) tab0 f n' tab' ns' -> reads (psrl_read (at_scope s tab0 h)) (f :: ns' ++ bs) (at_scope s tab' h, (n', v)).
Proof.
  intros F V. destruct (flags f F) as (F0 & F1 & F2 & F3 & F4 & F5 & F6 & F67 & F45 & Fs).
  assert (H : forall v, plain_value v -> (forall st (n : bytes), reads (if flag_is_scope f then Ret (psrl_push st (if has f FObject then TObject else TArray), (n, val_type (if has f FObject then TObject else TArray)))
      else if has f FNum then let! v := psrl_read_num f in Ret (st, (n, v))
      else if has f (Z.lor FBinary FString) then let! size := decode_integer in let! block := read_block size in Ret (st, (n, val_block_enc block (if has f FBinary then TBinary else TString) EUTF8))
      else if has f FNull then Ret (st, (n, val_type TNull)) else Throw) bs (st, (n, v))) -> f <> 0 ->
    forall h s tab0 tab' n' ns', ok_scopes s -> ps_name (top s) tab0 f n' tab' ns' -> reads (psrl_read (at_scope s tab0 h)) (f :: ns' ++ bs) (at_scope s tab' h, (n', v))).
  { intros v _ R Nz h s tab0 tab' n' ns' K P. unfold psrl_read. apply (reads_bind _ _ (f :: ns') bs (at_scope s tab' h, (f, n'))); [now apply c_head|].
    replace (f =? 0) with false by lia. apply R. }
  change FObject with FTrue in H. change FBinary with FFP32 in H at 2. change FNull with FSigned in H. rewrite Fs, F0, F45, F3, F4 in H. unfold psrl_read_num in H. rewrite F67, F6, F4, F5, F3 in H.
  destruct V as [E0 E67|y E0 E67 E4 Y|y E0 E67 E4 E5 Y|k bs E0 E67 E45 E3 N|k bs E0 E67 E45 E3 N M|s bs E0 E67 E4 Q|s bs E0 E67 E4 E5 Q|E0 E67 E45 E3].
  - exists (val_bool (f # 6)). split; [split; [reflexivity|discriminate]|]. split; [destruct (f # 6); reflexivity|]. apply H; [split; [reflexivity|discriminate]| |intros ->; discriminate E0].
    rewrite E0, E67. intros st n. apply (reads_bind0 (Ret (val_bool (f # 6)))) with (a := val_bool (f # 6)); [apply reads_ret|apply reads_ret].
  - exists (val_f32 y). split; [split; [reflexivity|discriminate]|]. split; [now apply meaning_f32|]. apply H; [split; [reflexivity|discriminate]| |intros ->; discriminate E0].
    rewrite E0, E67, E4. intros st n. eapply reads_bind0; [|apply reads_ret]. eapply reads_bind0; [apply (reads_move_be 4); [lia|exact Y]|apply reads_ret].
  - destruct (meaning_f64 y Y) as [M1 M2]. exists (val_f64 y). split; [exact M1|]. split; [exact M2|]. apply H; [exact M1| |intros ->; discriminate E0].
    rewrite E0, E67, E4, E5. intros st n. eapply reads_bind0; [|apply reads_ret]. eapply reads_bind0; [apply (reads_move_be 8); [lia|exact Y]|apply reads_ret].
  - destruct (c_num _ _ N) as [R B]. exists (val_int TUI64 k). split; [split; [reflexivity|discriminate]|].
    split; [rewrite meaning_int; [reflexivity|cbn; tauto|unfold in_range; cbn [int_min int_max]; unfold_words; lia]|]. apply H; [split; [reflexivity|discriminate]| |intros ->; discriminate E0].
    apply orb_false_elim in E45 as [E4 E5]. rewrite E0, E67, E4, E5, E3. intros st n. eapply reads_bind0; [|apply reads_ret]. eapply reads_bind0; [exact R|apply reads_ret].
  - destruct (c_num _ _ N) as [R B]. destruct (meaning_neg k B M) as [M1 M2]. exists (val_int TI64 (- s64 k)). split; [split; [reflexivity|discriminate]|].
    split; [exact M2|]. apply H; [split; [reflexivity|discriminate]| |intros ->; discriminate E0].
    apply orb_false_elim in E45 as [E4 E5]. rewrite E0, E67, E4, E5, E3. intros st n. eapply reads_bind0; [|apply reads_ret]. eapply reads_bind0; [exact R|].
    destruct (Z.eqb_spec (s64 k) (- two63)) as [X|X]; [contradiction|apply reads_ret].
  - exists (val_block_enc s TBinary EUTF8). split; [split; [reflexivity|discriminate]|]. split; [reflexivity|]. apply H; [split; [reflexivity|discriminate]| |intros ->; discriminate E4].
    rewrite E0, E67, E4. cbn [negb andb orb]. intros st n. eapply c_block; [exact Q|apply reads_ret].
  - exists (val_block_enc s TString EUTF8). split; [split; [reflexivity|discriminate]|]. split; [reflexivity|]. apply H; [split; [reflexivity|discriminate]| |intros ->; discriminate E5].
    rewrite E0, E67, E4, E5. cbn [negb andb orb]. intros st n. eapply c_block; [exact Q|apply reads_ret].
  - exists (val_type TNull). split; [split; [reflexivity|discriminate]|]. split; [reflexivity|]. apply H; [split; [reflexivity|discriminate]| |intros ->; discriminate E3].
    apply orb_false_elim in E45 as [E4 E5]. rewrite E0, E67, E4, E5, E3. cbn [negb andb orb]. intros st n. apply reads_ret.
Qed.
Definition ps_reads (t : ty) (tab : list bytes) (d : doc) (tab' : list bytes) (bs : bytes) : Prop :=
  forall h s, ok_scopes s -> top s = t -> reads (read_events psrl_read (length (events d)) (at_scope s tab h)) bs (at_scope s tab' h, events d).
Lemma c_end h t s tab : reads (psrl_read (at_scope (t :: s) tab h)) [0] (at_scope s tab h, ev_end).
Proof. unfold psrl_read. apply (reads_bind0 _ _ [0] (at_scope (t :: s) tab h, (0, []))); [|apply reads_ret]. unfold psrl_read_head. apply (reads_bind0 _ _ [0] 0); [apply reads_byte|]. apply reads_ret. Qed.
Lemma ps_all t tab m tab' bs : ps_doc t tab m tab' bs -> exists d, mdoc_of d = m /\ shaped d /\ ps_reads t tab d tab' bs.
Proof.
  intros H. induction H as [t tab f n m tab' ns bs F P V|t tab f n its tab1 tab2 ns bs F F0 F67 P Hi IHi|t tab|t tab d its tab1 tab2 b bs Hd IHd Hi IHi]
    using ps_doc_ind2 with (P0 := fun t tab its tab' bs _ => exists ds, map mdoc_of ds = its /\ all_shaped ds /\
      forall h s, ok_scopes s -> top s = t -> reads (read_events psrl_read (length (flat_map events ds)) (at_scope s tab h)) bs (at_scope s tab' h, flat_map events ds)).
  - destruct (c_value f m bs F V) as (v & Pv & M & R). exists (DVal n v). cbn [mdoc_of]. rewrite M. split; [reflexivity|]. split; [exact Pv|].
    intros h s K T. subst t. cbn [events length]. rewrite <- (app_nil_r (f :: ns ++ bs)). eapply reads_events_cons; [apply R; [exact K|exact P]|apply reads_events_nil].
  - destruct IHi as (ds & <- & Sh & R). exists (DScope n (if f # 6 then TObject else TArray) ds). split; [reflexivity|]. split; [apply shaped_scope; split; [apply scope_ty|exact Sh]|].
    intros h s K T. subst t. cbn [events length]. change (f :: ns ++ bs ++ [0]) with ((f :: ns) ++ bs ++ [0]). eapply reads_events_cons.
    + unfold psrl_read. apply (reads_bind0 _ _ (f :: ns) (at_scope s tab1 h, (f, n))); [now apply c_head|]. destruct (flags f F) as (_ & _ & _ & _ & _ & _ & F6 & _ & _ & Fs).
      replace (f =? 0) with false by (symmetry; apply Z.eqb_neq; intros ->; discriminate F67). rewrite Fs, F0, F67. cbn [negb andb]. change FObject with FTrue. rewrite F6. apply reads_ret.
    + change (psrl_push (at_scope s tab1 h) (if f # 6 then TObject else TArray)) with (at_scope ((if f # 6 then TObject else TArray) :: s) tab1 h).
      rewrite app_length. eapply reads_events_app; [apply R; [constructor; [apply scope_ty|exact K]|reflexivity]|].
      cbn [length]. rewrite <- (app_nil_r [0]). eapply reads_events_cons; [apply c_end|apply reads_events_nil].
  - exists []. split; [reflexivity|]. split; [constructor|]. intros h s _ _. apply reads_events_nil.
  - destruct IHd as (d0 & <- & S0 & R0). destruct IHi as (ds & <- & Sh & R). exists (d0 :: ds). split; [reflexivity|]. split; [constructor; auto|].
    intros h s K T. cbn [flat_map]. rewrite app_length. eapply reads_events_app; [apply R0; auto|apply R; auto].
Qed.

Lemma ps_complete x st m tab bs : ps_doc TNull [] m tab bs -> is_root m ->
  exists d, mdoc_of d = m /\ forall F rest, (length (events d) <= F)%nat ->
    run_block (load_tree x F (PsrlP st)) (set_block (bs ++ rest)) =
      if Nat.leb (depth d) 129 then Ok ((PsrlP (mkPsrl TNull [] tab []), ([], doc_node d)), mkBlk (rev bs) rest) else Err.
Proof.
  intros P R. destruct (ps_all _ _ m _ bs P) as (d & M & Sh & R1). exists d. split; [exact M|]. intros F rest L.
  destruct d as [n v|n t its]; cbn [mdoc_of] in M; subst m; [contradiction|]. destruct n; [|contradiction].
  specialize (R1 [] [] ltac:(constructor) eq_refl [] rest). change (mkBlk [] (bs ++ rest)) with (set_block (bs ++ rest)) in R1. rewrite app_nil_r in R1.
  pose proof (load_events (DScope [] t its) [] F Sh Logic.I L) as E. rewrite app_nil_r in E.
  unfold load_tree. cbn [parser_clear]. rewrite run_block_bind. change (psrl_clear st) with (at_scope [] [] []).
  destruct (Nat.leb _ _).
  - rewrite (ecomp_block psrl_read _ _ _ _ _ _ _ _ R1 E). reflexivity.
  - rewrite (ecomp_block_err psrl_read _ _ _ _ _ _ _ R1 E). reflexivity.
Qed.
Lemma ps_reject x F st src : wf_bytes src -> (2 * length src < F)%nat ->
  (forall m tab bs rest, src = bs ++ rest -> ps_doc TNull [] m tab bs -> ~ is_root m) ->
  run_block (load_tree x F (PsrlP st)) (set_block src) = Err \/ exists u, run_block (load_tree x F (PsrlP st)) (set_block src) = UB u /\ In u [UbEnd; UbShift; UbPtr; UbSigned].
Proof.
  intros W L N. pose proof (load_any x (PsrlP st) F src W L) as T. unfold triple in T.
  destruct (run_block (load_tree x F (PsrlP st)) (set_block src)) as [[r b']| |u|] eqn:E; [|now left|right; exists u; auto|contradiction].
  destruct (ps_sound x F st src r b' W E) as (t & its & tab & bs & _ & S & P & _). exfalso. exact (N _ _ _ _ S P Logic.I).
Qed.

(** * One reading *)
Lemma ps_one_le d d' tab tab' bs bs' r r' : shaped d -> shaped d' -> ps_reads TNull [] d tab bs -> ps_reads TNull [] d' tab' bs' -> bs ++ r = bs' ++ r' ->
  (length (events d) <= length (events d'))%nat -> d = d' /\ bs = bs' /\ tab = tab'.
Proof.
  intros S S' R R' E L. specialize (R [] [] ltac:(constructor) eq_refl [] r). specialize (R' [] [] ltac:(constructor) eq_refl [] r'). rewrite <- E in R'. pose proof R' as R0.
  replace (length (events d')) with (length (events d) + (length (events d') - length (events d)))%nat in R' by lia.
  pose proof (read_events_app psrl_read (length (events d)) (length (events d') - length (events d)) (at_scope [] [] [])) as A. rewrite A in R'. clear A.
  rewrite run_block_bind, R in R'. cbn [rbind] in R'. rewrite run_block_bind in R'.
  destruct (run_block (read_events psrl_read (length (events d') - length (events d)) (at_scope [] tab [])) _) as [[[st2 e2] b2]| | |]; try discriminate R'. cbn [rbind run_block] in R'.
  assert (Ev : events d ++ e2 = events d') by congruence. destruct (events_prefix d d' e2 [] S S') as [-> _]; [now rewrite app_nil_r|]. split; [reflexivity|].
  rewrite R in R0. assert (X : rev bs ++ [] = rev bs' ++ []) by congruence. rewrite !app_nil_r in X. apply (f_equal (@rev Z)) in X. rewrite !rev_involutive in X. split; [exact X|]. unfold at_scope in R0. congruence.
Qed.
Lemma ps_one_reading m m' tab tab' bs bs' r r' : ps_doc TNull [] m tab bs -> ps_doc TNull [] m' tab' bs' -> bs ++ r = bs' ++ r' -> m = m' /\ bs = bs' /\ tab = tab'.
Proof.
  intros P P' E. destruct (ps_all _ _ m _ bs P) as (d & <- & S & R). destruct (ps_all _ _ m' _ bs' P') as (d' & <- & S' & R').
  destruct (Nat.le_ge_cases (length (events d)) (length (events d'))) as [L|L].
  - destruct (ps_one_le d d' tab tab' bs bs' r r' S S' R R' E L) as (-> & -> & ->). auto.
  - destruct (ps_one_le d' d tab' tab bs' bs r' r S' S R' R (eq_sym E) L) as (-> & -> & ->). auto.
Qed.

(** * What is written *)
Lemma read_events_length {St} (rd : St -> prog (St * event)) : forall n st b st' es b', run_block (read_events rd n st) b = Ok ((st', es), b') -> length es = n.
Proof.
  induction n as [|n IH]; intros st b st' es b' E; cbn [read_events] in E; [cbn [run_block] in E; injection E as _ <- _; reflexivity|].
  rewrite run_block_bind in E. destruct (run_block (rd st) b) as [[[st1 e] b1]| | |]; try discriminate E. cbn [rbind] in E. rewrite run_block_bind in E.
  destruct (run_block (read_events rd n st1) b1) as [[[st2 es'] b2]| | |] eqn:E2; try discriminate E. cbn [rbind run_block] in E. injection E as _ <- _. cbn [length]. f_equal. eauto.
Qed.
Lemma app_eq_len {A} : forall (a b c d : list A), a ++ b = c ++ d -> length a = length c -> a = c /\ b = d.
Proof.
  induction a as [|x a IH]; intros b c d E L; destruct c as [|y c]; try discriminate L; [auto|]. cbn [app] in E. injection E as -> E. cbn in L. destruct (IH b c d E) as [-> ->]; [lia|auto].
Qed.
Lemma r_doc : forall d stk tab h b, bytes_left b -> ok_scopes stk -> shaped d -> forall st b' , run_block (read_events psrl_read (length (events d)) (at_scope stk tab h)) b = Ok ((st, events d), b') ->
  exists tab' bs, bytes_left b' /\ consumed bs b b' /\ ps_doc (top stk) tab (mdoc_of d) tab' bs /\ st = at_scope stk tab' h.
Proof.
  assert (Rd : forall n stk tab h b, bytes_left b -> ok_scopes stk -> forall st es b', run_block (read_events psrl_read (S n) (at_scope stk tab h)) b = Ok ((st, es), b') ->
    exists r es' bs b1, es = snd r :: es' /\ bytes_left b1 /\ consumed bs b b1 /\ found stk tab h r bs /\ run_block (read_events psrl_read n (fst r)) b1 = Ok ((st, es'), b')).
  { intros n stk tab h b B K st es b' E. cbn [read_events] in E. rewrite run_block_bind in E. pose proof (i_read stk tab h b B K) as R. unfold triple in R.
    destruct (run_block (psrl_read (at_scope stk tab h)) b) as [[[st1 e] b1]| | |]; try discriminate E. cbn [rbind] in E. rewrite run_block_bind in E.
    destruct (run_block (read_events psrl_read n st1) b1) as [[[st2 es'] b2]| | |] eqn:E2; try discriminate E. cbn [rbind run_block] in E. injection E as <- <- <-.
    destruct R as (B1 & bs & C & R). exists (st1, e), es', bs, b1. auto. }
  induction d as [n v|n t its IH] using doc_ind2; intros stk tab h b B K Sh st b' E.
  - cbn [events length] in E. destruct (Rd _ _ _ _ _ B K _ _ _ E) as (r & es' & bs & b1 & X & B1 & C & Fd & E2). cbn [read_events run_block] in E2. injection E2 as <- <- <-.
    inversion Fd as [t0 stk' S E0 E1|f n0 v0 tab1 ns vs Hf P G E0 E1|f n0 tab1 ns t1 Hf F0 F67 P T1 E0 E1]; subst r bs; cbn [fst snd] in *.
    + exfalso. destruct Sh as [_ Sh]. apply Sh. assert (v = val_type TScopeEnd) by (unfold ev_end in *; congruence). now subst v.
    + injection X as -> ->. exists tab1, (f :: ns ++ vs). split; [exact B1|]. split; [exact C|]. split; [|reflexivity]. cbn [mdoc_of]. destruct G. now apply PSval.
    + exfalso. destruct Sh as [Sh _]. assert (v = val_type t1) by (unfold ev_end in *; congruence). subst v. cbn in Sh. subst t1. rewrite scope_ty in Sh. discriminate Sh.
  - apply shaped_scope in Sh. destruct Sh as [T Sh]. cbn [events length] in E. destruct (Rd _ _ _ _ _ B K _ _ _ E) as (r & es' & bs & b1 & X & B1 & C & Fd & E2).
    inversion Fd as [t0 stk' S E0 E1|f n0 v0 tab1 ns vs Hf P G E0 E1|f n0 tab1 ns t1 Hf F0 F67 P T1 E0 E1]; subst r bs; cbn [fst snd] in *.
    + exfalso. assert (val_type t = val_type TScopeEnd) by (unfold ev_end in *; congruence). injection H as ->. discriminate T.
    + exfalso. destruct G as [[G _] _]. assert (v0 = val_type t) by (unfold ev_end in *; congruence). subst v0. cbn in G. congruence.
    + injection X as -> -> <-. subst t1. clear E Fd.
      set (t := if f # 6 then TObject else TArray) in *.
      assert (L : forall l tab b, Forall (fun d => forall stk tab h b, bytes_left b -> ok_scopes stk -> shaped d -> forall st b' , run_block (read_events psrl_read (length (events d)) (at_scope stk tab h)) b = Ok ((st, events d), b') ->
          exists tab' bs, bytes_left b' /\ consumed bs b b' /\ ps_doc (top stk) tab (mdoc_of d) tab' bs /\ st = at_scope stk tab' h) l ->
        all_shaped l -> bytes_left b -> forall st b', run_block (read_events psrl_read (length (flat_map events l ++ [ev_end])) (at_scope (t :: stk) tab h)) b = Ok ((st, flat_map events l ++ [ev_end]), b') ->
        exists tab' bs, consumed (bs ++ [0]) b b' /\ bytes_left b' /\ ps_items t tab (map mdoc_of l) tab' bs /\ st = at_scope stk tab' h).
      { clearbody t. clear - K Rd T. assert (K1 : ok_scopes (t :: stk)) by (constructor; auto). induction l as [|d l IHl]; intros tab b Hl Hs B st b' E.
        - cbn [flat_map app length] in E. destruct (Rd _ _ _ _ _ B K1 _ _ _ E) as (r & es' & bs & b1 & X & B1 & C & Fd & E2). cbn [read_events run_block] in E2. injection E2 as <- <- <-.
          inversion Fd as [t0 stk' S E0 E1|f n0 v0 tab1 ns vs Hf P G E0 E1|f n0 tab1 ns t1 Hf F0 F67 P T1 E0 E1]; subst r bs; cbn [fst snd] in *.
          + injection S as <- <-. exists tab, []. split; [exact C|]. split; [exact B1|]. split; [constructor|reflexivity].
          + exfalso. destruct G as [[_ G] _]. apply G. assert (v0 = val_type TScopeEnd) by (unfold ev_end in *; congruence). now subst v0.
          + exfalso. assert (H : val_type t1 = val_type TScopeEnd) by (unfold ev_end in *; congruence). injection H as H. pose proof (scope_ty (f # 6)) as Y. rewrite <- T1, H in Y. discriminate Y.
        - inversion Hl as [|? ? H1 H2]; subst. inversion Hs as [|? ? S1 S2]; subst. cbn [flat_map] in E. rewrite <- app_assoc in E. rewrite app_length in E. destruct b as [bd br]. rewrite read_events_app in E.
          rewrite run_block_bind in E. destruct (run_block (read_events psrl_read (length (events d)) (at_scope (t :: stk) tab h)) (mkBlk bd br)) as [[[st1 e1] b1]| | |] eqn:E1; try discriminate E.
          cbn [rbind] in E. rewrite run_block_bind in E.
          destruct (run_block (read_events psrl_read (length (flat_map events l ++ [ev_end])) st1) b1) as [[[st2 e2] b2]| | |] eqn:E2; try discriminate E. cbn [rbind run_block] in E.
          assert (Le : length e1 = length (events d)) by (eapply read_events_length; exact E1).
          injection E as <- Ee <-. apply app_eq_len in Ee; [|exact Le]. destruct Ee as [-> ->].
          destruct (H1 _ _ _ _ B K1 S1 _ _ E1) as (tab1 & bs1 & B1 & C1 & P1 & ->).
          destruct (IHl tab1 b1 H2 S2 B1 _ _ E2) as (tab2 & bs2 & C2 & B2 & P2 & ->).
          exists tab2, (bs1 ++ bs2). split; [rewrite <- app_assoc; eapply consumed_trans; eauto|]. split; [exact B2|]. split; [|reflexivity]. cbn [map]. eapply PSitem; eauto. }
      destruct (L its tab1 b1 IH Sh B1 _ _ E2) as (tab2 & bs2 & C2 & B2 & P2 & ->).
      exists tab2, ((f :: ns) ++ bs2 ++ [0]). split; [exact B2|]. split; [eapply consumed_trans; eauto|]. split; [|reflexivity]. cbn [mdoc_of].
      change ((f :: ns) ++ bs2 ++ [0]) with (f :: ns ++ bs2 ++ [0]). eapply PSscope; eauto.
Qed.
Lemma vlq_wf : forall k n, 0 <= n < 128 ^ Z.of_nat k -> wf_bytes (vlq k n).
Proof.
  induction k as [|k IH]; intros n N; [constructor|]. rewrite Nat2Z.inj_succ, Z.pow_succ_r in N by lia. destruct k as [|k]; cbn [vlq].
  - change (128 ^ Z.of_nat 0) with 1 in N. repeat constructor; lia.
  - constructor; [unfold is_byte; pose proof (Z.mod_pos_bound n 128 ltac:(lia)); lia|]. apply IH. split; [apply Z.div_pos; lia|apply Z.div_lt_upper_bound; lia].
Qed.
Lemma varint_wf n : 0 <= n -> wf_bytes (varint n).
Proof.
  intros N. unfold varint. apply vlq_wf. split; [exact N|]. rewrite pow128. destruct (Z.eq_dec n 0) as [->|Z]; [apply Z.pow_pos_nonneg; lia|].
  destruct (Z.log2_spec n ltac:(lia)) as [_ L]. eapply Z.lt_le_trans; [exact L|]. apply Z.pow_le_mono_r; [lia|]. unfold groups7. pose proof (Z.log2_nonneg n).
  pose proof (Z.div_mod (Z.log2 n) 7 ltac:(lia)). pose proof (Z.mod_pos_bound (Z.log2 n) 7 ltac:(lia)). pose proof (Z.div_pos (Z.log2 n) 7 ltac:(lia) ltac:(lia)). lia.
Qed.
Definition data_wf (v : value) : Prop := v_type v = TString \/ v_type v = TBinary -> wf_bytes (v_data v).
Lemma payload_wf v : data_wf v -> wf_bytes (payload v).
Proof.
  intros W. unfold payload, meaning_of. unfold data_wf in W. destruct (v_type v); try apply Forall_nil; try (apply varint_wf; lia); try (apply le_wf); try (destruct (ty_eqb _ _); apply le_wf).
  all: apply Forall_app; split; [apply varint_wf, zlen_nonneg|apply W; auto].
Qed.
Lemma position_nonneg n l : 0 <= position n l.
Proof. induction l as [|y l IH]; cbn [position]; [lia|]. destruct (bytes_eqb y n); lia. Qed.
Lemma kind_byte v : 0 <= kind v < 250.
Proof. unfold kind. destruct (meaning_of v); try destruct (_ : bool); try destruct (_ <? _); try destruct (ty_eqb _ _); lia. Qed.
Lemma layout_wf : forall es stk prev, Forall (fun e => wf_bytes (fst e) /\ data_wf (snd e)) es -> wf_bytes (layout stk prev es).
Proof.
  induction es as [|[n v] es IH]; intros stk prev H; [constructor|]. inversion H as [|? ? [H1 H2] H3]; subst. cbn [fst snd] in *. cbn [layout].
  pose proof (kind_byte v) as K. pose proof (payload_wf v H2) as P. destruct (_ && _).
  - apply Forall_app. split; [|apply Forall_app; split; [exact P|now apply IH]]. destruct (seen n prev).
    + constructor; [unfold is_byte; lia|]. apply varint_wf, position_nonneg.
    + constructor; [unfold is_byte; lia|]. apply Forall_app. split; [apply varint_wf, zlen_nonneg|exact H1].
  - constructor; [unfold is_byte; lia|]. apply Forall_app. split; [exact P|now apply IH].
Qed.

Lemma events_wf d : wf_doc d -> Forall (fun e => wf_bytes (fst e) /\ data_wf (snd e)) (events d).
Proof.
  induction d as [n v|n t its IH] using doc_ind2; intros W; cbn [events].
  - destruct W as [[Wn _] Wv]. constructor; [|constructor]. split; [exact Wn|]. cbn [snd]. intros T. unfold wf_value in Wv. destruct T as [T|T]; rewrite T in Wv; apply Wv.
  - apply wf_doc_scope in W. destruct W as ([Wn _] & T & Wi). constructor; [split; [exact Wn|]; cbn [snd]; intros [X|X]; cbn in X; destruct T; subst t; discriminate X|].
    apply Forall_app. split.
    + induction IH as [|y l Hy Hl IHl]; [constructor|]. inversion Wi; subst. cbn [flat_map]. apply Forall_app. auto.
    + constructor; [|constructor]. split; [constructor|]. intros [X|X]; discriminate X.
Qed.
Lemma written_lang d : wf_doc d -> all_vals (fun _ v => meaning_of v <> MeInt (- 2 ^ 63)) d -> Z.of_nat (length (events d)) < 2 ^ 63 ->
  exists tab, ps_doc TNull [] (denote false d) tab (layout [] [] (events d)).
Proof.
  intros W A L. destruct (psrl_doc d W A ltac:(lia) [] psrl_init psrl_init psrl_rel_init eq_refl) as (w' & ops & r' & X1 & X2 & X3 & _).
  destruct (P_PSrlMain.psrl_written_layout d W A L) as (w2 & ops2 & Y1 & Y2). rewrite X1 in Y1. injection Y1 as <- <-. rewrite writes_only_out in Y2 by exact X2. rewrite Y2 in X3.
  change (doc_norm psrl_norm_v (ty_eqb (P_Doc.top []) TObject) d) with (doc_norm psrl_norm_v false d) in X3. set (d' := doc_norm psrl_norm_v false d) in *.
  assert (M : mdoc_of d' = denote false d) by (apply doc_norm_denote; auto using psrl_norm_meaning).
  assert (Sh : shaped d'). { apply wf_shaped. apply (P_TreeIO.wf_norm (mkFpText (fun _ => None) (fun _ => [])) (PsrlP psrl_init)); auto. }
  specialize (X3 [] []). rewrite app_nil_r in X3.
  destruct (r_doc d' [] [] [] (mkBlk [] (layout [] [] (events d))) (layout_wf _ _ _ (events_wf d W)) ltac:(constructor) Sh r' (mkBlk (rev (layout [] [] (events d)) ++ []) [])) as (tab & bs & _ & [C _] & P & _).
  { unfold d'. rewrite events_norm_length. exact X3. }
  cbn [b_rest] in C. rewrite app_nil_r in C. subst bs. rewrite M in P. exists tab. exact P.
Qed.
(** the number 1 in two bytes *)
Lemma overlong_lang : ps_doc TNull [] (MScope [] TArray [MVal [] (MeInt 1)]) [] [128; 1; 129; 0; 0].
Proof.
  apply (PSscope TNull [] 128 [] [MVal [] (MeInt 1)] [] [] [] [1; 129; 0]); [lia|reflexivity|reflexivity|apply PSnone; now right|].
  apply (PSitem TArray [] _ [] [] [] [1; 129; 0] []); [|apply PSend]. apply (PSval TArray [] 1 [] (MeInt 1) [] [] [129; 0]); [lia|apply PSnone; now right|].
  apply PSnat; try reflexivity. exists 1. split; [apply (DMore 129 0 [0]); [lia|apply DLast; lia]|]. split; [cbn; lia|reflexivity].
Qed.
Lemma overlong_unwritten d : wf_doc d -> all_vals (fun _ v => meaning_of v <> MeInt (- 2 ^ 63)) d -> Z.of_nat (length (events d)) < 2 ^ 63 ->
  layout [] [] (events d) <> [128; 1; 129; 0; 0].
Proof.
  intros W A L E. destruct (written_lang d W A L) as (tab & P). rewrite E in P. destruct (ps_one_reading _ _ _ _ _ _ [] [] P overlong_lang eq_refl) as (M & _ & _).
  destruct d as [n v|n t its]; cbn [denote] in M; [discriminate M|]. injection M as -> M. destruct its as [|[n0 v|n0 t0 i0] [|y l]]; try discriminate M. cbn [map denote] in M. injection M as M.
  cbn [events flat_map app layout] in E. change (meaning_of (val_type TArray)) with MeArr in E. change (kind (val_type TArray)) with 128 in E. cbn [tl] in E.
  rewrite !andb_false_r in E. unfold kind at 1 in E. unfold payload in E at 2. rewrite M in E. cbn in E. discriminate E.
Qed.
