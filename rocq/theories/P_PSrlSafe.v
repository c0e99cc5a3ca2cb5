(** PSrl on arbitrary bytes: possible outcomes, progress, agreement of memory and stream source; layout. *)
From Coq Require Import ZArith List Bool Lia ZifyBool ZifyNat.
From Verif Require Import Base Lemmas M_Types M_Conv M_In S_Doc M_OutOps S_Out M_Event S_PSrl M_PSrl P_In P_Reads P_Safe P_Float P_Doc P_PSrl P_PSrlDoc.
Import ListNotations.
Open Scope Z_scope.

Definition ub_decode (u : ub) : Prop := u = UbEnd \/ u = UbShift.
Definition ub_psrl (u : ub) : Prop := In u [UbEnd; UbShift; UbPtr; UbSigned].

Lemma run_move1 {A} (k : prog A) d c r : run_block (Move 1 k) (mkBlk d (c :: r)) = run_block k (mkBlk (c :: d) r).
Proof.
  cbn [run_block b_rest b_done]. change (two63 <=? 1) with false. cbv iota.
  replace (1 <=? zlen (c :: r)) with true by (rewrite zlen_cons; unfold zlen; lia). reflexivity.
Qed.
Lemma run_deref0 {A} (k : Z -> prog A) d r : run_block (Deref 0 k) (mkBlk d r) =
  match r with [] => UB UbEnd | c :: _ => run_block (k c) (mkBlk d r) end.
Proof. destruct r; reflexivity. Qed.

Lemma decode_loop_triple : forall f s c o d r, (2 <= f)%nat -> s = 7 * (12 - Z.of_nat f) -> 0 <= o ->
  triple ub_decode (decode_loop f c o s) (mkBlk d (c :: r))
    (fun n b' => 0 <= n /\ exists bs, bs <> [] /\ consumed bs (mkBlk d (c :: r)) b').
Proof.
  induction f as [|f IH]; intros s c o d r Hf Hs Ho; [lia|]. cbn [decode_loop].
  destruct (has c 128).
  - unfold triple. rewrite run_move1, run_deref0. destruct r as [|c2 r]; [left; reflexivity|].
    destruct (64 <=? s) eqn:S; [right; reflexivity|].
    assert (P : 0 <= Z.lor o (u64 (Z.shiftl (Z.land 127 c2) s))).
    { apply Z.lor_nonneg. split; [lia|]. unfold u64. apply Z.mod_pos_bound. unfold_words; lia. }
    pose proof (IH (s + 7) c2 (Z.lor o (u64 (Z.shiftl (Z.land 127 c2) s))) (c :: d) r ltac:(lia) ltac:(lia) P) as T.
    unfold triple in T. destruct (run_block _ _) as [[n b']| | |]; auto.
    destruct T as (N & bs & B & C). split; [exact N|]. exists (c :: bs). split; [discriminate|].
    destruct C as [C1 C2]. cbn [b_rest b_done] in *. split; cbn [b_rest b_done app rev]; [now rewrite C1|].
    now rewrite C2, <- app_assoc.
  - destruct (70 <? s); [exact I|]. unfold triple. rewrite run_move1. cbn [run_block]. split; [exact Ho|].
    exists [c]. split; [discriminate|]. split; reflexivity.
Qed.
Lemma decode_triple b : triple ub_decode decode_integer b
  (fun n b' => 0 <= n /\ exists bs, bs <> [] /\ consumed bs b b').
Proof.
  destruct b as [d r]. unfold decode_integer. unfold triple. rewrite run_deref0. destruct r as [|c r]; [left; reflexivity|].
  apply decode_loop_triple; [lia|lia|]. apply Z.land_nonneg. lia.
Qed.

Definition progress {A} (b : blk) (a : A) (b' : blk) : Prop := exists bs, bs <> [] /\ consumed bs b b'.

Lemma ub_decode_psrl u : ub_decode u -> ub_psrl u.
Proof. intros [-> | ->]; cbn; tauto. Qed.

Lemma psrl_read_triple st b : triple ub_psrl (psrl_read st) b (progress b).
Proof.
  assert (D : forall b (Q : Z -> blk -> Prop), (forall n b' bs, 0 <= n -> consumed bs b b' -> Q n b') -> triple ub_psrl decode_integer b Q).
  { intros b0 Q H. eapply triple_weaken; [apply ub_decode_psrl| |apply decode_triple].
    intros n b' (N & bs & _ & C). eauto. }
  assert (RB : forall n b (Q : bytes -> blk -> Prop), 0 <= n -> (forall bs b', consumed bs b b' -> Q bs b') -> triple ub_psrl (read_block n) b Q).
  { intros n b0 Q N H. apply triple_read_block; [intros _; cbn; tauto|lia|eauto]. }
  assert (RM : forall n b (Q : Z -> blk -> Prop), 0 <= n < two63 -> (forall x bs b', consumed bs b b' -> Q x b') -> triple ub_psrl (read_move n) b Q).
  { intros n b0 Q N H. apply triple_read_move; eauto. }
  unfold psrl_read. apply triple_bind.
  apply triple_conseq with (Q := fun _ b' => progress b tt b').
  - unfold psrl_read_head. apply triple_bind. apply triple_read_move; [unfold_words; lia|].
    intros bs b1 L C1.
    assert (N : bs <> []) by (destruct bs; [discriminate L|discriminate]).
    assert (P : forall bs2 b2, consumed bs2 b1 b2 -> progress b tt b2).
    { intros bs2 b2 C2. exists (bs ++ bs2). split; [destruct bs; [congruence|discriminate]|]. eapply consumed_trans; eauto. }
    destruct (_ || _); [apply triple_ret; eapply P; apply consumed_nil|].
    destruct (has _ FIndexed).
    + apply triple_bind, D. intros i b2 bs2 Hi C2. destruct (zlen (ps_indexed st) <=? i) eqn:E; [exact I|].
      destruct (nth_error (ps_indexed st) (Z.to_nat i)) eqn:F; [apply triple_ret; eauto|].
      apply nth_error_None in F. unfold zlen in E. lia.
    + apply triple_bind, D. intros i b2 bs2 Hi C2. apply triple_bind, RB; [exact Hi|].
      intros bs3 b3 C3. apply triple_ret. eapply P. eapply consumed_trans; eauto.
  - intros [st1 [f n]] b1 (bs & N & C1).
    assert (P : forall bs2 b2, consumed bs2 b1 b2 -> progress b tt b2).
    { intros bs2 b2 C2. exists (bs ++ bs2). split; [destruct bs; [congruence|discriminate]|]. eapply consumed_trans; eauto. }
    assert (P0 : progress b tt b1) by (eapply P; apply consumed_nil).
    destruct (f =? 0).
    + destruct (ps_stack st1) as [|t s] eqn:E; [exact I|]. unfold psrl_pop. rewrite E. cbn [lift pbind]. now apply triple_ret.
    + destruct (flag_is_scope f); [now apply triple_ret|]. destruct (has f FNum).
      * apply triple_bind. apply triple_conseq with (Q := fun _ b' => progress b tt b').
        { unfold psrl_read_num. destruct (has f _); [now apply triple_ret|].
          destruct (has f FFP32); [apply triple_bind, RM; [unfold_words; lia|]; intros; apply triple_ret; eauto|].
          destruct (has f FFP64); [apply triple_bind, RM; [unfold_words; lia|]; intros; apply triple_ret; eauto|].
          apply triple_bind, D. intros i b2 bs2 Hi C2. destruct (has f FSigned); [|apply triple_ret; eauto].
          destruct (_ =? _); [cbn; tauto|apply triple_ret; eauto]. }
        intros. now apply triple_ret.
      * destruct (has f _); [|destruct (has f FNull); [now apply triple_ret|exact I]].
        apply triple_bind, D. intros i b2 bs2 Hi C2. apply triple_bind, RB; [exact Hi|].
        intros bs3 b3 C3. apply triple_ret. eapply P. eapply consumed_trans; eauto.
Qed.

Lemma psrl_events_triple : forall n st b, triple ub_psrl (read_events psrl_read n st) b (fun _ _ => True).
Proof.
  induction n; intros; cbn [read_events]; [exact I|]. apply triple_bind.
  eapply triple_conseq; [apply psrl_read_triple|]. intros [st1 e] b1 _. apply triple_bind.
  eapply triple_conseq; [apply IHn|]. intros [st2 es] b2 _. exact I.
Qed.

(** * memory and stream source *)

Lemma decode_loop_agrees : forall f s c o d r g (Q : Z -> blk -> ghost -> Prop), g_lit g = None -> (1 <= g_vis g)%nat ->
  (forall n bs b' g', consumed bs (mkBlk d (c :: r)) b' -> g_lit g' = None -> (Nat.min 1 (length (b_rest b')) <= g_vis g')%nat -> Q n b' g') ->
  agrees (decode_loop f c o s) (mkBlk d (c :: r)) g Q.
Proof.
  induction f as [|f IH]; intros s c o d r g Q L V HQ; [apply agrees_fail; discriminate|]. cbn [decode_loop].
  destruct (has c 128).
  - intros a b' E. rewrite run_move1, run_deref0 in E. destruct r as [|c2 r]; [discriminate|].
    destruct (64 <=? s) eqn:S; [discriminate|].
    set (g1 := mkGhost (vis_after_move 1 (length (c2 :: r))) (Z.to_nat 1) None).
    destruct (IH (s + 7) c2 (Z.lor o (u64 (Z.shiftl (Z.land 127 c2) s))) (c :: d) r g1
                (fun n b' g' => Q n b' g') eq_refl) with (a := a) (b' := b') as (g' & G & X).
    { unfold g1, vis_after_move. change (1 <? 1024) with true. cbn. lia. }
    { intros n bs b2 g2 [C1 C2] L2 V2. apply (HQ n (c :: bs)); [|exact L2|exact V2].
      cbn [b_rest b_done] in *. split; cbn [b_rest b_done app rev]; [now rewrite C1|now rewrite C2, <- app_assoc]. }
    { exact E. }
    exists g'. split; [|exact X]. cbn [run_ghost b_rest b_done].
    replace ((0 <=? 1) && (1 <? two63) && (1 <=? zlen (c :: c2 :: r))) with true by (rewrite zlen_cons; unfold zlen, two63; lia).
    rewrite L. change (skipn (Z.to_nat 1) (c :: c2 :: r)) with (c2 :: r).
    change (rev_append (firstn (Z.to_nat 1) (c :: c2 :: r)) d) with (c :: d). fold g1.
    replace (0 <? g_vis g1)%nat with true by (unfold g1, vis_after_move; change (1 <? 1024) with true; cbn [g_vis length]; lia).
    cbn [nth_error b_rest]. exact G.
  - destruct (70 <? s); [apply agrees_fail; discriminate|]. intros a b' E. rewrite run_move1 in E. injection E as <- <-.
    eexists. cbn [run_ghost b_rest b_done].
    replace ((0 <=? 1) && (1 <? two63) && (1 <=? zlen (c :: r))) with true by (rewrite zlen_cons; unfold zlen, two63; lia).
    rewrite L. split; [reflexivity|]. apply (HQ o [c]); [split; reflexivity|reflexivity|].
    unfold vis_after_move. change (1 <? 1024) with true. cbn [g_vis b_rest]. change (Z.to_nat 1) with 1%nat. cbn [skipn]. lia.
Qed.
Lemma decode_agrees b g (Q : Z -> blk -> ghost -> Prop) : g_lit g = None -> (Nat.min 1 (length (b_rest b)) <= g_vis g)%nat ->
  (forall n bs b' g', 0 <= n -> consumed bs b b' -> g_lit g' = None -> (Nat.min 1 (length (b_rest b')) <= g_vis g')%nat -> Q n b' g') -> agrees decode_integer b g Q.
Proof.
  intros L V HQ a b' E. destruct b as [d r]. pose proof (decode_triple (mkBlk d r)) as T. unfold triple in T. rewrite E in T.
  destruct T as (Na & _). unfold decode_integer in E. rewrite run_deref0 in E.
  destruct r as [|c r]; [discriminate|].
  destruct (decode_loop_agrees 11 7 c (Z.land 127 c) d r g (fun n b' g' => n = a -> Q n b' g') L) with (a := a) (b' := b') as (g' & G & X); auto.
  { intros n bs b2 g2 C L2 V2 ->. eauto. }
  exists g'. split; [|auto]. unfold decode_integer. cbn [run_ghost b_rest].
  replace (0 <? g_vis g)%nat with true by (cbn [b_rest length] in V; lia). cbn [nth_error]. exact G.
Qed.

Lemma run_bind_inv {A B} (p : prog A) (f : A -> prog B) b r b' : run_block (pbind p f) b = Ok (r, b') ->
  exists a b1, run_block p b = Ok (a, b1) /\ run_block (f a) b1 = Ok (r, b').
Proof. rewrite run_block_bind. destruct (run_block p b) as [[a b1]| | |]; cbn [rbind]; try discriminate. eauto. Qed.

Definition psrl_tail (st : psrl) (flag : Z) (name : bytes) : prog (psrl * event) :=
  if flag =? 0 then
    match ps_stack st with
    | [] => Throw
    | _ :: _ => let! st' := lift (psrl_pop st) in Ret (st', ([], val_type TScopeEnd))
    end
  else if flag_is_scope flag then
    let tp := if has flag FObject then TObject else TArray in
    Ret (psrl_push st tp, (name, val_type tp))
  else if has flag FNum then
    let! v := psrl_read_num flag in Ret (st, (name, v))
  else if has flag (Z.lor FBinary FString) then
    let! size := decode_integer in
    let! block := read_block size in
    let type := if has flag FBinary then TBinary else TString in
    Ret (st, (name, val_block_enc block type EUTF8))
  else if has flag FNull then Ret (st, (name, val_type TNull))
  else Throw.

Lemma psrl_tail_name st f n b r b' : run_block (psrl_tail st f n) b = Ok (r, b') -> f = 0 \/ fst (snd r) = n.
Proof.
  unfold psrl_tail. destruct (f =? 0) eqn:E; [left; lia|]. right. revert H.
  destruct (flag_is_scope f); [intros H; injection H as <- _; reflexivity|].
  destruct (has f FNum).
  { intros H. apply run_bind_inv in H. destruct H as (a & b1 & _ & H). injection H as <- _. reflexivity. }
  destruct (has f _).
  { intros H. apply run_bind_inv in H. destruct H as (a & b1 & _ & H).
    apply run_bind_inv in H. destruct H as (a2 & b2 & _ & H). injection H as <- _. reflexivity. }
  destruct (has f FNull); [intros H; injection H as <- _; reflexivity|discriminate].
Qed.

Definition lit_none {A} (_ : A) (_ : blk) (g : ghost) : Prop := g_lit g = None.

Lemma psrl_tail_agrees st f n b g : g_lit g = None -> (f = 0 \/ (Nat.min 1 (length (b_rest b)) <= g_vis g)%nat) ->
  agrees (psrl_tail st f n) b g lit_none.
Proof.
  intros L V. unfold psrl_tail. destruct (f =? 0) eqn:E.
  { destruct (ps_stack st) as [|t s] eqn:Es; [apply agrees_fail; discriminate|]. unfold psrl_pop. rewrite Es. cbn [lift pbind]. now apply agrees_ret. }
  destruct V as [V|V]; [lia|].
  destruct (flag_is_scope f); [now apply agrees_ret|]. destruct (has f FNum).
  - apply agrees_bind. apply agrees_conseq with (Q := lit_none); [|intros; now apply agrees_ret].
    unfold psrl_read_num. destruct (has f _); [now apply agrees_ret|].
    destruct (has f FFP32); [apply agrees_bind, agrees_read_move; [lia|]; intros; now apply agrees_ret|].
    destruct (has f FFP64); [apply agrees_bind, agrees_read_move; [lia|]; intros; now apply agrees_ret|].
    apply agrees_bind, decode_agrees; auto. intros i bs b' g' Hi C Lg Vg. destruct (has f FSigned); [|now apply agrees_ret].
    destruct (s64 i =? - two63); [apply agrees_fail; discriminate|now apply agrees_ret].
  - destruct (has f _); [|destruct (has f FNull); [now apply agrees_ret|apply agrees_fail; discriminate]].
    apply agrees_bind, decode_agrees; auto. intros i bs b' g' Hi C Lg Vg. apply agrees_bind, agrees_read_block; auto.
    intros. now apply agrees_ret.
Qed.

Lemma psrl_head_agrees st b g : g_lit g = None ->
  agrees (psrl_read_head st) b g (fun r b' g' => g_lit g' = None /\
    (zlen (snd (snd r)) < 1024 -> (Nat.min 1 (length (b_rest b')) <= g_vis g')%nat)).
Proof.
  intros L. unfold psrl_read_head. apply agrees_bind, agrees_read_move; [lia|]. intros bs b1 g1 Lb C1 L1 V1.
  specialize (V1 ltac:(lia)).
  destruct (_ || _); [apply agrees_ret; auto|]. destruct (has _ FIndexed).
  - apply agrees_bind, decode_agrees; auto. intros i bs2 b2 g2 Hi C2 L2 V2.
    destruct (_ <=? _); [apply agrees_fail; discriminate|]. destruct (nth_error _ _); [now apply agrees_ret|apply agrees_fail; discriminate].
  - apply agrees_bind, decode_agrees; auto. intros i bs2 b2 g2 Hi C2 L2 V2.
    apply agrees_bind, agrees_read_block; auto. intros bs3 b3 g3 L3 C3 L4 V3. apply agrees_ret. cbn [snd]. split; [auto|].
    intros. apply V3. lia.
Qed.

Lemma psrl_head_flag0 st b r b' : run_block (psrl_read_head st) b = Ok (r, b') -> fst (snd r) = 0 -> snd (snd r) = [].
Proof.
  unfold psrl_read_head. intros H F. apply run_bind_inv in H. destruct H as (f & b1 & _ & H).
  destruct (_ || _) eqn:E; [injection H as <- _; reflexivity|].
  exfalso. assert (f = 0); [|subst f; discriminate E].
  destruct (has f FIndexed).
  - apply run_bind_inv in H. destruct H as (i & b2 & _ & H).
    destruct (_ <=? _); [discriminate|]. destruct (nth_error _ _); [|discriminate]. injection H as <- _. exact F.
  - apply run_bind_inv in H. destruct H as (i & b2 & _ & H). apply run_bind_inv in H. destruct H as (i2 & b3 & _ & H).
    injection H as <- _. exact F.
Qed.

Lemma psrl_read_ghost st b g r b' : g_lit g = None -> run_block (psrl_read st) b = Ok (r, b') ->
  zlen (fst (snd r)) < 1024 -> exists g', run_ghost (psrl_read st) b g = Some (r, b', g') /\ g_lit g' = None.
Proof.
  intros L E Hn. change (psrl_read st) with (let! (st1, (f, n)) := psrl_read_head st in psrl_tail st1 f n) in *.
  apply run_bind_inv in E. destruct E as ([st1 [f n]] & b1 & E1 & E2).
  destruct (psrl_head_agrees st b g L _ _ E1) as (g1 & G1 & L1 & V1). cbn [fst snd] in V1.
  assert (V : f = 0 \/ (Nat.min 1 (length (b_rest b1)) <= g_vis g1)%nat).
  { destruct (psrl_tail_name _ _ _ _ _ _ E2) as [->|N]; [auto|]. right. apply V1. now rewrite <- N. }
  destruct (psrl_tail_agrees st1 f n b1 g1 L1 V _ _ E2) as (g2 & G2 & L2).
  exists g2. split; [|exact L2]. rewrite run_ghost_bind, G1. exact G2.
Qed.

Lemma psrl_events_ghost : forall k st b g r b', g_lit g = None -> run_block (read_events psrl_read k st) b = Ok (r, b') ->
  Forall (fun e => zlen (fst e) < 1024) (snd r) ->
  exists g', run_ghost (read_events psrl_read k st) b g = Some (r, b', g') /\ g_lit g' = None.
Proof.
  induction k as [|k IH]; intros st b g r b' L E F.
  - injection E as <- <-. exists g. auto.
  - cbn [read_events] in *. apply run_bind_inv in E. destruct E as ([st1 e] & b1 & E1 & E2).
    apply run_bind_inv in E2. destruct E2 as ([st2 es] & b2 & E2 & E3). injection E3 as <- <-.
    cbn [snd] in F. inversion F as [|? ? F1 F2]; subst.
    destruct (psrl_read_ghost st b g _ _ L E1 F1) as (g1 & G1 & L1).
    destruct (IH st1 b1 g1 _ _ L1 E2 F2) as (g2 & G2 & L2).
    exists g2. split; [|exact L2]. rewrite run_ghost_bind, G1, run_ghost_bind, G2. reflexivity.
Qed.

Lemma psrl_stream_eq_block k st src r b : run_block (read_events psrl_read k st) (set_block src) = Ok (r, b) ->
  Forall (fun e => zlen (fst e) < 1024) (snd r) ->
  exists s, run_stream (read_events psrl_read k st) (set_stream src) = Ok (r, s).
Proof.
  intros E F. destruct (psrl_events_ghost k st _ ghost0 r b eq_refl E F) as (g & G & _).
  now destruct (stream_eq_block _ _ _ _ _ _ G).
Qed.
