(** MessagePack on arbitrary bytes: outcomes, progress, agreement of the sources, conformance to the specification. *)
From Coq Require Import ZArith List Bool Lia ZifyBool ZifyNat.
From Verif Require Import Base Lemmas M_Types M_Conv M_In S_Doc M_OutOps S_Out M_Event S_MsgPack M_MsgPack P_In P_Reads P_Safe P_Exact P_Float P_Doc P_PSrlDoc P_PSrlSafe P_MsgPack P_MsgPackDoc.
Import ListNotations.
Open Scope Z_scope.

(** * outcomes *)
Definition no_ub (_ : ub) : Prop := False.
(** nothing, or more, has been consumed *)
Definition later {A} (b : blk) (a : A) (b' : blk) : Prop := bytes_left b' /\ exists bs, consumed bs b b'.
Definition strictly {A} (b : blk) (a : A) (b' : blk) : Prop := bytes_left b' /\ exists bs, bs <> [] /\ consumed bs b b'.

Lemma later_refl {A} b (a : A) : bytes_left b -> later b a b.
Proof. intros H. split; [exact H|]. exists []. apply consumed_nil. Qed.
Lemma consumed_wf bs b b' : bytes_left b -> consumed bs b b' -> wf_bytes bs /\ bytes_left b'.
Proof. unfold bytes_left. intros H [C _]. rewrite C in H. now apply wf_bytes_app in H. Qed.
Lemma later_trans {A B} b b1 b2 (a : A) (c : B) : later b a b1 -> later b1 c b2 -> later b c b2.
Proof. intros [_ (x & X)] [W (y & Y)]. split; [exact W|]. exists (x ++ y). eapply consumed_trans; eauto. Qed.
Lemma strictly_later {A B} b b1 b2 (a : A) (c : B) : strictly b a b1 -> later b1 c b2 -> strictly b c b2.
Proof.
  intros [_ (x & N & X)] [W (y & Y)]. split; [exact W|]. exists (x ++ y). split; [destruct x; [congruence|discriminate]|].
  eapply consumed_trans; eauto.
Qed.

Section Triples.
  Variable b : blk.
  Hypothesis B : bytes_left b.
  Lemma t_block n : 0 <= n < two63 -> triple no_ub (read_block n) b (fun a b' => later b a b' /\ zlen a = n /\ wf_bytes a).
  Proof.
    intros N. apply triple_read_block; [lia|lia|]. intros bs b' L C. destruct (consumed_wf _ _ _ B C).
    split; [|auto]. split; [auto|]. eauto.
  Qed.
  Lemma t_move n : 0 < n < two63 -> triple no_ub (read_move n) b (fun a b' => strictly b a b' /\ 0 <= a < 256 ^ n).
  Proof.
    intros N. apply triple_read_move; [lia|]. intros bs b' L C. destruct (consumed_wf _ _ _ B C) as [W W'].
    split; [|rewrite <- L; now apply unle_bound]. split; [auto|]. exists bs. split; [intros ->; cbn in L; lia|auto].
  Qed.
  Lemma t_swapped n : 0 <= n < two63 -> triple no_ub (read_swapped n) b (fun a b' => later b a b' /\ 0 <= a < 256 ^ n).
  Proof.
    intros N. apply triple_bind. eapply triple_conseq; [apply t_block; auto|]. intros bs b' (L & Z & W). apply triple_ret.
    split; [exact L|]. replace n with (zlen (rev bs)) by (unfold zlen in *; rewrite rev_length; auto). apply unle_bound.
    apply Forall_rev. exact W.
  Qed.
End Triples.

Lemma t_str_size p b : bytes_left b -> triple no_ub (mp_str_size p) b (fun a b' => later b a b' /\ 0 <= a < two32).
Proof.
  intros B. assert (M : forall n, (n = 1 \/ n = 2 \/ n = 4) -> triple no_ub (read_move n) b (fun a b' => later b a b' /\ 0 <= a < two32)).
  { intros n H. eapply triple_conseq; [apply t_move; [auto|unfold_words; lia]|]. intros a b' [[W (bs & _ & C)] R]. split; [split; eauto|].
    destruct H as [->|[->| ->]]; change (256 ^ 1) with 256 in *; change (256 ^ 2) with 65536 in *; change (256 ^ 4) with 4294967296 in *; unfold_words; lia. }
  unfold mp_str_size. destruct (_ && _).
  - apply triple_ret. split; [now apply later_refl|]. replace 31 with (2 ^ 5 - 1) by reflexivity. rewrite land_ones_mod by lia.
    pose proof (Z.mod_pos_bound p (2 ^ 5) ltac:(lia)). unfold_words. lia.
  - destruct (p =? 217); [apply M; auto|]. destruct (p =? 218); apply M; auto.
Qed.
Lemma t_bin_size p b : bytes_left b -> triple no_ub (mp_bin_size p) b (fun a b' => later b a b' /\ 0 <= a < two32).
Proof.
  intros B. assert (M : forall n, (n = 1 \/ n = 2 \/ n = 4) -> triple no_ub (read_move n) b (fun a b' => later b a b' /\ 0 <= a < two32)).
  { intros n H. eapply triple_conseq; [apply t_move; [auto|unfold_words; lia]|]. intros a b' [[W (bs & _ & C)] R]. split; [split; eauto|].
    destruct H as [->|[->| ->]]; change (256 ^ 1) with 256 in *; change (256 ^ 2) with 65536 in *; change (256 ^ 4) with 4294967296 in *; unfold_words; lia. }
  unfold mp_bin_size. destruct (p =? 196); [apply M; auto|]. destruct (p =? 197); apply M; auto.
Qed.
Lemma t_str p b : bytes_left b -> triple no_ub (mp_read_str p) b (later b).
Proof.
  intros B. apply triple_bind. eapply triple_conseq; [apply t_str_size; auto|]. intros n b1 [L N].
  apply triple_bind. eapply triple_conseq; [apply t_block; [apply L|unfold_words; lia]|]. intros x b2 [L2 _]. apply triple_ret.
  eapply later_trans; eauto.
Qed.
Lemma t_bin p b : bytes_left b -> triple no_ub (mp_read_bin p) b (later b).
Proof.
  intros B. apply triple_bind. eapply triple_conseq; [apply t_bin_size; auto|]. intros n b1 [L N].
  apply triple_bind. eapply triple_conseq; [apply t_block; [apply L|unfold_words; lia]|]. intros x b2 [L2 _]. apply triple_ret.
  eapply later_trans; eauto.
Qed.
Lemma t_scalar p b : bytes_left b -> triple no_ub (mp_read_scalar p) b (later b).
Proof.
  intros B. unfold mp_read_scalar. destruct (_ || _); [apply triple_ret; now apply later_refl|].
  destruct (_ && _).
  - unfold mp_read_num.
    assert (I : forall t, triple no_ub (mp_read_int t) b (later b)).
    { intros t. apply triple_bind. eapply triple_conseq; [apply t_swapped; [auto|destruct t; cbn; unfold_words; lia]|].
      intros x b' [L _]. apply triple_ret. destruct L; split; auto. }
    assert (F : forall n (f : Z -> value), 0 <= n < two63 -> triple no_ub (let! x := read_swapped n in Ret (f x)) b (later b)).
    { intros n f N. apply triple_bind. eapply triple_conseq; [apply t_swapped; auto|]. intros x b' [L _]. apply triple_ret. destruct L; split; auto. }
    repeat (destruct (p =? _); [first [apply I|apply F; unfold_words; lia]|]). exact Logic.I.
  - destruct (p =? 192); apply triple_ret; now apply later_refl.
Qed.
Lemma t_scope_info p b : bytes_left b -> triple no_ub (mp_scope_info p) b (later b).
Proof.
  intros B. unfold mp_scope_info. destruct (negb (Z.land p 64 =? 0)); [|apply triple_ret; now apply later_refl].
  destruct (negb (Z.land p 1 =? 0)); (apply triple_bind; eapply triple_conseq; [apply t_swapped; [auto|unfold_words; lia]|];
  intros x b' [L _]; apply triple_ret; destruct L; split; auto).
Qed.

Definition grows (st st' : msgp) : Prop := (length (mp_stack st') <= S (length (mp_stack st)))%nat.
Lemma t_value st name p b : bytes_left b -> triple no_ub (mp_read_value st name p) b (fun a b' => later b tt b' /\ grows st (fst a)).
Proof.
  intros B. unfold mp_read_value.
  destruct (prefix_is_scope p).
  { apply triple_bind. eapply triple_conseq; [apply t_scope_info; auto|]. intros [t n] b' L. apply triple_ret. split; [exact L|]. unfold grows. cbn. lia. }
  destruct (prefix_is_str p).
  { apply triple_bind. eapply triple_conseq; [apply t_str; auto|]. intros v b' L. apply triple_ret. split; [exact L|]. unfold grows. cbn. lia. }
  destruct (prefix_is_scalar p).
  { apply triple_bind. eapply triple_conseq; [apply t_scalar; auto|]. intros v b' L. apply triple_ret. split; [exact L|]. unfold grows. cbn. lia. }
  destruct (prefix_is_bin p); [|exact I].
  apply triple_bind. eapply triple_conseq; [apply t_bin; auto|]. intros v b' L. apply triple_ret. split; [exact L|]. unfold grows. cbn. lia.
Qed.

(** a bound on the calls of read that can still succeed *)
Definition fuel_left (st : msgp) (b : blk) : nat := (2 * length (b_rest b) + length (mp_stack st))%nat.

Lemma t_read st b : bytes_left b ->
  triple no_ub (msgp_read st) b (fun a b' => bytes_left b' /\ (fuel_left (fst a) b' < fuel_left st b)%nat).
Proof.
  intros B.
  assert (V : forall st0 name b1 (x : Z), (length (mp_stack st0) <= length (mp_stack st))%nat -> strictly b x b1 -> forall p,
    triple no_ub (mp_read_value st0 name p) b1 (fun a b' => bytes_left b' /\ (fuel_left (fst a) b' < fuel_left st b)%nat)).
  { intros st0 name b1 x Ls S p. eapply triple_conseq; [apply t_value; apply S|]. intros a b2 [L G].
    destruct (strictly_later b b1 b2 (x : Z) tt S L) as [W (bs & N & C)]. split; [exact W|]. apply consumed_len in C.
    unfold fuel_left, grows in *. destruct bs; [congruence|]. cbn [length] in C. lia. }
  unfold msgp_read. destruct (mp_stack st) as [|s stack] eqn:E.
  - apply triple_bind. eapply triple_conseq; [apply t_move; [auto|unfold_words; lia]|]. intros p b1 [S _].
    eapply (V _ _ _ p); [rewrite E; cbn; lia|exact S].
  - destruct (ms_elems s <? 1).
    + apply triple_ret. split; [exact B|]. unfold fuel_left. rewrite E. cbn. lia.
    + apply triple_bind. eapply triple_conseq; [apply t_move; [auto|unfold_words; lia]|]. intros p b1 [S _].
      destruct (ty_eqb (ms_type s) TObject).
      * apply triple_bind. apply triple_conseq with (Q := fun _ b' => strictly b p b').
        { destruct (prefix_is_str p); [|apply triple_ret; exact S]. apply triple_bind.
          eapply triple_conseq; [apply t_str; apply S|]. intros v b2 L. apply triple_ret. eapply strictly_later; eauto. }
        intros name b2 S2. apply triple_bind. eapply triple_conseq; [apply t_move; [apply S2|unfold_words; lia]|]. intros q b3 [S3 _].
        eapply (V _ _ _ q); [cbn; lia|]. eapply strictly_later; [exact S2|]. destruct S3 as [W (bs & _ & C)]. split; eauto.
      * eapply (V _ _ _ p); [cbn; lia|exact S].
Qed.

Lemma msgp_events_outcome : forall n st b, bytes_left b ->
  triple no_ub (read_events msgp_read n st) b (fun a b' => bytes_left b' /\ (n + fuel_left (fst a) b' <= fuel_left st b)%nat).
Proof.
  induction n; intros st b B; cbn [read_events]; [apply triple_ret; auto|]. apply triple_bind.
  eapply triple_conseq; [apply t_read; auto|]. intros [st1 e] b1 [B1 F1]. cbn [fst] in F1. apply triple_bind.
  eapply triple_conseq; [apply IHn; auto|]. intros [st2 es] b2 [B2 F2]. cbn [fst] in F2. apply triple_ret. cbn [fst]. split; [auto|lia].
Qed.

(** the outcome of reading any bytes: a result or an exception *)
Lemma msgp_outcome n st src before : wf_bytes src ->
  run_block (read_events msgp_read n st) (mkBlk before src) = Err \/
  exists r b, run_block (read_events msgp_read n st) (mkBlk before src) = Ok (r, b).
Proof.
  intros W. pose proof (msgp_events_outcome n st (mkBlk before src) W) as T. unfold triple in T.
  destruct (run_block _ _) as [[r b]| | |]; try contradiction; eauto.
Qed.
Lemma msgp_bounded n st src r b : wf_bytes src -> run_block (read_events msgp_read n st) (set_block src) = Ok (r, b) ->
  (n <= 2 * length src + length (mp_stack st))%nat.
Proof.
  intros W E. pose proof (msgp_events_outcome n st (set_block src) W) as T. unfold triple in T. rewrite E in T.
  destruct T as [_ T]. unfold fuel_left in T at 2. cbn [set_block b_rest] in T. lia.
Qed.

(** * memory and stream *)
Notation ex := (exact bytes_left).
Lemma e_true {A} (p : prog A) (Q : A -> Prop) : ex p Q -> ex p (fun _ => True).
Proof. intros H. eapply exact_conseq; eauto. Qed.
Ltac eb := eapply exact_bind.
Lemma e_swapped n : 0 <= n -> ex (read_swapped n) (fun x => True).
Proof. intros. eb; [apply exact_read_block with (Q := fun _ => True); auto|]. intros. now apply exact_ret. Qed.
Lemma e_move n : 0 <= n -> ex (read_move n) (fun x => 0 <= x).
Proof. intros. apply exact_read_move; [auto|]. lia. Qed.
Lemma e_str_size p : ex (mp_str_size p) (fun x => 0 <= x).
Proof.
  unfold mp_str_size. destruct (_ && _); [apply exact_ret; apply Z.land_nonneg; lia|].
  destruct (p =? 217); [apply e_move; lia|]. destruct (p =? 218); apply e_move; lia.
Qed.
Lemma e_bin_size p : ex (mp_bin_size p) (fun x => 0 <= x).
Proof. unfold mp_bin_size. destruct (p =? 196); [apply e_move; lia|]. destruct (p =? 197); apply e_move; lia. Qed.
Lemma e_str p : ex (mp_read_str p) (fun _ => True).
Proof. eb; [apply e_str_size|]. intros n N. eb; [apply exact_read_block with (Q := fun _ => True); auto|]. intros. now apply exact_ret. Qed.
Lemma e_bin p : ex (mp_read_bin p) (fun _ => True).
Proof. eb; [apply e_bin_size|]. intros n N. eb; [apply exact_read_block with (Q := fun _ => True); auto|]. intros. now apply exact_ret. Qed.
Lemma e_scalar p : ex (mp_read_scalar p) (fun _ => True).
Proof.
  unfold mp_read_scalar. destruct (_ || _); [now apply exact_ret|]. destruct (_ && _); [|destruct (p =? 192); now apply exact_ret].
  assert (I : forall t, ex (mp_read_int t) (fun _ => True)).
  { intros t. eb; [apply e_swapped; lia|]. intros. now apply exact_ret. }
  assert (F : forall n (f : Z -> value), 0 <= n -> ex (let! x := read_swapped n in Ret (f x)) (fun _ => True)).
  { intros n f N. eb; [apply e_swapped; lia|]. intros. now apply exact_ret. }
  unfold mp_read_num. repeat (destruct (p =? _); [first [apply I|apply F; lia]|]). apply exact_throw.
Qed.
Lemma e_scope_info p : ex (mp_scope_info p) (fun _ => True).
Proof.
  unfold mp_scope_info. destruct (negb (Z.land p 64 =? 0)); [|now apply exact_ret].
  destruct (negb (Z.land p 1 =? 0)); (eb; [apply e_swapped; lia|]; intros; now apply exact_ret).
Qed.
Lemma e_value st name p : ex (mp_read_value st name p) (fun _ => True).
Proof.
  unfold mp_read_value. destruct (prefix_is_scope p); [eb; [apply e_scope_info|]; intros [? ?] _; now apply exact_ret|].
  destruct (prefix_is_str p); [eb; [apply e_str|]; intros; now apply exact_ret|].
  destruct (prefix_is_scalar p); [eb; [apply e_scalar|]; intros; now apply exact_ret|].
  destruct (prefix_is_bin p); [eb; [apply e_bin|]; intros; now apply exact_ret|apply exact_throw].
Qed.
Lemma e_read st : ex (msgp_read st) (fun _ => True).
Proof.
  unfold msgp_read. destruct (mp_stack st) as [|s stack]; [eb; [apply e_move; lia|]; intros; apply e_value|].
  destruct (ms_elems s <? 1); [now apply exact_ret|]. eb; [apply e_move; lia|]. intros p _. destruct (ty_eqb _ _); [|apply e_value].
  eapply exact_bind with (Q := fun _ => True).
  - destruct (prefix_is_str p); [|now apply exact_ret]. eb; [apply e_str|]. intros. now apply exact_ret.
  - intros name _. eb; [apply e_move; lia|]. intros. apply e_value.
Qed.
Lemma e_events : forall n st, ex (read_events msgp_read n st) (fun _ => True).
Proof.
  induction n; intros st; cbn [read_events]; [now apply exact_ret|]. eb; [apply e_read|]. intros [st1 e] _.
  eb; [apply IHn|]. intros [st2 es] _. now apply exact_ret.
Qed.
Lemma msgp_stream_same n st src : wf_bytes src ->
  match run_block (read_events msgp_read n st) (set_block src) with
  | Ok (r, _) => exists s, run_stream (read_events msgp_read n st) (set_stream src) = Ok (r, s)
  | Err => run_stream (read_events msgp_read n st) (set_stream src) = Err
  | UB _ | Fuel => False
  end.
Proof.
  intros W. pose proof (exact_final _ _ src (e_events n st) W) as X. destruct (msgp_outcome n st src [] W) as [E|(r & b & E)];
  unfold set_block in *; rewrite E in *; auto.
Qed.

(** * truncation *)
Lemma plain_msgp_read st : plain (msgp_read st).
Proof.
  assert (PS : forall p, plain (mp_read_str p)).
  { intros p. apply plain_bind; [|intros; apply plain_bind; [apply plain_read_block|intros; exact I]].
    unfold mp_str_size. destruct (_ && _); [exact I|]. destruct (p =? 217); [apply plain_read_move|]. destruct (p =? 218); apply plain_read_move. }
  assert (PW : forall n, plain (read_swapped n)) by (intros; apply plain_bind; [apply plain_read_block|intros; exact I]).
  assert (V : forall st0 name p, plain (mp_read_value st0 name p)).
  { intros st0 name p. unfold mp_read_value. destruct (prefix_is_scope p).
    { apply plain_bind; [|intros [? ?]; exact I]. unfold mp_scope_info. destruct (negb (Z.land p 64 =? 0)); [|exact I].
      destruct (negb (Z.land p 1 =? 0)); (apply plain_bind; [apply PW|intros; exact I]). }
    destruct (prefix_is_str p); [apply plain_bind; [apply PS|intros; exact I]|].
    destruct (prefix_is_scalar p).
    { apply plain_bind; [|intros; exact I]. unfold mp_read_scalar. destruct (_ || _); [exact I|].
      destruct (_ && _); [|destruct (p =? 192); exact I]. unfold mp_read_num.
      repeat (destruct (p =? _); [apply plain_bind; [apply PW|intros; exact I]|]). exact I. }
    destruct (prefix_is_bin p); [|exact I]. apply plain_bind; [|intros; exact I].
    apply plain_bind; [|intros; apply plain_bind; [apply plain_read_block|intros; exact I]].
    unfold mp_bin_size. destruct (p =? 196); [apply plain_read_move|]. destruct (p =? 197); apply plain_read_move. }
  unfold msgp_read. destruct (mp_stack st) as [|s stack]; [apply plain_bind; [apply plain_read_move|intros; apply V]|].
  destruct (ms_elems s <? 1); [exact I|]. apply plain_bind; [apply plain_read_move|]. intros p. destruct (ty_eqb _ _); [|apply V].
  apply plain_bind; [|intros; apply plain_bind; [apply plain_read_move|intros; apply V]].
  destruct (prefix_is_str p); [apply plain_bind; [apply PS|intros; exact I]|exact I].
Qed.
