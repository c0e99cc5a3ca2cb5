(** Lemmas about documents. *)
From Coq Require Import ZArith List Bool Lia ZifyBool ZifyNat.
From Verif Require Import Base Lemmas M_Types M_Conv M_In S_Doc M_OutOps S_Out M_Event P_In P_Reads P_Float.
Import ListNotations.
Open Scope Z_scope.

Lemma doc_ind2 (P : doc -> Prop) :
  (forall n v, P (DVal n v)) ->
  (forall n t its, Forall P its -> P (DScope n t its)) ->
  forall d, P d.
Proof.
  intros HV HS. fix IH 1. intros [n v|n t its]; [apply HV|apply HS].
  induction its as [|x l IHl]; constructor; [apply IH|apply IHl].
Qed.

Lemma wf_doc_scope n t its : wf_doc (DScope n t its) <-> wf_name n /\ (t = TObject \/ t = TArray) /\ Forall wf_doc its.
Proof.
  cbn [wf_doc]. split; intros (A & B & C); (split; [exact A|]; split; [exact B|]).
  - clear A B. induction its; constructor; [tauto|apply IHits; tauto].
  - clear A B. induction C; [exact I|split; auto].
Qed.
Lemma all_vals_scope P n t its : all_vals P (DScope n t its) <-> Forall (all_vals P) its.
Proof.
  cbn [all_vals]. split; intros C.
  - induction its; constructor; [tauto|apply IHits; tauto].
  - induction C; [exact I|split; auto].
Qed.

(** bytes of operations that are all plain writes *)
Definition flat (ops : list oop) : bytes := flat_map (fun o => match o with OWrite b => b | _ => [] end) ops.
Definition writes_only (ops : list oop) : Prop := Forall (fun o => exists b, o = OWrite b) ops.
Lemma flat_app a b : flat (a ++ b) = flat a ++ flat b.
Proof. apply flat_map_app. Qed.
Lemma writes_only_run ops : writes_only ops -> forall st, spec_run ops st = (fst st ++ flat ops, snd st).
Proof.
  unfold spec_run. induction 1 as [|o l [b ->] H IH]; intros st; cbn [fold_left flat flat_map].
  - rewrite app_nil_r. now destruct st.
  - rewrite IH. cbn [spec_op fst snd]. now rewrite <- app_assoc.
Qed.
Lemma writes_only_out ops : writes_only ops -> spec_out ops = flat ops.
Proof. intros H. unfold spec_out. now rewrite writes_only_run. Qed.
Lemma writes_only_valid ops t : writes_only ops -> valid_ops t ops.
Proof. induction 1 as [|o l [b ->] H IH]; cbn; auto. Qed.
Lemma writes_only_app a b : writes_only a -> writes_only b -> writes_only (a ++ b).
Proof. intros. apply Forall_app; auto. Qed.

Lemma read_events_app {S} (r : S -> prog (S * event)) n m st :
  forall b d, run_block (read_events r (n + m) st) (mkBlk d b) =
  run_block (let! (st1, e1) := read_events r n st in let! (st2, e2) := read_events r m st1 in Ret (st2, e1 ++ e2)) (mkBlk d b).
Proof.
  revert st. induction n as [|n IH]; intros st b d.
  - cbn [Nat.add read_events pbind]. rewrite run_block_bind. destruct (run_block (read_events r m st) (mkBlk d b)) as [[[? ?] ?]| | |]; reflexivity.
  - cbn [Nat.add read_events]. rewrite !run_block_bind.
    destruct (run_block (r st) (mkBlk d b)) as [[[st1 e] [d1 b1]]| | |]; cbn [rbind]; auto.
    rewrite !run_block_bind, IH, run_block_bind.
    destruct (run_block (read_events r n st1) (mkBlk d1 b1)) as [[[st2 es] [d2 b2]]| | |]; cbn [rbind run_block]; auto.
    rewrite !run_block_bind.
    destruct (run_block (read_events r m st2) (mkBlk d2 b2)) as [[[? ?] ?]| | |]; reflexivity.
Qed.

Lemma reads_events_nil {S} (r : S -> prog (S * event)) st : reads (read_events r 0 st) [] (st, []).
Proof. apply reads_ret. Qed.
Lemma reads_events_cons {S} (r : S -> prog (S * event)) n st b1 st1 e b2 st2 es :
  reads (r st) b1 (st1, e) -> reads (read_events r n st1) b2 (st2, es) ->
  reads (read_events r (Datatypes.S n) st) (b1 ++ b2) (st2, e :: es).
Proof.
  intros H1 H2. cbn [read_events]. eapply reads_bind; [exact H1|].
  eapply reads_bind0; [exact H2|]. apply reads_ret.
Qed.
Lemma reads_events_app {S} (r : S -> prog (S * event)) n m st b1 st1 e1 b2 st2 e2 :
  reads (read_events r n st) b1 (st1, e1) -> reads (read_events r m st1) b2 (st2, e2) ->
  reads (read_events r (n + m) st) (b1 ++ b2) (st2, e1 ++ e2).
Proof.
  intros H1 H2 d rest. rewrite read_events_app. revert d rest.
  change (reads (let! (st1, e1) := read_events r n st in let! (st2, e2) := read_events r m st1 in Ret (st2, e1 ++ e2)) (b1 ++ b2) (st2, e1 ++ e2)).
  eapply reads_bind; [exact H1|]. eapply reads_bind0; [exact H2|]. apply reads_ret.
Qed.

Lemma plain_read_events {S} (r : S -> prog (S * event)) : (forall st, plain (r st)) ->
  forall n st, plain (read_events r n st).
Proof.
  intros H. induction n; intros; cbn [read_events]; [exact I|].
  apply plain_bind; [apply H|]. intros [? ?]. apply plain_bind; [apply IHn|]. intros [? ?]. exact I.
Qed.

Lemma trunc_block_id d : zlen d < two32 -> trunc_block d = d.
Proof.
  intros H. unfold trunc_block, u32. rewrite Z.mod_small by (unfold zlen in *; lia).
  apply firstn_all2. unfold zlen. lia.
Qed.

(** the value every binary format reads back: the same meaning *)
Lemma meaning_int t n : In t [TI8; TUI8; TI16; TUI16; TI32; TUI32; TI64; TUI64] -> in_range t n ->
  meaning_of (val_int t n) = MeInt n.
Proof.
  intros H R. unfold in_range in R. unfold meaning_of, int_value, val_int. cbn [v_type v_raw].
  assert (Q : is_signed t = true /\ - two63 <= n < two63 \/ is_signed t = false /\ 0 <= n < two64).
  { cbn in H; repeat (destruct H as [<-|H]; [cbn in R; unfold_words; cbn; lia|]); contradiction. }
  destruct t; cbn in H; try (exfalso; intuition discriminate); f_equal;
  (destruct Q as [[-> ?]|[-> ?]]; [apply s64_u64; auto|unfold u64; apply Z.mod_small; auto]).
Qed.

(** * Sequences of events *)

Definition next_stack (stack : list ty) (e : event) : list ty :=
  match v_type (snd e) with
  | TObject => TObject :: stack | TArray => TArray :: stack | TScopeEnd => tl stack | _ => stack
  end.
Definition top (stack : list ty) : ty := match stack with [] => TNull | t :: _ => t end.


(** an event a well-formed document can contain at this place, its value satisfying [okv] *)
Definition ev_ok_gen (okv : value -> Prop) (stack : list ty) (e : event) : Prop :=
  wf_name (fst e) /\
  ((wf_value (snd e) /\ okv (snd e)) \/ (snd e = val_type TObject \/ snd e = val_type TArray) \/
   (snd e = val_type TScopeEnd /\ stack <> [])).

(** an event as it is read back: names are kept in Objects, values become [nv] *)
Definition ev_norm (nv : value -> value) (scope : ty) (e : event) : event :=
  (if ty_eqb scope TObject && negb (ty_eqb (v_type (snd e)) TScopeEnd) then fst e else [], nv (snd e)).

Fixpoint evs_ok (okv : value -> Prop) (stack : list ty) (es : list event) : Prop :=
  match es with
  | [] => True
  | e :: es' => ev_ok_gen okv stack e /\ evs_ok okv (next_stack stack e) es'
  end.
Fixpoint evs_norm (nv : value -> value) (stack : list ty) (es : list event) : list event :=
  match es with
  | [] => []
  | e :: es' => ev_norm nv (top stack) e :: evs_norm nv (next_stack stack e) es'
  end.
Definition evs_stack (stack : list ty) (es : list event) : list ty := fold_left next_stack es stack.

Lemma evs_ok_app okv a b : forall st, evs_ok okv st (a ++ b) <-> evs_ok okv st a /\ evs_ok okv (evs_stack st a) b.
Proof. induction a as [|e a IH]; intros st; cbn [app evs_ok evs_stack fold_left]; [tauto|]. rewrite IH. unfold evs_stack. tauto. Qed.
Lemma evs_norm_app nv a b : forall st, evs_norm nv st (a ++ b) = evs_norm nv st a ++ evs_norm nv (evs_stack st a) b.
Proof. induction a as [|e a IH]; intros st; cbn [app evs_norm evs_stack fold_left]; [auto|]. now rewrite IH. Qed.

(** a document as it is read back *)
Fixpoint doc_norm (nv : value -> value) (named : bool) (d : doc) : doc :=
  match d with
  | DVal n v => DVal (if named then n else []) (nv v)
  | DScope n t its => DScope (if named then n else []) t (map (doc_norm nv (ty_eqb t TObject)) its)
  end.

Lemma evs_ok_doc okv d : wf_doc d -> all_vals (fun _ v => okv v) d ->
  forall st, evs_ok okv st (events d) /\ evs_stack st (events d) = st.
Proof.
  induction d as [n v|n t its IH] using doc_ind2; intros W A st.
  - cbn in W, A. cbn [events evs_ok evs_stack fold_left]. split.
    + split; [|exact I]. split; [cbn; tauto|]. left. cbn. tauto.
    + unfold next_stack. cbn [snd]. unfold wf_value in W. destruct (v_type v); tauto.
  - apply wf_doc_scope in W. destruct W as (Wn & Wt & Wi). apply all_vals_scope in A.
    assert (G : forall st, evs_ok okv st (flat_map events its) /\ evs_stack st (flat_map events its) = st).
    { clear Wn Wt. induction its as [|x l IHl]; intros st0; [split; [exact I|reflexivity]|].
      inversion IH as [|? ? Hx Hl]; inversion Wi as [|? ? Wx Wl]; inversion A as [|? ? Ax Al]; subst. cbn [flat_map].
      destruct (Hx Wx Ax st0) as [X1 X2]. destruct (IHl Hl Wl Al st0) as [Y1 Y2].
      split; [apply evs_ok_app; rewrite X2; auto|]. unfold evs_stack in *. rewrite fold_left_app, X2. exact Y2. }
    assert (NS : next_stack st (n, val_type t) = t :: st) by (destruct Wt; subst; reflexivity).
    cbn [events evs_ok]. rewrite NS. destruct (G (t :: st)) as [G1 G2]. split.
    + split; [split; [exact Wn|right; left; cbn; destruct Wt; subst; auto]|].
      apply evs_ok_app. rewrite G2. split; [exact G1|]. cbn. split; [|exact I].
      split; [split; [constructor|cbn; lia]|]. right; right. split; [reflexivity|discriminate].
    + unfold evs_stack in *. cbn [fold_left]. rewrite NS, fold_left_app, G2. reflexivity.
Qed.

Lemma evs_norm_doc okv nv d : (forall t, In t [TObject; TArray; TScopeEnd] -> nv (val_type t) = val_type t) ->
  wf_doc d -> all_vals (fun _ v => okv v) d ->
  forall st, evs_norm nv st (events d) = events (doc_norm nv (ty_eqb (top st) TObject) d).
Proof.
  intros Hnv. induction d as [n v|n t its IH] using doc_ind2; intros W A st.
  - cbn in W. destruct W as [_ W]. cbn [events evs_norm doc_norm]. unfold ev_norm. cbn [fst snd].
    replace (ty_eqb (v_type v) TScopeEnd) with false; [now rewrite andb_true_r|].
    unfold wf_value in W. destruct (v_type v); try reflexivity; contradiction.
  - pose proof (fun st => evs_ok_doc okv _ W A st) as EO.
    apply wf_doc_scope in W. destruct W as (Wn & Wt & Wi). apply all_vals_scope in A.
    assert (G : forall st, evs_norm nv st (flat_map events its) = flat_map events (map (doc_norm nv (ty_eqb (top st) TObject)) its)
                         /\ evs_stack st (flat_map events its) = st).
    { clear Wn Wt EO. induction its as [|x l IHl]; intros st0; [split; reflexivity|].
      inversion IH as [|? ? Hx Hl]; inversion Wi as [|? ? Wx Wl]; inversion A as [|? ? Ax Al]; subst. cbn [flat_map map].
      destruct (IHl Hl Wl Al st0) as [Y1 Y2]. destruct (evs_ok_doc okv x Wx Ax st0) as [_ X2].
      rewrite evs_norm_app, X2, (Hx Wx Ax), Y1. split; [reflexivity|].
      unfold evs_stack in *. now rewrite fold_left_app, X2. }
    assert (NS : next_stack st (n, val_type t) = t :: st) by (destruct Wt; subst; reflexivity).
    cbn [events evs_norm doc_norm]. rewrite NS. destruct (G (t :: st)) as [G1 G2].
    rewrite evs_norm_app, G1, G2. cbn [evs_norm top]. unfold ev_norm, ev_end. cbn [fst snd v_type val_type].
    rewrite !Hnv by (cbn; destruct Wt; subst; tauto). rewrite andb_false_r.
    replace (negb (ty_eqb t TScopeEnd)) with true by (destruct Wt; subst; reflexivity).
    now rewrite andb_true_r.
Qed.

Lemma events_norm_length nv d : forall nm, length (events (doc_norm nv nm d)) = length (events d).
Proof.
  induction d as [n v|n t its IH] using doc_ind2; intros nm; [reflexivity|].
  cbn [events doc_norm length]. rewrite !app_length. do 2 f_equal. generalize (ty_eqb t TObject). intros b.
  induction IH as [|x l Hx Hl IHl]; cbn [map flat_map]; [reflexivity|]. now rewrite !app_length, Hx, IHl.
Qed.

(** a parser that writes one event at a time and reads it back *)
Section Stepwise.
  Variables (W R : Type) (w : W -> event -> res (W * list oop)) (r : R -> prog (R * event)).
  Variables (okv : value -> Prop) (nv : value -> value) (rel : nat -> list ty -> W -> R -> Prop).
  Hypothesis step : forall k st a b e, rel (S k) st a b -> ev_ok_gen okv st e ->
    exists a' ops b', w a e = Ok (a', ops) /\ writes_only ops /\ reads (r b) (flat ops) (b', ev_norm nv (top st) e) /\
      rel k (next_stack st e) a' b'.

  Lemma stepwise es : forall k st a b, rel (length es + k)%nat st a b -> evs_ok okv st es ->
    exists a' ops b', write_events w a es = Ok (a', ops) /\ writes_only ops /\
      reads (read_events r (length es) b) (flat ops) (b', evs_norm nv st es) /\
      rel k (evs_stack st es) a' b'.
  Proof.
    induction es as [|e es IH]; intros k st a b H E.
    - exists a, [], b. split; [reflexivity|]. split; [constructor|]. split; [apply reads_events_nil|exact H].
    - destruct E as [E1 E2]. destruct (step _ _ _ _ _ H E1) as (a1 & o1 & b1 & W1 & O1 & R1 & H1).
      destruct (IH k _ _ _ H1 E2) as (a2 & o2 & b2 & W2 & O2 & R2 & H2).
      exists a2, (o1 ++ o2), b2. cbn [write_events length]. rewrite W1. cbn [rbind]. rewrite W2. cbn [rbind].
      split; [reflexivity|]. split; [apply writes_only_app; auto|]. split; [|exact H2].
      rewrite flat_app. cbn [evs_norm]. eapply reads_events_cons; eauto.
  Qed.
End Stepwise.

(** * Boolean checkers, used by the examples *)
Definition in_rangeb (t : ty) (n : Z) : bool := (int_min t <=? n) && (n <=? int_max t).
Definition wf_valueb (v : value) : bool :=
  match v_type v with
  | TNull => true
  | TBool => (v_raw v =? 0) || (v_raw v =? 1)
  | TFP32 => (0 <=? v_raw v) && (v_raw v <? two32)
  | TFP64 => (0 <=? v_raw v) && (v_raw v <? two64)
  | TString | TBinary => wf_bytesb (v_data v) && (zlen (v_data v) <? two32)
  | TObject | TArray | TScopeEnd => false
  | t => (0 <=? v_raw v) && (v_raw v <? two64) && in_rangeb t (int_value v)
  end.
Lemma wf_valueb_spec v : wf_valueb v = true -> wf_value v.
Proof.
  unfold wf_valueb, wf_value.
  assert (I : forall t, v_type v = t -> (is_integral t = true) ->
    (0 <=? v_raw v) && (v_raw v <? two64) && in_rangeb t (int_value v) = true -> exists n, in_range t n /\ v_raw v = u64 n).
  { intros t Vt It H. apply andb_prop in H. destruct H as [H R]. unfold in_rangeb in R. exists (int_value v).
    split; [unfold in_range; lia|]. unfold int_value. rewrite Vt.
    destruct (is_signed t); [symmetry; apply u64_s64; lia|unfold u64; rewrite Z.mod_small; lia]. }
  destruct (v_type v) eqn:Vt; intros H; try discriminate; try exact Logic.I; try (apply I; auto; fail); unfold_words; try lia.
  - apply andb_prop in H. destruct H as [H1 H2]. split; [now apply wf_bytesb_spec|lia].
  - apply andb_prop in H. destruct H as [H1 H2]. split; [now apply wf_bytesb_spec|lia].
Qed.
Definition wf_nameb (n : bytes) : bool := wf_bytesb n && (zlen n <? two32).
Lemma wf_nameb_spec n : wf_nameb n = true -> wf_name n.
Proof. intros H. apply andb_prop in H. destruct H as [H1 H2]. split; [now apply wf_bytesb_spec|unfold_words; lia]. Qed.
(** [wf_doc] and a test on all values *)
Fixpoint doc_check (f : bytes -> value -> bool) (d : doc) : bool :=
  match d with
  | DVal n v => wf_nameb n && wf_valueb v && f n v
  | DScope n t its => wf_nameb n && (ty_eqb t TObject || ty_eqb t TArray) && forallb (doc_check f) its
  end.
Lemma doc_check_spec f d : doc_check f d = true -> wf_doc d /\ all_vals (fun n v => f n v = true) d.
Proof.
  induction d as [n v|n t its IH] using doc_ind2; intros H; cbn [doc_check] in H.
  - apply andb_prop in H. destruct H as [H H2]. apply andb_prop in H. destruct H as [H H1].
    cbn. auto using wf_nameb_spec, wf_valueb_spec.
  - apply andb_prop in H. destruct H as [H H2]. apply andb_prop in H. destruct H as [H H1].
    assert (G : Forall wf_doc its /\ Forall (all_vals (fun n v => f n v = true)) its).
    { rewrite forallb_forall in H2. rewrite !Forall_forall in *. split; intros x Hx; apply IH; auto. }
    destruct G. split; [|now apply all_vals_scope]. apply wf_doc_scope. split; [now apply wf_nameb_spec|]. split; [|auto].
    destruct t; cbn in H1; auto; discriminate.
Qed.
Definition not_int64_minb (v : value) : bool := match meaning_of v with MeInt n => negb (n =? - two63) | _ => true end.
Lemma not_int64_minb_spec v : not_int64_minb v = true -> meaning_of v <> MeInt (- 2 ^ 63).
Proof. unfold not_int64_minb. intros H E. rewrite E in H. discriminate. Qed.
Lemma all_vals_impl (P Q : bytes -> value -> Prop) d : (forall n v, P n v -> Q n v) -> all_vals P d -> all_vals Q d.
Proof.
  intros H. induction d as [n v|n t its IH] using doc_ind2; [cbn; auto|]. rewrite !all_vals_scope, !Forall_forall in *. auto.
Qed.
