(** Restoring objects from arbitrary items: every undefined behaviour has one of the causes in [mishap]. *)
From Coq Require Import ZArith List Bool Lia ZifyBool ZifyNat.
From Verif Require Import Base Lemmas M_Types M_Conv M_TpTools M_Charset M_In S_Conv S_Charset S_Doc M_Env M_Event M_Tree S_Tree M_TreeIO M_Object M_ObjIO
  S_ObjSafe P_Conv P_Text P_Float P_Paste P_Charset P_Tree P_TreeOps P_ObjPart P_ObjEager.
Import ListNotations.
Open Scope Z_scope.

(** * Single values *)
Definition rok {A} (U : ub -> Prop) (r : res A) (Q : A -> Prop) : Prop := match r with Ok a => Q a | UB u => U u | _ => True end.
Lemma rok_bind {A B} U (r : res A) (f : A -> res B) Q : rok U r (fun a => rok U (f a) Q) -> rok U (rbind r f) Q.
Proof. destruct r; auto. Qed.
Lemma rok_weaken {A} (U : ub -> Prop) (r : res A) (Q R : A -> Prop) : rok U r Q -> (forall a, Q a -> R a) -> rok U r R.
Proof. destruct r; cbn; auto. Qed.

Lemma conv_vec_ok U to from d throw : wf_bytes d -> rok U (conv_charset_vec to from d throw) (fun _ => True).
Proof.
  intros W. unfold conv_charset_vec. pose proof (convert_never_ub to from d [] throw) as H.
  destruct (conv_charset to from d [] throw 0) as [[n b]| |u|]; cbn; auto. now destruct (H u W).
Qed.

Lemma ty_eqb_eq a b : ty_eqb a b = true <-> a = b.
Proof. split; [destruct a, b; discriminate || reflexivity|intros ->; destruct b; reflexivity]. Qed.

Lemma not_nan_inf d : f64_isnan d = false -> f64_isinf d = false -> f64_exp d <> 2047.
Proof. unfold f64_isnan, f64_isinf. intros A B E. rewrite E in *. cbn in *. destruct (f64_man d =? 0); discriminate. Qed.
Lemma isinf_exp d : f64_isinf d = false -> f64_isnan d = false -> f64_exp d <> 2047.
Proof. intros; now apply not_nan_inf. Qed.

Lemma awkward_dec t d : awkward t d \/
  (f64_isnan d = false /\ ~ (t = TI64 /\ f64_isinf d = false /\ f64_scaled d = two63 * fp_unit) /\
   ~ (t = TUI64 /\ f64_isinf d = false /\ f64_scaled d = two64 * fp_unit)).
Proof.
  unfold awkward, equals_int. destruct (f64_isnan d) eqn:N; [now left; left|].
  assert (X : f64_isinf d = false -> f64_exp d <> 2047) by (intros; now apply not_nan_inf).
  destruct (f64_isinf d) eqn:I.
  { right. split; [reflexivity|]. split; intros (_ & F & _); discriminate F. }
  destruct (Z.eq_dec (f64_scaled d) (two63 * fp_unit)) as [E|E], (ty_eqb t TI64) eqn:T.
  - left. right. left. split; [now apply ty_eqb_eq|]. split; [auto|exact E].
  - destruct (Z.eq_dec (f64_scaled d) (two64 * fp_unit)) as [E'|E'].
    + exfalso. rewrite E in E'. revert E'. pose proof fp_unit_pos. unfold two63, two64. nia.
    + right. split; [reflexivity|]. split; [intros (-> & _); discriminate T|intros (_ & _ & H); contradiction].
  - right. split; [reflexivity|]. split; [intros (_ & _ & H); contradiction|]. intros (H & _). apply ty_eqb_eq in T. congruence.
  - destruct (Z.eq_dec (f64_scaled d) (two64 * fp_unit)) as [E'|E'], (ty_eqb t TUI64) eqn:T'.
    + left. right. right. split; [now apply ty_eqb_eq|]. split; [auto|exact E'].
    + right. split; [reflexivity|]. split; [intros (-> & _); discriminate T|intros (-> & _); discriminate T'].
    + right. split; [reflexivity|]. split; [intros (_ & _ & H); contradiction|intros (_ & _ & H); contradiction].
    + right. split; [reflexivity|]. split; [intros (_ & _ & H); contradiction|intros (_ & _ & H); contradiction].
Qed.

Lemma wf_fp v : is_double v -> wf_value v -> fp_value v.
Proof. unfold is_double, wf_value, fp_value. intros [T|T]; rewrite T; intros H; [left|right]; auto. Qed.

(** what [apply_or_throw] does with a number *)
Lemma paste_num_fp x t v : is_double v -> paste_num x t v = apply_or_throw t v.
Proof. unfold paste_num. intros [T|T]; rewrite T; reflexivity. Qed.
Lemma apply_ok t v : In t (TBool :: TFP32 :: TFP64 :: int_types) -> (is_double v -> fp_value v) ->
  rok (fun u => u = UbCast /\ In t int_types /\ is_double v /\ awkward t (v_double v)) (apply_or_throw t v) (fun _ => True).
Proof.
  intros T W.
  assert (D : is_double v \/ ~ is_double v) by (unfold is_double; destruct (v_type v); intuition (discriminate || auto)).
  destruct D as [D|D].
  - specialize (W D). assert (In t int_types \/ In t [TBool; TFP32; TFP64]) as [HI|HI].
    { destruct T as [<-|[<-|[<-|T]]]; [right; cbn; auto..|now left]. }
    + assert (K : rok (fun u => u = UbCast) (fp_cast t v) (fun _ => True)).
      { unfold fp_cast. assert (X := HI). unfold int_types in X. repeat (destruct X as [<-|X]; [destruct (_ =? _); [reflexivity|]; destruct (_ && _); [exact I|reflexivity]|]). destruct X. }
      destruct (awkward_dec t (v_double v)) as [A|(N & A1 & A2)].
      * unfold apply_or_throw. rewrite apply_type_fp by exact D. destruct (_ && _); [exact I|]. destruct (fp_cast t v); cbn in *; auto.
      * pose proof (paste_fp_int {| x_strtod := fun _ => None; x_dtoa := fun _ => [] |} t v W HI N A1 A2) as [H1 H2]. rewrite paste_num_fp in H1, H2 by exact D.
        destruct (f64_isinf (v_double v)); [rewrite H2 by auto; exact I|].
        assert (C : int_min t * fp_unit <= f64_scaled (v_double v) <= int_max t * fp_unit \/ ~ (int_min t * fp_unit <= f64_scaled (v_double v) <= int_max t * fp_unit)) by lia.
        destruct C as [C|C]; [rewrite H1 by auto; exact I|rewrite H2 by auto; exact I].
    + unfold apply_or_throw. rewrite apply_type_fp by exact D. destruct (_ && _); [exact I|].
      repeat (destruct HI as [<-|HI]; [exact I|]). destruct HI.
  - unfold apply_or_throw, apply_type, is_double in *. destruct (v_type v); cbn [rbind]; try exact I; try (destruct (_ || _); exact I); try (destruct (overflows_u64 _ _); exact I).
    + now destruct D; left.
    + now destruct D; right.
Qed.

Lemma f64_fp bits : 0 <= bits < two64 -> fp_value (val_f64 bits).
Proof.
  intros H. unfold val_f64, fp_value. destruct (narrow64 bits) as [f|] eqn:E; cbn [v_type v_raw]; [left|right; auto].
  destruct (narrow64_sound bits f H E) as (_ & R & _). auto.
Qed.

Lemma str_fp x s v : str_to_type x s TNull = Some v -> is_double v -> exists d, v = val_f64 d /\ x_strtod x (trim_space s) = Some d.
Proof.
  unfold str_to_type. intros H D. destruct (trim_space s) as [|c0 r] eqn:T; [discriminate|]. rewrite <- T in *.
  assert (X : forall k, Some k = Some v -> ~ is_double k -> False) by (intros k K N; apply N; congruence).
  destruct (_ && _ && _); [exfalso; eapply X; [exact H|]; intros [Y|Y]; discriminate Y|].
  destruct (_ && _ && _); [exfalso; eapply X; [exact H|]; intros [Y|Y]; discriminate Y|].
  destruct (_ && _ && _); [exfalso; eapply X; [exact H|]; intros [Y|Y]; discriminate Y|].
  cbn [is_fp ty_eqb ty_num Z.eqb orb] in H. destruct (str_to_int (trim_space s)) as [[i sg] ok]. destruct ok.
  - exfalso. eapply X; [exact H|]. destruct sg; intros [Y|Y]; discriminate Y.
  - change (is_fp TNull) with false in H. cbn iota in H. destruct (x_strtod x (trim_space s)) as [d|]; [|discriminate]. inversion H. subst v. eauto.
Qed.

Lemma b64_oob : forall fuel s i todo, rok (fun u => u = UbOob) (b64_decode_loop fuel s i todo) (fun _ => True).
Proof.
  assert (L : forall s i, rok (fun u => u = UbOob) (b64_lookup s i) (fun _ => True)).
  { intros s i. unfold b64_lookup. destruct (nth_error s i); [|reflexivity]. repeat (destruct (nth_error _ _) || destruct (_ <? _) || destruct (_ <=? _) || destruct (_ && _)); exact I || reflexivity. }
  induction fuel as [|f IH]; intros s i todo; cbn [b64_decode_loop]; [exact I|]. destruct (Nat.eqb todo 0); [exact I|].
  do 4 (apply rok_bind; eapply rok_weaken; [apply L|]; intros ? _). destruct (_ || _); [exact I|].
  apply rok_bind. eapply rok_weaken; [apply IH|]. intros r _. exact I.
Qed.
Lemma base64_ok s : wf_bytes s -> rok (fun u => u = UbOob /\ Exists (fun b => 128 <= b) s) (base64_to_bytes s) (fun _ => True).
Proof.
  intros W. assert (C : Forall (fun c => 0 <= c < 128) s \/ Exists (fun b => 128 <= b) s).
  { induction W as [|c s Hc W IH]; [left; constructor|]. unfold is_byte in Hc. destruct (Z_lt_dec c 128).
    - destruct IH; [left; constructor; auto; lia|right; now right].
    - right. left. lia. }
  destruct C as [C|C].
  - destruct (base64_ascii s C) as [(_ & _ & d & ->)|[_ ->]]; exact I.
  - unfold base64_to_bytes, base64_to_bytes_dest. destruct (_ && _); [exact I|]. pose proof (b64_oob (get_base64_decoded_size s) s 0 (get_base64_decoded_size s)) as H.
    destruct (b64_decode_loop _ _ _ _); cbn in *; auto.
Qed.

Lemma dec_text_wf n s : dec_text n s -> wf_bytes s.
Proof.
  assert (D : forall s, digits s -> wf_bytes s) by (intros s' [_ F]; eapply Forall_impl; [|exact F]; intros c; unfold is_digit, is_byte; lia).
  intros [(_ & H & _)|(_ & s' & -> & H & _)]; [now apply D|]. constructor; [unfold is_byte; lia|now apply D].
Qed.
Lemma text_ok x v : (forall d, wf_bytes (x_dtoa x d)) -> wf_value v ->
  rok (fun u => (u = UbSigned /\ v_type v = TI64 /\ int_value v = - 2 ^ 63) \/
                (u = UbCast /\ is_double v /\ equals_int (v_double v) (2 ^ 63)) \/ (u = UbSigned /\ is_double v /\ equals_int (v_double v) (- 2 ^ 63)))
      (type_to_str x v) wf_bytes.
Proof.
  intros DT W.
  assert (KI : forall t, v_type v = t -> is_int_ty t = true -> (exists n, in_range t n /\ v_raw v = u64 n) ->
     rok (fun u => u = UbSigned /\ v_type v = TI64 /\ int_value v = - 2 ^ 63) (conv_type_int t (v_raw v)) wf_bytes).
  { intros t T IT (n & R & E). rewrite E. destruct (Z.eq_dec n (- two63)) as [->|N].
    - assert (H : t = TI64). { destruct t; try discriminate IT; unfold in_range in R; cbn in R; unfold_words; try lia. reflexivity. }
      rewrite H in T |- *. replace (conv_type_int TI64 (u64 (- two63))) with (@UB bytes UbSigned) by (vm_compute; reflexivity). cbn [rok]. split; [reflexivity|]. split; [exact T|]. unfold int_value. rewrite T, E. vm_compute. reflexivity.
    - destruct (conv_type_int_spec t n IT R N) as (s & -> & DX). eapply dec_text_wf, DX. }
  unfold type_to_str. unfold wf_value in W.
  assert (KF : is_double v -> rok (fun u => (u = UbCast /\ is_double v /\ equals_int (v_double v) (2 ^ 63)) \/ (u = UbSigned /\ is_double v /\ equals_int (v_double v) (- 2 ^ 63))) (conv_type_fp x v) wf_bytes).
  { intros D. unfold conv_type_fp. destruct (fp_prints_as_int (v_double v)) eqn:E; [|apply DT]. unfold fp_prints_as_int in E. pose proof fp_unit_pos as FU.
    rewrite !andb_true_iff in E. destruct E as [[[E1 E2] E3] E4]. set (d := v_double v) in *.
    pose proof (Z.div_mod (f64_scaled d) fp_unit ltac:(lia)) as DM. set (n := f64_scaled d / fp_unit) in *.
    assert (SD: f64_scaled d = n * fp_unit) by lia.
    destruct (Z.eqb_spec n two63) as [EQ|NE].
    { cbn. left. split; [reflexivity|]. split; [exact D|]. split; [lia|]. rewrite SD, EQ. reflexivity. }
    destruct (Z.eq_dec n (- two63)) as [EQ|NE'].
    { rewrite EQ. replace (conv_type_int TI64 (u64 (- two63))) with (@UB bytes UbSigned) by (vm_compute; reflexivity). cbn [rok]. right. split; [reflexivity|]. split; [exact D|]. split; [lia|]. rewrite SD, EQ. reflexivity. }
    destruct (conv_type_int_spec TI64 n) as (s & -> & DX); auto; [|eapply dec_text_wf, DX]. unfold in_range. cbn [int_min int_max]. nia. }
  destruct (v_type v) eqn:T; try (cbn; apply wf_bytesb_spec; reflexivity).
  all: try (specialize (KI _ eq_refl eq_refl W); destruct (conv_type_int _ _); cbn in *; auto).
  2,3: specialize (KF ltac:(unfold is_double; auto)); destruct (conv_type_fp x v) eqn:C; cbn in *; auto.
  destruct (v_raw v =? 0); apply wf_bytesb_spec; reflexivity.
Qed.

(** * Programs *)
Fixpoint eok {R} (E : event -> Prop) (U : ub -> Prop) (p : eprog R) (Q : R -> Prop) : Prop :=
  match p with
  | ERet r => Q r | EThrow | EFuel => True | EUndef u => U u
  | ERead k => forall e, E e -> eok E U (k e) Q
  end.
Lemma eok_bind {A B} E U (p : eprog A) (f : A -> eprog B) Q : eok E U p (fun a => eok E U (f a) Q) -> eok E U (ebind p f) Q.
Proof. induction p as [r| |u| |k IH]; cbn; auto. Qed.
Lemma eok_weaken {A} E U (p : eprog A) (Q R : A -> Prop) : eok E U p Q -> (forall a, Q a -> R a) -> eok E U p R.
Proof. induction p as [r| |u| |k IH]; cbn; eauto. Qed.
Lemma eok_lift {A} E U (r : res A) Q : rok U r Q -> eok E U (elift r) Q.
Proof. destruct r; cbn; auto. Qed.
Lemma eok_run {A} E U (p : eprog A) Q : eok E U p Q -> forall es u, Forall E es -> erun p es = Some (UB u) -> U u.
Proof.
  induction p as [r| |v| |k IH]; cbn; intros H es u F R; try discriminate; [now inversion R; subst|].
  destruct es as [|e es]; [discriminate|]. inversion F; subst. eapply IH; eauto.
Qed.

#[local] Hint Constructors part danger : core.
Lemma part_trans w a b c : part w a b -> part w b c -> part w a c.
Proof. induction 1; intros X; eauto; inversion X; subst; (apply pt_shared_key || apply pt_weak_key). Qed.

(** nodes that hold only such values *)
Inductive from (V : value -> Prop) : node -> Prop :=
| from_node t vs ns : Forall (fun q => V (snd q)) vs -> Forall (fun q => from V (snd q)) ns -> from V (mkNode t vs ns).
Lemma from_parts V n : from V n <-> Forall (fun q => V (snd q)) (n_values n) /\ Forall (fun q => from V (snd q)) (n_nodes n).
Proof. destruct n as [t vs ns]. cbn. split; [inversion 1; auto|intros []; now constructor]. Qed.

Lemma hash_utf8 k : hash_string (k, EUTF8) = Ok (fnv1a_ref k).
Proof. unfold hash_string. rewrite (name_env _ _ (utf8_names k)). cbn [rbind]. now rewrite fnv1a_correct. Qed.
Lemma cmp_name_ok {A} k (l : bytes * A) : cmp_name (k, EUTF8) l = Ok (bytes_eqb (fst l) k).
Proof. unfold cmp_name. apply name_eq. apply utf8_names. Qed.
Lemma cmp_hash_ok {A} h k (l : bytes * A) : exists b, cmp_hash_name h (k, EUTF8) l = Ok b.
Proof. unfold cmp_hash_name. rewrite fnv1a_correct. cbn [rbind]. destruct (_ =? _); [rewrite cmp_name_ok|]; eauto. Qed.
Lemma find_loop_ok {A} (cmp : A -> res bool) : (forall x, exists b, cmp x = Ok b) -> forall l i,
  find_loop cmp i l = Ok None \/ exists j, find_loop cmp i l = Ok (Some j) /\ (i <= j < i + length l)%nat.
Proof.
  intros H. induction l as [|x l IH]; intros i; cbn [find_loop]; [now left|]. destruct (H x) as [b ->]. cbn [rbind]. destruct b.
  - right. exists i. split; [reflexivity|]. cbn [length]. lia.
  - destruct (IH (S i)) as [->|(j & -> & L)]; [now left|]. right. exists j. split; [reflexivity|]. cbn [length]. lia.
Qed.
Lemma erase_Forall {A} (P : A -> Prop) : forall l i, Forall P l -> Forall P (erase i l).
Proof. induction l as [|x l IH]; intros [|i] H; cbn [erase]; auto; inversion H; subst; auto. Qed.
Lemma pick_Forall {A} (P : A -> Prop) l i a : Forall P l -> pick l i = Some a -> P a.
Proof. intros H. destruct i as [i|]; cbn; [|discriminate]. intros X. apply nth_error_In in X. rewrite Forall_forall in H. auto. Qed.
Lemma stored_ok {A} id (l : list (bytes * A)) : exists i, stored_at id l = Ok i.
Proof.
  destruct id as [k|j]; cbn [stored_at]; [|eauto]. unfold find_stored. rewrite hash_utf8. cbn [rbind].
  destruct (find_loop_ok (cmp_hash_name (A := A) (fnv1a_ref k) (k, EUTF8)) (cmp_hash_ok _ _) l 0) as [->|(j & -> & _)]; eauto.
Qed.
Lemma find_link_ok {A} k (l : list (bytes * A)) : exists i, find_link false (cmp_name (k, EUTF8)) l = Ok i.
Proof.
  unfold find_link. destruct (find_loop_ok (cmp_name (A := A) (k, EUTF8)) (fun x => ex_intro _ _ (cmp_name_ok k x)) l 0) as [->|(j & -> & _)]; cbn; eauto.
Qed.

Section Safe.
Variables (w : world) (t0 : ct) (vals : list value).
Hypothesis STRTOD : forall s d, x_strtod (w_fp w) s = Some d -> 0 <= d < 2 ^ 64.
Hypothesis DTOA : forall d, wf_bytes (x_dtoa (w_fp w) d).
Hypothesis REAL : real_types w t0.
Hypothesis NEW : forall p, part w t0 p -> sized w p (w_new w p).
Hypothesis NEWPOLY : forall b id c, part w t0 (CPoly b) -> w_reg w b id = Ok (Some c) -> sized w (CCls c) (w_new w (CCls c)).
Let U := mishap w t0 vals.
Let V (v : value) : Prop := In v vals /\ wf_value v.
Let E (e : event) : Prop := sound_event e /\ In (snd e) vals.

Lemma E_value e : E e -> is_scope (v_type (snd e)) = false -> ty_eqb (v_type (snd e)) TScopeEnd = false -> V (snd e).
Proof. unfold E, V, sound_event. intros [H I] A B. split; [exact I|]. destruct (v_type (snd e)); try discriminate; exact H. Qed.

Lemma danger_U p v u : part w t0 p -> V v -> danger (w_fp w) p v u -> U u.
Proof. intros P [I _] D. left. eauto. Qed.

Lemma paste_number_ok t v : part w t0 (CNum t) -> V v -> rok U (paste_number (w_fp w) t v) (fun _ => True).
Proof.
  intros P HV. assert (W := proj2 HV). pose proof (REAL t P) as RT.
  assert (ST : forall s, v_type v = TString -> (v_enc v = EUTF8 -> s = v_data v) ->
    rok U (match str_to_type (w_fp w) s TNull with None => Err | Some v' => apply_or_throw t v' end) (fun _ => True)).
  { intros s T S. destruct (str_to_type (w_fp w) s TNull) as [v'|] eqn:X; [|exact I].
    assert (D : is_double v' -> exists d, v' = val_f64 d /\ x_strtod (w_fp w) (trim_space s) = Some d) by (intros D; eapply str_fp; eauto).
    pose proof (apply_ok t v' RT) as H. assert (FP : is_double v' -> fp_value v') by (intros Y; destruct (D Y) as (d & -> & Z); apply f64_fp; unfold_words; apply STRTOD in Z; lia).
    specialize (H FP). destruct (apply_or_throw t v'); cbn in *; auto. destruct H as (-> & IT & Y & A). destruct (D Y) as (d & Z & Q).
    eapply danger_U; [exact P|exact HV|]. eapply dg_number_text with (s := trim_space s); eauto; [intros K; now rewrite (S K)|].
    rewrite Z, val_f64_roundtrip in A; [exact A|]. apply STRTOD in Q. unfold_words. lia. }
  unfold paste_number. destruct (ty_eqb (v_type v) TString) eqn:T.
  - apply ty_eqb_eq in T. unfold wf_value in W. rewrite T in W. destruct (enc_eqb (v_enc v) EUTF8) eqn:EN; cbn [negb andb].
    + unfold paste_num. rewrite T. cbn [ty_eqb ty_num Z.eqb negb andb]. apply (ST (v_data v)); auto.
    + apply rok_bind. eapply rok_weaken; [apply conv_vec_ok; apply W|]. intros d _. destruct (_ <? _); [exact I|].
      unfold paste_num. cbn [val_string v_type v_data]. cbn [ty_eqb ty_num Z.eqb negb andb]. apply (ST (trunc_block d)); [exact T|]. intros K. rewrite K in EN. discriminate.
  - cbn [andb]. unfold paste_num. rewrite T. cbn [negb andb]. destruct (negb (is_scalar (v_type v))); [exact I|].
    pose proof (apply_ok t v RT (fun D => wf_fp v D W)) as H. destruct (apply_or_throw t v); cbn in *; auto. destruct H as (-> & IT & Y & A).
    eapply danger_U; [exact P|exact HV|]. now apply dg_number.
Qed.

Lemma unwrap_text_ok to from d : wf_bytes d -> rok U (unwrap_text to from d) (fun _ => True).
Proof. intros W. unfold unwrap_text. apply rok_bind. destruct (enc_eqb from to); [exact I|]. eapply rok_weaken; [now apply conv_vec_ok|]. intros; exact I. Qed.

Lemma paste_value_ok : forall t old v, part w t0 t -> sized w t old -> V v -> rok U (paste_value w t old v) (fun _ => True).
Proof.
  induction t as [t|e|e|e n| |c|e IH|e IH|k IHk e IHe|e IH|n e IH|a IHa b IHb|c|e IH|e IH|e IH|e IH|]; intros old v P S HV; cbn [paste_value]; try exact I.
  all: assert (W := proj2 HV).
  - apply rok_bind. eapply rok_weaken; [now apply paste_number_ok|]. intros; exact I.
  - destruct (ty_eqb (v_type v) TNull); [exact I|]. destruct (ty_eqb (v_type v) TString) eqn:T.
    + apply ty_eqb_eq in T. unfold wf_value in W. rewrite T in W. apply rok_bind. eapply rok_weaken; [apply unwrap_text_ok; apply W|]. intros; exact I.
    + destruct (negb _); [exact I|]. pose proof (text_ok (w_fp w) v DTOA W) as H. destruct (type_to_str (w_fp w) v) as [d| |u|] eqn:X; cbn [rbind rok] in *; auto.
      * apply rok_bind. eapply rok_weaken; [now apply unwrap_text_ok|intros; exact I].
      * eapply danger_U; [exact P|exact HV|]. destruct H as [(-> & A & B)|[(-> & A & B)|(-> & A & B)]]; eauto.
  - apply rok_bind. unfold paste_char. destruct (_ && _) eqn:T; [exact I|].
    apply rok_bind. destruct (enc_eqb _ _); [cbn; destruct (_ =? _); exact I|].
    eapply rok_weaken; [apply conv_vec_ok|]. { unfold wf_value in W. destruct (v_type v); try discriminate T; apply W. }
    intros; destruct (_ =? _); exact I.
  - destruct old; try exact I. apply rok_bind. assert (SZ : 1 <= n /\ zlen bs = n * unit_size e) by (inversion S; subst; [match goal with H : False |- _ => destruct H end|auto]). destruct SZ as [SZ1 SZ2].
    destruct (chars_inside e n bs v SZ1 SZ2) as [->|[(m & -> & _)|(N & c & C & X)]]; [exact I|exact I|]. subst c.
    assert (T : v_type v = TString \/ v_type v = TBinary \/ paste_chars e n bs v = Err).
    { unfold paste_chars. destruct (v_type v); cbn; auto. }
    assert (T2 : paste_chars e n bs v = Err \/ v_type v = TString \/ v_type v = TBinary) by tauto. clear T. destruct T2 as [->|T]; [exact I|].
    pose proof (conv_vec_ok (fun _ => False) e (v_enc v) (v_data v) true) as CV.
    assert (WD : wf_bytes (v_data v)) by (unfold wf_value in W; destruct T as [T|T]; rewrite T in W; apply W). specialize (CV WD).
    destruct (conv_charset_vec e (v_enc v) (v_data v) true) as [c| |u|]; cbn in CV; [|destruct X|destruct CV|].
    + destruct X as (X1 & X2 & ->). cbn. eapply danger_U; [exact P|exact HV|]. now apply dg_chars.
    + rewrite X. exact I.
  - destruct (v_type v) eqn:T; try exact I. unfold wf_value in W. rewrite T in W. destruct (Nat.eqb _ 0); [exact I|]. apply rok_bind. pose proof (base64_ok (v_data v) (proj1 W)) as H.
    destruct (base64_to_bytes (v_data v)); cbn in *; auto. destruct H as [-> H]. eapply danger_U; [exact P|exact HV|]. now apply dg_bits.
  - destruct (ty_eqb (v_type v) TNull); [exact I|]. assert (P' : part w t0 e) by (eapply part_trans; [exact P|]; apply pt_ptr; constructor).
    apply rok_bind. eapply rok_weaken; [apply IH; auto|]. intros; exact I.
  - assert (P' : part w t0 e) by (eapply part_trans; [exact P|]; apply pt_uniq; constructor).
    apply rok_bind. eapply rok_weaken; [apply IH; auto|]. intros; exact I.
Qed.

Notation sk p Q := (eok E U p Q).
Ltac bnd H := apply eok_bind; eapply eok_weaken; [apply H|].

Lemma from_empty t : from V (empty_node t).
Proof. constructor; constructor. Qed.
Lemma from_store_value n v k : from V n -> V v -> from V (mkNode (n_type n) (n_values n ++ [(k, v)]) (n_nodes n)).
Proof. intros H HV. apply from_parts in H. destruct H. constructor; [apply Forall_app; auto|auto]. Qed.
Lemma from_store_node n c k : from V n -> from V c -> from V (mkNode (n_type n) (n_values n) (n_nodes n ++ [(k, c)])).
Proof. intros H HV. apply from_parts in H. destruct H. constructor; [auto|apply Forall_app; auto]. Qed.

Lemma read_source_ok : forall F d n, from V n -> sk (read_source F d n) (from V).
Proof.
  induction F as [|f IH]; intros d n H; cbn [read_source]; [exact I|]. cbn [eok]. intros [name v] HE.
  destruct (ty_eqb (v_type v) TScopeEnd) eqn:T1; [exact H|]. destruct (is_scope (v_type v)) eqn:T2; cbn [negb].
  - destruct (_ <? _); [exact I|]. bnd (IH (d + 1) (empty_node (v_type v)) (from_empty _)). intros c Hc. rewrite store_node_utf8. cbn [elift ebind]. apply IH. now apply from_store_node.
  - rewrite store_value_utf8. cbn [elift ebind]. apply IH. apply from_store_value; [exact H|]. now apply (E_value (name, v)).
Qed.

Definition nok (n : lnode) : Prop := from V (l_node n).
(** nothing is stored in a node before it is used *)
Definition fresh (n : lnode) : Prop := l_parsed n = true \/ n_values (l_node n) = [].
Lemma keep_item_ok F n name v : nok n -> E (name, v) -> ty_eqb (v_type v) TScopeEnd = false -> sk (keep_item F n name v) nok.
Proof.
  intros H HE T. unfold keep_item. destruct (is_scope (v_type v)) eqn:S.
  - bnd (read_source_ok F 0 (empty_node (v_type v)) (from_empty _)). intros c Hc. rewrite store_node_utf8. cbn. now apply from_store_node.
  - rewrite store_value_utf8. cbn. apply from_store_value; [exact H|]. now apply (E_value (name, v)).
Qed.
Lemma scan_ok : forall F want p n, nok n -> sk (scan F want p n) (fun r => nok (snd r) /\ match fst r with Some q => want = false -> V (snd q) | None => True end).
Proof.
  induction F as [|f IH]; intros want p n H; cbn [scan]; [exact I|]. destruct (l_parsed n); [cbn; auto|]. cbn [eok]. intros [name v] HE.
  destruct (ty_eqb (v_type v) TScopeEnd) eqn:T; [cbn; auto|]. destruct (_ && _) eqn:B.
  - cbn. split; [exact H|]. intros ->. apply andb_true_iff in B. destruct B as [B _]. apply (E_value (name, v)); auto. cbn. destruct (is_scope (v_type v)); [discriminate|reflexivity].
  - bnd (keep_item_ok f n name v H HE T). intros n' H'. now apply IH.
Qed.
Lemma consume_node_ok F id n : nok n -> sk (consume_node F id n) (fun r => nok (snd r) /\ match fst r with Some c => nok (snd c) /\ fresh (snd c) | None => True end).
Proof.
  intros H. unfold consume_node. assert (H' := H). apply from_parts in H. destruct H as [HV HN]. destruct n as [pd [t vs ns]]. cbn [l_node n_values n_nodes l_parsed] in *.
  destruct (stored_ok id ns) as [i ->]. cbn [elift ebind]. destruct (pick ns i) as [[k c]|] eqn:P.
  - cbn. split; [constructor; [exact HV|now apply erase_Forall]|]. split; [apply (pick_Forall _ _ _ _ HN P)|now left].
  - bnd (scan_ok F true (id_matches id) (mkL pd (mkNode t vs ns)) H'). intros [o n'] [A B]. cbn in *. split; [exact A|]. destruct o as [[k v]|]; [split; [apply from_empty|now right]|exact I].
Qed.
Lemma consume_value_ok F id n : nok n -> sk (consume_value F id n) (fun r => nok (snd r) /\ match fst r with Some c => V (snd (fst c)) | None => True end).
Proof.
  intros H. unfold consume_value. assert (H' := H). apply from_parts in H. destruct H as [HV HN]. destruct n as [pd [t vs ns]]. cbn [l_node n_values n_nodes l_parsed] in *.
  destruct (stored_ok id vs) as [i ->]. cbn [elift ebind]. destruct (pick vs i) as [[k c]|] eqn:P.
  - cbn. split; [constructor; [now apply erase_Forall|exact HN]|]. apply (pick_Forall _ _ _ _ HV P).
  - bnd (scan_ok F false (id_matches id) (mkL pd (mkNode t vs ns)) H'). intros [o n'] [A B]. cbn in *. split; [exact A|]. destruct o as [[k v]|]; [now apply B|exact I].
Qed.
Lemma scan_item_ok h k : forall F n, nok n -> sk (scan_item F h k n) (fun r => nok (snd r)).
Proof.
  induction F as [|f IH]; intros n H; cbn [scan_item]; [exact I|]. destruct (l_parsed n); [exact H|]. cbn [eok]. intros [name v] HE.
  destruct (ty_eqb (v_type v) TScopeEnd) eqn:T; [exact H|]. bnd (keep_item_ok f n name v H HE T). intros n' H'.
  destruct (cmp_hash_ok (A := value) h k (name, v)) as [b ->]. cbn [elift ebind]. destruct b; [exact H'|now apply IH].
Qed.
Lemma has_field_ok F want k n : nok n -> sk (has_field F want k n) (fun r => nok (snd r)).
Proof.
  intros H. unfold has_field. destruct (l_parsed n).
  - unfold has_node, has_value, has_named. destruct (find_link_ok k (n_nodes (l_node n))) as [i ->]. destruct (find_link_ok k (n_values (l_node n))) as [j ->]. destruct want; exact H.
  - unfold consume_item. destruct (find_link_ok k (n_nodes (l_node n))) as [i ->]. cbn [elift ebind]. destruct i; [exact H|].
    destruct (find_link_ok k (n_values (l_node n))) as [j ->]. cbn [elift ebind]. destruct j; [exact H|]. rewrite hash_utf8. cbn [elift ebind].
    bnd (scan_item_ok (fnv1a_ref k) k F n H). intros [o n'] H'. exact H'.
Qed.
Lemma consume_scope_ok F n : sk (consume_scope F n) (fun _ => True).
Proof.
  unfold consume_scope. destruct (l_parsed n); [exact I|]. generalize 0. induction F as [|f IH]; intros d; cbn [consume_scope_loop]; [exact I|]. cbn [eok]. intros e _.
  destruct (is_scope _); [apply IH|]. destruct (ty_eqb _ _); [|apply IH]. destruct (_ <=? _); [exact I|apply IH].
Qed.

Lemma lookup_ok {A} (P : A -> Prop) (l : list (bytes * A)) k : Forall (fun q => P (snd q)) l -> rok U (lookup l (k, EUTF8)) (fun q => P (snd q)).
Proof.
  intros H. unfold lookup. rewrite hash_utf8. cbn [rbind]. unfold find_link.
  destruct (find_loop_ok (cmp_hash_name (A := A) (fnv1a_ref k) (k, EUTF8)) (cmp_hash_ok _ _) l 0) as [->|(j & -> & L)]; cbn [rbind]; [exact I|].
  destruct (pick l (Some j)) as [q|] eqn:Q; cbn [deref rok]; [exact (pick_Forall _ _ _ _ H Q)|]. cbn in Q. apply nth_error_None in Q. lia.
Qed.
Lemma link_at_ok {A} (P : A -> Prop) (l : list (bytes * A)) i : Forall (fun q => P (snd q)) l -> rok U (let* q := link_at true i l in deref q) (fun q => P (snd q)).
Proof.
  intros H. unfold link_at. destruct (_ && _) eqn:B; cbn [rbind]; [|exact I]. destruct (nth_error l (Z.to_nat i)) as [q|] eqn:Q; cbn [deref rok].
  - rewrite Forall_forall in H. apply H. eapply nth_error_In, Q.
  - apply nth_error_None in Q. unfold zlen in B. lia.
Qed.
Lemma field_node_ok F id n : nok n -> sk (field_node F id n) (fun r => (nok (fst r) /\ fresh (fst r)) /\ nok (snd r)).
Proof.
  intros H. unfold field_node. destruct (l_parsed n).
  - apply eok_bind. apply eok_lift. apply rok_weaken with (Q := fun q => from V (snd q)).
    + apply from_parts in H. destruct id; [apply lookup_ok|apply link_at_ok]; apply H.
    + intros q HQ. split; [split; [exact HQ|now left]|exact H].
  - bnd (consume_node_ok F id n H). intros [o n'] [A B]. cbn [fst snd] in *. destruct o as [c|]; cbn; auto.
Qed.
Lemma field_value_ok F id n : nok n -> sk (field_value F id n) (fun r => V (fst (fst r)) /\ nok (snd r)).
Proof.
  intros H. unfold field_value. destruct (l_parsed n).
  - apply eok_bind. apply eok_lift. apply rok_weaken with (Q := fun q => V (snd q)).
    + apply from_parts in H. destruct id; [apply lookup_ok|apply link_at_ok]; apply H.
    + intros q HQ. split; [exact HQ|exact H].
  - bnd (consume_value_ok F id n H). intros [o n'] [A B]. cbn [fst snd] in *. destruct o as [c|]; cbn; auto.
Qed.

(** a value that was not stored before is not a copy *)
Lemma fresh_value_ok F k n : nok n -> fresh n -> sk (field_value F (IdName k) n) (fun r => V (fst (fst r)) /\ nok (snd r) /\ snd (fst r) = false).
Proof.
  intros H FR. destruct (l_parsed n) eqn:P.
  - unfold field_value. rewrite P. apply eok_bind. apply eok_lift. apply rok_weaken with (Q := fun q => V (snd q)).
    + apply from_parts in H. apply lookup_ok, H.
    + intros q HQ. split; [exact HQ|split; [exact H|reflexivity]].
  - destruct FR as [FR|FR]; [congruence|]. unfold field_value. rewrite P. unfold consume_value. destruct n as [pd [t vs ns]]. cbn [l_node n_values l_parsed] in *. subst vs pd.
    cbn [stored_at]. unfold find_stored. rewrite hash_utf8. cbn [rbind find_loop elift ebind pick].
    apply eok_bind, eok_bind. eapply eok_weaken; [apply (scan_ok F false (id_matches (IdName k)) (mkL false (mkNode t [] ns)) H)|].
    intros [o n'] [A B]. cbn [fst snd] in *. destruct o as [[j v]|]; cbn; [|exact I]. split; [now apply B|]. auto.
Qed.

(** the objects shared so far *)
Definition shared_part (e : ct) : Prop := part w t0 (CShared e) \/ part w t0 (CWeak e).
Definition rinv (s : rstate) : Prop :=
  Forall (fun q => shared_part (fst q)) (r_heap s) /\ Forall (fun q => (snd q < length (r_heap s))%nat) (r_tab s).
Definition done_ok {A} (r : A * lnode * rstate) : Prop := nok (snd (fst r)) /\ rinv (snd r).

Section Step.
Variable pn : ct -> cv -> lnode -> rstate -> eprog (cv * lnode * rstate).
Hypothesis PN : forall t old n s, part w t0 t -> sized w t old -> nok n -> fresh n -> rinv s -> sk (pn t old n s) done_ok.
Variable F : nat.

Lemma paste_field_ok t id old n s : part w t0 t -> sized w t old -> nok n -> rinv s -> sk (paste_field w pn F t id old n s) done_ok.
Proof.
  intros P S HN HS. unfold paste_field. destruct (scoped t).
  - bnd (field_node_ok F id n HN). intros [c n'] [[A A'] B]. cbn [fst snd] in *. bnd (PN t old c s P S A A' HS). intros [[v c'] s'] [C D]. cbn [fst snd] in *.
    destruct (l_parsed n); [split; auto|]. bnd (consume_scope_ok F c'). intros _ _. split; auto.
  - bnd (field_value_ok F id n HN). intros [[v cp] n'] [A B]. cbn [fst snd] in *. apply eok_bind, eok_lift. eapply rok_weaken; [now apply paste_value_ok|]. intros x _. split; auto.
Qed.
Lemma paste_fields_ok : forall fs olds n s vi ni, Forall (fun f => part w t0 (f_type f)) fs -> Forall2 (fun f v => sized w (f_type f) v) fs olds ->
  nok n -> rinv s -> sk (paste_fields w pn F fs olds n s vi ni) done_ok.
Proof.
  induction fs as [|f fs IH]; intros olds n s vi ni P S HN HS; cbn [paste_fields]; [split; auto|]. inversion S as [|? old ? olds' S1 S2]; subst. inversion P as [|? ? P1 P2]; subst.
  apply eok_bind. apply eok_weaken with (Q := fun h => nok (snd h)); [destruct (f_opt f); [now apply has_field_ok|exact HN]|]. intros [h n1] H1. cbn [fst snd] in *.
  destruct h; cbn [negb].
  - bnd (paste_field_ok (f_type f) (if 0 <? zlen (f_name f) then IdName (f_name f) else IdPos (if scoped (f_type f) then ni else vi)) old n1 s P1 S1 H1 HS).
    intros [[v n2] s2] [A B]. cbn [fst snd] in *. bnd (IH olds' n2 s2 (if scoped (f_type f) then vi else vi + 1) (if scoped (f_type f) then ni + 1 else ni) P2 S2 A B).
    intros [[vs n3] s3] [C D]. split; auto.
  - bnd (IH olds' n1 s vi ni P2 S2 H1 HS). intros [[vs n3] s3] [C D]. split; auto.
Qed.

Lemma each_stored_ok {A B} (f : bytes * A -> B -> rstate -> eprog (B * rstate)) (P : bytes * A -> Prop) :
  (forall a acc s, P a -> rinv s -> sk (f a acc s) (fun r => rinv (snd r))) -> forall l acc s, Forall P l -> rinv s -> sk (each_stored f l acc s) (fun r => rinv (snd r)).
Proof.
  intros H. induction l as [|a l IH]; intros acc s HL HS; cbn [each_stored]; [exact HS|]. inversion HL; subst. bnd (H a acc s H2 HS). intros [b s'] HS'. now apply IH.
Qed.
Lemma each_value_read_ok {B} (f : bytes * value -> B -> rstate -> eprog (B * rstate)) :
  (forall a acc s, V (snd a) -> rinv s -> sk (f a acc s) (fun r => rinv (snd r))) -> forall fuel acc n s, nok n -> rinv s -> sk (each_value_read F f fuel acc n s) done_ok.
Proof.
  intros H. induction fuel as [|k IH]; intros acc n s HN HS; cbn [each_value_read]; [exact I|]. bnd (consume_value_ok F (IdPos 0) n HN). intros [o n'] [A C]. cbn [fst snd] in *.
  destruct o as [[[name v] cp]|]; [|split; auto]. destruct (l_parsed n'); [split; auto|]. bnd (H (name, v) acc s C HS). intros [b s'] HS'. now apply IH.
Qed.
Lemma each_node_read_ok {B} (f : bytes * lnode -> B -> rstate -> eprog (B * lnode * rstate)) :
  (forall a acc s, nok (snd a) -> fresh (snd a) -> rinv s -> sk (f a acc s) done_ok) -> forall fuel acc n s, nok n -> rinv s -> sk (each_node_read F f fuel acc n s) done_ok.
Proof.
  intros H. induction fuel as [|k IH]; intros acc n s HN HS; cbn [each_node_read]; [exact I|]. bnd (consume_node_ok F (IdPos 0) n HN). intros [o n'] [A C]. cbn [fst snd] in *.
  destruct o as [c|]; [|split; auto]. destruct (l_parsed n'); [split; auto|]. bnd (H c acc s (proj1 C) (proj2 C) HS). intros [[b c'] s'] [D1 D2]. cbn [fst snd] in *. bnd (consume_scope_ok F c'). intros _ _. now apply IH.
Qed.
Lemma each_item_ok {B} sc (fv : bytes * value -> B -> rstate -> eprog (B * rstate)) (fn : bytes * lnode -> B -> rstate -> eprog (B * lnode * rstate)) acc n s :
  (forall a acc s, V (snd a) -> rinv s -> sk (fv a acc s) (fun r => rinv (snd r))) -> (forall a acc s, nok (snd a) -> fresh (snd a) -> rinv s -> sk (fn a acc s) done_ok) ->
  nok n -> rinv s -> sk (each_item F sc fv fn acc n s) done_ok.
Proof.
  intros HV HF HN HS. unfold each_item. destruct (l_parsed n).
  - apply eok_bind. apply eok_weaken with (Q := fun r => rinv (snd r)).
    + assert (HN' := HN). apply from_parts in HN'. destruct sc.
      * apply each_stored_ok with (P := fun q => from V (snd q)); [|apply HN'|exact HS]. intros a acc' s' Ha Hs'. bnd (HF (fst a, mkL true (snd a)) acc' s' Ha (or_introl eq_refl) Hs'). intros [[b c] s2] [_ D]. exact D.
      * apply each_stored_ok with (P := fun q => V (snd q)); [exact HV|apply HN'|exact HS].
    + intros [b s'] Hs'. split; auto.
  - destruct sc; [now apply each_node_read_ok|now apply each_value_read_ok].
Qed.
Lemma array_stored_ok {A} (f : cv -> bytes * A -> rstate -> eprog (cv * rstate)) (P : bytes * A -> Prop) e :
  (forall old a s, sized w e old -> P a -> rinv s -> sk (f old a s) (fun r => rinv (snd r))) -> forall olds l s, Forall (sized w e) olds -> Forall P l -> rinv s -> sk (array_stored f olds l s) (fun r => rinv (snd r)).
Proof.
  intros H. induction olds as [|old olds IH]; intros l s HO HL HS; cbn [array_stored]; [exact HS|]. destruct l as [|a l]; [exact HS|].
  inversion HO; subst. inversion HL; subst. bnd (H old a s H2 H4 HS). intros [v s'] Hs'. cbn [fst snd] in *. bnd (IH l s' H3 H5 Hs'). intros [vs s2] X. exact X.
Qed.
Lemma array_read_ok e : part w t0 e -> forall olds count n s, Forall (sized w e) olds -> nok n -> rinv s -> sk (array_read w pn F e count olds n s) done_ok.
Proof.
  intros P. induction olds as [|old olds IH]; intros count n s HO HN HS; cbn [array_read]; [split; auto|]. destruct (l_parsed n); [exact I|]. inversion HO; subst.
  bnd (paste_field_ok e (IdPos count) old n s P H1 HN HS). intros [[v n1] s1] [A B]. cbn [fst snd] in *. bnd (IH (count + 1) n1 s1 H2 A B). intros [[vs n2] s2] [C D]. split; auto.
Qed.

Lemma ct_eqb_refl : forall a, ct_eqb a a = true.
Proof.
  assert (EE : forall a, enc_eqb a a = true) by (intros a; now apply enc_eqb_spec).
  induction a; cbn; rewrite ?andb_true_iff; auto; try (now apply ty_eqb_eq); try (apply Nat.eqb_refl); try (split; auto; try apply Nat.eqb_refl; lia).
Qed.
Lemma find_key_in k l a : find_key k l = Some a -> In (k, a) l.
Proof. induction l as [|[j b] l IH]; cbn; [discriminate|]. destruct (Z.eqb_spec j k) as [->|]; [intros X; inversion X; auto|auto]. Qed.

Lemma shared_ok e n s t : t = CShared e \/ t = CWeak e -> part w t0 t -> nok n -> rinv s -> sk
        (ebind (paste_field w pn F (CNum TUI64) (IdName str_shared_key) (VNum 0) n s) (fun r =>
          let '(k, n1, s1) := r in
          match k with
          | VNum key =>
              match find_key key (r_tab s1) with
              | Some a =>
                  match nth_error (r_heap s1) a with
                  | Some (u, _) => if ct_eqb u e then ERet (VRef a, n1, s1) else EUndef UbCast
                  | None => EUndef UbDangling
                  end
              | None =>
                  ebind (paste_field w pn F e (IdName str_shared_value) (w_new w e) n1 s1) (fun r =>
                    let '(x, n2, s2) := r in
                    let a := length (r_heap s2) in
                    ERet (VRef a, n2, mkRs (r_heap s2 ++ [(e, x)]) (match find_key key (r_tab s2) with Some _ => r_tab s2 | None => (key, a) :: r_tab s2 end)))
              end
          | _ => EThrow
          end)) done_ok.
Proof.
  intros T P HN HS.
  assert (SP : shared_part e) by (unfold shared_part; destruct T as [<-|<-]; auto).
  assert (PK : part w t0 (CNum TUI64)) by (eapply part_trans; [exact P|]; destruct T as [->| ->]; [apply pt_shared_key|apply pt_weak_key]).
  assert (PE : part w t0 e) by (eapply part_trans; [exact P|]; destruct T as [->| ->]; [apply pt_shared|apply pt_weak]; constructor).
  bnd (paste_field_ok (CNum TUI64) (IdName str_shared_key) (VNum 0) n s PK (sz_any w (CNum TUI64) (VNum 0) I) HN HS). intros [[k n1] s1] [A B]. cbn [fst snd] in *.
  destruct k; try exact I. destruct (find_key _ (r_tab s1)) as [a|] eqn:K.
  - destruct B as [B1 B2]. apply find_key_in in K. assert (L := proj1 (Forall_forall _ _) B2 _ K). cbn [snd] in L.
    destruct (nth_error (r_heap s1) a) as [[u x]|] eqn:H; [|apply nth_error_None in H; lia].
    destruct (ct_eqb u e) eqn:Q; [split; [exact A|split; auto]|]. right. left. split; [reflexivity|]. exists u, e. split.
    + intros ->. rewrite ct_eqb_refl in Q. discriminate.
    + split; [|exact SP]. apply nth_error_In in H. apply (proj1 (Forall_forall _ _) B1 _ H).
  - bnd (paste_field_ok e (IdName str_shared_value) (w_new w e) n1 s1 PE (NEW e PE) A B). intros [[x n2] s2] [C D]. cbn [fst snd] in *. cbn [eok]. split; [exact C|].
    destruct D as [D1 D2]. split; cbn [r_heap r_tab snd].
    + apply Forall_app. split; [exact D1|]. constructor; [exact SP|constructor].
    + assert (D3 : Forall (fun q : Z * nat => (snd q < length (r_heap s2 ++ [(e, x)]))%nat) (r_tab s2)).
      { eapply Forall_impl; [|exact D2]. intros q Lq. cbv beta in Lq |- *. rewrite app_length. apply Nat.lt_le_trans with (1 := Lq). apply Nat.le_add_r. }
      destruct (find_key _ (r_tab s2)); [exact D3|]. constructor; [|exact D3]. cbn [snd]. rewrite app_length. cbn [length]. clear. rewrite Nat.add_comm. apply Nat.lt_succ_diag_r.
Qed.

Lemma paste_step_ok t old n s : part w t0 t -> sized w t old -> nok n -> fresh n -> rinv s -> sk (paste_step w pn F t old n s) done_ok.
Proof.
  intros P S HN FR HS.
  assert (MEM : forall (fs : list field) (old : cv) (n : lnode) (s : rstate) (vi : Z) (mk : list cv -> cv), Forall (fun f => part w t0 (f_type f)) fs -> (forall olds, old = VList olds -> Forall2 (fun f v => sized w (f_type f) v) fs olds) -> nok n -> rinv s ->
    sk match old with VList olds => ebind (paste_fields w pn F fs olds n s vi 0) (fun r => let '(vs, n', s') := r in ERet (mk vs, n', s')) | _ => EThrow end done_ok).
  { intros fs o n1 s1 vi mk HF HO HN1 HS1. destruct o; try exact I. bnd (paste_fields_ok fs vs n1 s1 vi 0 HF (HO vs eq_refl) HN1 HS1). intros [[x n2] s2] [A B]. split; auto. }
  assert (EL : forall (B : Type) (add : cv -> B -> B) e, part w t0 e -> (forall a acc s, V (snd a) -> rinv s -> sk (elem_value w add e a acc s) (fun r => rinv (snd r))) /\
     (forall a acc s, nok (snd a) -> fresh (snd a) -> rinv s -> sk (elem_node w pn add e a acc s) done_ok)).
  { intros B add e PE. split; [intros a acc s1 Ha Hs1|intros a acc s1 Ha Fa Hs1].
    - unfold elem_value. apply eok_bind, eok_lift. eapply rok_weaken; [apply paste_value_ok; auto|]. intros x _. exact Hs1.
    - unfold elem_node. bnd (PN e (w_new w e) (snd a) s1 PE (NEW e PE) Ha Fa Hs1). intros [[v c] s2] [A C]. split; auto. }
  unfold paste_step. destruct t as [t|e|e|e len| |c|e|e|k e|e|len e|a b|c|e|e|e|e|]; try exact I.
  - destruct (negb _); [exact I|]. apply MEM; auto.
    + apply Forall_forall. intros f Hf. eapply part_trans; [exact P|]. eapply pt_cls; [exact Hf|constructor].
    + intros olds ->. inversion S; subst; [match goal with H : False |- _ => destruct H end|assumption].
  - destruct (negb _); [exact I|]. assert (PE : part w t0 e) by (eapply part_trans; eauto). destruct (EL _ (fun v acc => acc ++ [v]) e PE) as [E1 E2].
    bnd (each_item_ok (scoped e) _ _ [] n s E1 E2 HN HS). intros [[vs n'] s'] [A B]. split; auto.
  - destruct (negb _); [exact I|]. assert (PE : part w t0 e) by (eapply part_trans; eauto). destruct (EL _ (emplace (w_lt w) (fun v => v)) e PE) as [E1 E2].
    bnd (each_item_ok (scoped e) _ _ [] n s E1 E2 HN HS). intros [[vs n'] s'] [A B]. split; auto.
  - destruct (negb _); [exact I|]. assert (PE : part w t0 e) by (eapply part_trans; eauto). assert (PK : part w t0 k) by (eapply part_trans; [exact P|]; apply pt_key; constructor).
    assert (E2 : forall a acc s, nok (snd a) -> fresh (snd a) -> rinv s -> sk (elem_entry w pn F k e a acc s) done_ok).
    { intros a acc s1 Ha Fa Hs1. unfold elem_entry. bnd (paste_field_ok k (IdName str_key) (w_new w k) (snd a) s1 PK (NEW k PK) Ha Hs1). intros [[v c] s2] [A B]. cbn [fst snd] in *.
      bnd (paste_field_ok e (IdName str_value) (w_new w e) c s2 PE (NEW e PE) A B). intros [[v2 c2] s3] [A2 B2]. split; auto. }
    bnd (each_item_ok true (fun _ _ _ => EThrow) _ [] n s (fun _ _ _ _ _ => I) E2 HN HS). intros [[vs n'] s'] [A B]. split; auto.
  - destruct (negb _); [exact I|]. assert (PE : part w t0 e) by (eapply part_trans; eauto).
    assert (E1 : forall a acc s, V (snd a) -> rinv s -> sk (entry_value w e a acc s) (fun r => rinv (snd r))).
    { intros a acc s1 Ha Hs1. unfold entry_value. apply eok_bind, eok_lift. eapply rok_weaken; [apply paste_value_ok; auto|]. intros x _. exact Hs1. }
    assert (E2 : forall a acc s, nok (snd a) -> fresh (snd a) -> rinv s -> sk (entry_node w pn e a acc s) done_ok).
    { intros a acc s1 Ha Fa Hs1. unfold entry_node. bnd (PN e (w_new w e) (snd a) s1 PE (NEW e PE) Ha Fa Hs1). intros [[v c] s2] [A C]. split; auto. }
    bnd (each_item_ok (scoped e) _ _ [] n s E1 E2 HN HS). intros [[vs n'] s'] [A B]. split; auto.
  - destruct (negb _); [exact I|]. assert (PE : part w t0 e) by (eapply part_trans; eauto). destruct old as [| |olds| | | | | |]; try exact I. destruct (negb _); [exact I|].
    assert (SO : Forall (sized w e) olds) by (inversion S; subst; [match goal with H : False |- _ => destruct H end|assumption]).
    assert (HN' := HN). apply from_parts in HN'. destruct (l_parsed n).
    + destruct (scoped e).
      * destruct (negb _); [exact I|]. apply eok_bind. eapply eok_weaken; [apply array_stored_ok with (P := fun q => from V (snd q)) (e := e); [|exact SO|apply HN'|exact HS]|].
        -- intros o a s1 Ho Ha Hs1. bnd (PN e o (mkL true (snd a)) s1 PE Ho Ha (or_introl eq_refl) Hs1). intros [[v c] s2] [_ D]. exact D.
        -- intros [vs s1] Hs1. split; auto.
      * destruct (negb _); [exact I|]. apply eok_bind. eapply eok_weaken; [apply array_stored_ok with (P := fun q => V (snd q)) (e := e); [|exact SO|apply HN'|exact HS]|].
        -- intros o a s1 Ho Ha Hs1. apply eok_bind, eok_lift. eapply rok_weaken; [apply paste_value_ok; auto|]. intros x _. exact Hs1.
        -- intros [vs s1] Hs1. split; auto.
    + bnd (array_read_ok e PE olds 0 n s SO HN HS). intros [[vs n'] s'] [A B]. split; auto.
  - destruct (negb _); [exact I|]. assert (PA : part w t0 a) by (eapply part_trans; [exact P|]; apply pt_fst; constructor).
    assert (PB : part w t0 b) by (eapply part_trans; [exact P|]; apply pt_snd; constructor).
    destruct old as [| |[|oa [|ob [|? ?]]]| | | | | |]; try exact I.
    assert (SO : sized w a oa /\ sized w b ob) by (inversion S; subst; [match goal with H : False |- _ => destruct H end|auto]). destruct SO as [SA SB].
    bnd (paste_field_ok a (IdName str_first) oa n s PA SA HN HS). intros [[x n1] s1] [A B]. cbn [fst snd] in *.
    bnd (paste_field_ok b (IdName str_second) ob n1 s1 PB SB A B). intros [[y n2] s2] [C D]. split; auto.
  - destruct (negb _); [exact I|]. apply MEM; auto.
    + apply Forall_map. apply Forall_forall. intros f Hf. cbn [f_type]. eapply part_trans; [exact P|]. eapply pt_tup; [exact Hf|constructor].
    + intros olds ->. assert (X : Forall2 (fun f v => sized w (f_type f) v) (w_cls w c) olds) by (inversion S; subst; [match goal with H : False |- _ => destruct H end|assumption]).
      clear - X. induction X; cbn; constructor; auto.
  - assert (PE : part w t0 e) by (eapply part_trans; eauto). bnd (PN e (w_new w e) n s PE (NEW e PE) HN FR HS). intros [[x n'] s'] [A B]. split; auto.
  - assert (PE : part w t0 e) by (eapply part_trans; eauto). bnd (PN e (w_new w e) n s PE (NEW e PE) HN FR HS). intros [[x n'] s'] [A B]. split; auto.
  - apply (shared_ok e n s (CShared e)); auto.
  - apply (shared_ok e n s (CWeak e)); auto.
  - destruct (negb _); [exact I|]. bnd (fresh_value_ok F str_type_id n HN FR). intros [[v cp] n1] (A & B & C). cbn [fst snd] in *. subst cp.
    destruct (negb (ty_eqb (v_type v) TString) && negb (ty_eqb (v_type v) TBinary)) eqn:TS; [exact I|]. cbn [andb].
    apply eok_bind, eok_lift. destruct (w_reg w _ (v_data v, v_enc v)) as [[c|]| |z|] eqn:W; cbn [rok]; try exact I; [|right; right; exists u, v; split; [exact P|]; split; [apply A|]; split; [|exact W]; destruct A as [_ A]; unfold wf_value in A; destruct (v_type v); try discriminate TS; exact (proj1 A)].
    apply MEM; auto.
    + apply Forall_forall. intros f Hf. eapply part_trans; [exact P|]. eapply pt_poly; [exact W|exact Hf|constructor].
    + intros olds H. assert (SC := NEWPOLY _ _ _ P W). rewrite H in SC. inversion SC; subst; [match goal with H : False |- _ => destruct H end|assumption].
Qed.
End Step.

Lemma paste_node_ok : forall F t old n s, part w t0 t -> sized w t old -> nok n -> fresh n -> rinv s -> sk (paste_node F w t old n s) done_ok.
Proof. induction F as [|f IH]; intros; cbn [paste_node]; [exact I|]. now apply paste_step_ok. Qed.

Lemma rinv_new : rinv rs_new.
Proof. split; constructor. Qed.
Lemma restore_ok F old : sized w t0 old -> sk (restore_prog F w t0 old) (fun _ => True).
Proof.
  intros S. unfold restore_prog. cbn [eok]. intros [name v] _. destruct (negb _); [exact I|]. apply eok_bind.
  assert (N : nok (mkL false (empty_node (v_type v)))) by apply from_empty. assert (FN : fresh (mkL false (empty_node (v_type v)))) by now right. destruct (scoped t0).
  - eapply eok_weaken; [apply paste_node_ok; auto using rinv_new; constructor|]. now intros.
  - eapply eok_weaken; [apply paste_field_ok; auto using rinv_new, paste_node_ok; constructor|]. now intros.
Qed.
Lemma unwrap_ok F old n s : sized w t0 old -> from V n -> rinv s -> sk (unwrap_prog F w t0 old n s) (fun _ => True).
Proof.
  intros S HN HS. unfold unwrap_prog. apply eok_bind. destruct (scoped t0).
  - eapply eok_weaken; [exact (paste_node_ok F t0 old (mkL true n) s (pt_self w t0) S HN (or_introl eq_refl) HS)|]. now intros.
  - eapply eok_weaken; [apply paste_field_ok; auto using paste_node_ok; constructor|]. now intros.
Qed.
End Safe.
