(** Sharing, storing twice, character arrays. *)
From Coq Require Import ZArith List Bool Lia ZifyBool ZifyNat.
From Verif Require Import Base Lemmas M_Types M_Conv M_TpTools M_Charset M_In S_Doc M_Env M_Tree M_Object S_Object S_ObjStore S_Agree.
Import ListNotations.
Open Scope Z_scope.

(** * Parts of objects that are the same *)
Lemma forall2_nth {A B} (R : A -> B -> Prop) l m i : Forall2 R l m ->
  match nth_error l i, nth_error m i with Some a, Some b => R a b | None, None => True | _, _ => False end.
Proof. intros H. revert i. induction H; intros [|i]; cbn [nth_error]; auto. apply IHForall2. Qed.
Lemma same_into r h g v c st : same_object r v c -> same_heap r h g ->
  match into h v st, into g c st with Some x, Some y => same_object r x y | None, None => True | _, _ => False end.
Proof.
  intros S (H1 & H2 & H3). inversion S as [n|s| |vs cs F|k vs cs F|l m F1 F2|l m E F|x y Q|a b Q]; subst; destruct st as [i|i|i|]; cbn [into]; auto.
  - exact (forall2_nth _ _ _ i F).
  - exact (forall2_nth _ _ _ i F).
  - pose proof (forall2_nth _ _ _ i F1) as X. rewrite !nth_error_map in X. exact X.
  - pose proof (forall2_nth _ _ _ i F2) as X. rewrite !nth_error_map in X. exact X.
  - pose proof (forall2_nth _ _ _ i F) as X. rewrite !nth_error_map in X. exact X.
  - destruct (H3 _ _ Q) as (e & x & y & -> & -> & X). exact X.
Qed.
Lemma same_part r h g : same_heap r h g -> forall path v c, same_object r v c ->
  match part h v path, part g c path with Some x, Some y => same_object r x y | None, None => True | _, _ => False end.
Proof.
  intros H. induction path as [|st path IH]; intros v c S; cbn [part]; [exact S|]. pose proof (same_into r h g v c st S H) as X.
  destruct (into h v st) as [x|], (into g c st) as [y|]; try contradiction; [exact (IH _ _ X)|exact I].
Qed.
(** two ways to a pointer lead to the same object before iff they do afterwards *)
Theorem sharing_kept r h g v c : same_object r v c -> same_heap r h g -> forall p q,
  (exists a b, part h v p = Some (VRef a) /\ part h v q = Some (VRef b) /\ a = b) <-> (exists a b, part g c p = Some (VRef a) /\ part g c q = Some (VRef b) /\ a = b).
Proof.
  intros S H p q. pose proof (same_part r h g H p v c S) as P. pose proof (same_part r h g H q v c S) as Q. destruct H as (H1 & H2 & _). split.
  - intros (a & b & Ep & Eq & ->). rewrite Ep in P. rewrite Eq in Q. destruct (part g c p) as [y|]; [|destruct P]. destruct (part g c q) as [z|]; [|destruct Q].
    inversion P as [| | | | | | | |? y' P']; subst. inversion Q as [| | | | | | | |? z' Q']; subst. exists y', z'. repeat split. eauto.
  - intros (a & b & Ep & Eq & ->). rewrite Ep in P. rewrite Eq in Q. destruct (part h v p) as [y|]; [|destruct P]. destruct (part h v q) as [z|]; [|destruct Q].
    inversion P as [| | | | | | | |y' ? P']; subst. inversion Q as [| | | | | | | |z' ? Q']; subst. exists y', z'. repeat split. eauto.
Qed.
(** values that are no pointers are the same everywhere *)
Theorem content_kept r h g v c : same_object r v c -> same_heap r h g -> forall p, 
  (forall n, part h v p = Some (VNum n) <-> part g c p = Some (VNum n)) /\ (forall s, part h v p = Some (VStr s) <-> part g c p = Some (VStr s)).
Proof.
  intros S H p. pose proof (same_part r h g H p v c S) as P. destruct (part h v p) as [x|], (part g c p) as [y|]; try contradiction; repeat split; intros E; try discriminate; injection E as ->; inversion P; reflexivity.
Qed.

(** * Objects without shared pointers: the table of shared objects plays no role *)
Definition untouched (f : shared_tab -> res (doc * shared_tab)) : Prop := exists r : res doc, forall tab, f tab = let* d := r in Ok (d, tab).
Lemma emits_untouched {A} (f : A -> shared_tab -> res (doc * shared_tab)) : forall l, Forall (fun a => untouched (f a)) l -> exists r : res (list doc), forall tab, emits f l tab = let* ds := r in Ok (ds, tab).
Proof.
  induction l as [|a l IH]; intros H; [now exists (Ok [])|]. inversion H as [|? ? [ra Ha] H2]; subst. destruct (IH H2) as [rl Hl].
  exists (let* d := ra in let* ds := rl in Ok (d :: ds)). intros tab. cbn [emits]. rewrite Ha. destruct ra as [d| | |]; try reflexivity. cbn [rbind]. rewrite Hl. now destruct rl.
Qed.
Lemma untouched_scope (l : shared_tab -> res (list doc * shared_tab)) (mk : list doc -> doc) (f : shared_tab -> res (doc * shared_tab)) :
  (exists r : res (list doc), forall tab, l tab = let* ds := r in Ok (ds, tab)) -> (forall tab, f tab = let* (its, tab1) := l tab in Ok (mk its, tab1)) -> untouched f.
Proof. intros [r H] E. exists (let* ds := r in Ok (mk ds)). intros tab. rewrite E, H. now destruct r. Qed.
Lemma untouched_const (f : shared_tab -> res (doc * shared_tab)) (r : res doc) : (forall tab, f tab = let* d := r in Ok (d, tab)) -> untouched f.
Proof. now exists r. Qed.
Lemma plain_untouched w hp : forall F v t name, plain v = true -> untouched (emit F w hp t v name).
Proof.
  induction F as [|F IH]; intros v t name P; [now exists Fuel|].
  assert (L : forall vs, forallb plain vs = true -> Forall (fun v => plain v = true) vs) by (intros vs H; now apply Forall_forall, forallb_forall).
  assert (Fs : forall fs vs, forallb plain vs = true -> exists r : res (list doc), forall tab,
     emits (fun fv => emit F w hp (f_type (fst fv)) (snd fv) (f_name (fst fv))) (combine fs vs) tab = let* ds := r in Ok (ds, tab)).
  { intros fs vs H. apply emits_untouched. apply Forall_forall. intros [f x] I. apply IH. apply in_combine_r in I. cbn [snd]. rewrite forallb_forall in H. now apply H. }
  assert (Es : forall e vs, forallb plain vs = true -> exists r : res (list doc), forall tab, emits (fun x => emit F w hp e x []) vs tab = let* ds := r in Ok (ds, tab)).
  { intros e vs H. apply emits_untouched. apply Forall_forall. intros x I. apply IH. rewrite forallb_forall in H. now apply H. }
  destruct t, v; try (apply (untouched_const _ Err); reflexivity); cbn [plain] in P; try discriminate P.
  all: try (eapply untouched_const; intros tab; cbn [emit]; instantiate (1 := Ok _); reflexivity).
  all: try (apply IH; exact P).
  - apply (untouched_const _ (let* d := wrap_array e n bs in Ok (DVal name (val_string d e)))). intros tab. cbn [emit]. now destruct (wrap_array e n bs).
  - destruct (Nat.eqb (length vs) (length (w_cls w c))) eqn:E.
    + apply (untouched_scope _ (DScope name TObject) _ (Fs (w_cls w c) vs P)). intros tab. cbn [emit]. now rewrite E.
    + apply (untouched_const _ Err). intros tab. cbn [emit]. now rewrite E.
  - now apply (untouched_scope _ (DScope name TArray) _ (Es t vs P)).
  - now apply (untouched_scope _ (DScope name TArray) _ (Es t vs P)).
  - eapply (untouched_scope _ (DScope name TArray)); [|intros tab; reflexivity]. apply emits_untouched. apply Forall_forall. intros [a b] I. rewrite forallb_forall in P. specialize (P _ I).
    apply andb_true_iff in P. destruct P as [Pa Pb]. destruct (IH a t1 str_key Pa) as [ra Ha]. destruct (IH b t2 str_value Pb) as [rb Hb].
    exists (let* d1 := ra in let* d2 := rb in Ok (DScope [] TObject [d1; d2])). intros tab. cbn [fst snd]. rewrite Ha. destruct ra; try reflexivity. cbn [rbind]. rewrite Hb. now destruct rb.
  - eapply (untouched_scope _ (DScope name TObject)); [|intros tab; reflexivity]. apply emits_untouched. apply Forall_forall. intros [k x] I. rewrite forallb_forall in P. apply IH. exact (P _ I).
  - destruct (Nat.eqb (length vs) n) eqn:E.
    + apply (untouched_scope _ (DScope name TArray) _ (Es t vs P)). intros tab. cbn [emit]. now rewrite E.
    + apply (untouched_const _ Err). intros tab. cbn [emit]. now rewrite E.
  - destruct vs as [|x [|y [|? ?]]]; try (apply (untouched_const _ Err); reflexivity). cbn [forallb] in P. apply andb_true_iff in P. destruct P as [Pa P]. apply andb_true_iff in P. destruct P as [Pb _].
    destruct (IH x t1 str_first Pa) as [ra Ha]. destruct (IH y t2 str_second Pb) as [rb Hb].
    exists (let* d1 := ra in let* d2 := rb in Ok (DScope name TObject [d1; d2])). intros tab. cbn [emit]. rewrite Ha. destruct ra; try reflexivity. cbn [rbind]. rewrite Hb. now destruct rb.
  - destruct (Nat.eqb (length vs) (length (w_cls w c))) eqn:E.
    + eapply (untouched_scope _ (DScope name TArray)); [|intros tab; cbn [emit]; rewrite E; reflexivity]. apply emits_untouched. apply Forall_forall. intros [f x] I. apply IH. apply in_combine_r in I. cbn [snd]. rewrite forallb_forall in P. now apply P.
    + apply (untouched_const _ Err). intros tab. cbn [emit]. now rewrite E.
  - destruct (Nat.eqb (length vs) (length (w_cls w c))) eqn:E.
    + apply (untouched_scope _ (fun its => DScope name TObject (DVal str_type_id (val_string (w_id w c) EUTF8) :: its)) _ (Fs (w_cls w c) vs P)). intros tab. cbn [emit]. now rewrite E.
    + apply (untouched_const _ Err). intros tab. cbn [emit]. now rewrite E.
Qed.
Lemma plain_stored w hp F t v name : plain v = true -> untouched (stored_doc F w hp t v name).
Proof.
  intros P. unfold stored_doc. destruct (null_root t v); [apply (untouched_const _ (UB UbNull)); reflexivity|]. destruct (scoped t); [now apply plain_untouched|]. destruct (plain_untouched w hp F v t str_value P) as [r H].
  exists (let* d := r in Ok (DScope name TObject [d])). intros tab. rewrite H. now destruct r.
Qed.
(** the second document is the first *)
Theorem plain_twice w hp F t v name e : plain v = true -> 
  fst (tree_store F w hp t v name (snd (tree_store F w hp t v name e))) = fst (tree_store F w hp t v name e).
Proof.
  intros P. destruct (plain_stored w hp F t v name P) as [r H]. unfold tree_store. rewrite !H. destruct r; cbn [rbind fst snd e_shared]; rewrite ?H; reflexivity.
Qed.

(** * Character arrays *)
Lemma poke_in mem off bs : 0 <= off -> off + zlen bs <= zlen mem -> exists m, poke mem off bs = Ok m /\ zlen m = zlen mem.
Proof.
  intros O L. unfold poke. replace (zlen mem <? off + zlen bs) with false by lia. eexists. split; [reflexivity|]. unfold zlen in *. rewrite !app_length, firstn_length, skipn_length. lia.
Qed.
Lemma zlen_zeros u : 0 <= u -> zlen (repeat 0 (Z.to_nat u)) = u.
Proof. intros H. unfold zlen. rewrite repeat_length. lia. Qed.
Lemma unit_pos e : 1 <= unit_size e. Proof. destruct e; cbn; lia. Qed.
Theorem chars_inside e n mem v : 1 <= n -> zlen mem = n * unit_size e -> 
  paste_chars e n mem v = Err \/ 
  (exists m, paste_chars e n mem v = Ok m /\ zlen m = zlen mem) \/
  (v_enc v <> e /\ exists c, conv_charset_vec e (v_enc v) (v_data v) true = c /\ match c with Ok c => zlen c <= (n - 1) * unit_size e /\ (n - 1) * unit_size e < zlen (v_data v) /\ paste_chars e n mem v = UB UbOob | Err => False | UB u => paste_chars e n mem v = UB u | Fuel => paste_chars e n mem v = Fuel end).
Proof.
  intros N M. pose proof (unit_pos e) as U. unfold paste_chars. destruct (negb (ty_eqb (v_type v) TString) && negb (ty_eqb (v_type v) TBinary)); [now left|].
  set (u := unit_size e) in *.
  assert (G : forall c, zlen c <= (n - 1) * u -> exists m1, poke mem 0 c = Ok m1 /\ zlen m1 = zlen mem) by (intros c L; apply poke_in; [lia|nia]).
  assert (T : forall m1, zlen m1 = zlen mem -> zlen (v_data v) <= (n - 1) * u -> exists m, poke m1 (zlen (v_data v) / u * u) (repeat 0 (Z.to_nat u)) = Ok m /\ zlen m = zlen mem).
  { intros m1 L1 L2. destruct (poke_in m1 (zlen (v_data v) / u * u) (repeat 0 (Z.to_nat u))) as (m & E & L).
    - assert (0 <= zlen (v_data v)) by (unfold zlen; lia). pose proof (Z.div_pos (zlen (v_data v)) u). nia.
    - rewrite zlen_zeros by lia. pose proof (Z.mul_div_le (zlen (v_data v)) u). nia.
    - exists m. split; [exact E|lia]. }
  destruct (enc_eqb (v_enc v) e) eqn:E.
  - cbn [rbind]. destruct (Z.ltb_spec ((n - 1) * u) (zlen (v_data v))); [now left|]. right; left. destruct (G _ H) as (m1 & -> & L1). cbn [rbind]. auto.
  - destruct (conv_charset_vec e (v_enc v) (v_data v) true) as [c| |b|] eqn:C; cbn [rbind].
    + destruct (Z.ltb_spec ((n - 1) * u) (zlen c)); [now left|]. right. destruct (G _ H) as (m1 & -> & L1). cbn [rbind]. destruct (Z.leb_spec (zlen (v_data v)) ((n - 1) * u)) as [L2|L2]; [left; auto|].
      destruct (Z.leb_spec (zlen (v_data v) / u * u + u) (zlen m1)) as [L3|L3].
      * left. destruct (poke_in m1 (zlen (v_data v) / u * u) (repeat 0 (Z.to_nat u))) as (m & Em & L); [assert (0 <= zlen (v_data v)) by (unfold zlen; lia); pose proof (Z.div_pos (zlen (v_data v)) u); nia|rewrite zlen_zeros by lia; lia|]. exists m. split; [exact Em|lia].
      * right. split; [intros X; rewrite X in E; destruct e; discriminate|]. exists (Ok c). split; [reflexivity|]. split; [lia|]. split; [lia|]. unfold poke. rewrite zlen_zeros by lia. now replace (zlen m1 <? _) with true by lia.
    + now left.
    + right. right. split; [intros X; rewrite X in E; destruct e; discriminate|]. exists (UB b). now split.
    + right. right. split; [intros X; rewrite X in E; destruct e; discriminate|]. exists Fuel. now split.
Qed.
