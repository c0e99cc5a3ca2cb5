(** Parts of objects that are reached in a tree. *)
From Coq Require Import ZArith List Bool Lia ZifyBool ZifyNat.
From Verif Require Import Base Lemmas M_Types M_Conv M_TpTools M_Charset M_In S_Conv S_Charset S_Doc M_OutOps S_Out M_Env M_Event S_PSrl M_PSrl S_MsgPack M_MsgPack S_Json M_Json
  M_Heap M_Out M_Tree S_Tree M_TreeIO S_TreeIO M_Object S_Object S_Chars S_ObjStore M_ObjIO S_ObjIO M_Pack S_Pack M_Insert S_Insert P_Conv P_Float P_FloatInt P_Paste P_Doc P_Text P_Charset P_Chars
  P_Tree P_TreeOps P_TreeIO P_ObjPart P_Pack P_Again P_ObjIO P_ObjEager P_ObjLazy S_ObjStore  S_OutJobs P_Out P_ObjFit S_Union P_Union P_Insert M_Access S_Access P_ObjStore.
Import ListNotations.
Open Scope Z_scope.

Lemma emits_nth {A} (f : A -> shared_tab -> res (doc * shared_tab)) : forall l tab its tab', emits f l tab = Ok (its, tab') ->
  length its = length l /\ forall i a, nth_error l i = Some a -> exists d t1 t2, nth_error its i = Some d /\ f a t1 = Ok (d, t2).
Proof.
  induction l as [|x l IH]; intros tab its tab' H; cbn [emits] in H.
  - injection H as <- <-. split; [reflexivity|]. intros [|i] a E; discriminate E.
  - apply bind_ok in H. destruct H as ([d t1] & E & H). apply bind_ok in H. destruct H as ([ds t2] & E2 & H). injection H as <- <-. destruct (IH _ _ _ E2) as [L N]. split; [cbn; lia|].
    intros [|i] a A0; cbn [nth_error] in *; [injection A0 as <-; eauto 6|]. exact (N i a A0).
Qed.
Lemma nth_two {A B} (R : A -> B -> Prop) l m : Forall2 R l m -> forall i a, nth_error l i = Some a -> exists b, nth_error m i = Some b /\ R a b.
Proof. induction 1; intros [|i] a0 E; try discriminate E; cbn [nth_error] in *; [injection E as <-; eauto|eauto]. Qed.
Lemma nth_two' {A B} (R : A -> B -> Prop) l m i a b : Forall2 R l m -> nth_error l i = Some a -> nth_error m i = Some b -> R a b.
Proof. intros H E1 E2. destruct (nth_two R l m H i a E1) as (b' & E & R'). congruence. Qed.
Lemma like_names V its its' : Forall2 (like V true) its its' -> map doc_name its' = map doc_name its.
Proof. induction 1; cbn [map]; [reflexivity|]. f_equal; [now apply (like_name V)|assumption]. Qed.
Lemma nodup_named its i d : NoDup (map doc_name its) -> nth_error its i = Some d -> item_named (doc_name d) its = Some d.
Proof.
  unfold item_named. revert i. induction its as [|x its IH]; intros [|i] N E; try discriminate E; inversion N as [|? ? N1 N2]; subst; cbn [nth_error find] in *.
  - injection E as ->. now rewrite (proj2 (bytes_eqb_eq _ _) eq_refl).
  - destruct (bytes_eqb_spec (doc_name x) (doc_name d)) as [E'|E']; [|now apply (IH i)]. destruct N1. rewrite E'. apply in_map. now apply nth_error_In in E.
Qed.
Lemma item_absent k its : ~ In k (map doc_name its) -> item_named k its = None.
Proof.
  unfold item_named. induction its as [|x its IH]; intros N; [reflexivity|]. cbn [find map In] in *. destruct (bytes_eqb_spec (doc_name x) k) as [E|E]; [destruct N; now left|]. apply IH. tauto.
Qed.
Lemma get_item r ty its i d : NoDup (map doc_name its) -> nth_error its i = Some d -> take_hop (Some (refers (DScope r ty its))) (ByName (doc_name d)) = Ok (Some (refers d)).
Proof. intros N E. cbn [take_hop refers handle_get]. rewrite (get_unique _ _ _ _ N), (nodup_named its i d N E). reflexivity. Qed.

Lemma subs_all its : Forall (fun d => is_sc d = true) its -> subs_of its = map (fun d => (doc_name d, doc_node d)) its /\ vals_of its = [].
Proof.
  induction 1 as [|d its H F [I1 I2]]; [split; reflexivity|]. destruct d as [k v|k t js]; [discriminate H|]. unfold subs_of, vals_of in *. cbn [flat_map map app doc_name] in *. rewrite I1, I2. split; reflexivity.
Qed.
Lemma vals_all its : Forall (fun d => is_sc d = false) its -> subs_of its = [] /\ map (fun q => UnValue (fst q) (snd q)) (vals_of its) = map refers its.
Proof.
  induction 1 as [|d its H F [I1 I2]]; [split; reflexivity|]. destruct d as [k v|k t js]; [|discriminate H]. unfold subs_of, vals_of in *. cbn [flat_map map app fst snd refers] in *. rewrite I1, I2. split; reflexivity.
Qed.
Lemma get_elem r ty its sc i d : Forall (fun d => is_sc d = sc) its -> nth_error its i = Some d -> take_hop (Some (refers (DScope r ty its))) (ByIndex (Z.of_nat i)) = Ok (Some (refers d)).
Proof.
  intros A E. assert (L : (i < length its)%nat) by (apply nth_error_Some; congruence). cbn [take_hop refers]. unfold get_at. rewrite doc_node_eq. cbn [n_values n_nodes]. destruct sc.
  - destruct (subs_all its A) as [-> ->]. unfold link_at at 1, zlen. rewrite map_length. replace (_ && _) with true by lia. cbn [rbind]. rewrite Nat2Z.id, nth_error_map, E. cbn [option_map rbind].
    rewrite Forall_forall in A. specialize (A d (nth_error_In _ _ E)). destruct d; [discriminate A|reflexivity].
  - destruct (vals_all its A) as [-> M]. unfold link_at at 1, zlen at 1. cbn [length]. replace (_ && _) with false by lia. cbn [rbind]. unfold link_at, zlen.
    assert (LV : length (vals_of its) = length its) by (rewrite <- (map_length refers), <- M; now rewrite map_length). rewrite LV. replace (_ && _) with true by lia. cbn [rbind]. rewrite Nat2Z.id.
    assert (N : nth_error (map (fun q => UnValue (fst q) (snd q)) (vals_of its)) i = Some (refers d)) by (rewrite M, nth_error_map, E; reflexivity).
    rewrite nth_error_map in N. destruct (nth_error (vals_of its) i) as [q|]; [|discriminate N]. injection N as N. cbn [deref rbind]. now rewrite N.
Qed.

Section Walk.
Variables (w : world) (hp : heap_t) (lev : nat -> nat) (leaf : ct -> cv -> Prop) (V : value -> value -> Prop).
Hypothesis REG : regular w.
Hypothesis NEW : forall t, shape w t (w_new w t).
Hypothesis HEAP : S_ObjStore.heap_ok w hp lev leaf.
Hypothesis LEAF : forall t v sv v' old, shape w t old -> leaf t v -> leaf_value t v = Some sv -> V sv v' -> paste_value w t old v' = Ok v.
Hypothesis SOLID : forall t v sv, leaf t v -> leaf_value t v = Some sv -> v_type sv <> TNull.
Hypothesis NULL : forall sv v', V sv v' -> (v_type v' = TNull <-> v_type sv = TNull).
Hypothesis KEY : forall k v' old, 0 <= k < two64 -> V (val_int TUI64 k) v' -> paste_value w (CNum TUI64) old v' = Ok (VNum k).
Hypothesis TEXT : forall s v', leaf (CStr EUTF8) (VStr s) -> V (val_string s EUTF8) v' -> v_type v' = TString /\ v_data v' = s /\ v_enc v' = EUTF8.
Notation ok := (storable w hp lev leaf).

(** [d'] is what a tree holds of the object *)
Definition holds_of (n : nat) (t : ct) (v : cv) (F : nat) (d' : doc) : Prop :=
  ok n t v /\ exists nm name tab d tab', emit F w hp t v name tab = Ok (d, tab') /\ like V nm d d'.

Lemma fields_names f : forall fs vs tab its tab', length vs = length fs -> emits (fun fv : field * cv => emit f w hp (f_type (fst fv)) (snd fv) (f_name (fst fv))) (combine fs vs) tab = Ok (its, tab') ->
  map doc_name its = map f_name fs.
Proof.
  induction fs as [|g fs IH]; intros [|v vs] tab its tab' L H; try discriminate L; cbn [combine emits] in H.
  - injection H as <- <-. reflexivity.
  - apply bind_ok in H. destruct H as ([d t1] & E & H). apply bind_ok in H. destruct H as ([ds t2] & E2 & H). injection H as <- <-. cbn [map]. f_equal; [|apply (IH vs t1 ds t2); [cbn in L; lia|exact E2]].
    exact (emit_name w hp lev leaf SOLID _ _ _ _ _ _ _ E).
Qed.
Lemma combine_nth {A B} : forall (l : list A) (m : list B) i a b, nth_error l i = Some a -> nth_error m i = Some b -> nth_error (combine l m) i = Some (a, b).
Proof. induction l as [|x l IH]; intros [|y m] [|i] a b E1 E2; cbn [nth_error combine] in *; try discriminate; [congruence|now apply IH]. Qed.
Lemma kinds f n e name : forall vs tab its tab' nm its', Forall (ok n e) vs -> emits (fun x => emit f w hp e x name) vs tab = Ok (its, tab') -> Forall2 (like V nm) its its' -> Forall (fun d => is_sc d = scoped e) its'.
Proof.
  induction vs as [|x vs IH]; intros tab its tab' nm its' O H L; cbn [emits] in H.
  - injection H as <- <-. inversion L; subst. constructor.
  - apply bind_ok in H. destruct H as ([d t1] & E & H). apply bind_ok in H. destruct H as ([ds t2] & E2 & H). injection H as <- <-. inversion L; subst. inversion O; subst. constructor; [|eapply IH; eassumption].
    eapply emit_kind; eassumption.
Qed.
Ltac inv_bind H := let p := fresh "p" in let E := fresh "E" in apply bind_ok in H; destruct H as (p & E & H).

Lemma tab_names f e : forall l tab its tab', emits (fun p : bytes * cv => emit f w hp e (snd p) (fst p)) l tab = Ok (its, tab') -> map doc_name its = map fst l.
Proof.
  induction l as [|[k x] l IH]; intros tab its tab' H; cbn [emits fst snd] in H.
  - injection H as <- <-. reflexivity.
  - inv_bind H. destruct p as [d t1]. inv_bind H. destruct p as [ds t2]. injection H as <- <-. cbn [map fst]. f_equal; [|exact (IH _ _ _ E0)]. exact (emit_name w hp lev leaf SOLID _ _ _ _ _ _ _ E).
Qed.
(** an entry of a map *)
Lemma entry f k e l i x y tab its tab' nm its' :
  emits (fun p tab => let* (d1, tab1) := emit f w hp k (fst p) str_key tab in let* (d2, tab2) := emit f w hp e (snd p) str_value tab1 in Ok (DScope [] TObject [d1; d2], tab2)) l tab = Ok (its, tab') ->
  Forall2 (like V nm) its its' -> nth_error l i = Some (x, y) ->
  exists r d1 d2 ta tb tc, (forall k' ty, take_hop (Some (refers (DScope k' ty its'))) (ByIndex (Z.of_nat i)) = Ok (Some (refers (DScope r TObject [d1; d2])))) /\
    (exists d, emit f w hp k x str_key ta = Ok (d, tb) /\ like V true d d1) /\ (exists d, emit f w hp e y str_value tb = Ok (d, tc) /\ like V true d d2) /\ True /\
    take_hop (Some (refers (DScope r TObject [d1; d2]))) (ByName str_key) = Ok (Some (refers d1)) /\ take_hop (Some (refers (DScope r TObject [d1; d2]))) (ByName str_value) = Ok (Some (refers d2)).
Proof.
  intros E K El. destruct (emits_nth _ _ _ _ _ E) as [_ N]. destruct (N i (x, y) El) as (d & ta & tc & D1 & D2). cbn [fst snd] in D2. inv_bind D2. destruct p as [d1 tb]. inv_bind D2. destruct p as [d2 td]. injection D2 as <- <-.
  destruct (nth_two _ _ _ K i _ D1) as (q & D3 & D4). inversion D4 as [|? ? r ? ? its2 K1 K2]; subst. cbn [ty_eqb] in K2. inversion K2 as [|? e1 ? ? L1 K3]; subst. inversion K3 as [|? e2 ? ? L2 K4]; subst. inversion K4; subst.
  pose proof (emit_name w hp lev leaf SOLID _ _ _ _ _ _ _ E0) as N1. pose proof (emit_name w hp lev leaf SOLID _ _ _ _ _ _ _ E1) as N2. rewrite <- (like_name V _ _ L1) in N1. rewrite <- (like_name V _ _ L2) in N2.
  assert (ND : NoDup (map doc_name [e1; e2])) by (cbn [map]; rewrite N1, N2; constructor; [intros [X|[]]; discriminate X|]; constructor; [intros []|constructor]).
  exists r, e1, e2, ta, tb, td. split; [|split; [eauto|split; [eauto|split; [exact I|split]]]].
  - intros k' ty. apply (get_elem _ _ _ true); [|exact D3]. clear - E K. revert tab its its' tab' E K. induction l as [|p l IH]; intros tab its its' tab' H L; cbn [emits] in H.
    + injection H as <- <-. inversion L; subst. constructor.
    + inv_bind H. destruct p0 as [d t1]. inv_bind H. destruct p0 as [ds t2]. injection H as <- <-. inversion L; subst. constructor; [|exact (IH _ _ _ _ E0 H3)]. rewrite (like_sc _ _ _ _ H1).
      inv_bind E. destruct p0. inv_bind E. destruct p0. injection E as <- <-. reflexivity.
  - rewrite <- N1. apply (get_item _ _ _ 0%nat); [exact ND|reflexivity].
  - rewrite <- N2. apply (get_item _ _ _ 1%nat); [exact ND|reflexivity].
Qed.
Theorem walk : forall t v hs t' v', inside w t v hs t' v' -> forall n F d', holds_of n t v F d' ->
  exists F' d2, (F' <= F)%nat /\ follow (Some (refers d')) hs = Ok (Some (refers d2)) /\ holds_of n t' v' F' d2.
Proof.
  induction 1 as [t v|c vs i f x hs t' v' Ef Nf Ex IN IH|bu c vs i f x hs t' v' Ef Ex IN IH|t e vs i x hs t' v' Et Ex IN IH|k e l i x y hs t' v' El IN IH|k e l i x y hs t' v' El IN IH|e l k x hs t' v' El IN IH|a b x y hs t' v' IN IH|a b x y hs t' v' IN IH|t e x hs t' v' Et IN IH];
    intros n F d' (O & nm & name & tab & d & tab' & E & L).
  - exists F, d'. split; [lia|]. split; [reflexivity|]. split; [exact O|]. exists nm, name, tab, d, tab'. now split.
  - destruct F as [|F]; [discriminate E|]. cbn [emit] in E. destruct (Nat.eqb (length vs) (length (w_cls w c))) eqn:LE; [|discriminate E]. apply Nat.eqb_eq in LE. inv_bind E. destruct p as [its t1]. injection E as <- <-.
    inversion L as [|? ? k' ? ? its' K1 K2]; subst. cbn [ty_eqb] in K2. destruct (emits_nth _ _ _ _ _ E0) as [_ N]. destruct (N i (f, x) (combine_nth _ _ _ _ _ Ef Ex)) as (d1 & ta & tb & D1 & D2). cbn [fst snd] in D2.
    destruct (nth_two _ _ _ K2 i d1 D1) as (d2 & D3 & D4). assert (NM : map doc_name its' = map f_name (w_cls w c)) by (rewrite (like_names V its its' K2); exact (fields_names F _ _ _ _ _ LE E0)).
    assert (ND : NoDup (map doc_name its')).
    { rewrite NM. destruct (proj1 REG c) as [[_ H]|H]; [exact H|]. exfalso. apply Nf. apply (proj1 (Forall_forall _ _) H f). now apply nth_error_In in Ef. }
    assert (DN : doc_name d2 = f_name f) by (rewrite (like_name V d1 d2 D4); exact (emit_name w hp lev leaf SOLID _ _ _ _ _ _ _ D2)).
    inversion O; subst; [contradiction|]. destruct (IH n F d2) as (F' & d3 & B1 & B2 & B3).
    { split; [match goal with X : Forall2 (fun g u => ok n (f_type g) u) _ _ |- _ => exact (nth_two' _ _ _ _ _ _ X Ef Ex) end|]. exists true, (f_name f), ta, d1, tb. now split. }
    exists F', d3. split; [lia|]. split; [|exact B3]. cbn [follow]. rewrite <- DN, (get_item _ _ _ i d2 ND D3). exact B2.
  - destruct F as [|F]; [discriminate E|]. cbn [emit] in E. destruct (Nat.eqb (length vs) (length (w_cls w c))) eqn:LE; [|discriminate E]. apply Nat.eqb_eq in LE. inv_bind E. destruct p as [its t1]. injection E as <- <-.
    inversion L as [|? ? k' ? ? its' K1 K2]; subst. cbn [ty_eqb] in K2. destruct (emits_nth _ _ _ _ _ E0) as [_ N]. destruct (N i (f, x) (combine_nth _ _ _ _ _ Ef Ex)) as (d1 & ta & tb & D1 & D2). cbn [fst snd] in D2.
    assert (D1' : nth_error (DVal str_type_id (val_string (w_id w c) EUTF8) :: its) (S i) = Some d1) by exact D1.
    destruct (nth_two _ _ _ K2 (S i) d1 D1') as (d2 & D3 & D4). assert (NM : map doc_name its' = str_type_id :: map f_name (w_cls w c)) by (rewrite (like_names V _ its' K2); cbn [map doc_name]; f_equal; exact (fields_names F _ _ _ _ _ LE E0)).
    inversion O; subst; [contradiction|].
    assert (ND : NoDup (map doc_name its')).
    { rewrite NM. match goal with X : w_reg w _ _ = Ok (Some c) |- _ => destruct (proj2 REG _ _ c X) as [[_ H5] H6] end. now constructor. }
    assert (DN : doc_name d2 = f_name f) by (rewrite (like_name V d1 d2 D4); exact (emit_name w hp lev leaf SOLID _ _ _ _ _ _ _ D2)).
    destruct (IH n F d2) as (F' & d3 & B1 & B2 & B3).
    { split; [match goal with X : Forall2 (fun g u => ok n (f_type g) u) _ _ |- _ => exact (nth_two' _ _ _ _ _ _ X Ef Ex) end|]. exists true, (f_name f), ta, d1, tb. now split. }
    exists F', d3. split; [lia|]. split; [|exact B3]. cbn [follow]. rewrite <- DN, (get_item _ _ _ (S i) d2 ND D3). exact B2.
  - assert (X : exists f its, F = S f /\ Forall (ok n e) vs /\ (exists tab1, emits (fun x => emit f w hp e x []) vs tab = Ok (its, tab1)) /\ d = DScope name TArray its).
    { destruct F as [|F]; [discriminate E|]. destruct Et as [->|[->| ->]]; cbn [emit] in E; [| |destruct (Nat.eqb (length vs) (length vs)); [|discriminate E]]; inv_bind E; destruct p as [its t1]; injection E as <- <-; inversion O; subst; try contradiction; exists F, its; repeat split; eauto. }
    destruct X as (f & its & -> & OK & (tab1 & E0) & ->). inversion L as [|? ? k' ? ? its' K1 K2]; subst. cbn [ty_eqb] in K2. destruct (emits_nth _ _ _ _ _ E0) as [_ N]. destruct (N i x Ex) as (d1 & ta & tb & D1 & D2).
    destruct (nth_two _ _ _ K2 i d1 D1) as (d2 & D3 & D4). destruct (IH n f d2) as (F' & d3 & B1 & B2 & B3).
    { split; [exact (proj1 (Forall_forall _ _) OK x (nth_error_In _ _ Ex))|]. exists false, [], ta, d1, tb. now split. }
    exists F', d3. split; [lia|]. split; [|exact B3]. cbn [follow]. rewrite (get_elem _ _ _ (scoped e) i d2); [exact B2| |exact D3]. eapply kinds; eassumption.
  - destruct F as [|F]; [discriminate E|]. cbn [emit] in E. inv_bind E. destruct p as [its t1]. injection E as <- <-. inversion L as [|? ? k' ? ? its' K1 K2]; subst. cbn [ty_eqb] in K2. inversion O; subst; [contradiction|].
    destruct (entry F k e l i x y _ _ _ _ _ E0 K2 El) as (r & d1 & d2 & ta & tb & tc & T1 & T2 & T3 & T4 & T5 & T6).
    destruct (IH n F d1) as (F' & d3 & B1 & B2 & B3).
    { split; [match goal with X : Forall (ok n k) (map fst l) |- _ => exact (proj1 (Forall_forall _ _) X x (in_map fst _ _ (nth_error_In _ _ El))) end|]. destruct T2 as (dd & T2). eauto 8. }
    exists F', d3. split; [lia|]. split; [|exact B3]. cbn [follow]. rewrite T1. cbn [rbind]. rewrite T5. exact B2.
  - destruct F as [|F]; [discriminate E|]. cbn [emit] in E. inv_bind E. destruct p as [its t1]. injection E as <- <-. inversion L as [|? ? k' ? ? its' K1 K2]; subst. cbn [ty_eqb] in K2. inversion O; subst; [contradiction|].
    destruct (entry F k e l i x y _ _ _ _ _ E0 K2 El) as (r & d1 & d2 & ta & tb & tc & T1 & T2 & T3 & T4 & T5 & T6).
    destruct (IH n F d2) as (F' & d3 & B1 & B2 & B3).
    { split; [match goal with X : Forall (ok n e) (map snd l) |- _ => exact (proj1 (Forall_forall _ _) X y (in_map snd _ _ (nth_error_In _ _ El))) end|]. destruct T3 as (dd & T3). eauto 8. }
    exists F', d3. split; [lia|]. split; [|exact B3]. cbn [follow]. rewrite T1. cbn [rbind]. rewrite T6. exact B2.
  - destruct F as [|F]; [discriminate E|]. cbn [emit] in E. inv_bind E. destruct p as [its t1]. injection E as <- <-. inversion L as [|? ? k' ? ? its' K1 K2]; subst. cbn [ty_eqb] in K2. inversion O; subst; [contradiction|].
    apply In_nth_error in El. destruct El as [i El]. destruct (emits_nth _ _ _ _ _ E0) as [_ N]. destruct (N i (k, x) El) as (d1 & ta & tb & D1 & D2). cbn [fst snd] in D2. destruct (nth_two _ _ _ K2 i d1 D1) as (d2 & D3 & D4).
    assert (ND : NoDup (map doc_name its')) by (rewrite (like_names V _ _ K2), (tab_names F e l _ _ _ E0); assumption).
    assert (DN : doc_name d2 = k) by (rewrite (like_name V d1 d2 D4); exact (emit_name w hp lev leaf SOLID _ _ _ _ _ _ _ D2)).
    destruct (IH n F d2) as (F' & d3 & B1 & B2 & B3).
    { split; [match goal with X : Forall (ok n e) (map snd l) |- _ => exact (proj1 (Forall_forall _ _) X x (in_map snd _ _ (nth_error_In _ _ El))) end|]. exists true, k, ta, d1, tb. now split. }
    exists F', d3. split; [lia|]. split; [|exact B3]. cbn [follow]. rewrite <- DN at 1. rewrite (get_item _ _ _ i d2 ND D3). exact B2.
  - destruct F as [|F]; [discriminate E|]. cbn [emit] in E. inv_bind E. destruct p as [d1 t1]. inv_bind E. destruct p as [d2 t2]. injection E as <- <-. inversion L as [|? ? k' ? ? its' K1 K2]; subst. cbn [ty_eqb] in K2. inversion O; subst; [contradiction|].
    inversion K2 as [|? e1 ? ? L1 K3]; subst. inversion K3 as [|? e2 ? ? L2 K4]; subst. inversion K4; subst.
    pose proof (emit_name w hp lev leaf SOLID _ _ _ _ _ _ _ E0) as N1. pose proof (emit_name w hp lev leaf SOLID _ _ _ _ _ _ _ E1) as N2. rewrite <- (like_name V _ _ L1) in N1. rewrite <- (like_name V _ _ L2) in N2.
    destruct (IH n F e1) as (F' & d3 & B1 & B2 & B3); [split; [assumption|eauto 8]|]. exists F', d3. split; [lia|]. split; [|exact B3]. cbn [follow]. rewrite <- N1, (get_item _ _ _ 0%nat e1); [exact B2| |reflexivity].
    cbn [map]. rewrite N1, N2. constructor; [intros [X|[]]; discriminate X|]. constructor; [intros []|constructor].
  - destruct F as [|F]; [discriminate E|]. cbn [emit] in E. inv_bind E. destruct p as [d1 t1]. inv_bind E. destruct p as [d2 t2]. injection E as <- <-. inversion L as [|? ? k' ? ? its' K1 K2]; subst. cbn [ty_eqb] in K2. inversion O; subst; [contradiction|].
    inversion K2 as [|? e1 ? ? L1 K3]; subst. inversion K3 as [|? e2 ? ? L2 K4]; subst. inversion K4; subst.
    pose proof (emit_name w hp lev leaf SOLID _ _ _ _ _ _ _ E0) as N1. pose proof (emit_name w hp lev leaf SOLID _ _ _ _ _ _ _ E1) as N2. rewrite <- (like_name V _ _ L1) in N1. rewrite <- (like_name V _ _ L2) in N2.
    destruct (IH n F e2) as (F' & d3 & B1 & B2 & B3); [split; [assumption|eauto 8]|]. exists F', d3. split; [lia|]. split; [|exact B3]. cbn [follow]. rewrite <- N2, (get_item _ _ _ 1%nat e2); [exact B2| |reflexivity].
    cbn [map]. rewrite N1, N2. constructor; [intros [X|[]]; discriminate X|]. constructor; [intros []|constructor].
  - destruct F as [|F]; [discriminate E|]. assert (X : emit F w hp e x name tab = Ok (d, tab') /\ ok n e x) by (destruct Et as [->| ->]; cbn [emit] in E; (split; [exact E|]); inversion O; subst; try contradiction; assumption).
    destruct X as [X1 X2]. destruct (IH n F d') as (F' & d3 & B1 & B2 & B3); [split; [exact X2|eauto 8]|]. exists F', d3. split; [lia|]. now split.
Qed.

(** a part that does not depend on others *)
Lemma part_back n t v F d : holds_of n t v F d -> own_part w t v -> forall G s old, (F <= G)%nat -> shape w t old -> handle_copy G w t old (Some (refers d)) s = ERet (v, s).
Proof.
  intros (O & nm & name & tab & e & tab' & E & L) [PL (U & U1 & U2 & U3)] G s old LE SH.
  destruct (plain_untouched w hp F v t name PL) as [r H]. rewrite H in E. destruct r as [e'| | |]; try discriminate E. cbn [rbind] in E. injection E as -> <-.
  assert (E : emit F w hp t v name [] = Ok (e, [])) by (rewrite H; reflexivity).
  destruct (all_kept w hp lev leaf V REG NEW HEAP LEAF SOLID NULL KEY TEXT F n t v nm name [] e [] d old rs_new E O SH L (invar_new hp lev n)) as (c & s' & D & S & _). apply plain_same in S; [subst c|exact PL].
  destruct (al_child w true (said F w true) U (fun t o e Ut => al_said w true U U2 U3 F t o e Ut) _ old d U1 _ _ _ D) as [_ A]. specialize (A s).
  pose proof (emit_kind w hp lev leaf V SOLID _ _ _ _ _ _ _ n nm d E O L) as SC. unfold handle_copy. rewrite <- SC. destruct d as [k x|k ty its]; cbn [is_sc refers dchild] in *.
  - destruct (paste_value w t old x) as [y| | |]; cbn [rbind] in A; try discriminate A. injection A as ->. reflexivity.
  - destruct (said F w true t old (DScope k ty its) s) as [[[y s1] u]| | |] eqn:SD; cbn [rbind] in A; try discriminate A. destruct (quiet true its u); [|discriminate A]. injection A as -> ->.
    apply (said_more F G w true false) in SD; [|discriminate|exact LE]. unfold node_paste. rewrite doc_node_eq. change (mkL true (mkNode ty (vals_of its) (subs_of its))) with (pnode ty its). rewrite (eager_said G w t old k), SD. reflexivity.
Qed.
Lemma unwrap_copy F t u s : initialized t -> handle_unwrap F w t u s = handle_copy F w t (w_new w t) u s.
Proof.
  intros I. unfold handle_unwrap, handle_copy. destruct (scoped t) eqn:S; [reflexivity|]. destruct u as [[k m|k x]|]; try reflexivity. unfold value_unwrap. destruct t; try reflexivity. cbn [initialized] in I. unfold scoped in S, I. cbn [type_of] in S. congruence.
Qed.
Lemma part_kind n t v F d : holds_of n t v F d -> is_sc d = scoped t.
Proof. intros (O & nm & name & tab & e & tab' & E & L). eapply emit_kind; eassumption. Qed.
Lemma other_kind n t v F d : holds_of n t v F d -> forall t2, scoped t2 <> scoped t -> forall G s, handle_unwrap G w t2 (Some (refers d)) s = EThrow.
Proof.
  intros H t2 N G s. apply part_kind in H. rewrite <- H in N. unfold handle_unwrap. destruct (scoped t2), d as [k x|k ty its]; cbn [is_sc refers] in *; try reflexivity; congruence.
Qed.
Lemma get_absent k r ty its : ~ In k (map doc_name its) -> get_named (doc_node (DScope r ty its)) (k, EUTF8) = Err.
Proof.
  intros N. rewrite doc_node_eq, <- (doc_node_eq [] ty its), get_first. assert (X : forall b, find (of_name b k) its = None).
  { intros b. induction its as [|d its IH]; [reflexivity|]. cbn [find map In] in *. unfold of_name. destruct (bytes_eqb_spec (doc_name d) k) as [E|E]; [tauto|]. rewrite andb_false_r. apply IH. tauto. }
  now rewrite !X.
Qed.
Lemma names_there : forall F n t v d ks, holds_of n t v F d -> item_names w t v = Some ks -> exists r ty its, d = DScope r ty its /\ map doc_name its = ks.
Proof.
  induction F as [|F IH]; intros n t v d ks (O & nm & name & tab & e & tab' & E & L) N; [discriminate E|].
  destruct t as [| | | | |c|e0|e0|k0 e0|e0|m e0|a b|c|e0|e0|e0|e0|]; try discriminate N; cbn [item_names] in N.
  - injection N as <-. inversion O; subst; [contradiction|]. cbn [emit] in E. destruct (Nat.eqb (length vs) (length (w_cls w c))) eqn:LE; [|discriminate E]. apply Nat.eqb_eq in LE. inv_bind E. destruct p as [its t1]. injection E as <- <-.
    inversion L as [|? ? k' ? ? its' K1 K2]; subst. exists k', TObject, its'. split; [reflexivity|]. rewrite (like_names V _ _ K2). exact (fields_names F _ _ _ _ _ LE E0).
  - destruct v as [| | | |l| | | |]; try discriminate N. injection N as <-. cbn [emit] in E. inv_bind E. destruct p as [its t1]. injection E as <- <-. inversion L as [|? ? k' ? ? its' K1 K2]; subst. exists k', TObject, its'. split; [reflexivity|].
    rewrite (like_names V _ _ K2). exact (tab_names F e0 l _ _ _ E0).
  - injection N as <-. inversion O; subst; [contradiction|]. cbn [emit] in E. inv_bind E. destruct p as [d1 t1]. inv_bind E. destruct p as [d2 t2]. injection E as <- <-. inversion L as [|? ? k' ? ? its' K1 K2]; subst. exists k', TObject, its'. split; [reflexivity|].
    rewrite (like_names V _ _ K2). cbn [map]. rewrite (emit_name w hp lev leaf SOLID _ _ _ _ _ _ _ E0), (emit_name w hp lev leaf SOLID _ _ _ _ _ _ _ E1). reflexivity.
  - destruct v as [| | | | | |x| |]; try discriminate N. cbn [emit] in E. apply (IH n e0 x d ks); [|exact N]. split; [inversion O; subst; try contradiction; assumption|eauto 8].
  - destruct v as [| | | | | |x| |]; try discriminate N. cbn [emit] in E. apply (IH n e0 x d ks); [|exact N]. split; [inversion O; subst; try contradiction; assumption|eauto 8].
  - destruct v as [| | | | | | | |c vs]; try discriminate N. injection N as <-. cbn [emit] in E. destruct (Nat.eqb (length vs) (length (w_cls w c))) eqn:LE; [|discriminate E]. apply Nat.eqb_eq in LE. inv_bind E. destruct p as [its t1]. injection E as <- <-.
    inversion L as [|? ? k' ? ? its' K1 K2]; subst. exists k', TObject, its'. split; [reflexivity|]. rewrite (like_names V _ _ K2). cbn [map doc_name]. f_equal. exact (fields_names F _ _ _ _ _ LE E0).
Qed.
Lemma name_absent F n t v d ks k : holds_of n t v F d -> item_names w t v = Some ks -> ~ In k ks -> handle_get (Some (refers d)) (k, EUTF8) = Err /\ handle_try_get (Some (refers d)) (k, EUTF8) = Ok None.
Proof.
  intros H N I. destruct (names_there F n t v d ks H N) as (r & ty & its & -> & <-). cbn [refers handle_get handle_try_get]. unfold try_get_named. rewrite (get_absent k r ty its I). split; reflexivity.
Qed.

Theorem reach n t v F d hs t' v' : holds_of n t v F d -> inside w t v hs t' v' -> exists u, follow (Some (refers d)) hs = Ok u /\ reached w F t' v' u.
Proof.
  intros H I. destruct (walk t v hs t' v' I n F d H) as (F' & d2 & L & E & H2). exists (Some (refers d2)). split; [exact E|]. split; [|split; [|split; [|split]]].
  - intros OP INI G s LG. rewrite unwrap_copy by exact INI. apply (part_back n t' v' F' d2 H2 OP); [lia|apply NEW].
  - intros OP G s old LG SH. apply (part_back n t' v' F' d2 H2 OP); [lia|exact SH].
  - exact (other_kind n t' v' F' d2 H2).
  - intros ks k. exact (name_absent F' n t' v' d2 ks k H2).
  - intros N. pose proof (part_kind _ _ _ _ _ H2) as K. rewrite N in K. destruct d2; [|discriminate K]. split; [split|]; reflexivity.
Qed.
End Walk.

(** * From bytes *)
Theorem stored_parts w p hp lev n t v name : regular w -> constructs w -> S_ObjStore.heap_ok w hp lev (carried (w_fp w) p) -> storable w hp lev (carried (w_fp w) p) n t v -> scoped t = true ->
  name_fits p name -> names_fit w p hp v ->
  exists d tab size, (forall F, (size <= F)%nat -> stored_doc F w hp t v name [] = Ok (d, tab)) /\
  (size_fits p d -> exists bs k nd, stores_as w hp p name t v bs /\ loads_as (w_fp w) p bs k nd /\
    forall hs t' v', inside w t v hs t' v' -> exists u, follow (root_of k nd) hs = Ok u /\ reached w size t' v' u).
Proof.
  intros RG NW HP ST SCT N (NC & NV & NH). destruct (stored_total w hp lev _ HP (fun t v H => cpp_leaf _ t v (proj1 H)) n t v name ST) as (F0 & [d tab] & TOT). exists d, tab, F0. split; [exact TOT|].
  intros [D SZ]. destruct (stored_fit w p hp lev (heap_typed _ _ _ _ HP) NC NH F0 n t v name d tab (TOT F0 (le_n _)) ST N NV) as (u & U & W & VV & J). destruct (utf8_size _ _ U) as (S1 & S2 & S3).
  pose proof (TOT F0 (le_n _)) as T0. unfold stored_doc in T0. destruct (null_root t v); [discriminate|]. rewrite SCT in T0.
  assert (SCD : is_sc d = true).
  { destruct (proj2 (emit_head w hp lev (carried (w_fp w) p) (fun t v sv H => leaf_solid p t v sv (proj1 H)) _ _ _ _ _ _ _ T0) n ST) as [K _]. congruence. }
  assert (C : carries (w_fp w) p u).
  { split; [exact W|]. split; [destruct d; [discriminate SCD|]; inversion U; subst; exact I|]. destruct p; [|auto|].
    - split; [exact VV|lia].
    - split; [exact VV|]. now apply J. }
  pose proof (like_norm _ p d u U W (carries_vals _ _ _ C) false) as LK. change (doc_norm (norm_of p) false u) with (dnorm p u) in LK.
  destruct (written _ p d u C U) as (p' & ops & WR & VO & RD).
  exists (spec_out ops), (doc_name (dnorm p u)), (doc_node (dnorm p u)). split; [|split].
  - exists F0, p'. intros F m L LB. destruct (run_jobs_spec [ToMemory ops] (heap_init m) (heap_ok_init m)) as (h & J0 & _); [constructor; [|constructor]; now split|].
    exists h. unfold store_object. rewrite TOT by lia. cbn [rbind]. rewrite (write_all_same _ _ _ _ (stored_same d)), WR. cbn [rbind]. cbn [run_jobs run_job map job_result] in J0.
    destruct (save_buffer (heap_init m) ops) as [[bs h1]| | |]; cbn [rbind] in *; try discriminate J0. injection J0 as -> ->. reflexivity.
  - exists (length (spec_out ops) + length (events u) + 5)%nat. intros q F before rest SF L. destruct (RD q SF F before rest L) as (q' & Q).
    exists q'. rewrite Q. now replace (Nat.leb (depth u) 129) with true by (symmetry; apply Nat.leb_le; lia).
  - intros hs t' v' IN. assert (Sd : is_sc (dnorm p u) = true) by (unfold dnorm; rewrite norm_is_sc; destruct d; [discriminate SCD|]; inversion U; subst; reflexivity).
    replace (root_of (doc_name (dnorm p u)) (doc_node (dnorm p u))) with (Some (refers (dnorm p u))) by (destruct (dnorm p u); [discriminate Sd|reflexivity]).
    apply (reach w hp lev (carried (w_fp w) p) (brought (w_fp w) p) RG NW HP (fun t v sv v' old SH' H => leaf_back w p t v sv v' old SH' (proj1 H)) (fun t v sv H => leaf_solid p t v sv (proj1 H)) (leaf_null w p) (leaf_key w p) (fun s v' H => leaf_text w p s v' (proj1 H)) n t v F0 (dnorm p u) hs t' v'); [|exact IN].
    split; [exact ST|]. exists false, name, [], d, tab. split; [exact T0|exact LK].
Qed.

(** * In a tree into which the object was inserted *)
Theorem inserted_parts w hp lev n i T : regular w -> constructs w -> S_ObjStore.heap_ok w hp lev any_value -> storable w hp lev any_value n (i_type i) (i_val i) -> ~ In (i_name i) (names_in (t_root T)) ->
  exists size T', (forall F, (size <= F)%nat -> insert_root F w hp i T = Ok T') /\
    forall k hs t' v', inside w (i_type i) (i_val i) hs t' v' -> exists u, follow (root_of k (t_root T')) (ByName (i_name i) :: hs) = Ok u /\ reached w size t' v' u.
Proof.
  intros REG NEW HEAP O NI. destruct (emit_total w hp lev any_value HEAP any_leaf n _ _ O (i_name i)) as [F0 TT]. destruct (TT F0 (le_n _) (t_store T)) as [[d tab] E]. destruct (any_node (t_root T)) as [its0 E0].
  exists F0, (mkTree (node_of (n_type (t_root T)) (its0 ++ [d])) tab (t_objs T)). split.
  - intros F L. unfold insert_root, insert_object. rewrite (emit_more w hp F0 F _ _ _ _ _ L E). cbn [rbind]. rewrite E0 at 1. rewrite insert_doc_eq. reflexivity.
  - intros k hs t' v' IN. cbn [follow t_root].
    assert (DN : doc_name d = i_name i) by exact (emit_name w hp lev any_value any_solid _ _ _ _ _ _ _ E).
    assert (G : take_hop (root_of k (node_of (n_type (t_root T)) (its0 ++ [d]))) (ByName (i_name i)) = Ok (Some (refers d))).
    { cbn [take_hop root_of handle_get]. unfold node_of. rewrite <- (doc_node_eq [] _ (its0 ++ [d])), get_first.
      assert (A : forall b, find (of_name b (i_name i)) (its0 ++ [d]) = if Bool.eqb (is_sc d) b then Some d else None).
      { intros b. assert (N0 : Forall (fun x => doc_name x <> i_name i) its0).
        { apply Forall_forall. intros x I X. apply NI. rewrite E0. apply names_node. rewrite <- X. now apply in_map. }
        clear E0. induction N0 as [|x l X _ IH]; cbn [app find]; unfold of_name at 1.
        - rewrite DN, (proj2 (bytes_eqb_eq _ _) eq_refl), andb_true_r. reflexivity.
        - destruct (bytes_eqb_spec (doc_name x) (i_name i)); [contradiction|]. rewrite andb_false_r. exact IH. }
      rewrite !A. destruct (is_sc d); reflexivity. }
    rewrite G. cbn [rbind]. refine (reach w hp lev any_value eq REG NEW HEAP _ _ _ _ _ n (i_type i) (i_val i) F0 d hs t' v' _ IN).
    + intros t0 v0 sv v1 o S A L <-. now apply any_back.
    + intros t0 v0 sv. apply any_solid.
    + intros sv v1 <-. tauto.
    + intros k0 v1 o R <-. now apply any_key.
    + intros s0 v1 A <-. now apply any_text.
    + split; [exact O|]. exists true, (i_name i), (t_store T), d, tab. split; [exact E|apply like_refl].
Qed.
