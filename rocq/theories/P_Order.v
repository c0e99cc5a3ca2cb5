(** Objects whose items come in the order of their members are restored whatever their depth.  Proofs for property C94. *)
From Coq Require Import ZArith List Bool Arith Lia ZifyBool ZifyNat.
From Verif Require Import Base Lemmas M_Types M_Conv M_TpTools M_Charset S_Conv S_Charset S_Doc P_Text M_Env M_Tree S_Tree P_Doc P_Tree P_TreeOps M_Object S_Object P_ObjEager P_ObjLazy S_Nest.
Import ListNotations.
Open Scope Z_scope.

(** an item is what a member of that type is read from *)
Section Ord.
Variable w : world.
Variable oc : ct -> doc -> Prop.
Definition ochild (t : ct) (d : doc) : Prop := match d with DVal _ _ => scoped t = false | DScope _ _ _ => scoped t = true /\ oc t d end.
Definition onamed (t : ct) (k : bytes) (d : doc) : Prop := doc_name d = k /\ ochild t d.
Definition omember (f : field) (d : doc) : Prop := doc_name d = f_name f /\ ochild (f_type f) d.
Definition ostep (t : ct) (d : doc) : Prop :=
  match t with
  | CCls c => Forall2 omember (w_cls w c) (items d)
  | CTup c => Forall2 (fun f => ochild (f_type f)) (w_cls w c) (items d)
  | CSeq e | CSet e | CTab e | CArr _ e => Forall (ochild e) (items d)
  | CMap k e => Forall (fun x => is_sc x = true /\ exists d1 d2, items x = [d1; d2] /\ onamed k str_key d1 /\ onamed e str_value d2) (items d)
  | CPair a b => exists d1 d2, items d = [d1; d2] /\ onamed a str_first d1 /\ onamed b str_second d2
  | CPtr e | CUniq e => oc e d
  | CShared e | CWeak e => exists k r, items d = DVal str_shared_key k :: r /\ (r = [] \/ exists d2, r = [d2] /\ onamed e str_shared_value d2)
  | CPoly u => exists v its, items d = DVal str_type_id v :: its /\ forall c, w_reg w u (v_data v, v_enc v) = Ok (Some c) -> Forall2 omember (w_cls w c) its
  | _ => True
  end.
End Ord.
Fixpoint ordered (F : nat) (w : world) (t : ct) (d : doc) : Prop := match F with O => True | S f => ostep w (ordered f w) t d end.

(** * Leaving a scope *)
Definition fin (its : list doc) (u : nat) (rest : list event) (n : lnode) (tail : list event) : Prop :=
  (l_parsed n = true /\ tail = rest) \/ (l_parsed n = false /\ (tail = ev_end :: rest \/ tail = flat_map events (skipn u its) ++ ev_end :: rest)).
Definition sound (G : nat) (its : list doc) : Prop := all_shaped its /\ (length (flat_map events its) < G)%nat.
Lemma quiet_fine r : all_shaped r -> forallb (fun d => negb (is_sc d)) r = true -> Forall fine r.
Proof.
  unfold all_shaped. intros A Q. rewrite Forall_forall in *. rewrite forallb_forall in Q. intros d I. split; [now apply A|]. specialize (Q d I). destruct d; [cbn [deep]; lia|discriminate Q].
Qed.
Lemma fin_leave {R} F its u rest n tail (k : unit -> eprog R) : fin its u rest n tail -> all_shaped its -> forallb (fun d => negb (is_sc d)) (skipn u its) = true ->
  (length (flat_map events its) < F)%nat -> erun (ebind (consume_scope F n) k) tail = erun (k tt) rest.
Proof.
  intros [[P ->]|[P [->| ->]]] A Q Hf; unfold consume_scope; rewrite P; [reflexivity| |].
  - destruct F as [|F]; [lia|]. reflexivity.
  - rewrite erun_bind, skip_rest; [reflexivity| |exact Q|].
    + apply quiet_fine; [|exact Q]. unfold all_shaped in *. now apply forall_skipn.
    + pose proof (events_split u its). lia.
Qed.
Lemma sound_sub G its k ty sub : sound G its -> In (DScope k ty sub) its -> sound G sub.
Proof.
  intros [A Hf] I. split.
  - unfold all_shaped in A. rewrite Forall_forall in A. specialize (A _ I). apply shaped_scope in A. tauto.
  - apply in_split in I. destruct I as (a & b & ->). rewrite flat_map_app in Hf. cbn [flat_map events] in Hf. rewrite app_length in Hf. cbn [app length] in Hf. rewrite !app_length in Hf. lia.
Qed.
Lemma sound_in G its d : sound G its -> In d its -> shaped d.
Proof. intros [A _] I. unfold all_shaped in A. rewrite Forall_forall in A. auto. Qed.

(** * Selecting *)
Lemma select_here p d todo : p d = true -> forall done_, nth_match p (length (filter p done_)) (done_ ++ d :: todo) = Some (length done_, d).
Proof.
  intros P. induction done_ as [|x l IH]; cbn [filter app nth_match length]; [now rewrite P|].
  destruct (p x); cbn [length]; rewrite IH; reflexivity.
Qed.
Lemma select_name sc k done_ d todo : of_name sc k d = true -> Forall (fun x => doc_name x <> k) done_ -> select sc (IdName k) (done_ ++ d :: todo) = Some (length done_, d).
Proof.
  intros P N. cbn [select]. pose proof (select_here _ d todo P done_) as H. replace (filter (of_name sc k) done_) with (@nil doc) in H; [exact H|].
  symmetry. clear H. induction N as [|x l H _ IH]; [reflexivity|]. cbn [filter]. unfold of_name at 1. replace (bytes_eqb (doc_name x) k) with false by (symmetry; now apply bytes_eqb_neq). now rewrite andb_false_r.
Qed.

Lemma erun_assoc {A B C} (p : eprog A) (f : A -> eprog B) (g : B -> eprog C) es : erun (ebind (ebind p f) g) es = erun (ebind p (fun a => ebind (f a) g)) es.
Proof. rewrite !erun_bind. destruct (erun p es) as [[[a es']| | |]|]; try reflexivity. now rewrite erun_bind. Qed.
Section Run.
Variables (w : world) (G Fu : nat).
Hypothesis FG : (G <= Fu)%nat.
Variable pn : ct -> cv -> lnode -> rstate -> eprog (cv * lnode * rstate).
Variable dn : ct -> cv -> doc -> rstate -> res (cv * rstate * nat).
Variable oc : ct -> doc -> Prop.
Hypothesis LZ : forall t old k ty its s v s' u rest, dn t old (DScope k ty its) s = Ok (v, s', u) -> oc t (DScope k ty its) -> sound G its ->
  exists n' tail, erun (pn t old (unode ty []) s) (flat_map events its ++ ev_end :: rest) = Some (Ok ((v, n', s'), tail)) /\ fin its u rest n' tail.

Lemma ord_child {R} t old k ty its s v s' rest (kk : cv * lnode * rstate -> eprog R) (c : cv -> rstate -> unit -> eprog R) :
  dchild w true dn t old (DScope k ty its) s = Ok (v, s') -> oc t (DScope k ty its) -> sound G its ->
  (forall x n y, kk (x, n, y) = ebind (consume_scope Fu n) (c x y)) ->
  erun (ebind (pn t old (unode ty []) s) kk) (flat_map events its ++ ev_end :: rest) = erun (c v s' tt) rest.
Proof.
  intros H O S K. unfold dchild in H. destruct (dn t old (DScope k ty its) s) as [[[v0 s0] u]| | |] eqn:E; cbn [rbind] in H; try discriminate.
  unfold quiet in H. cbn [negb orb] in H. destruct (forallb _ (skipn u its)) eqn:Q; [|discriminate]. injection H as -> ->.
  destruct (LZ _ _ _ _ _ _ _ _ _ rest E O S) as (n' & tail & X & Fn). rewrite erun_bind, X, K.
  apply (fin_leave _ its u); [exact Fn|apply S|exact Q|]. destruct S. lia.
Qed.
(** the next item is the one that is looked for *)
Lemma ord_field t id old ty d s v s' rest : matches (scoped t) id d = true -> ochild oc t d -> shaped d -> (length (events d) < G)%nat -> dchild w true dn t old d s = Ok (v, s') ->
  erun (paste_field w pn Fu t id old (unode ty []) s) (events d ++ rest) = Some (Ok ((v, unode ty [], s'), rest)).
Proof.
  intros M O Sh Hf Ch. pose proof (matches_kind _ _ _ M) as Kd. change (events d) with (flat_map events [] ++ events d). rewrite <- app_assoc. change ([] ++ events d ++ rest) with (events d ++ rest).
  unfold paste_field. destruct (scoped t) eqn:Sc.
  - destruct d as [|k ty' sub]; [discriminate|]. unfold field_node. change (l_parsed (unode ty [])) with false. cbv iota.
    rewrite take_read_node by constructor. do 3 rewrite erun_bind. pose proof (scan_stop true id ty (DScope k ty' sub) rest [] Fu [] (Forall_nil _) (Forall_nil _) Sh M ltac:(cbn [flat_map length]; lia)) as X.
    cbn [flat_map] in X. cbn [flat_map]. rewrite X. cbn [erun fst snd need ebind head_event content app]. rewrite <- app_assoc. cbn [app].
    rewrite (ord_child t old k ty' sub s v s' _ _ (fun v s' _ => ERet (v, unode ty [], s'))); [reflexivity|exact Ch|apply O| |intros; reflexivity].
    apply shaped_scope in Sh. split; [apply Sh|]. cbn [events length] in Hf. rewrite app_length in Hf. lia.
  - destruct d as [k v0|]; [|discriminate]. unfold field_value. change (l_parsed (unode ty [])) with false. cbv iota.
    rewrite take_read_value by constructor. do 3 rewrite erun_bind. pose proof (scan_stop false id ty (DVal k v0) rest [] Fu [] (Forall_nil _) (Forall_nil _) Sh M ltac:(cbn [flat_map length]; lia)) as X.
    cbn [flat_map] in X. cbn [flat_map]. rewrite X. cbn [erun fst snd need ebind head_event content app]. unfold dchild in Ch. destruct (paste_value w t old v0); try discriminate. cbn [rbind] in Ch. injection Ch as -> ->. reflexivity.
Qed.
(** looking whether there is an optional value, and taking it *)
Lemma has_next k v ty es : shaped (DVal k v) -> (1 < G)%nat ->
  erun (has_field Fu false k (unode ty [])) (events (DVal k v) ++ es) = Some (Ok ((true, unode ty [DVal k v]), es)).
Proof.
  intros Sh L. unfold has_field. change (l_parsed (unode ty [])) with false. cbv iota. unfold consume_item. change (l_node (unode ty [])) with (mkNode ty [] []). cbn [n_nodes n_values]. change (@find_link (bytes * node) false (cmp_name (k, EUTF8)) []) with (@Ok (option nat) None). change (@find_link (bytes * value) false (cmp_name (k, EUTF8)) []) with (@Ok (option nat) None). cbn [elift ebind].
  unfold hash_string. rewrite (name_env _ _ (utf8_names k)). cbn [rbind]. rewrite fnv1a_correct. cbn [elift ebind]. rewrite erun_bind.
  pose proof (scan_item_stop k ty (DVal k v) es [] Fu [] (Forall_nil _) (Forall_nil _)) as X. cbn [flat_map app length doc_name is_sc] in X. change ([] ++ events (DVal k v) ++ es) with (events (DVal k v) ++ es) in X. rewrite X; [reflexivity| |apply bytes_eqb_refl|cbn; lia].
  split; [exact Sh|]. cbn [deep]. lia.
Qed.
Lemma take_next k v ty es t id old s x : scoped t = false -> id_matches id k = true -> paste_value w t old v = Ok x ->
  erun (paste_field w pn Fu t id old (unode ty [DVal k v]) s) es = Some (Ok ((x, unode ty [], s), es)).
Proof.
  intros Sc M P. unfold paste_field. rewrite Sc. unfold field_value. change (l_parsed (unode ty [DVal k v])) with false. cbv iota.
  pose proof (take_stored_value Fu id ty [] k v [] (Forall_nil _)) as X. cbn [app] in X. rewrite X by (unfold matches; cbn [is_sc doc_name Bool.eqb andb]; exact M).
  cbn [ebind need fst snd]. rewrite P. reflexivity.
Qed.
Lemma dfield_at t id old its s j d r : select (scoped t) id its = Some (j, d) -> dfield w true dn t id old its s = Ok r ->
  exists v s', r = (v, s', S j) /\ dchild w true dn t old d s = Ok (v, s').
Proof.
  intros S H. unfold dfield in H. rewrite S in H. destruct (dchild w true dn t old d s) as [[v s']| | |]; cbn [rbind] in H; try discriminate. injection H as <-. eauto.
Qed.
Lemma ochild_kind t d : ochild oc t d -> is_sc d = scoped t.
Proof. destruct d; cbn [ochild is_sc]; intros H; [congruence|now destruct H]. Qed.
Lemma sound_len its d : sound G its -> In d its -> (length (events d) < G)%nat.
Proof. intros [_ H] I. apply in_split in I. destruct I as (a & b & ->). rewrite flat_map_app in H. cbn [flat_map] in H. rewrite !app_length in H. lia. Qed.
(** the members of a class with names *)
Lemma ord_fields ty its : NoDup (map doc_name its) -> sound G its -> forall fs todo done_ olds s vi ni vs s2 u rest, its = done_ ++ todo -> Forall2 (omember oc) fs todo ->
  Forall (fun f => 0 < zlen (f_name f)) fs -> (forall f, In f fs -> f_opt f = true -> scoped (f_type f) = false) ->
  dfields w true dn fs olds its s vi ni = Ok (vs, s2, u) ->
  erun (paste_fields w pn Fu fs olds (unode ty []) s vi ni) (flat_map events todo ++ rest) = Some (Ok ((vs, unode ty [], s2), rest)).
Proof.
  intros ND SO. induction fs as [|f fs IH]; intros todo done_ olds s vi ni vs s2 u rest E M N OP D.
  { inversion M; subst. cbn [dfields] in D. injection D as <- <- <-. reflexivity. }
  inversion M as [|? d ? todo' [Nd Od] M']; subst. inversion N as [|? ? N1 N2]; subst. destruct olds as [|old olds]; [discriminate D|].
  assert (I : In d (done_ ++ d :: todo')) by (apply in_or_app; right; now left).
  assert (Dn : Forall (fun x => doc_name x <> f_name f) done_).
  { rewrite map_app in ND. cbn [map] in ND. apply NoDup_remove_2 in ND. apply Forall_forall. intros x Ix C. apply ND. apply in_or_app. left. rewrite Nd, <- C. now apply in_map. }
  assert (Kd : is_sc d = scoped (f_type f)) by now apply ochild_kind.
  assert (On : of_name (scoped (f_type f)) (f_name f) d = true) by (unfold of_name; rewrite Kd, Nd, bytes_eqb_refl; now destruct (scoped (f_type f))).
  cbn [dfields] in D. destruct (f_opt f && true && existsb (of_name (negb (scoped (f_type f))) (f_name f)) (done_ ++ d :: todo')); [discriminate D|].
  assert (Ex : existsb (of_name (scoped (f_type f)) (f_name f)) (done_ ++ d :: todo') = true) by (apply existsb_exists; eauto). rewrite Ex in D. cbn [negb] in D. rewrite andb_false_r in D.
  replace (0 <? zlen (f_name f)) with true in D by lia.
  destruct (dfield w true dn (f_type f) (IdName (f_name f)) old (done_ ++ d :: todo') s) as [r| | |] eqn:DF; cbn [rbind] in D; try discriminate D.
  destruct (dfield_at _ _ _ _ _ _ _ _ (select_name _ _ done_ d todo' On Dn) DF) as (v & s1 & -> & Ch).
  destruct (dfields w true dn fs olds (done_ ++ d :: todo') s1 _ _) as [[[vs' s'] u']| | |] eqn:DD; cbn [rbind] in D; try discriminate D. injection D as <- <- <-.
  specialize (IH todo' (done_ ++ [d]) olds s1 _ _ _ _ _ rest ltac:(now rewrite <- app_assoc) M' N2 (fun f I => OP f (or_intror I)) DD).
  cbn [paste_fields flat_map]. rewrite <- app_assoc. replace (0 <? zlen (f_name f)) with true by lia.
  assert (Mt : matches (scoped (f_type f)) (IdName (f_name f)) d = true) by (rewrite matches_name; exact On).
  destruct (f_opt f) eqn:Op.
  - pose proof (OP f (or_introl eq_refl) Op) as Sc. rewrite Sc in *. destruct d as [k x|]; [|discriminate Kd]. cbn [S_Tree.doc_name] in Nd. subst k.
    rewrite erun_bind, has_next; [|now apply (sound_in G (done_ ++ DVal (f_name f) x :: todo'))|].
    2: { pose proof (sound_len _ _ SO I) as L. cbn [events length] in L. lia. }
    cbn [fst snd negb]. rewrite erun_bind. unfold dchild in Ch. destruct (paste_value w (f_type f) old x) as [y| | |] eqn:P; cbn [rbind] in Ch; try discriminate Ch. injection Ch as -> ->.
    rewrite (take_next _ _ _ _ _ _ _ _ v Sc) by (cbn [id_matches]; auto using bytes_eqb_refl). rewrite erun_bind, IH. reflexivity.
  - cbn [ebind fst snd negb]. rewrite erun_bind.
    rewrite (ord_field _ _ old ty d s v s1) by eauto using sound_in, sound_len. rewrite erun_bind, IH. reflexivity.
Qed.
(** members without names *)
Definition no_names (fs : list field) : Prop := Forall (fun f => f_name f = [] /\ f_opt f = false) fs.
Lemma ord_places ty its : sound G its -> forall fs todo done_ olds s vs s2 u rest, its = done_ ++ todo -> Forall2 (fun f => ochild oc (f_type f)) fs todo -> no_names fs ->
  dfields w true dn fs olds its s (Z.of_nat (length (filter (of_kind false) done_))) (Z.of_nat (length (filter (of_kind true) done_))) = Ok (vs, s2, u) ->
  erun (paste_fields w pn Fu fs olds (unode ty []) s (Z.of_nat (length (filter (of_kind false) done_))) (Z.of_nat (length (filter (of_kind true) done_)))) (flat_map events todo ++ rest) = Some (Ok ((vs, unode ty [], s2), rest)).
Proof.
  intros SO. induction fs as [|f fs IH]; intros todo done_ olds s vs s2 u rest E M N D.
  { inversion M; subst. cbn [dfields] in D. injection D as <- <- <-. reflexivity. }
  inversion M as [|? d ? todo' Od M']; subst. inversion N as [|? ? [N1 N1'] N2]; subst. destruct olds as [|old olds]; [discriminate D|].
  assert (I : In d (done_ ++ d :: todo')) by (apply in_or_app; right; now left).
  assert (Kd : is_sc d = scoped (f_type f)) by now apply ochild_kind.
  assert (On : of_kind (scoped (f_type f)) d = true) by (unfold of_kind; rewrite Kd; now destruct (scoped (f_type f))).
  cbn [dfields] in D. rewrite N1', N1 in D. cbn [andb] in D. change (0 <? zlen (@nil Z)) with false in D. cbv iota in D.
  set (i := if scoped (f_type f) then Z.of_nat (length (filter (of_kind true) done_)) else Z.of_nat (length (filter (of_kind false) done_))) in *.
  assert (SE : select (scoped (f_type f)) (IdPos i) (done_ ++ d :: todo') = Some (length done_, d)).
  { cbn [select]. assert (Ei : i = Z.of_nat (length (filter (of_kind (scoped (f_type f))) done_))) by (unfold i; now destruct (scoped (f_type f))).
    rewrite Ei. replace (Z.of_nat _ <? 0) with false by lia. rewrite Nat2Z.id. now apply select_here. }
  destruct (dfield w true dn (f_type f) (IdPos i) old (done_ ++ d :: todo') s) as [r| | |] eqn:DF; cbn [rbind] in D; try discriminate D.
  destruct (dfield_at _ _ _ _ _ _ _ _ SE DF) as (v & s1 & -> & Ch).
  destruct (dfields w true dn fs olds (done_ ++ d :: todo') s1 _ _) as [[[vs' s'] u']| | |] eqn:DD; cbn [rbind] in D; try discriminate D. injection D as <- <- <-.
  assert (Ev : (if scoped (f_type f) then Z.of_nat (length (filter (of_kind false) done_)) else Z.of_nat (length (filter (of_kind false) done_)) + 1) = Z.of_nat (length (filter (of_kind false) (done_ ++ [d])))).
  { rewrite filter_app, app_length. cbn [filter]. change (of_kind false d) with (Bool.eqb (is_sc d) false). rewrite Kd. destruct (scoped (f_type f)); cbn [Bool.eqb length]; lia. }
  assert (En : (if scoped (f_type f) then Z.of_nat (length (filter (of_kind true) done_)) + 1 else Z.of_nat (length (filter (of_kind true) done_))) = Z.of_nat (length (filter (of_kind true) (done_ ++ [d])))).
  { rewrite filter_app, app_length. cbn [filter]. change (of_kind true d) with (Bool.eqb (is_sc d) true). rewrite Kd. destruct (scoped (f_type f)); cbn [Bool.eqb length]; lia. }
  rewrite Ev, En in DD.
  specialize (IH todo' (done_ ++ [d]) olds s1 _ _ _ rest ltac:(now rewrite <- app_assoc) M' N2 DD).
  cbn [paste_fields flat_map]. rewrite <- app_assoc. rewrite N1', N1. change (0 <? zlen (@nil Z)) with false. cbv iota. cbn [ebind fst snd negb]. fold i. rewrite Ev, En, erun_bind.
  rewrite (ord_field _ _ old ty d s v s1) by (eauto using sound_in, sound_len; rewrite matches_pos; exact On). rewrite erun_bind, IH. reflexivity.
Qed.
(** the elements of a sequence, of a set, of a table *)
Lemma ord_values {B} (f : doc -> B -> rstate -> res (B * rstate)) (g : bytes * value -> B -> rstate -> eprog (B * rstate)) :
  (forall k v acc s r, f (DVal k v) acc s = Ok r -> g (k, v) acc s = ERet r) ->
  forall its acc s r ty rest F, Forall (fun d => is_sc d = false) its -> all_shaped its -> (length its < F)%nat -> (0 < Fu)%nat -> deach f its acc s = Ok r ->
  erun (each_value_read Fu g F acc (unode ty []) s) (flat_map events its ++ ev_end :: rest) = Some (Ok ((fst r, pnode ty [], snd r), rest)).
Proof.
  intros FV. induction its as [|d its IH]; intros acc s r ty rest F K A L LF D; (destruct F as [|F]; [cbn [length] in L; lia|]); cbn [each_value_read].
  - cbn [deach] in D. injection D as <-. cbn [flat_map app fst snd]. rewrite take_read_value by constructor. do 2 rewrite erun_bind.
    pose proof (scan_end false (IdPos 0) ty rest [] Fu [] (Forall_nil _) (Forall_nil _) ltac:(cbn [flat_map length]; lia)) as X. cbn [flat_map app] in X. rewrite X. reflexivity.
  - inversion K as [|? ? K1 K2]; inversion A as [|? ? A1 A2]; subst. destruct d as [k v|]; [|discriminate K1]. cbn [deach] in D.
    destruct (f (DVal k v) acc s) as [[acc' s']| | |] eqn:E; cbn [rbind] in D; try discriminate D.
    cbn [flat_map]. rewrite <- app_assoc. rewrite take_read_value by constructor. do 2 rewrite erun_bind.
    pose proof (scan_stop false (IdPos 0) ty (DVal k v) (flat_map events its ++ ev_end :: rest) [] Fu [] (Forall_nil _) (Forall_nil _) A1 eq_refl ltac:(cbn [flat_map length]; lia)) as X. cbn [flat_map] in X.
    change ([] ++ events (DVal k v) ++ flat_map events its ++ ev_end :: rest) with (events (DVal k v) ++ flat_map events its ++ ev_end :: rest) in X. rewrite X. cbn [erun head_event content app fst snd].
    change (l_parsed (unode ty [])) with false. cbv iota. rewrite (FV _ _ _ _ _ E). cbn [ebind fst snd]. apply IH; auto. cbn [length] in L. lia.
Qed.
Lemma ord_nodes {B} (f : doc -> B -> rstate -> res (B * rstate)) (g : bytes * lnode -> B -> rstate -> eprog (B * lnode * rstate)) (P : doc -> Prop) its0 : sound G its0 ->
  (forall {R} k ty its acc s acc' s' rest (kk : B * lnode * rstate -> eprog R) (c : B -> rstate -> unit -> eprog R), f (DScope k ty its) acc s = Ok (acc', s') -> P (DScope k ty its) -> sound G its ->
     (forall x n y, kk (x, n, y) = ebind (consume_scope Fu n) (c x y)) ->
     erun (ebind (g (k, unode ty []) acc s) kk) (flat_map events its ++ ev_end :: rest) = erun (c acc' s' tt) rest) ->
  forall its acc s r ty rest F, incl its its0 -> Forall (fun d => is_sc d = true) its -> Forall P its -> (length its < F)%nat -> deach f its acc s = Ok r ->
  erun (each_node_read Fu g F acc (unode ty []) s) (flat_map events its ++ ev_end :: rest) = Some (Ok ((fst r, pnode ty [], snd r), rest)).
Proof.
  intros SO FV. induction its as [|d its IH]; intros acc s r ty rest F IC K A L D; (destruct F as [|F]; [cbn [length] in L; lia|]); cbn [each_node_read].
  - cbn [deach] in D. injection D as <-. cbn [flat_map app fst snd]. rewrite take_read_node by constructor. do 2 rewrite erun_bind.
    pose proof (scan_end true (IdPos 0) ty rest [] Fu [] (Forall_nil _) (Forall_nil _) ltac:(destruct SO; cbn [flat_map length]; lia)) as X. cbn [flat_map app] in X. rewrite X. reflexivity.
  - inversion K as [|? ? K1 K2]; inversion A as [|? ? A1 A2]; subst. destruct d as [|k t' sub]; [discriminate K1|]. cbn [deach] in D.
    destruct (f (DScope k t' sub) acc s) as [[acc' s']| | |] eqn:E; cbn [rbind] in D; try discriminate D.
    assert (I0 : In (DScope k t' sub) its0) by (apply IC; now left).
    cbn [flat_map]. rewrite <- app_assoc. rewrite take_read_node by constructor. do 2 rewrite erun_bind.
    pose proof (scan_stop true (IdPos 0) ty (DScope k t' sub) (flat_map events its ++ ev_end :: rest) [] Fu [] (Forall_nil _) (Forall_nil _) (sound_in _ _ _ SO I0) eq_refl ltac:(destruct SO; cbn [flat_map length]; lia)) as X.
    change (flat_map events [] ++ events (DScope k t' sub) ++ flat_map events its ++ ev_end :: rest) with (events (DScope k t' sub) ++ flat_map events its ++ ev_end :: rest) in X. rewrite X. cbn [erun head_event content app fst snd].
    change (l_parsed (unode ty [])) with false. cbv iota. rewrite <- app_assoc. cbn [app]. change (v_type (val_type t')) with t'. change (mkL false (empty_node t')) with (unode t' []).
    rewrite (FV _ _ _ _ _ _ _ _ _ _ (fun acc' s' _ => each_node_read Fu g F acc' (unode ty []) s') E A1 (sound_sub _ _ _ _ _ SO I0)); [|intros; reflexivity].
    apply IH; auto; [intros x Ix; apply IC; now right|cbn [length] in L; lia].
Qed.
Lemma elem_values {B} (add : cv -> B -> B) e k v acc s r : delem w true dn add e (DVal k v) acc s = Ok r -> elem_value w add e (k, v) acc s = ERet r.
Proof. unfold delem, elem_value, dchild. cbn [snd]. destruct (paste_value w e (w_new w e) v) as [x| | |]; cbn [rbind elift ebind]; intros H; try discriminate H. now injection H as <-. Qed.
Lemma entry_values e k v acc s r : dtab w true dn e (DVal k v) acc s = Ok r -> entry_value w e (k, v) acc s = ERet r.
Proof. unfold dtab, entry_value, dchild. cbn [fst snd S_Tree.doc_name]. destruct (paste_value w e (w_new w e) v) as [x| | |]; cbn [rbind elift ebind]; intros H; try discriminate H. now injection H as <-. Qed.
Lemma elem_nodes {B R} (add : cv -> B -> B) e k ty its acc s acc' s' rest (kk : B * lnode * rstate -> eprog R) (c : B -> rstate -> unit -> eprog R) :
  delem w true dn add e (DScope k ty its) acc s = Ok (acc', s') -> oc e (DScope k ty its) -> sound G its -> (forall x n y, kk (x, n, y) = ebind (consume_scope Fu n) (c x y)) ->
  erun (ebind (elem_node w pn add e (k, unode ty []) acc s) kk) (flat_map events its ++ ev_end :: rest) = erun (c acc' s' tt) rest.
Proof.
  unfold delem, elem_node. cbn [snd]. intros H O S K. destruct (dchild w true dn e (w_new w e) (DScope k ty its) s) as [[v s0]| | |] eqn:E; cbn [rbind] in H; try discriminate H. injection H as <- <-.
  rewrite erun_assoc. apply (ord_child e (w_new w e) k ty its s v s0 rest _ (fun v s' => c (add v acc) s')); [exact E|exact O|exact S|]. intros x n y. cbn [ebind]. apply K.
Qed.
Lemma entry_nodes {R} e k ty its acc s acc' s' rest (kk : list (bytes * cv) * lnode * rstate -> eprog R) (c : list (bytes * cv) -> rstate -> unit -> eprog R) :
  dtab w true dn e (DScope k ty its) acc s = Ok (acc', s') -> oc e (DScope k ty its) -> sound G its -> (forall x n y, kk (x, n, y) = ebind (consume_scope Fu n) (c x y)) ->
  erun (ebind (entry_node w pn e (k, unode ty []) acc s) kk) (flat_map events its ++ ev_end :: rest) = erun (c acc' s' tt) rest.
Proof.
  unfold dtab, entry_node. cbn [fst snd S_Tree.doc_name]. intros H O S K. destruct (dchild w true dn e (w_new w e) (DScope k ty its) s) as [[v s0]| | |] eqn:E; cbn [rbind] in H; try discriminate H. injection H as <- <-.
  rewrite erun_assoc. apply (ord_child e (w_new w e) k ty its s v s0 rest _ (fun v s' => c (tab_insert k v acc) s')); [exact E|exact O|exact S|]. intros x n y. cbn [ebind]. apply K.
Qed.
(** two members with names that are not the same *)
Lemma ord_two {R} ta tb ka kb oa ob ty d1 d2 s x s1 u1 y s2 u2 rest (kk : cv -> cv -> lnode -> rstate -> eprog R) : ka <> kb -> onamed oc ta ka d1 -> onamed oc tb kb d2 -> sound G [d1; d2] ->
  dfield w true dn ta (IdName ka) oa [d1; d2] s = Ok (x, s1, u1) -> dfield w true dn tb (IdName kb) ob [d1; d2] s1 = Ok (y, s2, u2) ->
  erun (ebind (paste_field w pn Fu ta (IdName ka) oa (unode ty []) s) (fun r => let '(x, n1, s1) := r in
        ebind (paste_field w pn Fu tb (IdName kb) ob n1 s1) (fun r => let '(y, n2, s2) := r in kk x y n2 s2))) (flat_map events [d1; d2] ++ rest) =
  erun (kk x y (unode ty []) s2) rest /\ u2 = 2%nat.
Proof.
  intros NE [N1 O1] [N2 O2] SO D1 D2.
  assert (I1 : In d1 [d1; d2]) by now left. assert (I2 : In d2 [d1; d2]) by (right; now left).
  assert (M1 : of_name (scoped ta) ka d1 = true) by (unfold of_name; rewrite (ochild_kind _ _ O1), N1, bytes_eqb_refl; now destruct (scoped ta)).
  assert (M2 : of_name (scoped tb) kb d2 = true) by (unfold of_name; rewrite (ochild_kind _ _ O2), N2, bytes_eqb_refl; now destruct (scoped tb)).
  destruct (dfield_at _ _ _ _ _ _ _ _ (select_name _ _ [] d1 [d2] M1 (Forall_nil _)) D1) as (v & s0 & E & C1). injection E as -> -> ->.
  destruct (dfield_at _ _ _ _ _ _ _ _ (select_name _ _ [d1] d2 [] M2 ltac:(constructor; [congruence|constructor])) D2) as (v2 & s3 & E & C2). injection E as -> -> ->.
  split; [|reflexivity]. cbn [flat_map]. rewrite app_nil_r, <- app_assoc, erun_bind.
  rewrite (ord_field ta _ oa ty d1 s v s0) by (eauto using sound_in, sound_len; now rewrite matches_name). rewrite erun_bind.
  rewrite (ord_field tb _ ob ty d2 s0 v2 s3) by (eauto using sound_in, sound_len; now rewrite matches_name). reflexivity.
Qed.
Lemma entries_nodes {R} kt e k ty its acc s acc' s' rest (kk : list (cv * cv) * lnode * rstate -> eprog R) (c : list (cv * cv) -> rstate -> unit -> eprog R) :
  dentry w true dn kt e (DScope k ty its) acc s = Ok (acc', s') -> (exists d1 d2, its = [d1; d2] /\ onamed oc kt str_key d1 /\ onamed oc e str_value d2) -> sound G its ->
  (forall x n y, kk (x, n, y) = ebind (consume_scope Fu n) (c x y)) ->
  erun (ebind (elem_entry w pn Fu kt e (k, unode ty []) acc s) kk) (flat_map events its ++ ev_end :: rest) = erun (c acc' s' tt) rest.
Proof.
  unfold dentry, elem_entry. cbn [snd items]. intros H (d1 & d2 & -> & O1 & O2) S K.
  destruct (dfield w true dn kt (IdName str_key) (w_new w kt) [d1; d2] s) as [[[x s1] u1]| | |] eqn:D1; cbn [rbind] in H; try discriminate H.
  destruct (dfield w true dn e (IdName str_value) (w_new w e) [d1; d2] s1) as [[[y s2] u2]| | |] eqn:D2; cbn [rbind] in H; try discriminate H.
  destruct (quiet true [d1; d2] (Nat.max u1 u2)); [|discriminate H]. injection H as <- <-. rewrite erun_bind.
  destruct (ord_two kt e str_key str_value _ _ ty d1 d2 s x s1 u1 y s2 u2 (ev_end :: rest) (fun key val c2 s2 => ERet (emplace (w_lt w) fst (key, val) acc, c2, s2)) ltac:(discriminate) O1 O2 S D1 D2) as [E _].
  rewrite E. cbn [erun]. rewrite K. destruct S as [_ L]. destruct Fu as [|n]; [lia|]. reflexivity.
Qed.
Lemma kind_all e its : Forall (ochild oc e) its -> kind_items (scoped e) its = its.
Proof. unfold kind_items. induction 1 as [|d its H _ IH]; [reflexivity|]. cbn [filter]. unfold of_kind at 1. rewrite (ochild_kind _ _ H), eqb_reflx. now rewrite IH. Qed.
Lemma upto_all e : forall its, Forall (ochild oc e) its -> upto (scoped e) (length its) its = length its.
Proof. induction 1 as [|d its H _ IH]; [reflexivity|]. cbn [length upto]. unfold of_kind. rewrite (ochild_kind _ _ H), eqb_reflx. now rewrite IH. Qed.
Lemma ord_array e its0 ty : sound G its0 -> forall its olds s count vs s' rest, incl its its0 -> Forall (ochild oc e) its -> length olds = length its -> darray w true dn e olds its s = Ok (vs, s') ->
  erun (array_read w pn Fu e count olds (unode ty []) s) (flat_map events its ++ rest) = Some (Ok ((vs, unode ty [], s'), rest)).
Proof.
  intros SO. induction its as [|d its IH]; intros [|old olds] s count vs s' rest IC O L D; try discriminate L.
  - cbn [darray] in D. injection D as <- <-. reflexivity.
  - inversion O as [|? ? O1 O2]; subst. cbn [darray] in D. destruct (dchild w true dn e old d s) as [[v s1]| | |] eqn:Ch; cbn [rbind] in D; try discriminate D.
    destruct (darray w true dn e olds its s1) as [[vs1 s2]| | |] eqn:D1; cbn [rbind] in D; try discriminate D. injection D as <- <-.
    cbn [array_read flat_map]. change (l_parsed (unode ty [])) with false. cbv iota. rewrite <- app_assoc, erun_bind. assert (I : In d its0) by (apply IC; now left).
    rewrite (ord_field e _ old ty d s v s1) by (eauto using sound_in, sound_len; rewrite matches_pos; unfold of_kind; rewrite (ochild_kind _ _ O1); apply eqb_reflx).
    rewrite erun_bind. rewrite (IH olds s1 _ vs1 s2) by (auto; intros x Ix; apply IC; now right). reflexivity.
Qed.
Lemma events_count its : (length its <= length (flat_map events its))%nat.
Proof. induction its as [|d its IH]; [cbn; lia|]. cbn [flat_map length]. rewrite app_length, events_head. cbn [length]. lia. Qed.
Lemma fin_whole its u rest ty : fin its u rest (unode ty []) (ev_end :: rest). Proof. right. split; [reflexivity|now left]. Qed.
Lemma fin_parsed its u rest ty : fin its u rest (pnode ty []) rest. Proof. left. now split. Qed.
Lemma omember_ochild fs its : Forall2 (omember oc) fs its -> Forall2 (fun f => ochild oc (f_type f)) fs its.
Proof. induction 1 as [|f d fs its [_ H] _ IH]; constructor; auto. Qed.
Lemma omember_names fs its : Forall2 (omember oc) fs its -> map doc_name its = map f_name fs.
Proof. induction 1 as [|f d fs its [H _] _ IH]; cbn [map]; [reflexivity|]. now rewrite H, IH. Qed.
Lemma all_kind e its : Forall (ochild oc e) its -> Forall (fun d => is_sc d = scoped e) its.
Proof. induction 1; constructor; auto using ochild_kind. Qed.
Lemma all_oc e its : scoped e = true -> Forall (ochild oc e) its -> Forall (oc e) its.
Proof. intros S. induction 1 as [|d its H _ IH]; constructor; auto. destruct d; cbn [ochild] in H; [congruence|tauto]. Qed.
Hypothesis RG : regular w.
Hypothesis SI : simple_options w.
Lemma ord_class c olds ty its s vs s' u rest : Forall2 (omember oc) (w_cls w c) its -> sound G its -> dfields w true dn (w_cls w c) olds its s 0 0 = Ok (vs, s', u) ->
  erun (paste_fields w pn Fu (w_cls w c) olds (unode ty []) s 0 0) (flat_map events its ++ rest) = Some (Ok ((vs, unode ty [], s'), rest)).
Proof.
  intros O S D. destruct (proj1 RG c) as [[NP ND]|UN].
  - apply (ord_fields ty its ltac:(now rewrite (omember_names _ _ O)) S _ its [] olds s 0 0 vs s' u rest eq_refl O NP); [|exact D]. intros f. apply (SI c).
  - exact (ord_places ty its S _ its [] olds s vs s' u rest eq_refl (omember_ochild _ _ O) UN D).
Qed.
Lemma ord_each {B} sc (fd : doc -> B -> rstate -> res (B * rstate)) fv fn (P : doc -> Prop) its acc s r ty rest : sound G its -> Forall (fun d => is_sc d = sc) its -> (sc = true -> Forall P its) ->
  (forall k v acc s r, fd (DVal k v) acc s = Ok r -> fv (k, v) acc s = ERet r) ->
  (forall {R} k ty its acc s acc' s' rest (kk : B * lnode * rstate -> eprog R) (c : B -> rstate -> unit -> eprog R), fd (DScope k ty its) acc s = Ok (acc', s') -> P (DScope k ty its) -> sound G its ->
     (forall x n y, kk (x, n, y) = ebind (consume_scope Fu n) (c x y)) ->
     erun (ebind (fn (k, unode ty []) acc s) kk) (flat_map events its ++ ev_end :: rest) = erun (c acc' s' tt) rest) ->
  deach fd its acc s = Ok r -> erun (each_item Fu sc fv fn acc (unode ty []) s) (flat_map events its ++ ev_end :: rest) = Some (Ok ((fst r, pnode ty [], snd r), rest)).
Proof.
  intros S K P1 FV FN D. unfold each_item. change (l_parsed (unode ty [])) with false. cbv iota. pose proof (events_count its). destruct S as [A L]. destruct sc.
  - refine (ord_nodes fd fn P its (conj A L) _ its acc s r ty rest Fu (incl_refl _) K (P1 eq_refl) ltac:(lia) D). intros. eapply FN; eauto.
  - refine (ord_values fd fv FV its acc s r ty rest Fu K A ltac:(lia) ltac:(lia) D).
Qed.
Lemma no_skip its : forallb (fun d : doc => negb (is_sc d)) (skipn (length its) its) = true. Proof. now rewrite skipn_all. Qed.
Lemma ord_step t old k ty its s v s' u rest : dstep w true dn t old k ty its s = Ok (v, s', u) -> ostep w oc t (DScope k ty its) -> sound G its ->
  exists n' tail, erun (paste_step w pn Fu t old (unode ty []) s) (flat_map events its ++ ev_end :: rest) = Some (Ok ((v, n', s'), tail)) /\ fin its u rest n' tail.
Proof.
  intros D O S. unfold dstep in D. unfold paste_step. cbv zeta in *. change (n_type (l_node (unode ty []))) with ty. cbn [items ostep] in O.
  destruct t as [t|e|e|e n| |c|e|e|kt e|e|m e|a b|c|e|e|e|e|u0]; try discriminate D; cbn [items ostep] in O.
  - (* class *) destruct (is_scope ty); cbn [negb] in *; [|discriminate D]. destruct old as [| |olds| | | | | |]; try discriminate D.
    destruct (dfields w true dn (w_cls w c) olds its s 0 0) as [[[vs s1] u1]| | |] eqn:E; cbn [rbind] in D; try discriminate D. injection D as <- <- <-.
    exists (unode ty []), (ev_end :: rest). split; [|apply fin_whole]. rewrite erun_bind. rewrite (ord_class _ _ _ _ _ _ _ _ _ O S E). reflexivity.
  - (* vector *) destruct (is_scope ty); cbn [negb] in *; [|discriminate D]. rewrite (kind_all _ _ O) in D.
    destruct (deach _ its [] s) as [[vs s1]| | |] eqn:E; cbn [rbind] in D; try discriminate D. injection D as <- <- <-.
    exists (pnode ty []), rest. split; [|apply fin_parsed]. rewrite erun_bind.
    rewrite (ord_each (scoped e) (delem w true dn (fun v acc => acc ++ [v]) e) _ _ (oc e) its [] s (vs, s1) ty rest S (all_kind _ _ O) (fun Sc => all_oc _ _ Sc O)); [reflexivity|apply elem_values|intros; eapply elem_nodes; eauto|exact E].
  - (* set *) destruct (is_scope ty); cbn [negb] in *; [|discriminate D]. rewrite (kind_all _ _ O) in D.
    destruct (deach _ its [] s) as [[vs s1]| | |] eqn:E; cbn [rbind] in D; try discriminate D. injection D as <- <- <-.
    exists (pnode ty []), rest. split; [|apply fin_parsed]. rewrite erun_bind.
    rewrite (ord_each (scoped e) (delem w true dn (emplace (w_lt w) (fun v => v)) e) _ _ (oc e) its [] s (vs, s1) ty rest S (all_kind _ _ O) (fun Sc => all_oc _ _ Sc O)); [reflexivity|apply elem_values|intros; eapply elem_nodes; eauto|exact E].
  - (* map *) destruct (is_scope ty); cbn [negb] in *; [|discriminate D].
    assert (K : Forall (fun d => is_sc d = true) its) by (eapply Forall_impl; [|exact O]; intros x H; apply H).
    assert (KI : kind_items true its = its) by (unfold kind_items; clear - K; induction K as [|d its H _ IH]; [reflexivity|]; cbn [filter]; unfold of_kind at 1; rewrite H; cbn [Bool.eqb]; now rewrite IH). rewrite KI in D.
    destruct (deach _ its [] s) as [[vs s1]| | |] eqn:E; cbn [rbind] in D; try discriminate D. injection D as <- <- <-.
    exists (pnode ty []), rest. split; [|apply fin_parsed]. rewrite erun_bind.
    rewrite (ord_each true (dentry w true dn kt e) _ _ (fun x => exists d1 d2, items x = [d1; d2] /\ onamed oc kt str_key d1 /\ onamed oc e str_value d2) its [] s (vs, s1) ty rest S K); [reflexivity| | | |exact E].
    + intros _. eapply Forall_impl; [|exact O]. intros x H. apply H.
    + intros k0 v0 acc s0 r H. discriminate H.
    + intros. eapply entries_nodes; eauto.
  - (* table *) destruct (ty_eqb ty TObject); cbn [negb] in *; [|discriminate D]. rewrite (kind_all _ _ O) in D.
    destruct (deach _ its [] s) as [[vs s1]| | |] eqn:E; cbn [rbind] in D; try discriminate D. injection D as <- <- <-.
    exists (pnode ty []), rest. split; [|apply fin_parsed]. rewrite erun_bind.
    rewrite (ord_each (scoped e) (dtab w true dn e) _ _ (oc e) its [] s (vs, s1) ty rest S (all_kind _ _ O) (fun Sc => all_oc _ _ Sc O)); [reflexivity|apply entry_values|intros; eapply entry_nodes; eauto|exact E].
  - (* array *) destruct (is_scope ty); cbn [negb] in *; [|discriminate D]. destruct old as [| |olds| | | | | |]; try discriminate D.
    destruct (Nat.eqb (length olds) m) eqn:L1; cbn [negb] in *; [|discriminate D]. rewrite (kind_all _ _ O) in D. destruct (Nat.eqb (length its) m) eqn:L2; cbn [negb] in *; [|discriminate D].
    destruct (darray w true dn e olds its s) as [[vs s1]| | |] eqn:E; cbn [rbind] in D; try discriminate D. injection D as <- <- <-.
    change (l_parsed (unode ty [])) with false. cbv iota. exists (unode ty []), (ev_end :: rest). split; [|apply fin_whole]. rewrite erun_bind.
    rewrite (ord_array e its ty S its olds s 0 vs s1 (ev_end :: rest) (incl_refl _) O) by (auto; lia). reflexivity.
  - (* pair *) destruct (ty_eqb ty TObject); cbn [negb] in *; [|discriminate D]. destruct old as [| |[|oa [|ob [|]]]| | | | | |]; try discriminate D. destruct O as (d1 & d2 & -> & O1 & O2).
    destruct (dfield w true dn a (IdName str_first) oa [d1; d2] s) as [[[x s1] u1]| | |] eqn:D1; cbn [rbind] in D; try discriminate D.
    destruct (dfield w true dn b (IdName str_second) ob [d1; d2] s1) as [[[y s2] u2]| | |] eqn:D2; cbn [rbind] in D; try discriminate D. injection D as <- <- <-.
    exists (unode ty []), (ev_end :: rest). split; [|apply fin_whole].
    destruct (ord_two a b str_first str_second oa ob ty d1 d2 s x s1 u1 y s2 u2 (ev_end :: rest) (fun x y n2 s2 => ERet (VList [x; y], n2, s2)) ltac:(discriminate) O1 O2 S D1 D2) as [E _]. exact E.
  - (* tuple *) destruct (is_scope ty); cbn [negb] in *; [|discriminate D]. destruct old as [| |olds| | | | | |]; try discriminate D.
    destruct (dfields w true dn _ olds its s 0 0) as [[[vs s1] u1]| | |] eqn:E; cbn [rbind] in D; try discriminate D. injection D as <- <- <-.
    exists (unode ty []), (ev_end :: rest). split; [|apply fin_whole]. rewrite erun_bind.
    assert (O' : Forall2 (fun f => ochild oc (f_type f)) (map (fun f => mkField [] false (f_type f)) (w_cls w c)) its) by (clear - O; induction O; cbn [map]; constructor; auto).
    assert (N : no_names (map (fun f => mkField [] false (f_type f)) (w_cls w c))) by (unfold no_names; apply Forall_forall; intros x I; apply in_map_iff in I; destruct I as (y & <- & _); now split).
    pose proof (ord_places ty its S _ its [] olds s vs s1 u1 (ev_end :: rest) eq_refl O' N E) as X. cbn [filter length Z.of_nat] in X. rewrite X. reflexivity.
  - (* pointer *) destruct (dn e (w_new w e) (DScope k ty its) s) as [[[x s1] u1]| | |] eqn:E; cbn [rbind] in D; try discriminate D. injection D as <- <- <-.
    destruct (LZ _ _ _ _ _ _ _ _ _ rest E O S) as (n' & tail & X & Fn). exists n', tail. split; [|exact Fn]. rewrite erun_bind, X. reflexivity.
  - destruct (dn e (w_new w e) (DScope k ty its) s) as [[[x s1] u1]| | |] eqn:E; cbn [rbind] in D; try discriminate D. injection D as <- <- <-.
    destruct (LZ _ _ _ _ _ _ _ _ _ rest E O S) as (n' & tail & X & Fn). exists n', tail. split; [|exact Fn]. rewrite erun_bind, X. reflexivity.
  - (* shared pointer *) destruct O as (kv & r & -> & Or);
    destruct (dfield w true dn (CNum TUI64) (IdName str_shared_key) (VNum 0) (DVal str_shared_key kv :: r) s) as [q| | |] eqn:D1; cbn [rbind] in D; try discriminate D;
    destruct (dfield_at (CNum TUI64) (IdName str_shared_key) (VNum 0) (DVal str_shared_key kv :: r) s 0%nat (DVal str_shared_key kv) q eq_refl D1) as (x & s1 & -> & C1);
    rewrite erun_bind; cbn [flat_map]; rewrite <- app_assoc;
    (rewrite (ord_field (CNum TUI64) (IdName str_shared_key) (VNum 0) ty (DVal str_shared_key kv) s x s1 _ eq_refl eq_refl (sound_in _ _ _ S (or_introl eq_refl)) (sound_len _ _ S (or_introl eq_refl)) C1));
    destruct x as [key| | | | | | | |]; try discriminate D;
    (destruct (find_key key (r_tab s1)) as [a|] eqn:FK;
     [ destruct (nth_error (r_heap s1) a) as [[ue y]|]; try discriminate D; destruct (ct_eqb ue e); try discriminate D; injection D as <- <- <-;
       do 2 eexists; split; [reflexivity|]; right; split; [reflexivity|]; right; reflexivity
     | destruct (dfield w true dn e (IdName str_shared_value) (w_new w e) (DVal str_shared_key kv :: r) s1) as [q| | |] eqn:D2; cbn [rbind] in D; try discriminate D;
       destruct Or as [->|(d2 & -> & N2 & O2)];
       [ exfalso; unfold dfield in D2; cbn [select nth_match] in D2; unfold of_name in D2; cbn [S_Tree.doc_name] in D2;
         change (bytes_eqb str_shared_key str_shared_value) with false in D2; rewrite andb_false_r in D2; discriminate D2
       | assert (M2 : of_name (scoped e) str_shared_value d2 = true) by (unfold of_name; rewrite (ochild_kind _ _ O2), N2, bytes_eqb_refl; now destruct (scoped e));
         assert (SE : select (scoped e) (IdName str_shared_value) [DVal str_shared_key kv; d2] = Some (1%nat, d2)) by (apply (select_name _ _ [DVal str_shared_key kv] d2 [] M2); constructor; [discriminate|constructor]);
         destruct (dfield_at e (IdName str_shared_value) (w_new w e) _ s1 1%nat d2 q SE D2) as (x & s2 & -> & C2); cbn [rbind] in D; injection D as <- <- <-;
         rewrite erun_bind; cbn [flat_map]; rewrite app_nil_r;
         (rewrite (ord_field e (IdName str_shared_value) (w_new w e) ty d2 s1 x s2) by (eauto using sound_in, sound_len, in_eq, in_cons; now rewrite matches_name));
         do 2 eexists; split; [reflexivity|apply fin_whole] ] ]).
  - destruct O as (kv & r & -> & Or);
    destruct (dfield w true dn (CNum TUI64) (IdName str_shared_key) (VNum 0) (DVal str_shared_key kv :: r) s) as [q| | |] eqn:D1; cbn [rbind] in D; try discriminate D;
    destruct (dfield_at (CNum TUI64) (IdName str_shared_key) (VNum 0) (DVal str_shared_key kv :: r) s 0%nat (DVal str_shared_key kv) q eq_refl D1) as (x & s1 & -> & C1);
    rewrite erun_bind; cbn [flat_map]; rewrite <- app_assoc;
    (rewrite (ord_field (CNum TUI64) (IdName str_shared_key) (VNum 0) ty (DVal str_shared_key kv) s x s1 _ eq_refl eq_refl (sound_in _ _ _ S (or_introl eq_refl)) (sound_len _ _ S (or_introl eq_refl)) C1));
    destruct x as [key| | | | | | | |]; try discriminate D;
    (destruct (find_key key (r_tab s1)) as [a|] eqn:FK;
     [ destruct (nth_error (r_heap s1) a) as [[ue y]|]; try discriminate D; destruct (ct_eqb ue e); try discriminate D; injection D as <- <- <-;
       do 2 eexists; split; [reflexivity|]; right; split; [reflexivity|]; right; reflexivity
     | destruct (dfield w true dn e (IdName str_shared_value) (w_new w e) (DVal str_shared_key kv :: r) s1) as [q| | |] eqn:D2; cbn [rbind] in D; try discriminate D;
       destruct Or as [->|(d2 & -> & N2 & O2)];
       [ exfalso; unfold dfield in D2; cbn [select nth_match] in D2; unfold of_name in D2; cbn [S_Tree.doc_name] in D2;
         change (bytes_eqb str_shared_key str_shared_value) with false in D2; rewrite andb_false_r in D2; discriminate D2
       | assert (M2 : of_name (scoped e) str_shared_value d2 = true) by (unfold of_name; rewrite (ochild_kind _ _ O2), N2, bytes_eqb_refl; now destruct (scoped e));
         assert (SE : select (scoped e) (IdName str_shared_value) [DVal str_shared_key kv; d2] = Some (1%nat, d2)) by (apply (select_name _ _ [DVal str_shared_key kv] d2 [] M2); constructor; [discriminate|constructor]);
         destruct (dfield_at e (IdName str_shared_value) (w_new w e) _ s1 1%nat d2 q SE D2) as (x & s2 & -> & C2); cbn [rbind] in D; injection D as <- <- <-;
         rewrite erun_bind; cbn [flat_map]; rewrite app_nil_r;
         (rewrite (ord_field e (IdName str_shared_value) (w_new w e) ty d2 s1 x s2) by (eauto using sound_in, sound_len, in_eq, in_cons; now rewrite matches_name));
         do 2 eexists; split; [reflexivity|apply fin_whole] ] ]).
  - (* a derived class *)
  destruct (is_scope ty); cbn [negb] in *; [|discriminate D]. destruct O as (tv & r & -> & Om). cbn [select nth_match] in D. change (of_name false str_type_id (DVal str_type_id tv)) with true in D. cbv iota in D.
  destruct (negb (ty_eqb (v_type tv) TString) && negb (ty_eqb (v_type tv) TBinary)) eqn:T; [discriminate D|]. destruct (w_reg w u0 (v_data tv, v_enc tv)) as [[c|]| | |] eqn:W; cbn [rbind] in D; try discriminate D.
  destruct (w_new w (CCls c)) as [| |olds| | | | | |] eqn:NW; try discriminate D.
  destruct (dfields w true dn (w_cls w c) olds (DVal str_type_id tv :: r) s 1 0) as [[[vs s1] u1]| | |] eqn:E; cbn [rbind] in D; try discriminate D. injection D as <- <- <-.
  specialize (Om c eq_refl). destruct (proj2 RG _ _ _ W) as [[NP ND] NI].
  exists (unode ty []), (ev_end :: rest). split; [|apply fin_whole]. cbn [flat_map]. rewrite <- app_assoc.
  unfold field_value. change (l_parsed (unode ty [])) with false. cbv iota. rewrite take_read_value by constructor. do 3 rewrite erun_bind.
  pose proof (scan_stop false (IdName str_type_id) ty (DVal str_type_id tv) (flat_map events r ++ ev_end :: rest) [] Fu [] (Forall_nil _) (Forall_nil _) (sound_in _ _ _ S (or_introl eq_refl)) eq_refl ltac:(destruct S; cbn [flat_map length]; lia)) as X.
  change (flat_map events [] ++ events (DVal str_type_id tv) ++ flat_map events r ++ ev_end :: rest) with (events (DVal str_type_id tv) ++ flat_map events r ++ ev_end :: rest) in X.
  rewrite X. cbn [erun head_event content app fst snd need ebind]. rewrite T. cbn [andb]. rewrite W. cbn [elift ebind]. rewrite NW. rewrite erun_bind.
  assert (NDn : NoDup (map S_Tree.doc_name (DVal str_type_id tv :: r))) by (cbn [map S_Tree.doc_name]; rewrite (omember_names _ _ Om); now constructor).
  rewrite (ord_fields ty (DVal str_type_id tv :: r) NDn S (w_cls w c) r [DVal str_type_id tv] olds s 1 0 vs s1 u1 (ev_end :: rest) eq_refl Om NP (fun f => SI c f) E). reflexivity.
Qed.
End Run.

Theorem ord_said : forall F G w t old k ty its s v s' u rest, regular w -> simple_options w -> said F w true t old (DScope k ty its) s = Ok (v, s', u) -> ordered F w t (DScope k ty its) -> sound G its ->
  exists n' tail, erun (paste_node (F + G) w t old (unode ty []) s) (flat_map events its ++ ev_end :: rest) = Some (Ok ((v, n', s'), tail)) /\ fin its u rest n' tail.
Proof.
  induction F as [|f IH]; intros G w t old k ty its s v s' u rest RG SI H O S; [discriminate|]. cbn [said] in H. cbn [Nat.add paste_node]. cbn [ordered] in O.
  refine (ord_step w G (f + G) ltac:(lia) (paste_node (f + G) w) (said f w true) (ordered f w) _ RG SI t old k ty its s v s' u rest H O S).
  intros. eapply IH; eauto.
Qed.
(** a value that is the only item of the root, or a scope *)
Definition in_order (w : world) (t : ct) (d : doc) : Prop := if scoped t then forall F, ordered F w t d else exists v k ty k', d = DScope k ty [DVal k' v].
Theorem ord_restored F w t old d v s : regular w -> simple_options w -> shaped d -> is_sc d = true -> in_order w t d -> says F w true t old d rs_new = Ok (v, s) ->
  forall G, (F + length (events d) <= G)%nat -> exists tail, erun (restore_prog G w t old) (events d) = Some (Ok ((v, s), tail)).
Proof.
  intros RG SI Sh Sc O H G HG. destruct d as [|k ty its]; [discriminate Sc|]. pose proof Sh as Sh'. apply shaped_scope in Sh'. destruct Sh' as [T A]. set (n := length (events (DScope k ty its))) in *.
  assert (S : sound n its) by (split; [exact A|unfold n; cbn [events length]; rewrite app_length; lia]).
  replace G with ((F + (G - F - n)) + n)%nat by lia. set (F' := (F + (G - F - n))%nat). assert (LF : (F <= F')%nat) by (unfold F'; lia).
  unfold restore_prog. cbn [events erun]. change (v_type (val_type ty)) with ty. rewrite T. cbn [negb]. unfold says in H. unfold in_order in O. rewrite erun_bind. destruct (scoped t) eqn:St.
  - destruct (said F w true t old (DScope k ty its) rs_new) as [[[v0 s0] u]| | |] eqn:E; cbn [rbind] in H; try discriminate. injection H as -> ->.
    destruct (ord_said F' n w t old k ty its rs_new v s u [] RG SI) as (n' & tail & R & _); [|apply O|exact S|].
    + exact (said_more F F' w true true t old _ _ _ (fun e => e) LF E).
    + change (mkL false (empty_node ty)) with (unode ty []). rewrite R. cbn [erun fst snd]. eauto.
  - destruct O as (v0 & k0 & ty0 & k' & E). injection E as -> -> ->. cbn [items] in H.
    destruct (dfield w true (said F w true) t (IdPos 0) old [DVal k' v0] rs_new) as [q| | |] eqn:D; cbn [rbind] in H; try discriminate H.
    assert (SE : select (scoped t) (IdPos 0) [DVal k' v0] = Some (0%nat, DVal k' v0)) by (rewrite St; reflexivity).
    destruct (dfield_at w (said F w true) t (IdPos 0) old _ rs_new _ _ q SE D) as (x & s1 & -> & C). cbn [rbind] in H. injection H as -> ->.
    change (mkL false (empty_node ty0)) with (unode ty0 []). cbn [flat_map]. rewrite app_nil_r.
    rewrite (ord_field w n (F' + n) ltac:(lia) (paste_node (F' + n) w) (fun _ _ _ _ => Err) (fun _ _ => True)) with (v := v) (s' := s).
    + cbn [erun fst snd]. eauto.
    + intros. discriminate.
    + now rewrite St.
    + exact St.
    + eapply sound_in; [exact S|now left].
    + unfold n. cbn. lia.
    + exact C.
Qed.
