(** Objects stored by a program and restored by one whose classes have changed: all three formats. *)
From Coq Require Import ZArith List Bool Lia ZifyBool ZifyNat.
From Verif Require Import Base Lemmas M_Types M_Conv M_TpTools M_Charset M_In S_Conv S_Charset S_Doc M_OutOps S_Out M_Env M_Event S_PSrl M_PSrl S_MsgPack M_MsgPack S_Json M_Json
  M_Heap M_Out S_OutJobs M_Tree S_Tree M_TreeIO S_TreeIO M_Object S_Object S_Chars S_ObjStore M_ObjIO S_ObjIO P_In P_Reads P_Safe P_Conv P_Float P_FloatInt P_Paste P_Doc P_Text P_Charset P_PSrlDoc P_PSrlMain
  P_MsgPack P_MsgPackDoc P_MsgPackMain P_Scan P_JsonLit P_JsonDoc P_JsonMain P_Out P_Tree P_TreeOps P_TreeIO P_ObjEager P_ObjLazy P_Chars P_ObjStore P_ObjIO P_ObjFit S_Restored P_Restored S_Evolve P_ObjStore P_Evolve.
Import ListNotations.
Open Scope Z_scope.

Lemma int_wider w p a b v sv v' old : integer a -> integer b -> int_min b <= int_min a -> int_max a <= int_max b -> carried (w_fp w) p (CNum a) v -> leaf_value (CNum a) v = Some sv -> brought (w_fp w) p sv v' ->
  (exists n, v = VNum n) /\ paste_value w (CNum b) old v' = Ok v.
Proof.
  intros Ia Ib M1 M2 C L B. destruct C as [C _]. destruct v as [z|s|vs|l|l| |y|a0|c0 vs]; try discriminate L. injection L as <-. split; [now exists z|].
  assert (It : is_int_ty a = true) by (destruct a; try contradiction; reflexivity).
  assert (R : in_range a z) by (unfold in_range; destruct a; try discriminate It; exact C).
  assert (E : num_value a z = val_int a z) by (destruct a; try discriminate It; reflexivity). rewrite E in B.
  destruct (brought_int _ _ _ _ _ It R B) as (s & S1 & S2 & S3 & ->). cbn [paste_value].
  assert (T : int_or_bool b) by (unfold int_or_bool; destruct b; try contradiction; cbn; tauto). assert (Rb : in_range b z) by (unfold in_range in *; lia). now rewrite (paste_back _ _ _ _ S1 T S3 Rb).
Qed.

(** what a document that a format can carry looks like when it is read *)
Theorem fit_delivered w p hp t v name d tab F0 : (forall F, (F0 <= F)%nat -> stored_doc F w hp t v name [] = Ok (d, tab)) -> is_sc d = true -> fit_doc w p d -> size_fits p d ->
  exists bs dn size', stores_as w hp p name t v bs /\ like (brought (w_fp w) p) false d dn /\ deep_enough dn /\ loads_as (w_fp w) p bs (doc_name dn) (doc_node dn) /\
    forall q, same_format p q -> forall F before rest, (size' <= F)%nat -> forall (A : Type) (prog : eprog A) (r : A) tail, erun prog (events dn) = Some (Ok (r, tail)) ->
      exists q' b', run_block (with_parser (w_fp w) F q prog) (mkBlk before (bs ++ rest)) = Ok ((q', r), b').
Proof.
  intros TOT Sc (u & U & W & VC & J) [D SZ]. destruct (utf8_size _ _ U) as (S1 & S2 & S3).
  assert (C : carries (w_fp w) p u).
  { split; [exact W|]. split.
    - destruct d; [discriminate Sc|]. inversion U; subst. exact I.
    - destruct p; [|auto|].
      + split; [exact VC|lia].
      + split; [exact VC|]. now apply J. }
  clear Sc.
  destruct (delivers _ p d u C U) as (p' & ops & WR & VO & RD). pose proof C as (_ & Sc & _).
  pose proof (like_norm _ p d u U W (carries_vals _ _ _ C) false) as LK. change (doc_norm (norm_of p) false u) with (dnorm p u) in LK.
  assert (DE : deep_enough (dnorm p u)).
  { split; [|split].
    - apply wf_shaped. apply (wf_norm (w_fp w)); [exact W|now apply carries_vals].
    - unfold dnorm. rewrite norm_is_sc. destruct u; [destruct Sc|reflexivity].
    - unfold dnorm. rewrite norm_depth. lia. }
  exists (spec_out ops), (dnorm p u), (length (spec_out ops) + length (events u) + length (events (dnorm p u)) + 5)%nat. split; [|split; [exact LK|split; [exact DE|split]]].
  - exists F0, p'. intros F m L LB. destruct (run_jobs_spec [ToMemory ops] (heap_init m) (heap_ok_init m)) as (h & Jb & _); [constructor; [|constructor]; now split|].
    exists h. unfold store_object. rewrite TOT by lia. cbn [rbind]. rewrite (write_all_same _ _ _ _ (stored_same d)), WR. cbn [rbind]. cbn [run_jobs run_job map job_result] in Jb.
    destruct (save_buffer (heap_init m) ops) as [[bs h1]| | |]; cbn [rbind] in *; try discriminate Jb. injection Jb as -> ->. reflexivity.
  - destruct (P_TreeIO.written _ p d u C U) as (p2 & ops2 & WR2 & _ & R2). rewrite WR in WR2. injection WR2 as <- <-.
    exists (length (spec_out ops) + length (events u) + 5)%nat. intros q F before rest SF L. destruct (R2 q SF F before rest L) as (q' & Q).
    exists q'. rewrite Q. now replace (Nat.leb (depth u) 129) with true by (symmetry; apply Nat.leb_le; lia).
  - intros q SF F before rest L A prog r tail ER. eapply RD; [exact SF|lia|exact ER].
Qed.

(** what an object stored looks like when it is read *)
Theorem stored_delivered w p hp lev n t v name : regular w -> S_ObjStore.heap_ok w hp lev (carried (w_fp w) p) -> storable w hp lev (carried (w_fp w) p) n t v -> name_fits p name -> names_fit w p hp v ->
  exists d tab size, (forall F, (size <= F)%nat -> stored_doc F w hp t v name [] = Ok (d, tab)) /\
  (size_fits p d -> exists bs dn size', stores_as w hp p name t v bs /\ like (brought (w_fp w) p) false d dn /\ deep_enough dn /\ loads_as (w_fp w) p bs (doc_name dn) (doc_node dn) /\
    forall q, same_format p q -> forall F before rest, (size' <= F)%nat -> forall (A : Type) (prog : eprog A) (r : A) tail, erun prog (events dn) = Some (Ok (r, tail)) ->
      exists q' b', run_block (with_parser (w_fp w) F q prog) (mkBlk before (bs ++ rest)) = Ok ((q', r), b')).
Proof.
  intros RG HP ST N (NC & NV & NH).
  destruct (stored_total w hp lev _ HP (fun t v H => cpp_leaf _ t v (proj1 H)) n t v name ST) as (F0 & [d tab] & TOT). exists d, tab, F0. split; [exact TOT|]. intros [D SZ].
  refine (fit_delivered w p hp t v name d tab F0 TOT _ (stored_fit w p hp lev (heap_typed _ _ _ _ HP) NC NH F0 n t v name d tab (TOT F0 (le_n _)) ST N NV) (conj D SZ)).
  specialize (TOT F0 (le_n _)). unfold stored_doc in TOT. destruct (null_root t v); [discriminate|]. destruct (scoped t) eqn:SC.
  - destruct (proj2 (emit_head w hp lev (carried (w_fp w) p) (fun t v sv H => leaf_solid p t v sv (proj1 H)) _ _ _ _ _ _ _ TOT) n ST) as [K _]. now rewrite SC in K.
  - apply bind_ok in TOT. destruct TOT as ([d1 tx] & _ & E). injection E as <- <-. reflexivity.
Qed.

Theorem evolve_kept w1 w2 R direct p hp lev n t1 t2 v name old :
  regular w1 -> regular w2 -> constructs w2 -> evolution w1 w2 R direct -> becomes_root w1 w2 R t1 t2 ->
  S_ObjStore.heap_ok w1 hp lev (carried (w_fp w1) p) -> storable w1 hp lev (carried (w_fp w1) p) n t1 v -> shape w2 t2 old ->
  name_fits p name -> names_fit w1 p hp v ->
  exists d tab size, (forall F, (size <= F)%nat -> stored_doc F w1 hp t1 v name [] = Ok (d, tab)) /\
  (size_fits p d -> exists bs c, stores_as w1 hp p name t1 v bs /\ (direct = true -> restores_as w2 p bs t2 old c rs_new) /\ unwraps_as w2 p bs t2 old c rs_new /\ turns w1 w2 t1 t2 v old c).
Proof.
  intros RG1 RG NW EV BR HP ST SH N NF. pose proof EV as (_ & _ & FP).
  destruct (stored_delivered w1 p hp lev n t1 v name RG1 HP ST N NF) as (d & tab & F0 & TOT & G). exists d, tab, F0. split; [exact TOT|]. intros SZ.
  destruct (G SZ) as (bs & dn & size & SA & LK & DE & LD & RD).
  assert (LF : forall t v sv v' old, shape w2 t old -> carried (w_fp w1) p t v -> leaf_value t v = Some sv -> brought (w_fp w1) p sv v' -> paste_value w2 t old v' = Ok v)
    by (intros t y sv v' o H1 H2 H3 H4; rewrite <- FP in H4; exact (leaf_back w2 p t y sv v' o H1 (proj1 H2) H3 H4)).
  assert (LI : forall a b v sv v' old, integer a -> integer b -> int_min b <= int_min a -> int_max a <= int_max b -> carried (w_fp w1) p (CNum a) v -> leaf_value (CNum a) v = Some sv -> brought (w_fp w1) p sv v' ->
    (exists n, v = VNum n) /\ paste_value w2 (CNum b) old v' = Ok v)
    by (intros a b y sv v' o H1 H2 H3 H4 H5 H6 H7; rewrite <- FP in H5, H7; exact (int_wider w2 p a b y sv v' o H1 H2 H3 H4 H5 H6 H7)).
  destruct (evolves_says w1 w2 R direct hp lev _ (brought (w_fp w1) p) RG NW EV LF (fun a b v sv v' old => LI a b v sv v' old) (fun t v sv H => leaf_solid p t v sv (proj1 H)) (leaf_null w1 p)
    (fun s v' H => leaf_text w1 p s v' (proj1 H)) F0 n t1 t2 v false name d tab _ old rs_new (TOT F0 (le_n _)) ST BR SH LK) as (c & SY & TU).
  exists bs, c. split; [exact SA|]. split; [|split; [|exact TU]].
  - intros ->. exists (F0 + size + length (events dn) + 5)%nat. intros q F before rest SF L.
    destruct (restore_says F0 w2 t2 old _ c rs_new RG DE SY F ltac:(lia)) as [tail ER]. unfold restore_object. rewrite FP. refine (RD q SF F before rest _ _ _ _ tail ER). lia.
  - exists F0, (doc_name dn), (doc_node dn). split; [now rewrite FP|]. intros F L. destruct DE as (_ & Sd & _). destruct dn as [|k ty its] eqn:DN; [discriminate Sd|]. rewrite doc_node_eq.
    apply (unwrap_says F w2 t2 old k). refine (says_more F0 F w2 direct false t2 old _ _ _ _ L SY). intros X; discriminate X.
Qed.

(** a required member that the old class does not have *)
Lemma missing_member F w c k ty its old s r f : named_class (w_cls w c) -> is_scope ty = true -> In f (w_cls w c) -> f_opt f = false ->
  item_for (f_type f) (f_name f) its = None -> unwrap_prog (S F) w (CCls c) old (doc_node (DScope k ty its)) s <> ERet r.
Proof.
  destruct r as [v s']. intros N T I O E H. destruct (class_never_other _ _ _ _ _ _ _ _ _ _ H) as (olds & vs & -> & ->).
  apply class_members in H; [|assumption..]. clear - I O E H. induction H as [| |f0 fs old0 olds0 s0 vs0 s20 E0 O0 H IH]; [destruct I| |]; destruct I as [<-|I]; auto; congruence.
Qed.
Theorem required_missing w1 w2 p hp lev n c1 c2 v name g : regular w1 -> S_ObjStore.heap_ok w1 hp lev (carried (w_fp w1) p) -> storable w1 hp lev (carried (w_fp w1) p) n (CCls c1) v -> name_fits p name -> names_fit w1 p hp v ->
  w_fp w2 = w_fp w1 -> named_class (w_cls w2 c2) -> In g (w_cls w2 c2) -> f_opt g = false -> ~ In (f_name g) (names (w_cls w1 c1)) ->
  exists d tab size, (forall F, (size <= F)%nat -> stored_doc F w1 hp (CCls c1) v name [] = Ok (d, tab)) /\
  (size_fits p d -> exists bs k nd, stores_as w1 hp p name (CCls c1) v bs /\ loads_as (w_fp w2) p bs k nd /\ forall F old r, unwrap_prog F w2 (CCls c2) old nd rs_new <> ERet r).
Proof.
  intros RG1 HP ST N NF FP ND I OP NI.
  destruct (stored_delivered w1 p hp lev n _ v name RG1 HP ST N NF) as (d & tab & F0 & TOT & G). exists d, tab, F0. split; [exact TOT|]. intros SZ.
  destruct (G SZ) as (bs & dn & size & SA & LK & DE & LD & _). exists bs, (doc_name dn), (doc_node dn). split; [exact SA|]. split; [now rewrite FP|]. intros [|F] old [c s] H; [discriminate H|].
  specialize (TOT F0 (le_n _)). unfold stored_doc in TOT. cbn [null_root scoped] in TOT. destruct F0 as [|f0]; [discriminate|]. cbn [emit] in TOT.
  destruct v as [z|z|vs|l|l| |x|a0|c0 vs]; try discriminate. destruct (Nat.eqb _ _); [|discriminate]. apply bind_ok in TOT. destruct TOT as ([its tx] & E & Q). injection Q as <- <-.
  inversion LK as [|? ? k' ? ? its' _ Q]; subst. cbn [ty_eqb] in Q. inversion ST as [? ? X|? ? FV| | | | | | | | | | | | |]; subst; [contradiction|].
  pose proof (items_written w1 hp lev _ _ f0 n _ _ _ _ _ _ E FV Q) as A. pose proof (written_names w1 hp lev _ _ (fun t v sv H => leaf_solid p t v sv (proj1 H)) f0 n _ _ _ A) as NS.
  revert H. apply (missing_member F w2 c2 k' TObject its' old rs_new (c, s) g ND eq_refl I OP). unfold item_for.
  assert (X : forall l, map doc_name l = names (w_cls w1 c1) -> ~ In (f_name g) (map doc_name l)) by (intros l ->; exact NI). specialize (X _ NS). clear - X.
  induction its' as [|d its' IHi]; [reflexivity|]. cbn [map In] in X. assert (B : bytes_eqb (doc_name d) (f_name g) = false) by (apply bytes_eqb_neq; tauto).
  change (doc_name d) with (S_Tree.doc_name d) in B. cbn [find]. rewrite B, andb_false_r. apply IHi. tauto.
Qed.
