(** Containers with equivalent elements and unordered containers. *)
From Coq Require Import ZArith List Bool Lia Sorted Sorting.Permutation.
From Verif Require Import Base Lemmas M_Types M_Event M_In S_Doc M_PSrl M_MsgPack M_Json M_Env M_Tree S_Tree P_Tree M_TreeIO S_TreeIO M_Object S_Object S_ObjStore M_ObjIO S_ObjIO P_ObjLazy P_ObjMore P_ObjIO P_ObjFit P_ObjPart S_Restored P_Restored
  M_Multi S_Multi.
Import ListNotations.
Open Scope Z_scope.

Notation ins add l acc := (fold_left (fun z a => add a z) l acc).

(** * Insertion *)
Section Order.
Variables (P : cv -> Prop) (lt : cv -> cv -> bool) (key : cv -> cv).
Lemma minsert_perm a l : Permutation (a :: l) (minsert lt key a l).
Proof. induction l as [|b l IH]; cbn [minsert]; [reflexivity|]. destruct (lt (key a) (key b)); [reflexivity|]. rewrite <- IH. apply perm_swap. Qed.
Hypothesis WO : weak_order P lt.
Lemma equiv_sym a b : equiv lt a b = equiv lt b a.
Proof. unfold equiv. apply andb_comm. Qed.
Lemma minsert_order a l : P (key a) -> Forall (fun b => P (key b)) l -> in_order lt key l -> in_order lt key (minsert lt key a l) /\
  forall k, P k -> filter (fun x => equiv lt k (key x)) (minsert lt key a l) = filter (fun x => equiv lt k (key x)) (l ++ [a]).
Proof.
  intros Pa. pose proof WO as (Ir & Tr & Eq). induction l as [|b l IH]; intros Pl S; cbn [minsert].
  - split; [repeat constructor|]. intros k Pk. reflexivity.
  - inversion Pl as [|? ? Pb Pl']; subst. apply StronglySorted_inv in S. destruct S as [S1 S2]. destruct (lt (key a) (key b)) eqn:E.
    + assert (Ba : lt (key b) (key a) = false).
      { destruct (lt (key b) (key a)) eqn:E2; [|reflexivity]. pose proof (Tr _ _ _ Pa Pb Pa E E2) as H. rewrite (Ir _ Pa) in H. discriminate. }
      split.
      * constructor; [now constructor|]. constructor; [exact Ba|]. rewrite Forall_forall in *. intros x I. specialize (S2 x I). specialize (Pl' x I). cbn beta in *.
        destruct (lt (key x) (key a)) eqn:E2; [|reflexivity]. rewrite (Tr _ _ _ Pl' Pa Pb E2 E) in S2. discriminate.
      * intros k Pk. rewrite filter_app. change (a :: b :: l) with ([a] ++ (b :: l)). rewrite filter_app.
        assert (Sg : filter (fun x => equiv lt k (key x)) [a] = if equiv lt k (key a) then [a] else []) by reflexivity. rewrite Sg. clear Sg. destruct (equiv lt k (key a)) eqn:Ka; [|now rewrite app_nil_r].
        assert (N : filter (fun x => equiv lt k (key x)) (b :: l) = []); [|now rewrite N].
        assert (Nx : forall x, P (key x) -> lt (key x) (key b) = false -> equiv lt k (key x) = false).
        { intros x Px Xb. destruct (equiv lt k (key x)) eqn:Kx; [|reflexivity]. exfalso. rewrite equiv_sym in Kx. pose proof (Eq _ _ _ Px Pk Pa Kx Ka) as Xa.
          rewrite (equiv_lt lt P WO _ _ _ Px Pa Pb Xa E) in Xb. discriminate. }
        cbn [filter]. rewrite (Nx b Pb (Ir _ Pb)). clear - Nx S2 Pl'. induction l as [|x l IHl]; [reflexivity|]. inversion S2; inversion Pl'; subst. cbn [filter]. rewrite Nx by assumption. now apply IHl.
    + destruct (IH Pl' S1) as [A B]. split.
      * constructor; [exact A|]. rewrite Forall_forall in *. intros x I. apply (Permutation_in _ (Permutation_sym (minsert_perm a l))) in I. destruct I as [<-|I]; [exact E|now apply S2].
      * intros k Pk. cbn [filter app]. now rewrite (B k Pk).
Qed.
Theorem minserts : forall us acc, Forall (fun b => P (key b)) us -> Forall (fun b => P (key b)) acc -> in_order lt key acc -> stably_sorted P lt key (acc ++ us) (ins (minsert lt key) us acc).
Proof.
  induction us as [|a us IH]; intros acc Pu Pc S; cbn [fold_left].
  - rewrite app_nil_r. split; [exact S|]. split; [reflexivity|]. reflexivity.
  - inversion Pu as [|? ? Pa Pu']; subst. destruct (minsert_order a acc Pa Pc S) as [A B].
    assert (Pc' : Forall (fun b => P (key b)) (minsert lt key a acc)) by (rewrite <- minsert_perm; now constructor).
    destruct (IH _ Pu' Pc' A) as (C1 & C2 & C3). split; [exact C1|]. split.
    + rewrite <- C2, <- minsert_perm. symmetry. apply Permutation_middle.
    + intros k Pk. rewrite (C3 k Pk), !filter_app, (B k Pk), filter_app, <- app_assoc. f_equal. rewrite <- filter_app. reflexivity.
Qed.
End Order.
Lemma minsert_last lt key a l : Forall (fun b => lt (key a) (key b) = false) l -> minsert lt key a l = l ++ [a].
Proof. induction 1 as [|b l H F IH]; cbn [minsert app]; [reflexivity|]. now rewrite H, IH. Qed.
Lemma minserts_sorted lt key : forall us acc, in_order lt key (acc ++ us) -> ins (minsert lt key) us acc = acc ++ us.
Proof.
  induction us as [|a us IH]; intros acc S; cbn [fold_left]; [now rewrite app_nil_r|]. rewrite minsert_last.
  - rewrite IH; [now rewrite <- app_assoc|]. now rewrite <- app_assoc.
  - clear IH. induction acc as [|b acc IHa]; [constructor|]. cbn [app] in S. apply StronglySorted_inv in S. destruct S as [S1 S2]. constructor; [|now apply IHa].
    rewrite Forall_forall in S2. apply S2. apply in_or_app. right. now left.
Qed.

Section Unordered.
Variables (eqb : cv -> cv -> bool) (place : cv -> list cv -> list cv) (key : cv -> cv).
Hypothesis Pl : placing place.
Theorem placed us : forall acc, Permutation (acc ++ us) (ins place us acc).
Proof.
  induction us as [|a us IH]; intros acc; cbn [fold_left]; [now rewrite app_nil_r|]. rewrite <- IH, <- (Pl a acc). symmetry. apply Permutation_middle.
Qed.
Hypothesis Eq : equality eqb.
Definition unlike (l : list cv) : Prop := forall a b, In a l -> In b l -> eqb (key a) (key b) = true -> a = b.
Lemma existsb_perm {A} (p : A -> bool) l l' : Permutation l l' -> existsb p l = existsb p l'.
Proof. induction 1; cbn [existsb]; try congruence. destruct (p x), (p y); reflexivity. Qed.
Lemma distinct_perm l l' : Permutation l l' -> distinct eqb key l -> distinct eqb key l'.
Proof.
  destruct Eq as (_ & Sy & _). induction 1; cbn [distinct]; auto.
  - intros [A B]. split; [now rewrite <- (existsb_perm _ _ _ H)|auto].
  - cbn [existsb]. intros [A [B C]]. apply orb_false_iff in A. destruct A as [A1 A2]. rewrite (Sy (key x)), A1, B, A2. auto.
Qed.
Lemma find_distinct l l' k : Permutation l l' -> distinct eqb key l -> find (fun x => eqb k (key x)) l = find (fun x => eqb k (key x)) l'.
Proof.
  destruct Eq as (_ & Sy & Tr). induction 1; cbn [distinct find]; auto.
  - intros [A B]. destruct (eqb k (key x)); auto.
  - intros [A [B C]]. cbn [existsb] in A. apply orb_false_iff in A. destruct A as [A1 A2]. destruct (eqb k (key y)) eqn:Ky, (eqb k (key x)) eqn:Kx; auto.
    exfalso. rewrite Sy in Ky. rewrite (Tr _ _ _ Ky Kx) in A1. discriminate.
  - intros D. rewrite IHPermutation1 by exact D. apply IHPermutation2. now apply (distinct_perm l l').
Qed.
Lemma find_app' {A} (p : A -> bool) l l' : find p (l ++ l') = match find p l with Some x => Some x | None => find p l' end.
Proof. induction l as [|x l IH]; cbn [app find]; [reflexivity|]. now destruct (p x). Qed.
(** no two are equal, and of those that were equal the first one is there *)
Theorem uinserts : forall us acc, distinct eqb key acc ->
  distinct eqb key (ins (uinsert eqb place key) us acc) /\
  forall k, find (fun x => eqb k (key x)) (ins (uinsert eqb place key) us acc) = find (fun x => eqb k (key x)) (acc ++ us).
Proof.
  pose proof Eq as (Re & Sy & Tr). induction us as [|a us IH]; intros acc D; cbn [fold_left]; [rewrite app_nil_r; now split|]. unfold uinsert at 2 4. destruct (existsb _ acc) eqn:E.
  - destruct (IH acc D) as [A B]. split; [exact A|]. intros k. rewrite (B k). rewrite !find_app'. destruct (find (fun x => eqb k (key x)) acc) eqn:Fk; [reflexivity|]. cbn [find].
    destruct (eqb k (key a)) eqn:Ka; [|reflexivity]. exfalso. apply existsb_exists in E. destruct E as (b & I & Eb). pose proof (find_none _ _ Fk b I) as N. cbn beta in N. rewrite (Tr _ _ _ Ka Eb) in N. discriminate.
  - assert (D1 : distinct eqb key (a :: acc)) by (cbn [distinct]; now split). pose proof (distinct_perm _ _ (Pl a acc) D1) as D2. destruct (IH _ D2) as [A B]. split; [exact A|].
    intros k. rewrite (B k), !find_app', <- (find_distinct _ _ k (Pl a acc) D1). cbn [find]. destruct (eqb k (key a)) eqn:Ka.
    + assert (N : find (fun x => eqb k (key x)) acc = None); [|now rewrite N]. destruct (find (fun x => eqb k (key x)) acc) as [b|] eqn:Fb; [|reflexivity]. exfalso. apply find_some in Fb. destruct Fb as [I Kb].
      rewrite Sy in Ka. assert (X : existsb (fun b => eqb (key a) (key b)) acc = true) by (apply existsb_exists; exists b; split; [exact I|now apply (Tr _ k)]). congruence.
    + reflexivity.
Qed.
Theorem uinserts_distinct : forall us acc, distinct eqb key (acc ++ us) -> Permutation (acc ++ us) (ins (uinsert eqb place key) us acc).
Proof.
  pose proof Eq as (Re & Sy & Tr). induction us as [|a us IH]; intros acc D; cbn [fold_left]; [now rewrite app_nil_r|].
  pose proof (distinct_perm _ _ (Permutation_sym (Permutation_middle acc us a)) D) as D1. cbn [distinct] in D1. destruct D1 as [D1 D2]. rewrite existsb_app in D1. apply orb_false_iff in D1. destruct D1 as [D1 D3].
  unfold uinsert at 2. rewrite D1. assert (Q : Permutation (acc ++ a :: us) (place a acc ++ us)) by (rewrite <- (Pl a acc); symmetry; apply Permutation_middle).
  rewrite <- IH; [exact Q|]. exact (distinct_perm _ _ Q D).
Qed.
End Unordered.

(** * Restoring with any insertion is restoring a sequence and inserting its elements *)
Definition omap {A B} (f : A -> B) (r : option (res (A * list event))) : option (res (B * list event)) :=
  match r with Some (Ok (a, es)) => Some (Ok (f a, es)) | Some Err => Some Err | Some (UB u) => Some (UB u) | Some Fuel => Some Fuel | None => None end.
Section Sim.
Variables (w : world) (add : cv -> list cv -> list cv) (f : nat).
Notation to us := (ins add us []).
Notation app_ := (fun v acc => acc ++ [v]).
Lemma to_snoc us v : add v (to us) = to (us ++ [v]).
Proof. now rewrite fold_left_app. Qed.
Lemma sim_value e a us s es : erun (elem_value w add e a (to us) s) es = omap (fun r => (to (fst r), snd r)) (erun (elem_value w app_ e a us s) es).
Proof. unfold elem_value. destruct (paste_value w e (w_new w e) (snd a)); cbn [elift ebind erun omap fst snd]; try reflexivity. now rewrite to_snoc. Qed.
Lemma sim_node pn e a us s es : erun (elem_node w pn add e a (to us) s) es = omap (fun r => (to (fst (fst r)), snd (fst r), snd r)) (erun (elem_node w pn app_ e a us s) es).
Proof. unfold elem_node. rewrite !erun_bind. destruct (erun (pn e (w_new w e) (snd a) s) es) as [[[[[v c'] s'] es1]| | |]|]; cbn [erun omap fst snd]; try reflexivity. now rewrite to_snoc. Qed.
Lemma sim_values_read e : forall k us n s es, erun (each_value_read f (elem_value w add e) k (to us) n s) es = omap (fun r => (to (fst (fst r)), snd (fst r), snd r)) (erun (each_value_read f (elem_value w app_ e) k us n s) es).
Proof.
  induction k as [|k IH]; intros us n s es; cbn [each_value_read]; [reflexivity|]. rewrite !erun_bind. destruct (erun (consume_value f (IdPos 0) n) es) as [[[r es1]| | |]|]; cbn [omap]; try reflexivity.
  destruct (fst r) as [[[name v] b]|]; [|reflexivity]. destruct (l_parsed (snd r)); [reflexivity|]. rewrite !erun_bind, sim_value. destruct (erun (elem_value w app_ e (name, v) us s) es1) as [[[q es2]| | |]|]; cbn [omap fst snd]; try reflexivity. apply IH.
Qed.
Lemma sim_nodes_read pn e : forall k us n s es, erun (each_node_read f (elem_node w pn add e) k (to us) n s) es = omap (fun r => (to (fst (fst r)), snd (fst r), snd r)) (erun (each_node_read f (elem_node w pn app_ e) k us n s) es).
Proof.
  induction k as [|k IH]; intros us n s es; cbn [each_node_read]; [reflexivity|]. rewrite !erun_bind. destruct (erun (consume_node f (IdPos 0) n) es) as [[[r es1]| | |]|]; cbn [omap]; try reflexivity.
  destruct (fst r) as [c|]; [|reflexivity]. destruct (l_parsed (snd r)); [reflexivity|]. rewrite !erun_bind, sim_node. destruct (erun (elem_node w pn app_ e c us s) es1) as [[[[[q c'] s'] es2]| | |]|]; cbn [omap fst snd]; try reflexivity.
  rewrite !erun_bind. destruct (erun (consume_scope f c') es2) as [[[z es3]| | |]|]; cbn [omap]; try reflexivity. apply IH.
Qed.
Lemma sim_stored {A} (g1 g2 : bytes * A -> list cv -> rstate -> eprog (list cv * rstate)) : (forall a us s es, erun (g1 a (to us) s) es = omap (fun r => (to (fst r), snd r)) (erun (g2 a us s) es)) ->
  forall l us s es, erun (each_stored g1 l (to us) s) es = omap (fun r => (to (fst r), snd r)) (erun (each_stored g2 l us s) es).
Proof.
  intros H. induction l as [|a l IH]; intros us s es; cbn [each_stored]; [reflexivity|]. rewrite !erun_bind, H. destruct (erun (g2 a us s) es) as [[[q es2]| | |]|]; cbn [omap fst snd]; try reflexivity. apply IH.
Qed.
Lemma sim_items pn e n s es : erun (each_item f (scoped e) (elem_value w add e) (elem_node w pn add e) [] n s) es =
  omap (fun r => (to (fst (fst r)), snd (fst r), snd r)) (erun (each_item f (scoped e) (elem_value w app_ e) (elem_node w pn app_ e) [] n s) es).
Proof.
  unfold each_item. destruct (l_parsed n).
  - rewrite !erun_bind. destruct (scoped e).
    + change (@nil cv) with (to []) at 1. erewrite sim_stored with (g2 := fun a acc s => ebind (elem_node w pn app_ e (fst a, mkL true (snd a)) acc s) (fun q => ERet (fst (fst q), snd q))).
      * destruct (erun (each_stored _ (n_nodes (l_node n)) [] s) es) as [[[q es2]| | |]|]; reflexivity.
      * intros a us s0 es0. rewrite !erun_bind, sim_node. destruct (erun (elem_node w pn app_ e _ us s0) es0) as [[[q es2]| | |]|]; reflexivity.
    + change (@nil cv) with (to []) at 1. rewrite (sim_stored _ (elem_value w app_ e)) by (intros; apply sim_value).
      destruct (erun (each_stored _ (n_values (l_node n)) [] s) es) as [[[q es2]| | |]|]; reflexivity.
  - destruct (scoped e); [exact (sim_nodes_read pn e f [] n s es)|exact (sim_values_read e f [] n s es)].
Qed.
End Sim.
Definition as_list (v : cv) : list cv := match v with VList l => l | _ => [] end.
Theorem coll_sim F w add e old n s es : erun (paste_coll F w add e n s) es = omap (fun r => (ins add (as_list (fst (fst r))) [], snd (fst r), snd r)) (erun (paste_node F w (CSeq e) old n s) es).
Proof.
  destruct F as [|f]; [reflexivity|]. cbn [paste_coll paste_node paste_step]. destruct (negb _); [reflexivity|]. rewrite erun_bind, sim_items.
  destruct (erun (each_item f (scoped e) _ _ [] n s) es) as [[[[[us n'] s'] es']| | |]|]; reflexivity.
Qed.
Theorem restore_coll_sim F w add e old es : erun (restore_coll_prog F w add e) es = omap (fun r => (ins add (as_list (fst r)) [], snd r)) (erun (restore_prog F w (CSeq e) old) es).
Proof.
  unfold restore_coll_prog, restore_prog. cbn [erun]. destruct es as [|[name v] es]; [reflexivity|]. destruct (negb _); [reflexivity|]. change (scoped (CSeq e)) with true. cbv iota. rewrite !erun_bind, (coll_sim F w add e old).
  destruct (erun (paste_node F w (CSeq e) old _ rs_new) es) as [[[[[c n'] s'] es']| | |]|]; reflexivity.
Qed.
Theorem unwrap_coll_sim F w add e old n s es : erun (unwrap_coll F w add e n s) es = omap (fun r => (ins add (as_list (fst r)) [], snd r)) (erun (unwrap_prog F w (CSeq e) old n s) es).
Proof.
  unfold unwrap_coll, unwrap_prog. change (scoped (CSeq e)) with true. cbv iota. rewrite !erun_bind, (coll_sim F w add e old).
  destruct (erun (paste_node F w (CSeq e) old _ s) es) as [[[[[c n'] s'] es']| | |]|]; reflexivity.
Qed.
Theorem coll_restored w F F0 q b d e old us s add : regular w -> holds (w_fp w) F q b d -> deep_enough d -> says F0 w true (CSeq e) old d rs_new = Ok (VList us, s) -> (F0 + length (events d) <= F)%nat ->
  exists q' b', run_block (restore_coll (w_fp w) F w q add e) b = Ok ((q', (ins add us [], s)), b').
Proof.
  intros RG H De Sy L. destruct (restore_says F0 w (CSeq e) old d _ s RG De Sy F L) as [tail E].
  assert (E2 : erun (restore_coll_prog F w add e) (events d) = Some (Ok ((ins add us [], s), tail))) by (rewrite (restore_coll_sim F w add e old), E; reflexivity).
  exact (holds_run _ _ _ _ _ _ _ _ H E2).
Qed.
Theorem coll_tree w F F0 q b d e old us s add : regular w -> holds (w_fp w) F q b d -> deep_enough d -> says F0 w true (CSeq e) old d rs_new = Ok (VList us, s) -> (F0 + length (events d) <= F)%nat ->
  exists q' b' n, run_block (load_tree (w_fp w) F q) b = Ok ((q', (doc_name d, n)), b') /\ erun (unwrap_coll F w add e n rs_new) [] = Some (Ok ((ins add us [], s), [])).
Proof.
  intros RG H De Sy L. destruct (direct_and_tree w F F0 q b d (CSeq e) old _ s RG H De Sy L) as [_ (q' & b' & n & A & B)]. exists q', b', n. split; [exact A|].
  rewrite (unwrap_coll_sim F w add e old), B. reflexivity.
Qed.
(** * Entries of maps *)
Definition pair_of (p : cv * cv) : cv := VList [fst p; snd p].
Lemma filter_map' {A B} (g : A -> B) (f : B -> bool) l : filter f (map g l) = map g (filter (fun x => f (g x)) l).
Proof. induction l as [|x l IH]; cbn [map filter]; [reflexivity|]. rewrite IH. now destruct (f (g x)). Qed.
Lemma pairs_inj : forall l l', map pair_of l = map pair_of l' -> l = l'.
Proof. induction l as [|[a b] l IH]; intros [|[a' b'] l'] H; try discriminate; [reflexivity|]. cbn [map pair_of fst snd] in H. injection H as -> -> H. f_equal. now apply IH. Qed.
Lemma sorted_map {A B} (g : A -> B) (R : B -> B -> Prop) : forall l, StronglySorted R (map g l) -> StronglySorted (fun a b => R (g a) (g b)) l.
Proof.
  induction l as [|a l IH]; intros H; cbn [map] in H; [constructor|]. apply StronglySorted_inv in H. destruct H as [H1 H2]. constructor; [now apply IH|]. exact (proj1 (Forall_map _ _ _) H2).
Qed.
Theorem multimap_sorted P lt l : weak_order P lt -> Forall (fun p => P (fst p)) l -> exists l', ins (minsert lt entry_key) (map pair_of l) [] = map pair_of l' /\
  StronglySorted (fun a b => lt (fst b) (fst a) = false) l' /\ Permutation l l' /\ forall k, P k -> filter (fun p => equiv lt k (fst p)) l' = filter (fun p => equiv lt k (fst p)) l.
Proof.
  intros WO F. assert (F' : Forall (fun b => P (entry_key b)) (map pair_of l)) by (apply Forall_map; exact F). destruct (minserts P lt entry_key WO (map pair_of l) [] F' (Forall_nil _) (SSorted_nil _)) as (A & B & C). cbn [app] in B, C.
  destruct (Permutation_map_inv pair_of l (Permutation_sym B)) as (l' & E & Pm). exists l'. rewrite E in *. split; [reflexivity|]. split; [exact (sorted_map pair_of _ l' A)|]. split; [now symmetry|].
  intros k Pk. specialize (C k Pk). rewrite !filter_map' in C. exact (pairs_inj _ _ C).
Qed.
