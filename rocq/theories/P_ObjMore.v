(** More about objects: documents in an input, which items matter, sharing, storing twice, character arrays. *)
From Coq Require Import ZArith List Bool Lia ZifyBool ZifyNat Permutation.
From Verif Require Import Base Lemmas M_Types M_Conv M_TpTools M_Charset M_In S_Doc M_OutOps M_Event M_PSrl M_MsgPack M_Json M_Env M_Tree S_Tree M_TreeIO S_TreeIO M_Object S_Object S_ObjStore
  M_ObjIO S_ObjIO S_Agree P_In P_Doc P_Tree P_TreeIO P_ObjEager P_ObjLazy P_ObjStore P_ObjIO P_Agree.
Import ListNotations.
Open Scope Z_scope.

(** * Documents in an input *)
Theorem direct_and_tree w F F0 q b d t old v s : regular w -> holds (w_fp w) F q b d -> deep_enough d -> says F0 w true t old d rs_new = Ok (v, s) -> (F0 + length (events d) <= F)%nat ->
  (exists q' b', run_block (restore_object (w_fp w) F w q t old) b = Ok ((q', (v, s)), b')) /\
  (exists q' b' n, run_block (load_tree (w_fp w) F q) b = Ok ((q', (doc_name d, n)), b') /\ unwrap_prog F w t old n rs_new = ERet (v, s)).
Proof.
  intros RG H De Sy L. split.
  - destruct (restore_says F0 w t old d v s RG De Sy F L) as [tail E]. exact (holds_run _ _ _ _ _ _ _ _ H E).
  - destruct De as (Sh & Sc & D). destruct d as [|k ty its]; [discriminate|].
    pose proof (load_events (DScope k ty its) [] F Sh I ltac:(lia)) as E. rewrite app_nil_r in E. replace (Nat.leb _ 129) with true in E by (symmetry; now apply Nat.leb_le).
    destruct (holds_run _ _ _ _ _ _ _ _ H E) as (q' & b' & R). exists q', b', (doc_node (DScope k ty its)). split.
    + rewrite <- R. unfold load_tree, with_parser. reflexivity.
    + rewrite doc_node_eq. apply (unwrap_says F w t old k). refine (says_more F0 F w true false t old _ _ _ (fun _ => eq_refl) _ Sy). lia.
Qed.

(** * Which items matter *)
Lemma nth_match_find p its : option_map snd (nth_match p 0 its) = find p its.
Proof. induction its as [|d its IH]; [reflexivity|]. cbn [nth_match find]. destruct (p d); [reflexivity|]. rewrite <- IH. now destruct (nth_match p 0 its) as [[j e]|]. Qed.
Lemma find_filter {A} (p q : A -> bool) l : (forall a, p a = true -> q a = true) -> find p (filter q l) = find p l.
Proof. intros H. induction l as [|a l IH]; [reflexivity|]. cbn [filter find]. destruct (q a) eqn:Q; cbn [find]; destruct (p a) eqn:P; auto. rewrite (H _ P) in Q. discriminate. Qed.
Lemma find_perm {A} (p : A -> bool) l l' : Permutation l l' -> (forall a b, In a l -> In b l -> p a = true -> p b = true -> a = b) -> find p l = find p l'.
Proof.
  intros P U. destruct (find p l) as [a|] eqn:E1.
  - apply find_some in E1. destruct E1 as [I1 P1]. destruct (find p l') as [b|] eqn:E2.
    + apply find_some in E2. destruct E2 as [I2 P2]. f_equal. apply U; auto. now apply (Permutation_in _ (Permutation_sym P)).
    + rewrite (find_none _ _ E2 a) in P1; [discriminate|]. now apply (Permutation_in _ P).
  - destruct (find p l') as [b|] eqn:E2; [|reflexivity]. apply find_some in E2. destruct E2 as [I2 P2]. rewrite (find_none _ _ E1 b) in P2; [discriminate|]. now apply (Permutation_in _ (Permutation_sym P)).
Qed.
Lemma alike_find w direct f its its' : find (of_name (scoped (f_type f)) (f_name f)) its = find (of_name (scoped (f_type f)) (f_name f)) its' -> alike w direct f its its'.
Proof.
  unfold alike, field_item, select. rewrite <- !nth_match_find. destruct (nth_match _ 0 its) as [[i a]|], (nth_match _ 0 its') as [[j b]|]; cbn [option_map snd]; intros H; try discriminate; [right|now left].
  injection H as <-. exists i, j, a, a. repeat split. apply ag_same.
Qed.

Lemma requested_find fs f its its' : In f fs -> filter (requested fs) its = filter (requested fs) its' ->
  find (of_name (scoped (f_type f)) (f_name f)) its = find (of_name (scoped (f_type f)) (f_name f)) its'.
Proof.
  intros I H. assert (Q : forall d, of_name (scoped (f_type f)) (f_name f) d = true -> requested fs d = true) by (intros d E; unfold requested; apply existsb_exists; now exists f).
  now rewrite <- (find_filter _ _ its Q), H, find_filter.
Qed.
(** only the items requested matter *)
Lemma agree_requested w direct r c k ty its its' : named_class (w_cls w c) -> filter (requested (w_cls w c)) its = filter (requested (w_cls w c)) its' ->
  (direct = true -> unambiguous (w_cls w c) its' /\ (r = true \/ covered (w_cls w c) its')) ->
  agree w direct r (Of (CCls c)) (DScope k ty its) (DScope k ty its').
Proof.
  intros N H D. apply ag_class; [exact N|]. apply ag_rec.
  - intros f I. exact (alike_find w direct f its its' (requested_find _ f its its' I H)).
  - intros E. destruct (D E) as [U [R|C]]; auto.
Qed.
Definition item_key (d : doc) : bool * bytes := (is_sc d, doc_name d).
Lemma nodup_key its a b : NoDup (map item_key its) -> In a its -> In b its -> item_key a = item_key b -> a = b.
Proof.
  induction its as [|d its IH]; intros N I J E; [destruct I|]. cbn [map] in N. inversion N as [|? ? N1 N2]; subst. destruct I as [->|I], J as [->|J]; auto.
  - elim N1. rewrite E. now apply in_map.
  - elim N1. rewrite <- E. now apply in_map.
Qed.
Lemma of_name_key sc k d : of_name sc k d = true <-> item_key d = (sc, k).
Proof. unfold of_name, item_key. rewrite andb_true_iff, Bool.eqb_true_iff. split.
  - intros [<- E]. now apply bytes_eqb_eq in E as ->.
  - intros E. injection E as <- <-. split; [reflexivity|apply bytes_eqb_refl].
Qed.
Lemma agree_permuted w direct r c k ty its its' : named_class (w_cls w c) -> Permutation its its' -> NoDup (map item_key its) ->
  (direct = true -> Forall (fun d => requested (w_cls w c) d = true) its /\ unambiguous (w_cls w c) its) ->
  agree w direct r (Of (CCls c)) (DScope k ty its) (DScope k ty its').
Proof.
  intros N P U D.
  assert (FD : forall f, In f (w_cls w c) -> find (of_name (scoped (f_type f)) (f_name f)) its = find (of_name (scoped (f_type f)) (f_name f)) its').
  { intros f I. apply find_perm; [exact P|]. intros a b Ia Ib Pa Pb. apply (nodup_key its); auto. apply of_name_key in Pa, Pb. congruence. }
  apply ag_class; [exact N|]. apply ag_rec.
  - intros f I. exact (alike_find w direct f its its' (FD f I)).
  - intros E. destruct (D E) as [R A]. split.
    + intros f I O. specialize (A f I O). apply not_true_iff_false. intros X. apply not_true_iff_false in A. apply A. apply existsb_exists in X. destruct X as (d & Id & X).
      apply existsb_exists. exists d. split; [|exact X]. now apply (Permutation_in _ (Permutation_sym P)).
    + right. left. intros i d Ei Sc. left. assert (Id : In d its') by (eapply nth_error_In; eauto).
      pose proof (Permutation_in _ (Permutation_sym P) Id) as Id'. rewrite Forall_forall in R. specialize (R _ Id'). unfold requested in R. apply existsb_exists in R. destruct R as (f & If & Of').
      assert (M : exists j, nth_match (of_name (scoped (f_type f)) (f_name f)) 0 its' = Some (j, d)).
      { destruct (nth_match (of_name (scoped (f_type f)) (f_name f)) 0 its') as [[j e]|] eqn:M.
        - exists j. f_equal. f_equal. apply nth_match_0 in M. destruct M as (M1 & M2 & _). apply (nodup_key its'); auto.
          + eapply Permutation_NoDup; [|exact U]. now apply Permutation_map.
          + eapply nth_error_In; eauto.
          + apply of_name_key in M2, Of'. congruence.
        - apply nth_match_none in M. rewrite Forall_forall in M. rewrite (M _ Id) in Of'. discriminate. }
      destruct M as [j M]. exists f, j, d. split; [exact If|]. split; [exact M|].
      apply nth_match_0 in M. destruct M as (M1 & _ & M3). destruct (Nat.lt_trichotomy i j) as [L|[L|L]]; try lia. exfalso.
      assert (Uj : NoDup (map item_key its')) by (eapply Permutation_NoDup; [|exact U]; now apply Permutation_map).
      rewrite NoDup_nth_error in Uj. assert (j = i); [|lia]. apply Uj.
      * rewrite map_length. apply nth_error_Some. congruence.
      * now rewrite !nth_error_map, M1, Ei.
Qed.

(** * A tree does not prefer one document over another that agrees with it *)
Fixpoint agree_sym w r T d d' (A : agree w false r T d d') {struct A} : agree w false r T d' d.
Proof.
  destruct A as [r t d|r fs need k ty its its' P D|r c d d' N A|r a b d d' A|r t e d d' T A|r bu n ty its its' j k v c Sel Reg N A|r t e d d' T A|r t e k ty its its' T F|r k e n ty its its' F|r t c k ty its its' T M F].
  - apply ag_same.
  - apply ag_rec; [|discriminate]. intros f I. destruct (P f I) as [[X Y]|(i & j & a & b & X & Y & Z)]; [now left|]. right. exists j, i, b, a. split; [exact Y|]. split; [exact X|]. exact (agree_sym _ _ _ _ _ Z).
  - apply ag_class; auto.
  - apply ag_pair; auto.
  - apply (ag_shared w false r t e); auto.
  - pose proof (agree_sym _ _ _ _ _ A) as B. destruct (rec_inv w false _ _ _ _ _ A) as [E|(n0 & ty0 & i1 & i2 & E1 & E2 & P & _)].
    + injection E as ->. apply ag_same.
    + injection E1 as <- <- <-. injection E2 as <-. destruct (P _ (or_introl eq_refl)) as [[X _]|(i & j' & a & b & X & Y & Z)].
      * change (select false (IdName str_type_id) its = None) in X. congruence.
      * change (select false (IdName str_type_id) its = Some (i, a)) in X. change (select false (IdName str_type_id) its' = Some (j', b)) in Y.
        rewrite Sel in X. injection X as <- <-. apply agree_val in Z. subst b. exact (ag_poly w false r bu n ty its' its j' k v c Y Reg N B).
  - apply (ag_pointer w false r t e); auto.
  - apply (ag_items w false r t e k ty its' its T). clear - agree_sym F. induction F; constructor; auto.
  - apply ag_map. clear - agree_sym F. induction F; constructor; auto.
  - apply (ag_tuple w false r t c); auto. intros e i E. destruct (F e i E) as [[X Y]|(j & a & b & X & Y & Z)]; [now left|]. right. exists j, b, a. split; [exact Y|]. split; [exact X|]. exact (agree_sym _ _ _ _ _ Z).
Qed.
Theorem agree_tree w F t old d d' s x : scoped t = true -> agree w false true (Of t) d d' -> is_sc d = true ->
  unwrap_prog F w t old (doc_node d) s = ERet x <-> unwrap_prog F w t old (doc_node d') s = ERet x.
Proof.
  assert (G : forall d d', scoped t = true -> agree w false true (Of t) d d' -> is_sc d = true -> unwrap_prog F w t old (doc_node d) s = ERet x -> unwrap_prog F w t old (doc_node d') s = ERet x).
  { intros a b Sc A K. destruct (agree_shape _ _ _ _ _ _ A) as [->|(k & ty & its & its' & -> & ->)]; [auto|]. rewrite !doc_node_eq, !(eager_says F w t old k). intros H.
    destruct (says F w false t old (DScope k ty its) s) as [y| | |] eqn:E; try discriminate. cbn [elift] in H. injection H as ->. now rewrite (agree_says w false F t old _ _ s x Sc A E). }
  intros Sc A K. split; [now apply G|]. apply G; [exact Sc|now apply agree_sym|]. now rewrite (proj1 (agree_kind _ _ _ _ _ _ A)).
Qed.
