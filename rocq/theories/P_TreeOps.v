(** Searching, removing and visiting the items of a tree. *)
From Coq Require Import ZArith List Bool Lia ZifyBool ZifyNat Sorted.
From Verif Require Import Base Lemmas M_Types M_Conv M_Charset M_In S_Conv S_Charset S_Doc M_OutOps M_Env M_Event M_Tree S_Tree P_Conv P_Text P_Charset P_Tree.
Import ListNotations.
Open Scope Z_scope.

(** * Names *)
Lemma to_utf8_text e cs : e <> EUnknown -> Forall scalar cs -> to_utf8 (text e cs) e = Ok (text EUTF8 cs).
Proof.
  intros K F. unfold to_utf8. destruct (convert_text EUTF8 e cs [] true ltac:(discriminate) K F) as (b & -> & Hb). cbn [rbind].
  replace (Z.to_nat (zlen (text EUTF8 cs))) with (length (text EUTF8 cs)) by (unfold zlen; lia). now rewrite Hb.
Qed.
Lemma name_env q k : names q k -> env_name (fst q) (snd q) = Ok k.
Proof.
  unfold env_name. intros [[-> ->]|(cs & F & K & E & ->)]; [reflexivity|]. destruct (enc_eqb (snd q) EUTF8) eqn:X.
  - destruct (snd q); try discriminate X. now rewrite E.
  - rewrite E. now apply to_utf8_text.
Qed.
Lemma text_nil e cs : e <> EUnknown -> text e cs = [] -> cs = [].
Proof. intros K H. destruct cs as [|c cs]; [reflexivity|]. pose proof (zlen_text_pos e (c :: cs) K ltac:(discriminate)). rewrite H in *. cbn in *. lia. Qed.
Lemma zlen0 {A} (l : list A) : (zlen l =? 0) = true -> l = [].
Proof. destruct l; [reflexivity|]. rewrite zlen_cons. pose proof (zlen_nonneg l). lia. Qed.
Lemma name_eq q k k' : names q k -> str_eq (k', EUTF8) q = Ok (bytes_eqb k' k).
Proof.
  intros H. unfold str_eq. cbn [fst snd]. destruct ((zlen k' =? 0) && (zlen (fst q) =? 0)) eqn:Z0.
  - apply andb_prop in Z0. destruct Z0 as [Z1 Z2]. apply zlen0 in Z1, Z2. subst k'.
    replace k with (@nil Z); [reflexivity|]. destruct H as [[_ ->]|(cs & F & K & E & ->)]; [now rewrite Z2|].
    rewrite Z2 in E. symmetry in E. apply text_nil in E; [|exact K]. now rewrite E.
  - destruct H as [[-> ->]|(cs & F & K & E & ->)]; [reflexivity|]. destruct (enc_eqb (snd q) EUTF8) eqn:X.
    + destruct (snd q); try discriminate X. now rewrite E.
    + rewrite E, convert_vec by (auto; discriminate). reflexivity.
Qed.

(** * Searching *)
Fixpoint index_of {A} (p : A -> bool) (l : list A) : option nat :=
  match l with [] => None | x :: l' => if p x then Some O else option_map S (index_of p l') end.
Lemma find_loop_index {A} (p : A -> bool) (cmp : A -> res bool) : (forall x, cmp x = Ok (p x)) -> forall l i,
  find_loop cmp i l = Ok (option_map (fun j => (i + j)%nat) (index_of p l)).
Proof.
  intros H. induction l as [|x l IH]; intros i; [reflexivity|]. cbn [find_loop index_of]. rewrite H. cbn [rbind]. destruct (p x); cbn.
  - now rewrite Nat.add_0_r.
  - rewrite IH. destruct (index_of p l); cbn; [|reflexivity]. do 3 f_equal. lia.
Qed.
Lemma pick_index {A} (p : A -> bool) l : pick l (index_of p l) = find p l.
Proof. induction l as [|x l IH]; [reflexivity|]. cbn [index_of find]. destruct (p x); [reflexivity|]. rewrite <- IH. now destruct (index_of p l). Qed.
Lemma index_none {A} (p : A -> bool) l : index_of p l = None <-> find p l = None.
Proof. induction l as [|x l IH]; cbn; [tauto|]. destruct (p x); [split; discriminate|]. rewrite <- IH. destruct (index_of p l); cbn; split; congruence. Qed.

Definition named_b {A} (k : bytes) (q : bytes * A) : bool := bytes_eqb (fst q) k.
Lemma cmp_name_spec {A} q k (l : bytes * A) : names q k -> cmp_name q l = Ok (named_b k l).
Proof. intros H. unfold cmp_name. now apply name_eq. Qed.
Lemma cmp_hash_spec {A} q k (l : bytes * A) : names q k -> cmp_hash_name (fnv1a_ref k) q l = Ok (named_b k l).
Proof.
  intros H. unfold cmp_hash_name. rewrite fnv1a_correct. cbn [rbind]. rewrite (cmp_name_spec q k l H).
  destruct (Z.eqb_spec (fnv1a_ref (fst l)) (fnv1a_ref k)) as [E|E]; [reflexivity|]. unfold named_b. destruct (bytes_eqb (fst l) k) eqn:B; [|reflexivity].
  apply bytes_eqb_eq in B. congruence.
Qed.
Lemma find_link_spec {A} throw (cmp : A -> res bool) p l : (forall x, cmp x = Ok (p x)) ->
  find_link throw cmp l = match index_of p l with None => if throw : bool then Err else Ok None | Some i => Ok (Some i) end.
Proof. intros H. unfold find_link. rewrite (find_loop_index p cmp H). now destruct (index_of p l). Qed.

Lemma lookup_spec {A} (l : list (bytes * A)) q k : names q k -> lookup l q = match first_named k l with Some x => Ok x | None => Err end.
Proof.
  intros H. unfold lookup, hash_string. rewrite (name_env q k H). cbn [rbind]. rewrite fnv1a_correct. cbn [rbind].
  rewrite (find_link_spec true _ (named_b k)) by (intros; now apply cmp_hash_spec). unfold first_named. change (fun q0 => bytes_eqb (fst q0) k) with (@named_b A k).
  rewrite <- pick_index. destruct (index_of (named_b k) l) as [i|] eqn:E; [|reflexivity]. cbn [rbind]. destruct (pick l (Some i)) eqn:P; [reflexivity|].
  exfalso. rewrite <- E, pick_index in P. apply index_none in P. congruence.
Qed.
Lemma get_named_spec n q k : names q k -> get_named n q =
  match first_named k (n_values n) with
  | Some (k', v) => Ok (UnValue k' v)
  | None => match first_named k (n_nodes n) with Some (k', c) => Ok (UnNode k' c) | None => Err end
  end.
Proof.
  intros H. unfold get_named. rewrite (find_link_spec false _ (named_b k)) by (intros; now apply cmp_name_spec).
  change (first_named k (n_values n)) with (find (named_b k) (n_values n)). change (first_named k (n_nodes n)) with (find (named_b k) (n_nodes n)).
  rewrite <- !pick_index.
  destruct (index_of (named_b k) (n_values n)) as [i|] eqn:E; cbn [rbind].
  - destruct (pick (n_values n) (Some i)) as [[k' v]|] eqn:P; [reflexivity|]. exfalso. rewrite <- E, pick_index in P. apply index_none in P. congruence.
  - cbn [pick]. rewrite (find_link_spec true _ (named_b k)) by (intros; now apply cmp_name_spec).
    destruct (index_of (named_b k) (n_nodes n)) as [i|] eqn:E'; [|reflexivity]. cbn [rbind].
    destruct (pick (n_nodes n) (Some i)) as [[k' v]|] eqn:P; [reflexivity|]. exfalso. rewrite <- E', pick_index in P. apply index_none in P. congruence.
Qed.
Lemma has_named_spec {A} (l : list (bytes * A)) q k : names q k -> has_named l q = Ok (match first_named k l with Some _ => true | None => false end).
Proof.
  intros H. unfold has_named. rewrite (find_link_spec false _ (named_b k)) by (intros; now apply cmp_name_spec).
  unfold first_named. change (fun q0 => bytes_eqb (fst q0) k) with (@named_b A k). pose proof (index_none (named_b k) l) as I.
  destruct (index_of (named_b k) l), (find (named_b k) l); cbn; try reflexivity; destruct I as [I1 I2]; [now specialize (I2 eq_refl)|now specialize (I1 eq_refl)].
Qed.
Lemma link_at_spec {A} throw i (l : list A) : 0 <= i ->
  link_at throw i l = match nth_error l (Z.to_nat i) with Some x => Ok (Some x) | None => if throw : bool then Err else Ok None end.
Proof.
  intros H. unfold link_at. destruct ((0 <=? i) && (i <? zlen l)) eqn:C.
  - destruct (nth_error l (Z.to_nat i)) eqn:E; [reflexivity|]. apply nth_error_None in E. unfold zlen in C. lia.
  - replace (nth_error l (Z.to_nat i)) with (@None A); [reflexivity|]. symmetry. apply nth_error_None. unfold zlen in C. lia.
Qed.

(** * Removing *)
Lemma erase_index {A} (p : A -> bool) l : (match index_of p l with Some i => erase i l | None => l end) = remove_first p l.
Proof. induction l as [|x l IH]; [reflexivity|]. cbn [index_of remove_first]. destruct (p x); [reflexivity|]. rewrite <- IH. now destruct (index_of p l). Qed.
Lemma remove_link_spec {A} (cmp : A -> res bool) p l : (forall x, cmp x = Ok (p x)) -> remove_link cmp l = Ok (remove_first p l).
Proof. intros H. unfold remove_link. rewrite (find_loop_index p cmp H). rewrite <- erase_index. now destruct (index_of p l). Qed.
Lemma erase_app {A} (l : list A) i : erase i l = firstn i l ++ skipn (S i) l.
Proof. revert i. induction l as [|x l IH]; intros [|i]; cbn [erase firstn skipn app]; try reflexivity. now rewrite IH. Qed.

(** * Visiting *)
Definition go_nodes (rec : bool) := fix go (i : nat) (l : list (bytes * node)) : list (path * (bytes * node)) :=
     match l with
     | [] => []
     | (k, c) :: l' =>
         ([i], (k, c)) :: (if rec then map (fun q => (i :: fst q, snd q)) (each_node rec c) else []) ++ go (S i) l'
     end.
Lemma each_node_eq rec t vs ns : each_node rec (mkNode t vs ns) = go_nodes rec O ns.
Proof. reflexivity. Qed.

Lemma at_path_cons2 n i a p : at_path n (i :: a :: p) = match nth_error (n_nodes n) i with Some (_, c) => at_path c (a :: p) | None => None end.
Proof. reflexivity. Qed.
Lemma at_path_one n i : at_path n [i] = nth_error (n_nodes n) i.
Proof. reflexivity. Qed.
Lemma each_node_in : forall n p x, In (p, x) (each_node true n) <-> at_path n p = Some x.
Proof.
  induction n as [t vs ns IH] using node_ind'. intros p x. rewrite each_node_eq. 
  assert (G : forall l i, Forall (fun q => forall p x, In (p, x) (each_node true (snd q)) <-> at_path (snd q) p = Some x) l ->
    In (p, x) (go_nodes true i l) <->
    exists j p', p = (i + j)%nat :: p' /\ match p' with [] => nth_error l j = Some x
                                          | _ => exists k c, nth_error l j = Some (k, c) /\ at_path c p' = Some x end).
  { clear. induction l as [|[k c] l IHl]; intros i F.
    - cbn. split; [tauto|]. intros (j & p' & _ & H). destruct p'; [destruct j; discriminate|]. destruct H as (k & c & H & _). destruct j; discriminate.
    - inversion F as [|? ? F1 F2]; subst. cbn [snd] in F1. cbn [go_nodes In]. fold (go_nodes true). rewrite in_app_iff, in_map_iff, (IHl (S i) F2). split.
      + intros [E|[((q, y) & E & H)|(j & p' & E & H)]].
        * injection E as <- <-. exists O, []. rewrite Nat.add_0_r. auto.
        * cbn [fst snd] in E. injection E as <- <-. apply F1 in H. exists O, q. rewrite Nat.add_0_r. split; [reflexivity|].
          destruct q; [discriminate H|]. exists k, c. auto.
        * exists (S j), p'. split; [rewrite E; f_equal; lia|exact H].
      + intros ([|j] & p' & E & H).
        * rewrite Nat.add_0_r in E. cbn [nth_error] in H. destruct p' as [|a p'].
          -- injection H as <-. left. now rewrite E.
          -- destruct H as (k' & c' & H & A). injection H as <- <-. right; left. exists (a :: p', x). cbn [fst snd]. split; [now rewrite E|]. now apply F1.
        * right; right. exists j, p'. split; [rewrite E; f_equal; lia|exact H]. }
  rewrite (G ns O IH). clear G. destruct p as [|i p].
  - split; [intros (j & p' & E & _); discriminate E|destruct ns; discriminate].
  - split.
    + intros (j & p' & E & H). injection E as -> ->. cbn [Nat.add]. destruct p' as [|a p']; [exact H|]. destruct H as (k & c & X & H).
      rewrite at_path_cons2. cbn [n_nodes]. now rewrite X.
    + intros H. exists i, p. split; [reflexivity|]. destruct p as [|a p]; [exact H|]. rewrite at_path_cons2 in H. cbn [n_nodes] in H. destruct (nth_error ns i) as [[k c]|]; [|discriminate]. exists k, c. auto.
Qed.
Lemma each_node_in_flat n p x : In (p, x) (each_node false n) <-> exists i, p = [i] /\ nth_error (n_nodes n) i = Some x.
Proof.
  destruct n as [t vs ns]. rewrite each_node_eq. cbn [n_nodes].
  assert (G : forall l i, In (p, x) (go_nodes false i l) <-> exists j, p = [(i + j)%nat] /\ nth_error l j = Some x).
  { clear. induction l as [|[k c] l IHl]; intros i; cbn [go_nodes In app].
    - split; [tauto|]. intros (j & _ & H). destruct j; discriminate.
    - fold (go_nodes false). rewrite IHl. split.
      + intros [E|(j & E & H)]; [injection E as <- <-; exists O; now rewrite Nat.add_0_r|]. exists (S j). split; [rewrite E; f_equal; lia|exact H].
      + intros ([|j] & E & H); [left; rewrite Nat.add_0_r in E; injection H as <-; now rewrite E|]. right. exists j. split; [rewrite E; f_equal; lia|exact H]. }
  apply G.
Qed.

Lemma ssorted_app {A} (R : A -> A -> Prop) l1 l2 : StronglySorted R l1 -> StronglySorted R l2 -> (forall a b, In a l1 -> In b l2 -> R a b) ->
  StronglySorted R (l1 ++ l2).
Proof.
  induction 1 as [|a l1 S1 IH F]; cbn [app]; intros S2 H; [exact S2|]. constructor.
  - apply IH; [exact S2|]. intros; apply H; [now right|assumption].
  - apply Forall_app. split; [exact F|]. apply Forall_forall. intros b B. apply H; [now left|exact B].
Qed.
Lemma ssorted_map {A B} (R : A -> A -> Prop) (R' : B -> B -> Prop) (f : A -> B) l : (forall a b, R a b -> R' (f a) (f b)) ->
  StronglySorted R l -> StronglySorted R' (map f l).
Proof.
  intros H. induction 1 as [|a l S1 IH F]; cbn [map]; constructor; [exact IH|]. apply Forall_map. eapply Forall_impl; [|exact F]. cbv beta. auto.
Qed.
Lemma before_irrefl p : ~ before p p.
Proof. induction p as [|i p IH]; cbn; [tauto|]. intros [H|[_ H]]; [lia|exact (IH H)]. Qed.
Lemma before_trans : forall p q r, before p q -> before q r -> before p r.
Proof.
  induction p as [|i p IH]; intros [|j q] [|k r]; cbn; try tauto. intros [H|[-> H]] [H'|[-> H']]; try (left; lia). right. split; [reflexivity|]. eapply IH; eauto.
Qed.
Lemma before_total : forall p q, before p q \/ p = q \/ before q p.
Proof.
  induction p as [|i p IH]; intros [|j q]; cbn; auto. destruct (Nat.lt_trichotomy i j) as [H|[-> |H]]; auto.
  destruct (IH q) as [H|[-> |H]]; auto.
Qed.
Lemma each_node_sorted rec : forall n, StronglySorted before (map fst (each_node rec n)).
Proof.
  induction n as [t vs ns IH] using node_ind'. rewrite each_node_eq.
  assert (Lo : forall l i q, In q (map fst (go_nodes rec i l)) -> exists j p, q = j :: p /\ (i <= j)%nat).
  { clear. induction l as [|[k c] l IHl]; intros i q; cbn [go_nodes map In]; [tauto|]. fold (go_nodes rec). intros [<-|H]; [exists i, []; auto|].
    rewrite map_app, in_app_iff in H. destruct H as [H|H].
    - destruct rec; [|destruct H]. rewrite map_map in H. cbn [fst] in H. apply in_map_iff in H. destruct H as (y & <- & _). exists i, (fst y). auto.
    - destruct (IHl (S i) q H) as (j & p & -> & L). exists j, p. split; [reflexivity|lia]. }
  generalize O. induction ns as [|[k c] l IHl]; intros i; cbn [go_nodes map]; [constructor|]. fold (go_nodes rec). inversion IH as [|? ? H1 H2]; subst. cbn [snd fst] in *.
  rewrite map_app. constructor.
  - apply ssorted_app; [|exact (IHl H2 (S i))|].
    + destruct rec; [|constructor]. rewrite map_map. cbn [fst]. rewrite <- (map_map fst (fun p => i :: p)).
      eapply ssorted_map; [|exact H1]. intros a b; cbn; auto.
    + intros a b A B. destruct (Lo l (S i) b B) as (j & p & -> & L). destruct rec; [|destruct A]. rewrite map_map in A. apply in_map_iff in A.
      destruct A as (y & <- & _). cbn. left; lia.
  - apply Forall_app. split.
    + destruct rec; [|constructor]. apply Forall_forall. rewrite map_map. cbn [fst]. intros q Q. apply in_map_iff in Q. destruct Q as ([q' y] & <- & Q). cbn [fst].
      cbn. right. split; [reflexivity|]. destruct q'; [|exact I]. apply each_node_in in Q. destruct c; discriminate Q.
    + apply Forall_forall. intros q Q. destruct (Lo l (S i) q Q) as (j & p & -> & L). cbn. left; lia.
Qed.
Lemma sorted_nodup {A} (R : A -> A -> Prop) l : (forall a, ~ R a a) -> StronglySorted R l -> NoDup l.
Proof.
  intros H. induction 1 as [|a l S1 IH F]; constructor; [|exact IH]. intros I. rewrite Forall_forall in F. exact (H a (F a I)).
Qed.
Lemma combine_seq_in {A} (p : path) (l : list A) : forall a (q : path) (i : nat) x, In ((q, i), x) (combine (map (fun i => (p, i)) (seq a (length l))) l) <->
  q = p /\ (a <= i)%nat /\ nth_error l (i - a) = Some x.
Proof.
  induction l as [|y l IH]; intros a q i x; cbn [length seq map combine In].
  - split; [tauto|]. intros (_ & _ & H). destruct (i - a)%nat; discriminate.
  - rewrite IH. split.
    + intros [E|(-> & L & H)]; [injection E as <- <- <-; rewrite Nat.sub_diag; auto|]. split; [reflexivity|]. split; [lia|].
      replace (i - a)%nat with (S (i - S a)) by lia. exact H.
    + intros (-> & L & H). destruct (Nat.eq_dec i a) as [-> |N].
      * rewrite Nat.sub_diag in H. injection H as <-. now left.
      * right. split; [reflexivity|]. split; [lia|]. replace (i - a)%nat with (S (i - S a)) in H by lia. exact H.
Qed.
Lemma own_values_in p n q i x : In ((q, i), x) (own_values p n) <-> q = p /\ nth_error (n_values n) i = Some x.
Proof. unfold own_values. rewrite combine_seq_in, Nat.sub_0_r. intuition lia. Qed.
Lemma each_value_in n p i x : In ((p, i), x) (each_value true n) <-> value_at_path n p i = Some x.
Proof.
  unfold each_value. rewrite in_app_iff, own_values_in, in_flat_map. split.
  - intros [[-> H]|((q, (k, c)) & Q & H)]; [exact H|]. cbn [fst snd] in H. apply own_values_in in H. destruct H as [-> H].
    apply each_node_in in Q. unfold value_at_path. destruct q as [|a q]; [destruct n; discriminate Q|]. now rewrite Q.
  - unfold value_at_path. destruct p as [|a p]; [auto|]. destruct (at_path n (a :: p)) as [[k c]|] eqn:E; [|discriminate]. intros H. right.
    exists (a :: p, (k, c)). split; [now apply each_node_in|]. cbn [fst snd]. now apply own_values_in.
Qed.
Lemma each_value_in_flat n p i x : In ((p, i), x) (each_value false n) <-> p = [] /\ nth_error (n_values n) i = Some x.
Proof. unfold each_value. rewrite app_nil_r. apply own_values_in. Qed.

Lemma vbefore_irrefl a : ~ vbefore a a.
Proof. intros [H|[_ H]]; [exact (before_irrefl _ H)|lia]. Qed.
Lemma own_values_sorted p n : StronglySorted vbefore (map fst (own_values p n)).
Proof.
  unfold own_values. generalize O. generalize (n_values n). induction l as [|x l IH]; intros a; cbn [length seq map combine]; constructor; [apply IH|].
  apply Forall_forall. intros [q i] Q. apply in_map_iff in Q. destruct Q as ([[q' i'] y] & E & Q). cbn [fst] in E. injection E as -> ->.
  apply combine_seq_in in Q. destruct Q as (-> & L & _). right. cbn. split; [reflexivity|lia].
Qed.
Lemma each_value_sorted rec n : StronglySorted vbefore (map fst (each_value rec n)).
Proof.
  unfold each_value. rewrite map_app. apply ssorted_app; [apply own_values_sorted| |].
  - destruct rec; [|constructor]. pose proof (each_node_sorted true n) as H. induction (each_node true n) as [|[p [k c]] l IH]; cbn [flat_map map]; [constructor|].
    cbn [map fst] in H. inversion H as [|? ? H1 H2]; subst. rewrite map_app. apply ssorted_app; [apply own_values_sorted|exact (IH H1)|]. cbn [fst snd].
    intros [q i] [q' i'] Q Q'. apply in_map_iff in Q, Q'. destruct Q as ([[? ?] y] & E & Q), Q' as ([[? ?] y'] & E' & Q'). cbn [fst] in E, E'.
    injection E as -> ->. injection E' as -> ->. apply own_values_in in Q. destruct Q as [-> _]. apply in_flat_map in Q'. destruct Q' as ([p' z] & I1 & I2).
    apply own_values_in in I2. destruct I2 as [-> _]. left. cbn [fst]. rewrite Forall_forall in H2. apply H2. apply (in_map fst) in I1. exact I1.
  - intros [q i] [q' i'] Q Q'. apply in_map_iff in Q, Q'. destruct Q as ([[? ?] y] & E & Q), Q' as ([[? ?] y'] & E' & Q'). cbn [fst] in E, E'.
    injection E as -> ->. injection E' as -> ->. apply own_values_in in Q. destruct Q as [-> _]. destruct rec; [|destruct Q']. apply in_flat_map in Q'.
    destruct Q' as ([p' z] & I1 & I2). apply own_values_in in I2. destruct I2 as [-> _]. apply each_node_in in I1. left. cbn [fst].
    destruct p'; [destruct n; discriminate I1|exact I].
Qed.
Lemma filter_res_spec {A} (f : A -> res bool) p l : (forall x, f x = Ok (p x)) -> filter_res f l = Ok (filter p l).
Proof. intros H. induction l as [|x l IH]; [reflexivity|]. cbn [filter_res filter]. rewrite H, IH. cbn [rbind]. now destruct (p x). Qed.
Lemma find_nodes_spec rec n q k : names q k -> find_nodes rec n q = Ok (filter (fun x => bytes_eqb (fst (snd x)) k) (each_node rec n)).
Proof. intros H. apply filter_res_spec. intros [p [k' c]]. now apply (cmp_name_spec q k (k', c)). Qed.
Lemma find_values_spec rec n q k : names q k -> find_values rec n q = Ok (filter (fun x => bytes_eqb (fst (snd x)) k) (each_value rec n)).
Proof. intros H. apply filter_res_spec. intros [p [k' c]]. now apply (cmp_name_spec q k (k', c)). Qed.

(** * Inserting *)
Lemma store_string_spec q k : names q k -> store_string q = Ok k.
Proof.
  intros H. unfold store_string. destruct (zlen (fst q) <? 1) eqn:Z; [|now apply name_env].
  assert (E : fst q = []) by (apply zlen0; pose proof (zlen_nonneg (fst q)); lia). f_equal. destruct H as [[_ ->]|(cs & F & K & T & ->)]; [now rewrite E|].
  rewrite E in T. symmetry in T. apply text_nil in T; [|exact K]. now rewrite T.
Qed.
Lemma rebuild_id : forall c, rebuild c = Ok c.
Proof.
  induction c as [t vs ns IH] using node_ind'. cbn [rebuild].
  match goal with |- rbind (?g ns (empty_node t)) _ = _ => assert (G : forall l a, Forall (fun q => rebuild (snd q) = Ok (snd q)) l ->
    g l a = Ok (mkNode (n_type a) (n_values a) (n_nodes a ++ l))) end.
  { induction l as [|[k s] l IHl]; intros a F; [rewrite app_nil_r; destruct a; reflexivity|]. inversion F as [|? ? F1 F2]; subst. cbn [snd] in F1. rewrite F1.
    cbn [rbind]. rewrite store_node_utf8. cbn [rbind]. rewrite (IHl _ F2). cbn [n_type n_values n_nodes]. now rewrite <- app_assoc. }
  rewrite (G ns _ IH). cbn [rbind empty_node n_type n_values n_nodes app].
  match goal with |- ?g vs _ = _ => assert (V : forall l a, g l a = Ok (mkNode (n_type a) (n_values a ++ l) (n_nodes a))) end.
  { induction l as [|[k s] l IHl]; intros a; [rewrite app_nil_r; destruct a; reflexivity|]. rewrite store_value_utf8. cbn [rbind]. rewrite IHl.
    cbn [n_type n_values n_nodes]. now rewrite <- app_assoc. }
  rewrite V. reflexivity.
Qed.
(** * Positions *)
Lemma remove_at_spec {A} i (l : list A) : 0 <= i -> remove_at i l = firstn (Z.to_nat i) l ++ skipn (S (Z.to_nat i)) l.
Proof.
  intros H. unfold remove_at. destruct ((0 <=? i) && (i <? zlen l)) eqn:C; [apply erase_app|].
  rewrite firstn_all2, skipn_all2, app_nil_r by (unfold zlen in C; lia). reflexivity.
Qed.
Lemma get_at_spec n i : 0 <= i -> get_at n i =
  match nth_error (n_nodes n) (Z.to_nat i) with
  | Some (k, c) => Ok (UnNode k c)
  | None => match nth_error (n_values n) (Z.to_nat i) with Some (k, v) => Ok (UnValue k v) | None => UB UbNull end
  end.
Proof.
  intros H. unfold get_at. rewrite !link_at_spec by exact H. destruct (nth_error (n_nodes n) (Z.to_nat i)) as [[k c]|]; [reflexivity|]. cbn [rbind].
  destruct (nth_error (n_values n) (Z.to_nat i)) as [[k v]|]; reflexivity.
Qed.
(** a name that no text stands for *)
Lemma malformed_name_hits : str_eq ([], EUTF8) ([0; 216], EUTF16) = Ok true.
Proof. vm_compute. reflexivity. Qed.
