(** Objects before a Union among the objects given to Tree::unpack. *)
From Coq Require Import ZArith List Bool Lia ZifyBool ZifyNat.
From Verif Require Import Base Lemmas M_Types M_Conv M_TpTools M_Charset M_In S_Doc M_Env M_Event M_Tree S_Tree M_TreeIO M_Object M_ObjIO S_Object S_ObjStore S_ObjIO M_Pack
  P_In P_Doc P_Text P_Tree P_TreeOps P_ObjEager P_ObjLazy P_ObjIO P_Flat M_Union S_Union S_UnionMore P_Union.
Import ListNotations.
Open Scope Z_scope.

(** * Names *)
Lemma named_unique2 k its : NoDup (map doc_name its) -> match find (of_name true k) its with Some d => Some d | None => find (of_name false k) its end = item_named k its.
Proof.
  intros N. rewrite <- (named_unique k its N). destruct (find (of_name true k) its) as [a|] eqn:A; destruct (find (of_name false k) its) as [b|] eqn:B; try reflexivity.
  exfalso. apply find_some in A, B. destruct A as [A1 A2], B as [B1 B2]. unfold of_name in *. apply andb_prop in A2, B2. destruct A2 as [A2 A3], B2 as [B2 B3].
  apply bytes_eqb_eq in A3, B3. apply eqb_prop in A2, B2. enough (a = b) by congruence. clear - N A1 B1 A3 B3. induction its as [|x its IH]; [destruct A1|]. inversion N as [|? ? N1 N2]; subst.
  destruct A1 as [<-|A1], B1 as [<-|B1]; auto; exfalso; apply N1; [replace (doc_name x) with (doc_name b) by congruence|replace (doc_name x) with (doc_name a) by congruence]; now apply in_map.
Qed.
Lemma nlen_cons k ks its : length (upto_names (k :: ks) its) = Nat.max (length (upto_names ks its)) (length (upto_names [k] its)).
Proof.
  induction its as [|d its IH]; [reflexivity|]. cbn [upto_names]. unfold has_name in *. cbn [existsb] in *. rewrite orb_false_r.
  destruct (upto_names (k :: ks) its), (upto_names ks its), (upto_names [k] its); cbn [length] in *; destruct (bytes_eqb (doc_name d) k), (existsb (bytes_eqb (doc_name d)) ks); cbn [orb length]; lia.
Qed.
Lemma upto_firstn ks its : upto_names ks its = firstn (length (upto_names ks its)) its.
Proof.
  induction its as [|d its IH]; [reflexivity|]. cbn [upto_names]. destruct (upto_names ks its) as [|x l] eqn:E; [now destruct (has_name ks d)|].
  cbn [length] in *. change (firstn (S (S (length l))) (d :: its)) with (d :: firstn (S (length l)) its). now rewrite <- IH.
Qed.
Lemma nlen_le ks its : (length (upto_names ks its) <= length its)%nat.
Proof. rewrite upto_firstn, firstn_length. lia. Qed.
Lemma nlen_none k its : Forall (fun x => bytes_eqb (doc_name x) k = false) its -> upto_names [k] its = [].
Proof. induction 1 as [|d its H _ IH]; [reflexivity|]. cbn [upto_names]. rewrite IH. unfold has_name. cbn [existsb]. now rewrite H. Qed.
Lemma nlen_one k : forall its j d, NoDup (map doc_name its) -> nth_error its j = Some d -> doc_name d = k -> length (upto_names [k] its) = S j.
Proof.
  induction its as [|x its IH]; intros [|j] d N H E; try discriminate; cbn [nth_error] in H; inversion N as [|? ? N1 N2]; subst; cbn [upto_names].
  - injection H as ->. rewrite nlen_none; [unfold has_name; cbn [existsb]; now rewrite bytes_eqb_refl|]. apply Forall_forall. intros y I. destruct (bytes_eqb_spec (doc_name y) (doc_name d)) as [E|]; [|reflexivity]. destruct N1. rewrite <- E. now apply in_map.
  - specialize (IH _ _ N2 H eq_refl). destruct (upto_names [doc_name d] its); [discriminate|]. cbn [length] in *. lia.
Qed.
Lemma behind_upto ks : forall its, Forall (fun x => has_name ks x = false) (skipn (length (upto_names ks its)) its).
Proof.
  induction its as [|d its IH]; [constructor|]. cbn [upto_names]. destruct (upto_names ks its) as [|x l]; [|exact IH]. cbn [length skipn] in IH. destruct (has_name ks d) eqn:E; [exact IH|]. constructor; assumption.
Qed.
Lemma keep_filter (f : doc -> bool) al : forall l i, (forall x d, nth_error l x = Some d -> al (i + x)%nat = f d) -> keep al i l = filter f l.
Proof.
  induction l as [|d l IH]; intros i H; [reflexivity|]. cbn [keep filter]. rewrite <- (H 0%nat d eq_refl), Nat.add_0_r. rewrite (IH (S i)); [reflexivity|].
  intros x e E. replace (S i + x)%nat with (i + S x)%nat by lia. now apply H.
Qed.
Lemma nodup_at its : forall i j a b, NoDup (map doc_name its) -> nth_error its i = Some a -> nth_error its j = Some b -> doc_name a = doc_name b -> i = j.
Proof.
  intros i j a b N A B E. rewrite NoDup_nth_error in N. apply N; [rewrite map_length; apply nth_error_Some; congruence|].
  rewrite !nth_error_map, A, B. cbn. congruence.
Qed.
Lemma nodup_part {A B} (f : A -> B) (p : A -> bool) l : NoDup (map f l) -> NoDup (map f (filter p l)).
Proof.
  induction l as [|x l IH]; intros N; [constructor|]. inversion N as [|? ? N1 N2]; subst. cbn [filter]. destruct (p x); [|auto]. cbn [map]. constructor; [|auto].
  intros I. apply N1. apply in_map_iff in I. destruct I as (y & <- & I). apply in_map. apply filter_In in I. tauto.
Qed.
Lemma nodup_firstn {A B} (f : A -> B) p (l : list A) : NoDup (map f l) -> NoDup (map f (firstn p l)).
Proof. intros N. rewrite <- (firstn_skipn p l), map_app in N. clear - N. induction (firstn p l) as [|x r IH]; [constructor|]. cbn [map app] in *. inversion N as [|? ? N1 N2]; subst. constructor; [|auto]. intros I. apply N1. apply in_or_app. now left. Qed.

(** * The Union *)
Lemma union_at F k ty L R : NoDup (map doc_name L) -> Forall fine R -> (length (flat_map events R) < F)%nat ->
  match item_named k L with
  | Some d => exists tail, erun (paste_union F k (unode ty L)) (flat_map events R ++ [ev_end]) = Some (Ok ((refers d, pnode ty L), tail))
  | None => match item_named k R with
            | None => erun (paste_union F k (unode ty L)) (flat_map events R ++ [ev_end]) = Some Err
            | Some d => exists tail, erun (paste_union F k (unode ty L)) (flat_map events R ++ [ev_end]) = Some (Ok ((refers d, pnode ty (L ++ items_to k R)), tail))
            end
  end.
Proof.
  intros N Fi HF.
  assert (Out : forall b, Forall fine b -> (length (flat_map events b) < F)%nat -> exists tail, erun (consume_scope_loop F 0) (flat_map events b ++ [ev_end]) = Some (Ok (tt, tail))).
  { intros b Fb Lb. apply leave_somewhere; [lia| |rewrite app_length; cbn [length]; lia]. rewrite balance_app. change (balance [ev_end]) with (-1). enough (X : balance (flat_map events b) = 0) by lia.
    clear - Fb. induction Fb as [|x b [Sx _] _ IH]; [reflexivity|]. cbn [flat_map]. rewrite balance_app, balance_doc, IH by assumption. reflexivity. }
  unfold paste_union, consume_union. change (l_parsed (unode ty L)) with false. cbv iota. change (n_nodes (l_node (unode ty L))) with (subs_of L). change (n_values (l_node (unode ty L))) with (vals_of L).
  rewrite (find_link_spec false _ (named_b k)) by (intros; apply cmp_name_spec, utf8_names).
  rewrite (find_link_spec false _ (named_b k) (vals_of L)) by (intros; apply cmp_name_spec, utf8_names).
  assert (P1 : pick (subs_of L) (index_of (named_b k) (subs_of L)) = first_named k (subs_of L)) by apply pick_index.
  assert (P2 : pick (vals_of L) (index_of (named_b k) (vals_of L)) = first_named k (vals_of L)) by apply pick_index.
  rewrite first_node in P1. rewrite first_value in P2. cbn [select] in P1, P2.
  assert (E1 : forall A (o : option A), match o with None => Ok None | Some i => Ok (Some i) end = Ok o) by (intros ? []; reflexivity). rewrite !E1. cbn [elift ebind]. rewrite P1, P2.
  rewrite <- (named_unique2 k L N), <- !nth_match_find.
  destruct (nth_match (of_name true k) 0 L) as [[j d]|] eqn:M1.
  { destruct (Out R Fi HF) as [tail T]. exists tail. apply (match_kind true) in M1; [|intros x H; apply andb_prop in H; now apply eqb_prop]. destruct d as [|k' t' sub]; [discriminate|].
    cbn [ebind sub_of fst snd]. unfold consume_scope. cbn [unode l_parsed]. rewrite erun_bind, T. reflexivity. }
  destruct (nth_match (of_name false k) 0 L) as [[j d]|] eqn:M2.
  { destruct (Out R Fi HF) as [tail T]. exists tail. apply (match_kind false) in M2; [|intros x H; apply andb_prop in H; now apply eqb_prop]. destruct d as [k' v|]; [|discriminate].
    cbn [ebind val_of fst snd]. unfold consume_scope. cbn [unode l_parsed]. rewrite erun_bind, T. reflexivity. }
  unfold hash_string. rewrite (name_env (k, EUTF8) k) by apply utf8_names. cbn [rbind]. rewrite fnv1a_correct. cbn [elift ebind]. rewrite erun_bind, erun_bind.
  destruct (items_to_split k R) as [[-> Nn]|(a & d & b & E & -> & -> & Na & Nd)].
  - rewrite (scan_item_end k ty [] R F L) by auto. reflexivity.
  - subst R. apply Forall_app in Fi. destruct Fi as [Fa Fi]. inversion Fi as [|? ? Fd Fb]; subst. rewrite flat_map_app in HF |- *. cbn [flat_map] in HF |- *. rewrite !app_length in HF. rewrite <- !app_assoc.
    destruct (Out b Fb ltac:(lia)) as [tail T]. exists tail.
    rewrite (scan_item_stop k ty d (flat_map events b ++ [ev_end]) a F L) by (auto; rewrite flat_map_app, app_length; cbn [flat_map]; rewrite app_nil_r; lia). cbn [fst snd unode l_node].
    rewrite (app_assoc L a [d]), last_seen. cbn [elift ebind erun fst snd]. unfold consume_scope. cbn [l_parsed]. rewrite erun_bind. cbn [unode l_parsed]. rewrite T. reflexivity.
Qed.

(** * The objects before it *)
Definition where_are (done : list bytes) (its : list doc) (al : nat -> bool) (p : nat) : Prop :=
  (forall i x, nth_error its i = Some x -> al i = negb (has_name done x)) /\ (forall i, (p <= i)%nat -> al i = true) /\ p = length (upto_names done its).
Lemma has_cons k ks d : has_name (k :: ks) d = bytes_eqb (doc_name d) k || has_name ks d. Proof. reflexivity. Qed.
Lemma has_in ks d : has_name ks d = true <-> In (doc_name d) ks.
Proof. unfold has_name. rewrite existsb_exists. split; [intros (x & I & E); apply bytes_eqb_eq in E; now subst|intros I; exists (doc_name d); split; [exact I|apply bytes_eqb_refl]]. Qed.
Lemma where_next done its al p k j d : NoDup (map doc_name its) -> where_are done its al p -> nth_error its j = Some d -> doc_name d = k -> where_are (k :: done) its (less al j) (Nat.max p (S j)).
Proof.
  intros N (W1 & W2 & W3) Nj E. split; [|split].
  - intros i x Nx. unfold less. rewrite (W1 _ _ Nx), has_cons. destruct (Nat.eqb_spec i j) as [->|D].
    + assert (x = d) by congruence. subst x. rewrite E, bytes_eqb_refl. cbn [negb orb]. now rewrite andb_false_r.
    + destruct (bytes_eqb_spec (doc_name x) k) as [Ex|]; [destruct D; eapply nodup_at; eauto; congruence|]. cbn [orb negb]. now rewrite andb_true_r.
  - intros i Hi. unfold less. rewrite W2 by lia. replace (Nat.eqb i j) with false by lia. reflexivity.
  - rewrite nlen_cons, (nlen_one k its j d) by assumption. lia.
Qed.
Section Objects.
Variables (F0 F : nat) (w : world) (ty : ty) (its : list doc).
Hypothesis Rg : regular w.
Variable G : nat.
Hypothesis Gd : good G its.
Hypothesis HF : (F0 + G <= F)%nat.
Hypothesis Un : NoDup (map doc_name its).
Lemma objects_at : forall os done al p s vs s2 l, where_are done its al p -> NoDup (map i_name os ++ done) -> said_each F0 w its os s = Ok (vs, s2) ->
  exists al' p', where_are (rev (map i_name os) ++ done) its al' p' /\
    erun (paste_asks F w (map AskObject os ++ l) (unode ty (keep al 0 (firstn p its))) s) (flat_map events (skipn p its) ++ [ev_end]) =
    erun (ebind (paste_asks F w l (unode ty (keep al' 0 (firstn p' its))) s2) (fun q => let '(gs, n', s') := q in ERet (map GotObject vs ++ gs, n', s'))) (flat_map events (skipn p' its) ++ [ev_end]).
Proof.
  induction os as [|o os IH]; intros done al p s vs s2 l Wh Nd H; cbn [said_each] in H.
  - injection H as <- <-. exists al, p. split; [exact Wh|]. cbn [map app]. rewrite erun_bind. destruct (erun _ _) as [[[[[gs n'] s'] tl]| | |]|]; reflexivity.
  - unfold dfield, select in H. destruct (nth_match (of_name (scoped (i_type o)) (i_name o)) 0 its) as [[j d]|] eqn:M; [|discriminate]. pose proof (nth_match_0 _ _ _ _ M) as (Nj & Mj & Bj).
    destruct (dchild w true (said F0 w true) (i_type o) (i_val o) d s) as [[v s1]| | |] eqn:Ch; cbn [rbind fst snd] in H; try discriminate.
    destruct (said_each F0 w its os s1) as [[vs' s']| | |] eqn:E; cbn [rbind] in H; try discriminate. injection H as <- <-.
    cbn [map app] in Nd. inversion Nd as [|? ? Nd1 Nd2]; subst. pose proof Mj as Mj0. unfold of_name in Mj0. apply andb_prop in Mj0. destruct Mj0 as [_ Mj0]. apply bytes_eqb_eq in Mj0.
    pose proof Wh as (W1 & W2 & W3).
    assert (Aj : al j = true). { rewrite (W1 _ _ Nj). destruct (has_name done d) eqn:Hd; [|reflexivity]. apply has_in in Hd. destruct Nd1. apply in_or_app. right. now rewrite <- Mj0. }
    pose proof (where_next done its al p (i_name o) j d Un Wh Nj Mj0) as Wh'.
    assert (Nd' : NoDup (map i_name os ++ i_name o :: done)). { apply NoDup_Add with (a := i_name o) (l := map i_name os ++ done); [apply Add_app|]. split; assumption. }
    destruct (IH (i_name o :: done) (less al j) (Nat.max p (S j)) s1 vs' s' l Wh' Nd' E) as (al' & p' & X & Y). exists al', p'. split; [cbn [map rev]; rewrite <- app_assoc; exact X|].
    cbn [map app paste_asks]. rewrite erun_bind, erun_bind.
    rewrite (lazy_field w G F ltac:(lia) (paste_node F w) (said F0 w true) (said F w false)) with (j := j) (d := d) (v := v) (s' := s1).
    + cbn [erun]. rewrite erun_bind, Y, !erun_bind. destruct (erun (paste_asks F w l _ _) _) as [[[[[gs n'] s3] tl]| | |]|]; reflexivity.
    + intros. apply eager_said.
    + intros. eapply said_more; [| |eassumption]; [discriminate|lia].
    + intros t old k ty0 its0 s0 v0 s0' u rest H0 G0. replace F with (F0 + (F - F0))%nat by lia. apply (lazy_said F0 (F - F0) w t old k ty0 its0 s0 v0 s0' u rest Rg H0). destruct G0 as [A B]. split; [exact A|lia].
    + exact Gd.
    + exact Nj.
    + exact Aj.
    + rewrite matches_name. exact Mj.
    + intros i x Hi _ Nx. rewrite matches_name. eapply Bj; eauto.
    + exact W2.
    + rewrite W3. apply nlen_le.
    + exact Ch.
Qed.
End Objects.

(** * Objects, then a Union *)
Lemma upto_ext a b its : (forall d, has_name a d = has_name b d) -> upto_names a its = upto_names b its.
Proof. intros H. induction its as [|d its IH]; [reflexivity|]. cbn [upto_names]. now rewrite IH, H. Qed.
Lemma without_ext a b its : (forall d, has_name a d = has_name b d) -> without a its = without b its.
Proof. intros H. apply filter_ext. intros d. now rewrite H. Qed.
Lemma without_app ks a b : without ks (a ++ b) = without ks a ++ without ks b. Proof. apply filter_app. Qed.
Lemma without_none ks its : Forall (fun x => has_name ks x = false) its -> without ks its = its.
Proof. induction 1 as [|d its H _ IH]; [reflexivity|]. unfold without in *. cbn [filter]. now rewrite H, IH. Qed.
Lemma named_app k a b : item_named k (a ++ b) = match item_named k a with Some d => Some d | None => item_named k b end.
Proof. unfold item_named. induction a as [|x a IH]; [reflexivity|]. cbn [app find]. destruct (bytes_eqb _ _); [reflexivity|exact IH]. Qed.
Lemma named_without k ks its : ~ In k ks -> item_named k (without ks its) = item_named k its.
Proof.
  intros N. unfold item_named, without. induction its as [|d its IH]; [reflexivity|]. cbn [filter find]. destruct (bytes_eqb_spec (doc_name d) k) as [E|E].
  - destruct (has_name ks d) eqn:H; [apply has_in in H; congruence|]. cbn [negb find]. now rewrite E, bytes_eqb_refl.
  - destruct (has_name ks d); cbn [negb]; [exact IH|]. cbn [find]. destruct (bytes_eqb_spec (doc_name d) k) as [E'|_]; [destruct (E E')|exact IH].
Qed.
Lemma named_taken k ks its : In k ks -> item_named k (without ks its) = None.
Proof.
  intros N. unfold item_named, without. induction its as [|d its IH]; [reflexivity|]. cbn [filter]. destruct (has_name ks d) eqn:H; cbn [negb]; [exact IH|]. cbn [find]. destruct (bytes_eqb_spec (doc_name d) k) as [E|_]; [|exact IH].
  enough (has_name ks d = true) by congruence. apply has_in. now rewrite E.
Qed.
Lemma has_rev ks d : has_name (rev ks ++ []) d = has_name ks d.
Proof. rewrite app_nil_r. apply eq_true_iff_eq. rewrite !has_in. symmetry. apply in_rev. Qed.

Section Union.
Variables (os : list item) (its : list doc) (k : bytes).
Definition known : list bytes := map i_name os.
Definition stored : list doc := without known (upto_names known its).
Definition unread : list doc := skipn (length (upto_names known its)) its.
Lemma stored_unread : its = upto_names known its ++ unread.
Proof. unfold unread. rewrite (upto_firstn known its) at 1. symmetry. apply firstn_skipn. Qed.
Lemma left_over d : NoDup (map doc_name its) -> ~ In k known -> item_named k its = Some d ->
  match item_named k stored with
  | Some e => e = d /\ stored = without known (upto_names (k :: known) its)
  | None => item_named k unread = Some d /\ stored ++ items_to k unread = without known (upto_names (k :: known) its)
  end.
Proof.
  intros N Nk H. unfold stored at 1. rewrite named_without by assumption. pose proof stored_unread as E.
  assert (U : forall j, nth_error its j = Some d -> upto_names (k :: known) its = firstn (Nat.max (length (upto_names known its)) (S j)) its).
  { intros j Nj. rewrite upto_firstn, nlen_cons, (nlen_one k its j d); auto. apply find_some in H. destruct H as [_ H]. now apply bytes_eqb_eq. }
  pose proof (nlen_le known its) as Le. rewrite E in H at 1. rewrite named_app in H. destruct (item_named k (upto_names known its)) as [e|] eqn:En.
  - split; [congruence|]. injection H as ->. unfold item_named in En. apply find_some in En. destruct En as [I _]. apply In_nth_error in I. destruct I as [j I].
    assert (Hj : (j < length (upto_names known its))%nat) by (apply nth_error_Some; congruence).
    rewrite (U j).
    2:{ assert (Z : nth_error (upto_names known its ++ unread) j = Some d) by (rewrite nth_error_app1 by exact Hj; exact I). now rewrite <- E in Z. } rewrite Nat.max_l by lia. unfold stored. now rewrite <- upto_firstn.
  - split; [exact H|]. destruct (items_to_split k unread) as [[C _]|(a & e & b & Ea & Ee & Ei & _ & _)]; [congruence|]. assert (e = d) by congruence. subst e.
    pose proof (behind_upto known its) as B. fold unread in B. rewrite Ei. rewrite (U (length (upto_names known its) + length a)%nat).
    2:{ assert (Z : nth_error (upto_names known its ++ unread) (length (upto_names known its) + length a) = Some d); [|now rewrite <- E in Z].
        rewrite nth_error_app2, Ea by lia. replace (length (upto_names known its) + length a - length (upto_names known its))%nat with (length a) by lia. rewrite nth_error_app2, Nat.sub_diag by lia. reflexivity. }
    rewrite Nat.max_r by lia. replace (S (length (upto_names known its) + length a)) with (length (upto_names known its ++ a ++ [d])) by (rewrite !app_length; cbn [length]; lia).
    assert (E2 : its = (upto_names known its ++ a ++ [d]) ++ b) by (rewrite <- !app_assoc; cbn [app]; rewrite <- Ea; exact E).
    replace (firstn (length (upto_names known its ++ a ++ [d])) its) with (upto_names known its ++ a ++ [d]).
    2:{ rewrite E2 at 3. rewrite firstn_app, Nat.sub_diag, firstn_all. cbn [firstn]. now rewrite app_nil_r. }
    rewrite without_app. unfold stored. f_equal. symmetry. apply without_none. rewrite Ea in B. change (d :: b) with ([d] ++ b) in B. rewrite app_assoc in B. apply Forall_app in B. tauto.
Qed.
End Union.

Lemma asks_read F0 F w q i d os vs s l : regular w -> holds (w_fp w) (S F) q i d -> deep_enough d -> (F0 + length (events d) <= F)%nat ->
  NoDup (map doc_name (items d)) -> NoDup (map i_name os) -> said_each F0 w (items d) os rs_new = Ok (vs, s) ->
  exists ty, NoDup (map doc_name (stored os (items d))) /\ Forall fine (unread os (items d)) /\ (length (flat_map events (unread os (items d))) < F)%nat /\
    erun (unpack_asks (S F) w (map AskObject os ++ l)) (events d) =
    erun (ebind (paste_asks F w l (unode ty (stored os (items d))) s) (fun q => let '(gs, n', s') := q in ERet (map GotObject vs ++ gs, s'))) (flat_map events (unread os (items d)) ++ [ev_end]).
Proof.
  intros Rg H De HF N No Sa. destruct d as [|r0 ty its]; [destruct De as (_ & C & _); discriminate|]. pose proof (good_doc _ _ _ De) as Gd. destruct De as (Sh & _ & D). apply shaped_scope in Sh. destruct Sh as [T Sh]. cbn [items] in *. exists ty.
  assert (W0 : where_are [] its (fun _ => true) 0).
  { repeat split; auto. induction its as [|x its IH]; [reflexivity|]. clear. cbn [upto_names]. assert (X : upto_names [] its = []) by (induction its as [|y l E]; [reflexivity|]; cbn [upto_names]; now rewrite E). now rewrite X. }
  destruct (objects_at F0 F w ty its Rg _ Gd HF N os [] (fun _ => true) 0%nat rs_new vs s l W0 ltac:(now rewrite app_nil_r) Sa) as (al & p & (W1 & W2 & W3) & R). cbn [firstn keep skipn] in R.
  assert (Ep : p = length (upto_names (known os) its)) by (rewrite W3; f_equal; apply upto_ext; intros; apply has_rev).
  assert (Ek : keep al 0 (firstn p its) = stored os its).
  { unfold stored. rewrite (upto_firstn (known os) its), <- Ep. apply keep_filter. intros x e E. cbn [Nat.add].
    assert (Hx : (x < p)%nat). { apply Nat.nlt_ge. intros C. assert (nth_error (firstn p its) x = None); [|congruence]. apply nth_error_None. rewrite firstn_length. lia. }
    rewrite nth_firstn in E by lia. rewrite (W1 _ _ E). f_equal. apply has_rev. }
  rewrite Ek in R. destruct Gd as [Fi Hl]. split; [|split; [|split]].
  - unfold stored, without. apply nodup_part. rewrite upto_firstn. now apply nodup_firstn.
  - unfold unread. now apply forall_skipn.
  - unfold unread. pose proof (events_split (length (upto_names (known os) its)) its). lia.
  - unfold unpack_asks. cbn [events erun]. change (v_type (val_type ty)) with ty. rewrite T. cbn [negb]. change (mkL false (empty_node ty)) with (unode ty []). change [ev_end] with (ev_end :: []) in R |- *. rewrite erun_bind.
    unfold unread. rewrite <- Ep. change (flat_map events its ++ [([], val_type TScopeEnd)]) with (flat_map events its ++ [ev_end]). rewrite R, !erun_bind.
    destruct (erun (paste_asks F w l _ _) _) as [[[[[gs n'] s3] tl]| | |]|]; reflexivity.
Qed.
Theorem union_after F0 F w q i d os vs s k l : regular w -> holds (w_fp w) (S F) q i d -> deep_enough d -> (F0 + length (events d) <= F)%nat ->
  NoDup (map doc_name (items d)) -> NoDup (map i_name os) -> said_each F0 w (items d) os rs_new = Ok (vs, s) -> ~ In k (map i_name os) ->
  match item_named k (items d) with
  | None => run_block (unpack_any (w_fp w) (S F) w q (map AskObject os ++ AskUnion k :: l)) i = Err
  | Some u => exists r ty, paste_any F w l (doc_node (DScope [] ty (without (map i_name os) (upto_names (k :: map i_name os) (items d))))) s = elift r /\
      match r with
      | Ok (gs, s') => exists q' i', run_block (unpack_any (w_fp w) (S F) w q (map AskObject os ++ AskUnion k :: l)) i = Ok ((q', (map GotObject vs ++ GotUnion (refers u) :: gs, s')), i')
      | Err => run_block (unpack_any (w_fp w) (S F) w q (map AskObject os ++ AskUnion k :: l)) i = Err
      | UB b => run_block (unpack_any (w_fp w) (S F) w q (map AskObject os ++ AskUnion k :: l)) i = UB b
      | Fuel => True
      end
  end.
Proof.
  intros Rg H De HF N No Sa Nk. destruct (asks_read F0 F w q i d os vs s (AskUnion k :: l) Rg H De HF N No Sa) as (ty & NL & FR & LR & R). set (its := items d) in *.
  pose proof (union_at F k ty (stored os its) (unread os its) NL FR LR) as U.
  assert (P : forall (X : res (union * lnode)) tail, erun (paste_union F k (unode ty (stored os its))) (flat_map events (unread os its) ++ [ev_end]) = outcome X tail ->
    erun (unpack_asks (S F) w (map AskObject os ++ AskUnion k :: l)) (events d) =
    match X with
    | Ok (u, n) => erun (ebind (paste_asks F w l n s) (fun q => let '(gs, n', s') := q in ERet (map GotObject vs ++ GotUnion u :: gs, s'))) tail
    | Err => Some Err | UB u => Some (UB u) | Fuel => Some Fuel end).
  { intros X tail E. rewrite R. cbn [paste_asks]. rewrite erun_bind, erun_bind, erun_bind, E. unfold outcome. destruct X as [[u n]| | |]; try reflexivity. cbn [erun fst snd]. rewrite !erun_bind.
    destruct (erun (paste_asks F w l n s) tail) as [[[[[gs n'] s'] tl]| | |]|]; reflexivity. }
  destruct (item_named k its) as [u|] eqn:Iu.
  - pose proof (left_over os its k u N Nk Iu) as Lo.
    assert (Y : exists tail, erun (paste_union F k (unode ty (stored os its))) (flat_map events (unread os its) ++ [ev_end]) = outcome (Ok (refers u, pnode ty (without (known os) (upto_names (k :: known os) its)))) tail).
    { destruct (item_named k (stored os its)) as [e|].
      - destruct Lo as [-> Lo]. destruct U as [tail U]. exists tail. rewrite U, Lo. reflexivity.
      - destruct Lo as [Lo1 Lo2]. rewrite Lo1 in U. destruct U as [tail U]. exists tail. rewrite U, Lo2. reflexivity. }
    destruct Y as [tail Y]. specialize (P _ tail Y). destruct (any_tree F w [] ty (without (known os) (upto_names (k :: known os) its)) l s) as (r & A1 & A2). exists r, ty. split; [exact A1|].
    cbv beta iota in P. rewrite A2 in P. unfold unpack_any. destruct r as [[gs s']| |b|]; cbn [elift ebind erun fst snd] in P.
    + exact (holds_outcome _ _ _ _ _ _ (Ok (map GotObject vs ++ GotUnion (refers u) :: gs, s')) tail H P).
    + exact (holds_outcome _ _ _ _ _ _ Err tail H P).
    + exact (holds_outcome _ _ _ _ _ _ (UB b) tail H P).
    + exact I.
  - assert (Y : item_named k (stored os its) = None /\ item_named k (unread os its) = None).
    { unfold stored. rewrite named_without by assumption. rewrite (stored_unread os its), named_app in Iu. destruct (item_named k (upto_names (known os) its)); [discriminate|]. auto. }
    destruct Y as [Y1 Y2]. rewrite Y1, Y2 in U. specialize (P Err [] U). exact (holds_outcome _ _ _ _ _ _ Err [] H P).
Qed.
(** an object takes its item away *)
Theorem union_taken F0 F w q i d os vs s k l : regular w -> holds (w_fp w) (S F) q i d -> deep_enough d -> (F0 + length (events d) <= F)%nat ->
  NoDup (map doc_name (items d)) -> NoDup (map i_name os) -> said_each F0 w (items d) os rs_new = Ok (vs, s) -> In k (map i_name os) ->
  run_block (unpack_any (w_fp w) (S F) w q (map AskObject os ++ AskUnion k :: l)) i = Err.
Proof.
  intros Rg H De HF N No Sa Nk. destruct (asks_read F0 F w q i d os vs s (AskUnion k :: l) Rg H De HF N No Sa) as (ty & NL & FR & LR & R). set (its := items d) in *.
  pose proof (union_at F k ty (stored os its) (unread os its) NL FR LR) as U.
  assert (Y1 : item_named k (stored os its) = None) by now apply named_taken.
  assert (Y2 : item_named k (unread os its) = None).
  { pose proof (behind_upto (known os) its) as B. fold (unread os its) in B. unfold item_named. rewrite Forall_forall in B. destruct (find _ (unread os its)) as [e|] eqn:E; [|reflexivity].
    apply find_some in E. destruct E as [E1 E2]. apply bytes_eqb_eq in E2. enough (has_name (known os) e = true) by (rewrite B in *; [discriminate|assumption]). apply has_in. unfold known. now rewrite E2. }
  rewrite Y1, Y2 in U.
  assert (P : erun (unpack_asks (S F) w (map AskObject os ++ AskUnion k :: l)) (events d) = outcome (Err : res (list got * rstate)) []).
  { rewrite R. cbn [paste_asks]. rewrite erun_bind, erun_bind, erun_bind, U. reflexivity. }
  exact (holds_outcome _ _ _ _ _ _ Err [] H P).
Qed.
