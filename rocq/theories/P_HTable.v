(** Hash table: representation invariant and refinement of the finite map. *)
From Coq Require Import ZArith List Bool Lia ZifyBool ZifyNat Permutation.
From Verif Require Import Base Lemmas M_HTable S_HTable.
Import ListNotations.
Open Scope Z_scope.

Section Proof.
Context {K V : Type}.
Variable keq : K -> K -> bool.
Variable hash : K -> Z.
Variable lf : Z -> Z.
Hypothesis keq_eq : forall a b, keq a b = true <-> a = b.

Local Notation entry := (entry K V).
Local Notation htab := (htab K V).
Local Notation cell := (nat * (K * V))%type.
Definition ckey (c : cell) : K := fst (snd c).

(** ** lists *)
Lemma nth_upd_eq : forall {A} (l : list A) i x, (i < length l)%nat -> nth_error (upd i x l) i = Some x.
Proof. induction l; intros [|i] x H; cbn in *; try lia; auto. apply IHl. lia. Qed.
Lemma nth_upd_ne : forall {A} (l : list A) i j x, i <> j -> nth_error (upd i x l) j = nth_error l j.
Proof. induction l; intros [|i] [|j] x H; cbn; auto; try congruence. Qed.
Lemma length_upd : forall {A} (l : list A) i x, length (upd i x l) = length l.
Proof. induction l; intros [|i] x; cbn; auto. Qed.
Lemma upd_mid : forall {A} (l1 l2 : list A) x y, upd (length l1) y (l1 ++ x :: l2) = l1 ++ y :: l2.
Proof. induction l1; intros; cbn; auto. f_equal. auto. Qed.
Lemma nth_lt : forall {A} (l : list A) i x, nth_error l i = Some x -> (i < length l)%nat.
Proof. intros. apply nth_error_Some. congruence. Qed.

(** ** linked lists *)
Fixpoint seg (mem : list entry) (p : option nat) (l : list cell) (q : option nat) : Prop :=
  match l with
  | [] => p = q
  | (a, (k, v)) :: r => p = Some a /\ exists nx, nth_error mem a = Some (mkEntry (hash k) nx k v) /\ seg mem nx r q
  end.
Lemma seg_app : forall mem l1 l2 p q, seg mem p (l1 ++ l2) q <-> exists r, seg mem p l1 r /\ seg mem r l2 q.
Proof.
  induction l1 as [|[a [k v]] l1 IH]; intros l2 p q; cbn [app seg].
  - split; [eauto|]. intros (r & -> & H). auto.
  - split.
    + intros (E & nx & N & S). apply IH in S as (r & S1 & S2). eauto 8.
    + intros (r & (E & nx & N & S1) & S2). split; auto. exists nx. split; auto. apply IH. eauto.
Qed.
Lemma seg_frame : forall mem mem' l p q, (forall a, In a (map fst l) -> nth_error mem' a = nth_error mem a) ->
  seg mem p l q -> seg mem' p l q.
Proof.
  induction l as [|[a [k v]] l IH]; intros p q H S; cbn [seg map In fst] in *; auto.
  destruct S as (E & nx & N & S). split; auto. exists nx. rewrite H by auto. split; auto.
Qed.
Lemma seg_range : forall mem l p q a, seg mem p l q -> In a (map fst l) -> (a < length mem)%nat.
Proof.
  induction l as [|[b [k v]] l IH]; intros p q a S I; cbn [seg map In fst] in *; [tauto|].
  destruct S as (E & nx & N & S). destruct I as [<-|I]; [eapply nth_lt; eauto|eauto].
Qed.
(** changing the [next] of an entry *)
Definition last_of (d : option nat) (l : list cell) : option nat := fold_left (fun _ c => Some (fst c)) l d.
Lemma last_of_app : forall d l a x, last_of d (l ++ [(a, x)]) = Some a.
Proof. intros. unfold last_of. rewrite fold_left_app. auto. Qed.

Lemma set_next_spec : forall (mem : list entry) a e p, nth_error mem a = Some e ->
  exists mem', set_next mem a p = Ok mem' /\ length mem' = length mem /\
  nth_error mem' a = Some (mkEntry (e_hash e) p (e_key e) (e_val e)) /\ (forall b, b <> a -> nth_error mem' b = nth_error mem b).
Proof.
  intros mem a e p H. unfold set_next, rd. rewrite H. cbn [rbind]. eexists. split; [reflexivity|].
  split; [apply length_upd|]. split; [apply nth_upd_eq; eapply nth_lt; eauto|]. intros. apply nth_upd_ne. auto.
Qed.

Lemma seg_set_last : forall mem mem' l a k v p q r nx, seg mem p (l ++ [(a, (k, v))]) q ->
  NoDup (map fst (l ++ [(a, (k, v))])) ->
  nth_error mem a = Some (mkEntry (hash k) nx k v) ->
  nth_error mem' a = Some (mkEntry (hash k) r k v) ->
  (forall b, b <> a -> In b (map fst l) -> nth_error mem' b = nth_error mem b) ->
  seg mem' p (l ++ [(a, (k, v))]) r.
Proof.
  intros mem mem' l a k v p q r nx S D N N' F. apply seg_app in S as (s & S1 & S2). apply seg_app. exists s. split.
  - eapply seg_frame; [|exact S1]. intros b Hb. apply F; auto. intros ->.
    rewrite map_app in D. apply NoDup_remove_2 in D. apply D. rewrite app_nil_r. auto.
  - cbn [seg] in *. destruct S2 as (E & _). split; auto. exists r. auto.
Qed.

(** ** searching *)
Lemma ht_find_spec : forall mem k l p prev fuel, seg mem p l None -> (length l < fuel)%nat ->
  (exists a v l1 l2, l = l1 ++ (a, (k, v)) :: l2 /\ ~ In k (map ckey l1) /\
     ht_find keq fuel mem p prev (hash k) k = Ok (Some a, last_of prev l1)) \/
  (~ In k (map ckey l) /\ ht_find keq fuel mem p prev (hash k) k = Ok (None, last_of prev l)).
Proof.
  induction l as [|[a [k' v]] l IH]; intros p prev fuel S L; (destruct fuel as [|fuel]; [cbn in L; lia|]); cbn [seg ht_find map In ckey] in *.
  - subst p. right. auto.
  - destruct S as (-> & nx & N & S). unfold rd. rewrite N. cbn [rbind e_hash e_key e_next].
    destruct (keq k' k) eqn:E.
    + apply keq_eq in E. subst k'. rewrite Z.eqb_refl. cbn [andb]. left. exists a, v, [], l. auto.
    + assert (Ne : k' <> k) by (intros ->; rewrite (proj2 (keq_eq k k) eq_refl) in E; discriminate).
      rewrite andb_false_r. destruct (IH nx (Some a) fuel S ltac:(cbn in L; lia)) as [(a' & v' & l1 & l2 & E1 & E2 & E3)|[E1 E2]].
      * left. exists a', v', ((a, (k', v)) :: l1), l2. split; [rewrite E1; auto|]. split; [|exact E3]. cbn. intros [X|X]; auto.
      * right. split; [|exact E2]. intros [X|X]; auto.
Qed.

(** ** the invariant *)
Definition chain (mem : list entry) (p : option nat) (l : list cell) : Prop := seg mem p l None.
Definition in_bucket (cap : Z) (ch : list (list cell)) : Prop :=
  forall i l c, nth_error ch i = Some l -> In c l -> get_bucket cap (hash (ckey c)) = Z.of_nat i.
Record live (t : htab) (ch : list (list cell)) : Prop := mkLive {
  lv_cap : 0 < t_cap t; lv_len : zlen ch = t_cap t; lv_limit : 0 < t_limit t; lv_alive : t_alive t = true;
  lv_table : exists tb, t_table t = Some tb /\ Forall2 (chain (t_mem t)) tb ch;
  lv_elems : t_elems t = zlen (concat ch);
  lv_addr : NoDup (map fst (concat ch) ++ t_cache t);
  lv_cache : Forall (fun a => (a < length (t_mem t))%nat) (t_cache t);
  lv_bucket : in_bucket (t_cap t) ch;
  lv_keys : NoDup (map ckey (concat ch)) }.
Definition inv (t : htab) (m : list (K * V)) : Prop :=
  (t_limit t = 0 /\ t_elems t = 0 /\ t_cache t = [] /\ m = []) \/
  (exists ch, live t ch /\ Permutation m (map snd (concat ch))).

Lemma bucket_range : forall cap h, 0 < cap -> 0 <= get_bucket cap h < cap.
Proof. intros. unfold get_bucket. apply Z.mod_pos_bound. auto. Qed.

Lemma nodup_len : forall (l : list nat) n, NoDup l -> (forall a, In a l -> (a < n)%nat) -> (length l <= n)%nat.
Proof.
  intros l n D H. replace n with (length (seq 0 n)) by apply seq_length. apply NoDup_incl_length; auto.
  intros a A. apply in_seq. specialize (H a A). lia.
Qed.
Lemma NoDup_app_l : forall {A} (l1 l2 : list A), NoDup (l1 ++ l2) -> NoDup l1.
Proof.
  induction l1; intros l2 H; [constructor|]. inversion H; subst. constructor; eauto. intro X. apply H2. apply in_or_app; auto.
Qed.
Lemma NoDup_app_r : forall {A} (l1 l2 : list A), NoDup (l1 ++ l2) -> NoDup l2.
Proof. induction l1; intros l2 H; auto. inversion H; subst; eauto. Qed.
Lemma NoDup_app_disj : forall {A} (l1 l2 : list A) x, NoDup (l1 ++ l2) -> In x l1 -> ~ In x l2.
Proof.
  induction l1; intros l2 x H I J; [destruct I|]. inversion H; subst. destruct I as [<-|I]; [|eapply IHl1; eauto].
  apply H2. apply in_or_app; auto.
Qed.

Lemma Forall2_nth_both : forall {A B} (R : A -> B -> Prop) l1 l2 i, Forall2 R l1 l2 -> (i < length l2)%nat ->
  exists a b l1a l1b l2a l2b, l1 = l1a ++ a :: l1b /\ l2 = l2a ++ b :: l2b /\ length l1a = i /\ length l2a = i /\
  R a b /\ Forall2 R l1a l2a /\ Forall2 R l1b l2b.
Proof.
  intros A B R l1 l2 i H. revert i. induction H as [|x y l1 l2 Hxy H IH]; intros i Hi; [cbn in Hi; lia|].
  destruct i as [|i].
  - exists x, y, [], l1, [], l2. cbn. repeat split; auto.
  - destruct (IH i ltac:(cbn in Hi; lia)) as (a & b & l1a & l1b & l2a & l2b & -> & -> & E1 & E2 & R1 & R2 & R3).
    exists a, b, (x :: l1a), l1b, (y :: l2a), l2b. cbn. repeat split; auto.
Qed.

Lemma chain_frame : forall mem mem' tb ch, (forall a, In a (map fst (concat ch)) -> nth_error mem' a = nth_error mem a) ->
  Forall2 (chain mem) tb ch -> Forall2 (chain mem') tb ch.
Proof.
  intros mem mem' tb ch H F. induction F as [|p l tb ch C F IH]; constructor.
  - eapply seg_frame; [|exact C]. intros a A. apply H. cbn [concat]. rewrite map_app. apply in_or_app. auto.
  - apply IH. intros a A. apply H. cbn [concat]. rewrite map_app. apply in_or_app. auto.
Qed.
Lemma chain_range : forall mem tb ch a, Forall2 (chain mem) tb ch -> In a (map fst (concat ch)) -> (a < length mem)%nat.
Proof.
  intros mem tb ch a F. induction F as [|p l tb ch C F IH]; cbn [concat map]; intro I; [destruct I|].
  rewrite map_app in I. apply in_app_or in I as [I|I]; auto. eapply seg_range; eauto.
Qed.

(** the bucket of a key *)
Lemma live_slot : forall t ch k, live t ch -> exists tb p l ta tc ca cc,
  t_table t = Some tb /\ tb = ta ++ p :: tc /\ ch = ca ++ l :: cc /\
  length ta = Z.to_nat (get_bucket (t_cap t) (hash k)) /\ length ca = Z.to_nat (get_bucket (t_cap t) (hash k)) /\
  chain (t_mem t) p l /\ Forall2 (chain (t_mem t)) ta ca /\ Forall2 (chain (t_mem t)) tc cc /\
  slot t (get_bucket (t_cap t) (hash k)) = Ok p /\ (length l < fuel_of t)%nat /\
  (~ In k (map ckey l) -> ~ In k (map ckey (concat ch))).
Proof.
  intros t ch k L. pose proof L as Lc. destruct L as [l1 l2 l3 l4 (tb & l5 & l6) l7 l8 l9 l10 l11].
  pose proof (bucket_range (t_cap t) (hash k) l1) as B.
  destruct (Forall2_nth_both _ _ _ (Z.to_nat (get_bucket (t_cap t) (hash k))) l6 ltac:(unfold zlen in *; lia))
    as (p & l & ta & tc & ca & cc & E1 & E2 & L1 & L2 & C1 & C2 & C3).
  exists tb, p, l, ta, tc, ca, cc. repeat split; auto.
  - unfold slot. rewrite l5, l4. cbn [negb]. rewrite E1, <- L1, nth_error_app2, Nat.sub_diag by lia. auto.
  - unfold fuel_of. apply Nat.lt_succ_r. rewrite <- (map_length fst l). apply nodup_len.
    + rewrite E2, concat_app in l8. cbn [concat] in l8. rewrite !map_app in l8. apply NoDup_app_l, NoDup_app_r, NoDup_app_l in l8. auto.
    + intros a A. eapply seg_range; eauto.
  - intros N I. apply in_map_iff in I as (c & Ec & I). rewrite E2, concat_app in I. cbn [concat] in I.
    apply in_app_or in I as [I|I]; [|apply in_app_or in I as [I|I]].
    + apply in_concat in I as (lx & Ix & Ic). apply In_nth_error in Ix as [i Ni].
      assert (Hi : (i < length ca)%nat) by (eapply nth_lt; eauto).
      assert (X := l10 i lx c). rewrite E2, nth_error_app1 in X by auto. specialize (X Ni Ic). rewrite Ec in X. lia.
    + apply N. rewrite <- Ec. apply in_map. auto.
    + apply in_concat in I as (lx & Ix & Ic). apply In_nth_error in Ix as [i Ni].
      assert (X := l10 (length ca + S i)%nat lx c). rewrite E2, nth_error_app2 in X by lia.
      replace (length ca + S i - length ca)%nat with (S i) in X by lia. specialize (X Ni Ic). rewrite Ec in X. lia.
Qed.

(** ** the map side *)
Lemma lookup_in : forall (m : list (K * V)) k v, NoDup (map fst m) -> (lookup keq m k = Some v <-> In (k, v) m).
Proof.
  induction m as [|[k' v'] m IH]; intros k v D; cbn [lookup]; [split; [discriminate|intros []]|].
  inversion D; subst. destruct (keq k' k) eqn:E.
  - apply keq_eq in E. subst k'. split; [intro X; injection X as ->; left; auto|].
    intros [X|X]; [congruence|]. exfalso. apply H1. apply (in_map fst) in X. auto.
  - rewrite IH by auto. split; [right; auto|]. intros [X|X]; auto. injection X as -> ->.
    rewrite (proj2 (keq_eq k k) eq_refl) in E. discriminate.
Qed.
Lemma lookup_none : forall (m : list (K * V)) k, ~ In k (map fst m) -> lookup keq m k = None.
Proof.
  induction m as [|[k' v'] m IH]; intros k N; cbn [lookup]; auto. destruct (keq k' k) eqn:E.
  - apply keq_eq in E. exfalso. apply N. left; auto.
  - apply IH. intro. apply N. right; auto.
Qed.
Lemma without_none : forall (m : list (K * V)) k, ~ In k (map fst m) -> without keq m k = m.
Proof.
  intros m k N. unfold without. induction m as [|[k' v'] m IH]; cbn [filter fst]; auto.
  destruct (keq k' k) eqn:E; cbn [negb].
  - apply keq_eq in E. exfalso. apply N. left; auto.
  - f_equal. apply IH. intro. apply N. right; auto.
Qed.
Lemma without_split : forall (l1 l2 : list (K * V)) k v, NoDup (map fst (l1 ++ (k, v) :: l2)) -> without keq (l1 ++ (k, v) :: l2) k = l1 ++ l2.
Proof.
  intros l1 l2 k v D. rewrite map_app in D. cbn [map fst] in D.
  unfold without. rewrite filter_app. cbn [filter fst]. rewrite (proj2 (keq_eq k k) eq_refl). cbn [negb].
  assert (N1 : ~ In k (map fst l1)) by (intro X; apply (NoDup_remove_2 _ _ _ D); apply in_or_app; auto).
  assert (N2 : ~ In k (map fst l2)) by (intro X; apply (NoDup_remove_2 _ _ _ D); apply in_or_app; auto).
  f_equal; apply without_none; auto.
Qed.
Lemma filter_perm : forall {A} (f : A -> bool) l1 l2, Permutation l1 l2 -> Permutation (filter f l1) (filter f l2).
Proof.
  intros A f l1 l2 P. induction P; cbn; auto.
  - destruct (f x); auto.
  - destruct (f x), (f y); auto. constructor.
  - etransitivity; eauto.
Qed.
Lemma perm_keys : forall (m : list (K * V)) (ch : list (list cell)), Permutation m (map snd (concat ch)) -> NoDup (map ckey (concat ch)) ->
  NoDup (map fst m).
Proof.
  intros m ch P D. eapply Permutation_NoDup; [|exact D]. symmetry. etransitivity; [apply Permutation_map; exact P|].
  rewrite map_map. reflexivity.
Qed.
Lemma lookup_perm : forall (m1 m2 : list (K * V)) k, Permutation m1 m2 -> NoDup (map fst m1) -> lookup keq m1 k = lookup keq m2 k.
Proof.
  intros m1 m2 k P D. assert (D2 : NoDup (map fst m2)) by (eapply Permutation_NoDup; [apply Permutation_map; exact P|auto]).
  destruct (lookup keq m1 k) as [v|] eqn:E.
  - symmetry. apply lookup_in; auto. apply (Permutation_in _ P). apply lookup_in; auto.
  - destruct (lookup keq m2 k) as [v|] eqn:E2; auto. apply lookup_in in E2; auto.
    apply (Permutation_in _ (Permutation_sym P)) in E2. apply lookup_in in E2; auto. congruence.
Qed.

(** ** get *)
Lemma inv_empty : forall t m, inv t m -> t_elems t < 1 -> m = [].
Proof.
  intros t m [(A & B & C & D)|(ch & L & P)] E; auto. rewrite (lv_elems _ _ L) in E.
  destruct (concat ch); [apply Permutation_nil; symmetry; auto|]. unfold zlen in E. cbn [length] in E. lia.
Qed.
Lemma inv_live : forall t m, inv t m -> 1 <= t_elems t -> exists ch, live t ch /\ Permutation m (map snd (concat ch)).
Proof. intros t m [(A & B & C & D)|H] E; auto. lia. Qed.

Lemma ht_get_spec : forall t m k, inv t m -> ht_get keq hash t k = Ok (lookup keq m k).
Proof.
  intros t m k I. unfold ht_get. destruct (Z.ltb_spec (t_elems t) 1) as [E|E].
  - rewrite (inv_empty _ _ I E). auto.
  - destruct (inv_live _ _ I E) as (ch & L & P).
    destruct (live_slot t ch k L) as (tb & p & l & ta & tc & ca & cc & T1 & T2 & T3 & L1 & L2 & C & C2 & C3 & Sl & Fu & Nk).
    rewrite Sl. cbn [rbind]. pose proof (lv_keys _ _ L) as D. pose proof (perm_keys _ _ P D) as Dm.
    destruct (ht_find_spec (t_mem t) k l p None (fuel_of t) C Fu) as [(a & v & l1 & l2 & E1 & E2 & E3)|[E1 E2]].
    + rewrite E3. cbn [rbind]. unfold chain in C. rewrite E1 in C. apply seg_app in C as (r & S1 & S2). cbn [seg] in S2.
      destruct S2 as (-> & nx & N & _). unfold rd. rewrite N. cbn [rbind e_val]. f_equal. symmetry. apply lookup_in; auto.
      apply (Permutation_in _ (Permutation_sym P)). apply in_map_iff. exists (a, (k, v)). split; auto.
      rewrite T3, concat_app. cbn [concat]. rewrite E1. apply in_or_app. right. apply in_or_app. left. apply in_or_app. right. left. auto.
    + rewrite E2. cbn [rbind]. f_equal. symmetry. apply lookup_none. intro X. apply (Nk E1).
      apply (Permutation_in _ (Permutation_map fst P)) in X. rewrite map_map in X. exact X.
Qed.

(** ** growing *)
Lemma last_entry_spec : forall mem l p s x fuel, seg mem (Some s) (p ++ [x]) None -> l = p ++ [x] -> (length l <= fuel)%nat ->
  last_entry fuel mem s = Ok (fst x).
Proof.
  intros mem l p. revert l. induction p as [|[a [k v]] p IH]; intros l s [b [k' v']] fuel S -> L.
  - cbn [app seg fst] in *. destruct S as (E & nx & N & S). injection E as ->. subst nx. destruct fuel; [cbn in L; lia|].
    cbn [last_entry]. unfold rd. rewrite N. auto.
  - cbn [app seg] in S. destruct S as (E & nx & N & S). injection E as ->. destruct fuel; [cbn in L; lia|].
    cbn [last_entry]. unfold rd. rewrite N. cbn [rbind e_next].
    assert (exists c, nx = Some c) as [c ->] by (destruct p as [|[? [? ?]] p]; cbn [app seg] in S; destruct S as (-> & _); eauto).
    eapply IH; [exact S|reflexivity|]. cbn [app length] in L. lia.
Qed.

Lemma in_bucket_add : forall cap ca l cc c, in_bucket cap (ca ++ l :: cc) -> get_bucket cap (hash (ckey c)) = Z.of_nat (length ca) ->
  in_bucket cap (ca ++ (l ++ [c]) :: cc).
Proof.
  intros cap ca l cc c H E i lx x N I. destruct (Nat.lt_ge_cases i (length ca)).
  - rewrite nth_error_app1 in N by auto. apply (H i lx x); auto. rewrite nth_error_app1 by auto. auto.
  - rewrite nth_error_app2 in N by auto. destruct (i - length ca)%nat as [|j] eqn:Ej.
    + cbn in N. injection N as <-. apply in_app_or in I as [I|[<-|[]]].
      * apply (H i l x); auto. rewrite nth_error_app2, Ej by auto. auto.
      * rewrite E. f_equal. lia.
    + apply (H i lx x); auto. rewrite nth_error_app2, Ej by auto. auto.
Qed.
Lemma in_bucket_sub : forall cap ca l l' cc, in_bucket cap (ca ++ l :: cc) -> incl l' l -> in_bucket cap (ca ++ l' :: cc).
Proof.
  intros cap ca l l' cc H E i lx x N I. destruct (Nat.lt_ge_cases i (length ca)).
  - rewrite nth_error_app1 in N by auto. apply (H i lx x); auto. rewrite nth_error_app1 by auto. auto.
  - rewrite nth_error_app2 in N by auto. destruct (i - length ca)%nat as [|j] eqn:Ej.
    + cbn in N. injection N as <-. apply (H i l x); auto. rewrite nth_error_app2, Ej by auto. auto.
    + apply (H i lx x); auto. rewrite nth_error_app2, Ej by auto. auto.
Qed.

Record mv (cap : Z) (mem : list entry) (nt : list (option nat)) (ch : list (list cell)) : Prop := mkMv {
  mv_chains : Forall2 (chain mem) nt ch; mv_len : zlen ch = cap; mv_bucket : in_bucket cap ch; mv_nodup : NoDup (map fst (concat ch)) }.

Lemma concat_mid : forall {A} (ca : list (list A)) l cc, concat (ca ++ l :: cc) = concat ca ++ l ++ concat cc.
Proof. intros. rewrite concat_app. auto. Qed.

(** one entry moved *)
Lemma append_entry : forall cap mem nt ch a k v nx, 0 < cap -> mv cap mem nt ch ->
  nth_error mem a = Some (mkEntry (hash k) nx k v) -> ~ In a (map fst (concat ch)) ->
  exists mem1 nt1 mem2 ch2,
    match nth_error nt (Z.to_nat (get_bucket cap (hash k))) with
    | None => UB UbOob
    | Some None => Ok (mem, upd (Z.to_nat (get_bucket cap (hash k))) (Some a) nt)
    | Some (Some s) =>
        let* l := last_entry (S (length mem)) mem s in
        let* m := set_next mem l (Some a) in Ok (m, nt)
    end = Ok (mem1, nt1) /\ nth_error mem1 a = Some (mkEntry (hash k) nx k v) /\ set_next mem1 a None = Ok mem2 /\
    mv cap mem2 nt1 ch2 /\ Permutation (concat ch2) ((a, (k, v)) :: concat ch) /\ length mem2 = length mem /\
    (forall b, b <> a -> ~ In b (map fst (concat ch)) -> nth_error mem2 b = nth_error mem b).
Proof.
  intros cap mem nt ch a k v nx Hc M Na Nin. destruct M as [M1 M2 M3 M4].
  pose proof (bucket_range cap (hash k) Hc) as B. set (b := Z.to_nat (get_bucket cap (hash k))).
  destruct (Forall2_nth_both _ _ _ b M1 ltac:(unfold zlen, b in *; lia)) as (p & l & ta & tc & ca & cc & E1 & E2 & L1 & L2 & C1 & C2 & C3).
  assert (Np : nth_error nt b = Some p) by (rewrite E1, <- L1, nth_error_app2, Nat.sub_diag by lia; auto).
  rewrite Np.
  assert (Pm : Permutation (concat (ca ++ (l ++ [(a, (k, v))]) :: cc)) ((a, (k, v)) :: concat ch)).
  { rewrite E2, !concat_mid, <- app_assoc. cbn [app]. rewrite !app_assoc. apply Permutation_sym, Permutation_middle. }
  assert (Hbk : in_bucket cap (ca ++ (l ++ [(a, (k, v))]) :: cc)).
  { apply in_bucket_add; [rewrite <- E2; auto|]. unfold ckey. cbn. unfold b in L2. lia. }
  assert (Hlen : zlen (ca ++ (l ++ [(a, (k, v))]) :: cc) = cap).
  { rewrite <- M2, E2. unfold zlen. rewrite !app_length. auto. }
  assert (Hnd : NoDup (map fst (concat (ca ++ (l ++ [(a, (k, v))]) :: cc)))).
  { eapply Permutation_NoDup; [apply Permutation_map, Permutation_sym; exact Pm|]. cbn [map fst]. constructor; auto. }
  assert (Inl : forall x, In x (map fst l) -> In x (map fst (concat ch))).
  { intros x X. rewrite E2, concat_mid, !map_app. apply in_or_app. right. apply in_or_app. auto. }
  assert (Inca : forall x, In x (map fst (concat ca)) -> In x (map fst (concat ch))).
  { intros x X. rewrite E2, concat_mid, !map_app. apply in_or_app. auto. }
  assert (Incc : forall x, In x (map fst (concat cc)) -> In x (map fst (concat ch))).
  { intros x X. rewrite E2, concat_mid, !map_app. apply in_or_app. right. apply in_or_app. auto. }
  destruct p as [s|].
  - destruct l as [|c0 l0] using rev_ind; [discriminate C1|]. clear IHl0. destruct c0 as [z [kz vz]].
    assert (Ll : (length (l0 ++ [(z, (kz, vz))]) <= length mem)%nat).
    { rewrite <- (map_length fst). apply nodup_len.
      - rewrite E2, concat_mid, !map_app in M4. apply NoDup_app_r, NoDup_app_l in M4. rewrite map_app. auto.
      - intros x X. eapply seg_range; [exact C1|auto]. }
    rewrite (last_entry_spec mem _ l0 s _ _ C1 eq_refl) by lia. cbn [rbind fst].
    pose proof C1 as C1'. apply seg_app in C1' as (r & S1 & S2). cbn [seg] in S2. destruct S2 as (-> & nz & Nz & ->).
    destruct (set_next_spec mem z _ (Some a) Nz) as (mem1 & Q1 & Q2 & Q3 & Q4). rewrite Q1. cbn [rbind e_hash e_key e_val] in *.
    assert (Hza : a <> z). { intros ->. apply Nin. apply Inl. rewrite map_app. apply in_or_app. right. left. auto. }
    assert (Na1 : nth_error mem1 a = Some (mkEntry (hash k) nx k v)) by (rewrite Q4 by auto; auto).
    destruct (set_next_spec mem1 a _ None Na1) as (mem2 & R1 & R2 & R3 & R4). cbn [e_hash e_key e_val] in *.
    exists mem1, nt, mem2, (ca ++ ((l0 ++ [(z, (kz, vz))]) ++ [(a, (k, v))]) :: cc).
    split; auto. split; auto. split; auto.
    assert (Fr : forall x, x <> a -> x <> z -> nth_error mem2 x = nth_error mem x) by (intros; rewrite R4, Q4 by auto; auto).
    assert (Nz' : ~ In z (map fst (concat ca)) /\ ~ In z (map fst (concat cc)) /\ NoDup (map fst (l0 ++ [(z, (kz, vz))]))).
    { rewrite E2, concat_mid, map_app, map_app in M4.
      split; [|split].
      - intro X. apply (NoDup_app_disj _ _ z M4 X). apply in_or_app. left. rewrite map_app. apply in_or_app. right. left. auto.
      - intro X. apply NoDup_app_r in M4. apply (NoDup_app_disj _ _ z M4); auto. rewrite map_app. apply in_or_app. right. left. auto.
      - apply NoDup_app_r, NoDup_app_l in M4. auto. }
    destruct Nz' as (Nz1 & Nz2 & Nz3).
    split; [|split; [exact Pm|split; [congruence|]]].
    + split; auto. rewrite E1. apply Forall2_app; [|constructor].
      * eapply chain_frame; [|exact C2]. intros x X. apply Fr; intros ->; auto.
      * apply seg_app. exists (Some a). split.
        -- eapply seg_set_last; [exact C1|exact Nz3|exact Nz| |].
           ++ rewrite R4 by auto. exact Q3.
           ++ intros x X Y. apply Fr; auto. intros ->. apply Nin, Inl. rewrite map_app. apply in_or_app. auto.
        -- cbn [seg]. split; auto. exists None. auto.
      * eapply chain_frame; [|exact C3]. intros x X. apply Fr; intros ->; auto.
    + intros x X Y. apply Fr; auto. intros ->. apply Y, Inl. rewrite map_app. apply in_or_app. right. left. auto.
  - destruct l as [|[z [kz vz]] l]; [|destruct C1 as (X & _); discriminate X].
    destruct (set_next_spec mem a _ None Na) as (mem2 & R1 & R2 & R3 & R4). cbn [e_hash e_key e_val] in *.
    exists mem, (upd b (Some a) nt), mem2, (ca ++ ([] ++ [(a, (k, v))]) :: cc).
    split; auto. split; auto. split; auto. split; [|split; [exact Pm|split; [auto|]]].
    + split; auto. rewrite E1, <- L1, upd_mid. apply Forall2_app; [|constructor].
      * eapply chain_frame; [|exact C2]. intros x X. apply R4. intros ->. auto.
      * cbn [app]. split; auto. exists None. split; auto.
      * eapply chain_frame; [|exact C3]. intros x X. apply R4. intros ->. auto.
    + intros x X Y. apply R4. auto.
Qed.

Lemma move_chain_spec : forall cap l mem nt ch p fuel, 0 < cap -> mv cap mem nt ch -> seg mem p l None ->
  NoDup (map fst (concat ch) ++ map fst l) -> (length l < fuel)%nat ->
  exists mem2 nt2 ch2, move_chain fuel cap mem nt p = Ok (mem2, nt2) /\ mv cap mem2 nt2 ch2 /\
    Permutation (concat ch2) (concat ch ++ l) /\ length mem2 = length mem /\
    (forall b, ~ In b (map fst l) -> ~ In b (map fst (concat ch)) -> nth_error mem2 b = nth_error mem b).
Proof.
  intros cap. induction l as [|[a [k v]] l IH]; intros mem nt ch p fuel Hc M S D L; (destruct fuel as [|fuel]; [cbn in L; lia|]); cbn [move_chain seg] in *.
  - subst p. exists mem, nt, ch. split; auto. split; auto. split; [rewrite app_nil_r; auto|]. auto.
  - destruct S as (-> & nx & N & S). unfold rd at 1. rewrite N. cbn [rbind e_hash].
    cbn [map fst] in D.
    assert (Nin : ~ In a (map fst (concat ch))).
    { intro X. apply (NoDup_remove_2 _ _ _ D). apply in_or_app. auto. }
    assert (Nl : ~ In a (map fst l)).
    { intro X. apply (NoDup_remove_2 _ _ _ D). apply in_or_app. auto. }
    destruct (append_entry cap mem nt ch a k v nx Hc M N Nin) as (mem1 & nt1 & mem2 & ch2 & Q1 & Q2 & Q3 & Q4 & Q5 & Q6 & Q7).
    rewrite Q1. cbn [rbind]. unfold rd. rewrite Q2. cbn [rbind]. rewrite Q3. cbn [rbind e_next].
    assert (D1 : NoDup (map fst (concat ch2) ++ map fst l)).
    { eapply Permutation_NoDup; [|exact D]. etransitivity; [symmetry; apply Permutation_middle|].
      change (a :: map fst (concat ch) ++ map fst l) with (map fst ((a, (k, v)) :: concat ch) ++ map fst l).
      apply Permutation_app_tail, Permutation_map, Permutation_sym. auto. }
    destruct (IH mem2 nt1 ch2 nx fuel Hc Q4) as (mem3 & nt3 & ch3 & R1 & R2 & R3 & R4 & R5); auto.
    + eapply seg_frame; [|exact S]. intros b Hb. apply Q7; [intros ->; auto|].
      intro X. apply NoDup_remove_1 in D. apply (NoDup_app_disj _ _ b D X Hb).
    + cbn in L. lia.
    + exists mem3, nt3, ch3. split; auto. split; auto. split; [|split; [congruence|]].
      * rewrite R3, Q5. cbn [app]. apply Permutation_middle.
      * intros b X Y. cbn [map fst In] in X. rewrite R5; [apply Q7|..]; auto.
        intro Z. apply (Permutation_in _ (Permutation_map fst Q5)) in Z. cbn [map fst In] in Z. tauto.
Qed.

Lemma move_chains_spec : forall cap old mem nt ch tbl, 0 < cap -> mv cap mem nt ch -> Forall2 (chain mem) tbl old ->
  NoDup (map fst (concat ch) ++ map fst (concat old)) ->
  exists mem2 nt2 ch2, move_chains cap mem nt tbl = Ok (mem2, nt2) /\ mv cap mem2 nt2 ch2 /\
    Permutation (concat ch2) (concat ch ++ concat old) /\ length mem2 = length mem.
Proof.
  intros cap. induction old as [|l old IH]; intros mem nt ch tbl Hc M F D; inversion F as [|p l' tbl' old' C F']; subst; cbn [move_chains].
  - exists mem, nt, ch. split; auto. split; auto. split; auto. cbn. rewrite app_nil_r. auto.
  - cbn [concat] in D. rewrite map_app in D.
    assert (Ll : (length l < S (length mem))%nat).
    { apply Nat.lt_succ_r. rewrite <- (map_length fst). apply nodup_len.
      - apply NoDup_app_r, NoDup_app_l in D. auto.
      - intros a A. eapply seg_range; eauto. }
    destruct (move_chain_spec cap l mem nt ch p (S (length mem)) Hc M C) as (mem2 & nt2 & ch2 & Q1 & Q2 & Q3 & Q4 & Q5); auto.
    { rewrite app_assoc in D. apply NoDup_app_l in D. auto. }
    rewrite Q1. cbn [rbind].
    assert (D2 : NoDup (map fst (concat ch2) ++ map fst (concat old))).
    { eapply Permutation_NoDup; [|exact D]. rewrite app_assoc. apply Permutation_app_tail. rewrite <- map_app.
      apply Permutation_map, Permutation_sym. auto. }
    destruct (IH mem2 nt2 ch2 tbl' Hc Q2) as (mem3 & nt3 & ch3 & R1 & R2 & R3 & R4); auto.
    { eapply chain_frame; [|exact F']. intros a A. apply Q5.
      - apply NoDup_app_r in D. intro X. apply (NoDup_app_disj _ _ a D X A).
      - intro X. rewrite app_assoc in D. apply (NoDup_app_disj _ _ a D); auto. apply in_or_app; auto. }
    exists mem3, nt3, ch3. split; auto. split; auto. split; [|congruence].
    rewrite R3, Q3. cbn [concat]. rewrite <- app_assoc. auto.
Qed.

Lemma fresh_chains : forall mem n, Forall2 (chain mem) (repeat None n) (repeat [] n).
Proof. induction n; cbn; constructor; auto. reflexivity. Qed.
Lemma concat_fresh : forall {A} n, concat (repeat (@nil A) n) = [].
Proof. induction n; cbn; auto. Qed.
Lemma fresh_mv : forall mem cap, 0 < cap -> mv cap mem (repeat None (Z.to_nat cap)) (repeat [] (Z.to_nat cap)).
Proof.
  intros. split.
  - apply fresh_chains.
  - unfold zlen. rewrite repeat_length. lia.
  - intros i l c N I. apply nth_error_In, repeat_spec in N. subst l. destruct I.
  - rewrite concat_fresh. constructor.
Qed.

Lemma redistribute_spec : forall t m, inv t m -> exists t' ch, redistribute lf t = Ok t' /\ live t' ch /\ Permutation m (map snd (concat ch)).
Proof.
  intros t m I. unfold redistribute. destruct I as [(A & B & C & D)|(ch & L & P)].
  - rewrite A. cbn [Z.eqb]. eexists. exists (repeat [] (Z.to_nat (Z.max 1 (t_cap t)))). split; [reflexivity|].
    cbn [set_capacity t_cap t_limit t_elems t_table t_cache t_mem].
    split.
    + destruct (fresh_mv (t_mem t) (Z.max 1 (t_cap t)) ltac:(lia)).
      split; cbn [t_cap t_limit t_elems t_table t_cache t_mem t_alive]; auto; try lia.
      * eauto.
      * rewrite concat_fresh. auto.
      * rewrite concat_fresh, C. constructor.
      * rewrite C. constructor.
      * rewrite concat_fresh. constructor.
    + rewrite concat_fresh, D. auto.
  - pose proof L as Lc. destruct L as [l1 l2 l3 l4 (tb & l5 & l6) l7 l8 l9 l10 l11].
    destruct (Z.eqb_spec (t_limit t) 0); [lia|]. rewrite l5, l4. cbn [negb set_capacity t_cap t_limit t_elems t_table t_cache t_mem t_alive].
    set (cap := Z.max 1 (t_cap t * 2)). assert (Hc : 0 < cap) by (unfold cap; lia).
    destruct (move_chains_spec cap ch (t_mem t) _ _ tb Hc (fresh_mv (t_mem t) cap Hc) l6) as (mem2 & nt2 & ch2 & Q1 & Q2 & Q3 & Q4).
    { rewrite concat_fresh. apply NoDup_app_l in l8. auto. }
    rewrite Q1. cbn [rbind]. rewrite concat_fresh in Q3. cbn [app] in Q3.
    eexists. exists ch2. split; [reflexivity|]. destruct Q2. split.
    + split; cbn [t_cap t_limit t_elems t_table t_cache t_mem t_alive]; auto; try lia.
      * unfold zlen in *. lia.
      * eauto.
      * rewrite l7. unfold zlen. rewrite (Permutation_length Q3). auto.
      * eapply Permutation_NoDup; [|exact l8]. apply Permutation_app_tail, Permutation_map, Permutation_sym. auto.
      * rewrite Q4. auto.
      * eapply Permutation_NoDup; [|exact l11]. apply Permutation_map, Permutation_sym. auto.
    + rewrite P. apply Permutation_map, Permutation_sym. auto.
Qed.

(** ** inserting *)
Lemma last_of_rev : forall (l : list cell), l = [] \/ exists l0 z y, l = l0 ++ [(z, y)] /\ last_of None l = Some z.
Proof.
  intros l. destruct l as [|[z y] l0 _] using rev_ind; [left; auto|]. right. exists l0, z, y. split; auto. apply last_of_app.
Qed.

Lemma insert_live : forall t ch m k v update, live t ch -> Permutation m (map snd (concat ch)) ->
  exists out t', insert_at keq t (hash k) update k v = Ok (out, t') /\
  let (m', o) := spec_step keq m (if update then MUpsert k v else MInsert k v) in
  inv t' m' /\ o = OIns (fst out) (snd out).
Proof.
  intros t ch m k v update L P.
  destruct (live_slot t ch k L) as (tb & p & l & ta & tc & ca & cc & T1 & T2 & T3 & L1 & L2 & C & C2 & C3 & Sl & Fu & Nk).
  unfold insert_at. cbv zeta. rewrite Sl. cbn [rbind]. pose proof L as Lc. destruct L as [l1 l2 l3 l4 (tb' & l5 & l6) l7 l8 l9 l10 l11].
  pose proof (perm_keys _ _ P l11) as Dm.
  assert (tb' = tb) by congruence. subst tb'. set (b := get_bucket (t_cap t) (hash k)) in *.
  destruct (ht_find_spec (t_mem t) k l p None (fuel_of t) C Fu) as [(a & v' & la & lb & E1 & E2 & E3)|[E1 E2]].
  - rewrite E3. cbn [rbind]. pose proof C as C'. unfold chain in C'. rewrite E1 in C'. apply seg_app in C' as (r & S1 & S2). cbn [seg] in S2.
    destruct S2 as (-> & nx & N & S2). unfold rd. rewrite N. cbn [rbind e_val e_hash e_next e_key].
    assert (Pm : Permutation m ((k, v') :: map snd (concat ca ++ la) ++ map snd (lb ++ concat cc))).
    { rewrite P, T3, concat_mid, E1. rewrite <- app_assoc. cbn [app]. rewrite app_assoc, map_app. cbn [map snd].
      apply Permutation_sym, Permutation_middle. }
    assert (Lk : lookup keq m k = Some v') by (apply lookup_in; auto; apply (Permutation_in _ (Permutation_sym Pm)); left; auto).
    destruct update.
    + eexists _, _. split; [reflexivity|]. cbn [spec_step fst snd]. rewrite Lk. split; auto.
      right. exists (ca ++ (la ++ (a, (k, v)) :: lb) :: cc).
      assert (Adr : map fst (concat (ca ++ (la ++ (a, (k, v)) :: lb) :: cc)) = map fst (concat ch)).
      { rewrite T3, E1, !concat_mid, !map_app. auto. }
      assert (Key : map ckey (concat (ca ++ (la ++ (a, (k, v)) :: lb) :: cc)) = map ckey (concat ch)).
      { rewrite T3, E1, !concat_mid, !map_app. auto. }
      assert (D : NoDup (map fst (concat ch))) by (apply NoDup_app_l in l8; auto).
      assert (D2 : ~ In a (map fst (concat ca)) /\ ~ In a (map fst la) /\ ~ In a (map fst lb) /\ ~ In a (map fst (concat cc))).
      { rewrite T3, concat_mid, E1, <- app_assoc in D. cbn [app] in D. rewrite app_assoc, map_app in D. cbn [map fst] in D.
        apply NoDup_remove_2 in D. rewrite <- map_app in D.
        repeat split; intro X; apply D; apply in_map_iff in X as (c & Ec & X); rewrite <- Ec; apply in_map; rewrite !in_app_iff; tauto. }
      destruct D2 as (D21 & D22 & D23 & D24).
      assert (Fr : forall x, x <> a -> nth_error (upd a (mkEntry (hash k) nx k v) (t_mem t)) x = nth_error (t_mem t) x) by (intros; apply nth_upd_ne; auto).
      split.
      * split; cbn [set_mem t_cap t_limit t_elems t_table t_cache t_mem t_alive]; auto.
        -- rewrite <- l2, T3. unfold zlen. rewrite !app_length. auto.
        -- exists tb. split; auto. rewrite T2. apply Forall2_app; [|constructor].
           ++ eapply chain_frame; [|exact C2]. intros x X. apply Fr. intros ->; auto.
           ++ apply seg_app. exists (Some a). split.
              ** eapply seg_frame; [|exact S1]. intros x X. apply Fr. intros ->; auto.
              ** cbn [seg]. split; auto. exists nx. split; [apply nth_upd_eq; eapply nth_lt; eauto|].
                 eapply seg_frame; [|exact S2]. intros x X. apply Fr. intros ->; auto.
           ++ eapply chain_frame; [|exact C3]. intros x X. apply Fr. intros ->; auto.
        -- rewrite l7. unfold zlen. rewrite <- !(map_length fst). congruence.
        -- rewrite Adr. auto.
        -- rewrite length_upd. auto.
        -- intros i lx x Ni Ix. destruct (Nat.eq_dec i (length ca)) as [->|Hi].
           ++ rewrite nth_error_app2, Nat.sub_diag in Ni by lia. cbn in Ni. injection Ni as <-.
              assert (X : forall y, In y l -> get_bucket (t_cap t) (hash (ckey y)) = Z.of_nat (length ca)).
              { intros y Y. apply (l10 (length ca) l y); auto. rewrite T3, nth_error_app2, Nat.sub_diag by lia. auto. }
              rewrite in_app_iff in Ix. destruct Ix as [Ix|[<-|Ix]].
              ** apply X. rewrite E1. apply in_or_app; auto.
              ** change (ckey (a, (k, v))) with (ckey (a, (k, v'))). apply X. rewrite E1. apply in_or_app. right. left; auto.
              ** apply X. rewrite E1. apply in_or_app. right. right; auto.
           ++ apply (l10 i lx x); auto. rewrite T3. destruct (Nat.lt_ge_cases i (length ca)).
              ** rewrite nth_error_app1 in * by auto. auto.
              ** rewrite nth_error_app2 in * by auto. destruct (i - length ca)%nat eqn:Ei; [lia|]. auto.
        -- rewrite Key. auto.
      * assert (W : Permutation (without keq m k) (map snd (concat ca ++ la) ++ map snd (lb ++ concat cc))).
        { unfold without. etransitivity; [apply filter_perm; exact Pm|]. fold (without keq ((k, v') :: map snd (concat ca ++ la) ++ map snd (lb ++ concat cc)) k).
          change ((k, v') :: map snd (concat ca ++ la) ++ map snd (lb ++ concat cc)) with ([] ++ (k, v') :: map snd (concat ca ++ la) ++ map snd (lb ++ concat cc)).
          rewrite without_split; auto. cbn [app]. eapply Permutation_NoDup; [apply Permutation_map; exact Pm|auto]. }
        rewrite W, concat_mid, <- app_assoc. cbn [app]. rewrite app_assoc, (map_app snd (concat ca ++ la) ((a, (k, v)) :: _)). cbn [map snd]. apply Permutation_middle.
    + eexists _, _. split; [reflexivity|]. cbn [spec_step fst snd]. rewrite Lk. split; auto. right. exists ch. auto.
  - rewrite E2. cbn [rbind].
    assert (Nm : ~ In k (map fst m)).
    { intro X. apply (Nk E1). apply (Permutation_in _ (Permutation_map fst P)) in X. rewrite map_map in X. exact X. }
    assert (Al : exists a mem cache, match rev (t_cache t) with
        | a :: r => (a, upd a (mkEntry (hash k) None k v) (t_mem t), rev r)
        | [] => (length (t_mem t), t_mem t ++ [mkEntry (hash k) None k v], []) end = (a, mem, cache) /\
       nth_error mem a = Some (mkEntry (hash k) None k v) /\ (forall x, In x (map fst (concat ch)) -> nth_error mem x = nth_error (t_mem t) x) /\
       (length (t_mem t) <= length mem)%nat /\ Forall (fun x => (x < length mem)%nat) cache /\
       NoDup (a :: map fst (concat ch) ++ cache)).
    { destruct (rev (t_cache t)) as [|a r] eqn:Er.
      - assert (Ec : t_cache t = []) by (rewrite <- (rev_involutive (t_cache t)), Er; auto).
        eexists _, _, _. split; [reflexivity|]. split; [rewrite nth_error_app2, Nat.sub_diag by lia; auto|].
        assert (R : forall x, In x (map fst (concat ch)) -> (x < length (t_mem t))%nat) by (intros x X; exact (chain_range _ _ _ _ l6 X)).
        split; [intros x X; rewrite nth_error_app1; auto|].
        rewrite app_length. split; [lia|]. split; [constructor|]. rewrite Ec in l8. constructor; auto.
        rewrite app_nil_r in *. intro X. specialize (R _ X). lia.
      - assert (Ec : t_cache t = rev r ++ [a]) by (rewrite <- (rev_involutive (t_cache t)), Er; auto).
        rewrite Ec in l8, l9. apply Forall_app in l9 as [l9 l9']. apply Forall_inv in l9' as Ha.
        eexists _, _, _. split; [reflexivity|]. split; [apply nth_upd_eq; auto|].
        assert (D : NoDup (a :: map fst (concat ch) ++ rev r)).
        { eapply Permutation_NoDup; [|exact l8]. rewrite app_assoc. symmetry. apply Permutation_cons_append. }
        split; [|split; [rewrite length_upd; auto|split; [rewrite length_upd; auto|exact D]]].
        intros x X. apply nth_upd_ne. intros ->. inversion D; subst. apply H1. apply in_or_app; auto. }
    destruct Al as (a & mem & cache & -> & Na & Fr & Le & Hca & Hnd).
    inversion Hnd as [|? ? Hna Hnd']; subst x l0.
    assert (Hna2 : ~ In a (map fst (concat ch))) by (intro; apply Hna; apply in_or_app; auto).
    assert (Inl : forall x, In x (map fst l) -> In x (map fst (concat ch))).
    { intros x X. rewrite T3, concat_mid, !map_app. apply in_or_app. right. apply in_or_app. auto. }
    assert (Inca : forall x, In x (map fst (concat ca)) -> In x (map fst (concat ch))).
    { intros x X. rewrite T3, concat_mid, !map_app. apply in_or_app. auto. }
    assert (Incc : forall x, In x (map fst (concat cc)) -> In x (map fst (concat ch))).
    { intros x X. rewrite T3, concat_mid, !map_app. apply in_or_app. right. apply in_or_app. auto. }
    assert (D : NoDup (map fst (concat ch))) by (apply NoDup_app_l in l8; auto).
    assert (Pc : Permutation (concat (ca ++ (l ++ [(a, (k, v))]) :: cc)) ((a, (k, v)) :: concat ch)).
    { rewrite T3, !concat_mid, <- app_assoc. cbn [app]. rewrite !app_assoc. apply Permutation_sym, Permutation_middle. }
    (* the new chain *)
    assert (Fin : exists mem2 p2, 
       match last_of None l with
       | Some q => let* m := set_next mem q (Some a) in Ok (set_mem (mkHtab (t_cap t) (t_limit t) (t_elems t) (t_table t) cache mem (t_alive t)) m)
       | None => Ok (set_slot (mkHtab (t_cap t) (t_limit t) (t_elems t) (t_table t) cache mem (t_alive t)) b (Some a))
       end = Ok (mkHtab (t_cap t) (t_limit t) (t_elems t) (Some (ta ++ p2 :: tc)) cache mem2 (t_alive t)) /\ length mem2 = length mem /\
       chain mem2 p2 (l ++ [(a, (k, v))]) /\ (forall x, In x (map fst (concat ca)) \/ In x (map fst (concat cc)) -> nth_error mem2 x = nth_error (t_mem t) x)).
    { destruct (last_of_rev l) as [->|(l0 & z & [kz vz] & El & ->)].
      - cbn [last_of fold_left]. exists mem, (Some a). unfold set_slot. cbn [t_table t_cap t_limit t_elems t_cache t_mem t_alive].
        rewrite T1, T2, <- L1, upd_mid. split; auto. split; auto. split.
        + cbn [app]. split; auto. exists None. split; auto. reflexivity.
        + intros x [X|X]; apply Fr; auto.
      - unfold chain in C. rewrite El in C. pose proof C as C'. apply seg_app in C' as (r & S1 & S2). cbn [seg] in S2. destruct S2 as (-> & nz & Nz & ->).
        assert (Hz : In z (map fst (concat ch))) by (apply Inl; rewrite El, map_app; apply in_or_app; right; left; auto).
        assert (Hza : a <> z) by (intros ->; auto).
        assert (Nzm : nth_error mem z = Some (mkEntry (hash kz) None kz vz)) by (rewrite Fr; auto).
        destruct (set_next_spec mem z _ (Some a) Nzm) as (mem1 & Q1 & Q2 & Q3 & Q4). rewrite Q1. cbn [rbind e_hash e_key e_val] in *.
        exists mem1, p. unfold set_mem. cbn [t_table t_cap t_limit t_elems t_cache t_mem t_alive]. rewrite T1, T2.
        split; auto. split; auto.
        rewrite T3, concat_mid, map_app, map_app in D.
        assert (Nz1 : ~ In z (map fst (concat ca))).
        { intro X. apply (NoDup_app_disj _ _ z D X). apply in_or_app. left. rewrite El, map_app. apply in_or_app. right. left. auto. }
        assert (Nz2 : ~ In z (map fst (concat cc))).
        { intro X. apply NoDup_app_r in D. apply (NoDup_app_disj _ _ z D); auto. rewrite El, map_app. apply in_or_app. right. left. auto. }
        split.
        + rewrite El. apply seg_app. exists (Some a). split.
          * eapply seg_set_last; [exact C| |exact Nz|exact Q3|].
            -- rewrite <- El. apply NoDup_app_r, NoDup_app_l in D. auto.
            -- intros x X Y. rewrite Q4 by auto. apply Fr, Inl. rewrite El, map_app. apply in_or_app; auto.
          * cbn [seg]. split; auto. exists None. rewrite Q4 by auto. auto.
        + intros x [X|X]; (rewrite Q4 by (intros ->; auto)); apply Fr; auto. }
    destruct Fin as (mem2 & p2 & -> & Lm & Ch & Fr2). cbn [rbind t_cap t_limit t_elems t_table t_cache t_mem t_alive].
    eexists _, _. split; [reflexivity|].
    assert (So : spec_step keq m (if update then MUpsert k v else MInsert k v) = ((k, v) :: m, OIns false v)).
    { destruct update; cbn [spec_step]; rewrite lookup_none by auto; auto. }
    rewrite So. cbn [fst snd]. split; auto. right. exists (ca ++ (l ++ [(a, (k, v))]) :: cc). split.
    + split; cbn [t_cap t_limit t_elems t_table t_cache t_mem t_alive]; auto.
      * rewrite <- l2, T3. unfold zlen. rewrite !app_length. auto.
      * eexists. split; [reflexivity|]. apply Forall2_app; [|constructor; auto].
        -- eapply chain_frame; [|exact C2]. auto.
        -- eapply chain_frame; [|exact C3]. auto.
      * rewrite l7. unfold zlen. rewrite (Permutation_length Pc). cbn [length]. lia.
      * eapply Permutation_NoDup; [|exact Hnd]. change (a :: map fst (concat ch) ++ cache) with (map fst ((a, (k, v)) :: concat ch) ++ cache).
        apply Permutation_app_tail, Permutation_map, Permutation_sym. auto.
      * rewrite Lm. auto.
      * apply in_bucket_add; [rewrite <- T3; auto|]. change (ckey (a, (k, v))) with k. fold b. pose proof (bucket_range (t_cap t) (hash k) l1). fold b in H. lia.
      * eapply Permutation_NoDup; [apply Permutation_map, Permutation_sym; exact Pc|]. cbn [map]. constructor; auto.
    + rewrite Pc. cbn [map snd]. constructor. auto.
Qed.

Lemma insert_hash_spec : forall t m k v update, inv t m ->
  exists out t', insert_hash keq lf t (hash k) update k v = Ok (out, t') /\
  let (m', o) := spec_step keq m (if update then MUpsert k v else MInsert k v) in inv t' m' /\ o = OIns (fst out) (snd out).
Proof.
  intros t m k v update I. unfold insert_hash.
  assert (X : exists t1 ch, (if (t_limit t <? 1) || (t_limit t <=? t_elems t) then redistribute lf t else Ok t) = Ok t1 /\
    live t1 ch /\ Permutation m (map snd (concat ch))).
  { destruct (Z.ltb_spec (t_limit t) 1); cbn [orb]; [apply redistribute_spec; auto|].
    destruct (Z.leb_spec (t_limit t) (t_elems t)); [apply redistribute_spec; auto|].
    destruct I as [(A & _)|(ch & L & P)]; [lia|]. eauto. }
  destruct X as (t1 & ch & -> & L & P). cbn [rbind]. exact (insert_live t1 ch m k v update L P).
Qed.

(** ** removing *)
Record shape (t : htab) (ch : list (list cell)) : Prop := mkShape {
  sh_cap : 0 < t_cap t; sh_len : zlen ch = t_cap t; sh_limit : 0 < t_limit t; sh_alive : t_alive t = true;
  sh_table : exists tb, t_table t = Some tb /\ Forall2 (chain (t_mem t)) tb ch;
  sh_addr : NoDup (map fst (concat ch) ++ t_cache t);
  sh_cache : Forall (fun a => (a < length (t_mem t))%nat) (t_cache t);
  sh_bucket : in_bucket (t_cap t) ch;
  sh_keys : NoDup (map ckey (concat ch)) }.
Lemma live_shape : forall t ch, live t ch <-> shape t ch /\ t_elems t = zlen (concat ch).
Proof. intros. split; [intros []; split; [split|]; auto|intros [[] E]; split; auto]. Qed.

Definition put_cache (t : htab) (a : nat) : htab :=
  mkHtab (t_cap t) (t_limit t) (t_elems t) (t_table t) (t_cache t ++ [a]) (t_mem t) (t_alive t).

(** the entry [a] taken out of its chain *)
Lemma unlink_spec : forall t ca lp a k v l cc i e, shape t (ca ++ (lp ++ (a, (k, v)) :: l) :: cc) -> i = zlen ca ->
  nth_error (t_mem t) a = Some e ->
  exists t1, match last_of None lp with
    | Some q => let* m := set_next (t_mem t) q (e_next e) in Ok (set_mem t m)
    | None => Ok (set_slot t i (e_next e))
    end = Ok t1 /\ shape (put_cache t1 a) (ca ++ (lp ++ l) :: cc) /\ seg (t_mem t1) (e_next e) l None /\
    t_elems t1 = t_elems t /\ t_cap t1 = t_cap t /\ t_cache t1 = t_cache t /\ t_limit t1 = t_limit t /\ nth_error (t_mem t1) a = Some e /\
    length (t_mem t1) = length (t_mem t) /\
    e = mkEntry (hash k) (e_next e) k v.
Proof.
  intros t ca lp a k v l cc i e Sh Hi N. destruct Sh as [l1 l2 l3 l4 (tb & l5 & l6) l8 l9 l10 l11].
  destruct (Forall2_nth_both _ _ _ (length ca) l6) as (p & lx & ta & tc & ca' & cc' & E1 & E2 & L1 & L2 & C1 & C2 & C3).
  { rewrite app_length. cbn [length]. lia. }
  assert (ca' = ca /\ lx = lp ++ (a, (k, v)) :: l /\ cc' = cc) as (-> & -> & ->).
  { assert (X : firstn (length ca) (ca ++ (lp ++ (a, (k, v)) :: l) :: cc) = firstn (length ca) (ca' ++ lx :: cc')) by (rewrite E2; auto).
    assert (Y : skipn (length ca) (ca ++ (lp ++ (a, (k, v)) :: l) :: cc) = skipn (length ca) (ca' ++ lx :: cc')) by (rewrite E2; auto).
    rewrite <- L2 in X at 2. rewrite <- L2 in Y at 2.
    rewrite !firstn_app, !firstn_all, !Nat.sub_diag, !firstn_O, !app_nil_r in X.
    rewrite !skipn_app, !skipn_all, !Nat.sub_diag in Y. cbn [skipn app] in Y. injection Y as <- <-. auto. }
  clear E2 L2.
  pose proof C1 as C1'. apply seg_app in C1' as (r & S1 & S2). cbn [seg] in S2. destruct S2 as (-> & nx & N' & S2).
  assert (e = mkEntry (hash k) nx k v) by congruence. subst e. cbn [e_next] in *. clear N'.
  assert (Pc : Permutation (concat (ca ++ (lp ++ (a, (k, v)) :: l) :: cc)) ((a, (k, v)) :: concat (ca ++ (lp ++ l) :: cc))).
  { rewrite !concat_mid. rewrite <- app_assoc. cbn [app]. rewrite app_assoc.
    etransitivity; [symmetry; apply Permutation_middle|]. rewrite <- !app_assoc. auto. }
  assert (D : NoDup (a :: map fst (concat (ca ++ (lp ++ l) :: cc)))).
  { apply NoDup_app_l in l8. eapply Permutation_NoDup; [apply (Permutation_map fst) in Pc; exact Pc|auto]. }
  inversion D as [|? ? Da D']; subst x l0.
  rewrite concat_mid, !map_app in Da, D'.
  assert (Ilp : forall x, In x (map fst lp) -> x <> a) by (intros x X ->; apply Da; rewrite !in_app_iff; auto).
  assert (Il : forall x, In x (map fst l) -> x <> a) by (intros x X ->; apply Da; rewrite !in_app_iff; auto).
  (* the chains afterwards *)
  assert (Fin : exists t1 tb1, match last_of None lp with
      | Some q => let* m := set_next (t_mem t) q nx in Ok (set_mem t m)
      | None => Ok (set_slot t i nx)
      end = Ok t1 /\ t_table t1 = Some tb1 /\ Forall2 (chain (t_mem t1)) tb1 (ca ++ (lp ++ l) :: cc) /\ seg (t_mem t1) nx l None /\
      t_elems t1 = t_elems t /\ t_cap t1 = t_cap t /\ t_cache t1 = t_cache t /\ t_limit t1 = t_limit t /\ t_alive t1 = t_alive t /\
      length (t_mem t1) = length (t_mem t) /\ nth_error (t_mem t1) a = nth_error (t_mem t) a).
  { destruct (last_of_rev lp) as [->|(l0 & z & [kz vz] & El & ->)].
    - cbn [last_of fold_left]. eexists _, _. split; [reflexivity|]. unfold set_slot. cbn [t_table t_cap t_limit t_elems t_cache t_mem t_alive].
      rewrite l5. split; [reflexivity|]. split; [|auto 10].
      rewrite Hi, E1. unfold zlen. rewrite Nat2Z.id, <- L1, upd_mid. apply Forall2_app; auto.
    - rewrite El in S1. pose proof S1 as S1'. apply seg_app in S1' as (r & S3 & S4). cbn [seg] in S4. destruct S4 as (-> & nz & Nz & ->).
      destruct (set_next_spec _ z _ nx Nz) as (mem1 & Q1 & Q2 & Q3 & Q4). rewrite Q1. cbn [rbind e_hash e_key e_val] in *.
      eexists _, _. split; [reflexivity|]. unfold set_mem. cbn [t_table t_cap t_limit t_elems t_cache t_mem t_alive].
      split; [exact l5|].
      assert (Hz : In z (map fst lp)) by (rewrite El, map_app; apply in_or_app; right; left; auto).
      assert (Nz1 : ~ In z (map fst (concat ca))) by (intro X; apply (NoDup_app_disj _ _ z D' X); rewrite !in_app_iff; auto).
      assert (Nz2 : ~ In z (map fst l)).
      { intro X. apply NoDup_app_r, NoDup_app_l in D'. apply (NoDup_app_disj _ _ z D'); auto. }
      assert (Nz3 : ~ In z (map fst (concat cc))).
      { intro X. apply NoDup_app_r in D'. apply (NoDup_app_disj _ _ z D'); auto. rewrite in_app_iff. auto. }
      assert (Sl : seg mem1 nx l None).
      { eapply seg_frame; [|exact S2]. intros x X. apply Q4. intros ->. auto. }
      split; [|split; [exact Sl|]].
      + rewrite E1. apply Forall2_app; [|constructor].
        * eapply chain_frame; [|exact C2]. intros x X. apply Q4. intros ->; auto.
        * rewrite El. apply seg_app. exists nx. split; auto. eapply seg_set_last; [exact S1| |exact Nz|exact Q3|].
          -- rewrite <- El. apply NoDup_app_r, NoDup_app_l, NoDup_app_l in D'. auto.
          -- intros x X Y. apply Q4. auto.
        * eapply chain_frame; [|exact C3]. intros x X. apply Q4. intros ->; auto.
      + do 5 (split; [auto; fail|]). split; auto. apply Q4. intros ->. apply (Ilp z Hz eq_refl). }
  destruct Fin as (t1 & tb1 & Q1 & Q2 & Q3 & Q4 & Q5 & Q6 & Q7 & Q8 & Q9 & Q10 & Q11).
  exists t1. split; [exact Q1|]. split; [|split; [exact Q4|]].
  - split; unfold put_cache; cbn [t_table t_cap t_limit t_elems t_cache t_mem t_alive]; rewrite ?Q6, ?Q7, ?Q8, ?Q9; auto.
    + rewrite <- l2. unfold zlen. rewrite !app_length. auto.
    + eauto.
    + eapply Permutation_NoDup; [|exact l8]. etransitivity; [apply Permutation_app_tail, (Permutation_map fst); exact Pc|].
      cbn [map fst app]. rewrite app_assoc. apply Permutation_cons_append.
    + rewrite Q10. apply Forall_app. split; auto. constructor; auto. eapply nth_lt; eauto.
    + eapply in_bucket_sub; [exact l10|]. intros x X. rewrite in_app_iff in *. cbn [In]. tauto.
    + apply (Permutation_map ckey) in Pc. apply (Permutation_NoDup Pc) in l11. cbn [map] in l11. inversion l11; auto.
  - split; [auto|]. split; [auto|]. split; [auto|]. split; [auto|]. split; [congruence|]. split; auto.
Qed.

Lemma get_rm_spec : forall t m k, inv t m ->
  (lookup keq m k = None /\ get_rm keq t k (hash k) = Ok (None, t)) \/
  (exists v a t1 e, lookup keq m k = Some v /\ get_rm keq t k (hash k) = Ok (Some a, t1) /\ nth_error (t_mem t1) a = Some e /\ e_val e = v /\
     inv (recycle t1 a) (without keq m k)).
Proof.
  intros t m k I. unfold get_rm. destruct (Z.ltb_spec (t_elems t) 1) as [E|E].
  - left. rewrite (inv_empty _ _ I E). auto.
  - destruct (inv_live _ _ I E) as (ch & L & P).
    destruct (live_slot t ch k L) as (tb & p & l & ta & tc & ca & cc & T1 & T2 & T3 & L1 & L2 & C & C2 & C3 & Sl & Fu & Nk).
    cbv zeta. rewrite Sl. cbn [rbind]. pose proof (lv_keys _ _ L) as D. pose proof (perm_keys _ _ P D) as Dm.
    destruct (ht_find_spec (t_mem t) k l p None (fuel_of t) C Fu) as [(a & v & la & lb & E1 & E2 & E3)|[E1 E2]].
    + right. rewrite E3. cbn [rbind]. pose proof C as C'. unfold chain in C'. rewrite E1 in C'. apply seg_app in C' as (r & S1 & S2). cbn [seg] in S2.
      destruct S2 as (-> & nx & N & S2). unfold rd. rewrite N. cbn [rbind].
      apply live_shape in L as [Sh El].
      assert (Pm : Permutation m ((k, v) :: map snd (concat ca ++ la) ++ map snd (lb ++ concat cc))).
      { rewrite P, T3, concat_mid, E1. rewrite <- app_assoc. cbn [app]. rewrite app_assoc, map_app. cbn [map snd].
        apply Permutation_sym, Permutation_middle. }
      rewrite T3, E1 in Sh.
      assert (B0 : get_bucket (t_cap t) (hash k) = zlen ca).
      { pose proof (bucket_range (t_cap t) (hash k) (sh_cap _ _ Sh)). unfold zlen. lia. }
      destruct (unlink_spec t ca la a k v lb cc _ _ Sh B0 N) as (t1 & Q1 & Q2 & Q3 & Q4 & Q5 & Q6 & Q7 & Q8 & Q9 & _).
      cbn [e_next] in *.
      exists v, a, t1, (mkEntry (hash k) nx k v).
      split; [apply lookup_in; auto; apply (Permutation_in _ (Permutation_sym Pm)); left; auto|].
      split.
      { destruct (last_of None la); [|injection Q1 as <-; auto].
        destruct (set_next (t_mem t) n nx); try discriminate Q1. cbn [rbind] in *. injection Q1 as <-. auto. }
      split; auto. split; auto. right. exists (ca ++ (la ++ lb) :: cc). split.
      * apply live_shape. split.
        -- destruct Q2. split; auto.
        -- unfold recycle. cbn [t_elems]. rewrite Q4, El, T3, E1. unfold zlen. rewrite !concat_mid, !app_length. cbn [length]. lia.
      * rewrite concat_mid.
        assert (X : Permutation (without keq m k) (without keq ([] ++ (k, v) :: map snd (concat ca ++ la) ++ map snd (lb ++ concat cc)) k))
          by (apply filter_perm; exact Pm).
        rewrite X. rewrite without_split; [|cbn [app]; eapply Permutation_NoDup; [apply Permutation_map; exact Pm|auto]].
        cbn [app]. rewrite <- map_app, <- !app_assoc. auto.
    + left. rewrite E2. cbn [rbind]. split; auto. apply lookup_none. intro X. apply (Nk E1).
      apply (Permutation_in _ (Permutation_map fst P)) in X. rewrite map_map in X. exact X.
Qed.

Lemma chain_fuel : forall t ch l, shape t ch -> In l ch -> (length l < fuel_of t)%nat.
Proof.
  intros t ch l [l1 l2 l3 l4 (tb & l5 & l6) l8 l9 l10 l11] I. unfold fuel_of. apply Nat.lt_succ_r.
  apply in_split in I as (ca & cc & ->). rewrite <- (map_length fst). apply nodup_len.
  - rewrite concat_mid, !map_app in l8. apply NoDup_app_l, NoDup_app_r, NoDup_app_l in l8. auto.
  - intros a A. eapply (chain_range _ _ _ _ l6). rewrite concat_mid, !map_app, !in_app_iff. auto.
Qed.
Lemma Forall2_len : forall {A B} {R : A -> B -> Prop} {l r}, Forall2 R l r -> length l = length r.
Proof. induction 1; cbn; auto. Qed.
Lemma shape_slot : forall t ca l cc, shape t (ca ++ l :: cc) -> exists p, slot t (zlen ca) = Ok p /\ seg (t_mem t) p l None.
Proof.
  intros t ca l cc [l1 l2 l3 l4 (tb & l5 & l6) l8 l9 l10 l11].
  apply Forall2_app_inv_r in l6 as (ta & tx & F1 & F2 & ->). inversion F2 as [|p l0 tc cc0 C F3]; subst.
  exists p. split; auto. unfold slot. rewrite l5, l4. cbn [negb]. unfold zlen. rewrite Nat2Z.id.
  rewrite nth_error_app2, (Forall2_len F1), Nat.sub_diag by (rewrite (Forall2_len F1); lia). auto.
Qed.

Definition keep (rm : K -> V -> bool) (c : cell) : bool := negb (rm (fst (snd c)) (snd (snd c))).
Lemma tri : forall {A} (t : A) (a b a' b' : Z), a = a' -> b = b' -> Ok (t, a, b) = Ok (t, a', b').
Proof. intros. subst. auto. Qed.
Lemma rm_chain_spec : forall rm l fuel t ca lp cc p n nd, shape t (ca ++ (lp ++ l) :: cc) -> seg (t_mem t) p l None ->
  (length l < fuel)%nat ->
  exists t1, rm_chain fuel t (zlen ca) p (last_of None lp) rm n nd =
    Ok (t1, n + zlen l, nd + (zlen l - zlen (filter (keep rm) l))) /\
  shape t1 (ca ++ (lp ++ filter (keep rm) l) :: cc) /\ t_elems t1 = t_elems t /\ t_cap t1 = t_cap t.
Proof.
  intros rm. induction l as [|[a [k v]] l IH]; intros fuel t ca lp cc p n nd Sh S L; (destruct fuel as [|fuel]; [cbn in L; lia|]); cbn [rm_chain seg filter] in *.
  - subst p. exists t. split; auto. apply tri; unfold zlen; cbn [length]; lia.
  - destruct S as (-> & nx & N & S). unfold rd. rewrite N. cbn [rbind e_key e_val]. assert (Ek : keep rm (a, (k, v)) = negb (rm k v)) by auto. rewrite Ek.
    destruct (rm k v) eqn:Er; cbn [negb].
    + destruct (unlink_spec t ca lp a k v l cc (zlen ca) _ Sh eq_refl N) as (t1 & Q1 & Q2 & Q3 & Q4 & Q5 & Q6 & Q7 & Q8 & Q9 & _).
      cbn [e_next] in *. rewrite Q1. cbn [rbind]. fold (put_cache t1 a).
      destruct (IH fuel (put_cache t1 a) ca lp cc nx (n + 1) (nd + 1) Q2 Q3 ltac:(cbn in L; lia)) as (t2 & R1 & R2 & R3 & R4).
      exists t2. split; [rewrite R1; apply tri; unfold zlen; cbn [length]; lia|].
      split; auto. split; [rewrite R3; exact Q4|]. rewrite R4. exact Q5.
    + destruct (IH fuel t ca (lp ++ [(a, (k, v))]) cc nx (n + 1) nd) as (t2 & R1 & R2 & R3 & R4); auto.
      { rewrite <- app_assoc. auto. }
      { cbn in L; lia. }
      rewrite last_of_app in R1. exists t2. cbn [e_next]. rewrite R1. split; [apply tri; unfold zlen; cbn [length]; lia|].
      rewrite <- app_assoc in R2. auto.
Qed.

Lemma filter_concat_nil : forall {A} (f : A -> bool) cs, concat cs = [] -> map (filter f) cs = cs.
Proof.
  induction cs as [|l cs IH]; cbn [concat map]; intro H; auto. apply app_eq_nil in H as [-> H]. cbn. f_equal. auto.
Qed.
Lemma filter_concat : forall {A} (f : A -> bool) cs, concat (map (filter f) cs) = filter f (concat cs).
Proof. induction cs as [|l cs IH]; cbn [concat map]; auto. rewrite filter_app, IH. auto. Qed.

Lemma rm_loop_spec : forall rm cs fuel t ca n nd, shape t (ca ++ cs) -> (length cs < fuel)%nat ->
  t_elems t = n + zlen (concat cs) ->
  exists t1, rm_loop fuel t (zlen ca) n nd rm = Ok (t1, nd + (zlen (concat cs) - zlen (filter (keep rm) (concat cs)))) /\
  shape t1 (ca ++ map (filter (keep rm)) cs) /\ t_elems t1 = t_elems t.
Proof.
  intros rm. induction cs as [|l cs IH]; intros fuel t ca n nd Sh L El; (destruct fuel as [|fuel]; [cbn in L; lia|]); cbn [rm_loop].
  - pose proof (sh_len _ _ Sh) as Hl. rewrite app_nil_r in Hl. destruct (Z.leb_spec (t_cap t) (zlen ca)); [|lia].
    exists t. split; [|auto]. cbn [concat filter]. unfold zlen. cbn [length]. f_equal. f_equal. lia.
  - pose proof (sh_len _ _ Sh) as Hl. unfold zlen in Hl. rewrite app_length in Hl. cbn [length] in Hl.
    destruct (Z.leb_spec (t_cap t) (zlen ca)); [unfold zlen in *; lia|].
    destruct (shape_slot _ _ _ _ Sh) as (p & Sp & S). rewrite Sp. cbn [rbind].
    destruct (rm_chain_spec rm l (fuel_of t) t ca [] cs p n nd Sh S) as (t1 & Q1 & Q2 & Q3 & Q4).
    { eapply chain_fuel; [exact Sh|]. apply in_or_app. right. left. auto. }
    cbn [last_of fold_left] in Q1. rewrite Q1. cbn [rbind]. cbn [concat] in *. unfold zlen in El. rewrite app_length in El.
    cbn [app] in Q2.
    destruct (Z.leb_spec (t_elems t1) (n + zlen l)) as [Hb|Hb].
    + assert (Cn : concat cs = []) by (destruct (concat cs); auto; exfalso; rewrite Q3 in Hb; unfold zlen in *; cbn [length] in *; lia).
      exists t1. rewrite Cn. cbn [map]. rewrite (filter_concat_nil _ _ Cn), app_nil_r. auto.
    + destruct (IH fuel t1 (ca ++ [filter (keep rm) l]) (n + zlen l) (nd + (zlen l - zlen (filter (keep rm) l)))) as (t2 & R1 & R2 & R3).
      * rewrite <- app_assoc. auto.
      * cbn in L. lia.
      * rewrite Q3, El. unfold zlen. lia.
      * exists t2. replace (zlen ca + 1) with (zlen (ca ++ [filter (keep rm) l])) by (unfold zlen; rewrite app_length; cbn; lia).
        rewrite R1. split; [|split; [|congruence]].
        -- f_equal. f_equal. rewrite filter_app. unfold zlen. rewrite !app_length. lia.
        -- rewrite <- app_assoc in R2. exact R2.
Qed.

Lemma ht_remove_if_spec : forall t m rm, inv t m ->
  exists t', ht_remove_if t rm = Ok t' /\ inv t' (filter (fun x => negb (rm (fst x) (snd x))) m).
Proof.
  intros t m rm I. unfold ht_remove_if. destruct (Z.ltb_spec (t_elems t) 1) as [E|E].
  - exists t. pose proof (inv_empty _ _ I E) as ->. auto.
  - destruct (inv_live _ _ I E) as (ch & L & P). apply live_shape in L as [Sh El].
    destruct (rm_loop_spec rm ch (S (Z.to_nat (t_cap t))) t [] 0 0 Sh) as (t1 & Q1 & Q2 & Q3).
    + pose proof (sh_len _ _ Sh). unfold zlen in *. lia.
    + rewrite El. auto.
    + change (zlen []) with 0 in Q1. rewrite Q1. cbn [rbind]. eexists. split; [reflexivity|]. right. exists (map (filter (keep rm)) ch). cbn [app] in Q2. split.
      * apply live_shape. split; [destruct Q2; split; auto|]. cbn [t_elems]. rewrite Q3, El, filter_concat. lia.
      * rewrite filter_concat. etransitivity; [apply filter_perm; exact P|].
        assert (X : forall l : list cell, filter (fun x : K * V => negb (rm (fst x) (snd x))) (map snd l) = map snd (filter (keep rm) l)).
        { induction l as [|[a [k v]] l IH]; cbn [map filter snd fst]; auto. unfold keep at 1. cbn [fst snd].
          destruct (rm k v); cbn [negb map snd]; rewrite IH; auto. }
        rewrite X. auto.
Qed.

Lemma ht_clear_inv : forall t m, inv t m -> inv (ht_clear t) [].
Proof.
  intros t m I. unfold ht_clear. destruct (Z.ltb_spec (t_elems t) 1) as [E|E].
  - pose proof (inv_empty _ _ I E) as ->. auto.
  - left. auto.
Qed.
Lemma inv_size : forall t m, inv t m -> t_elems t = Z.of_nat (length m).
Proof.
  intros t m [(A & B & C & D)|(ch & L & P)].
  - rewrite B, D. auto.
  - rewrite (lv_elems _ _ L), (Permutation_length P), map_length. auto.
Qed.

(** ** all operations *)
Lemma table_step_spec : forall t m op, inv t m -> exists t' o, table_step keq hash lf t op = Ok (t', o) /\
  let (m', o') := spec_step keq m op in inv t' m' /\ o = o'.
Proof.
  intros t m op I. destruct op as [k|k v|k v|k|k|p| |]; cbn [table_step].
  - rewrite (ht_get_spec t m k I). cbn [rbind]. eexists _, _. split; [reflexivity|]. cbn. auto.
  - destruct (insert_hash_spec t m k v false I) as (out & t' & E & H). unfold ht_insert. rewrite E. cbn [rbind].
    eexists _, _. split; [reflexivity|]. cbn iota in H. destruct (spec_step keq m (MInsert k v)). destruct H as [H1 H2]. auto.
  - destruct (insert_hash_spec t m k v true I) as (out & t' & E & H). unfold ht_upsert. rewrite E. cbn [rbind].
    eexists _, _. split; [reflexivity|]. cbn iota in H. destruct (spec_step keq m (MUpsert k v)). destruct H as [H1 H2]. auto.
  - unfold ht_remove. destruct (get_rm_spec t m k I) as [[E1 E2]|(v & a & t1 & e & E1 & E2 & E3 & E4 & E5)]; rewrite E2; cbn [rbind];
    eexists _, _; (split; [reflexivity|]); cbn [spec_step]; split; auto.
    rewrite without_none; auto. intro X. apply in_map_iff in X as ([k' v] & Ek & X). cbn in Ek. subst k'.
    assert (lookup keq m k <> None); [|auto]. clear - X keq_eq. induction m as [|[k' v'] m IH]; [destruct X|]. cbn [lookup].
    destruct (keq k' k) eqn:E; [discriminate|]. destruct X as [X|X]; [|auto]. injection X as -> ->. rewrite (proj2 (keq_eq k k) eq_refl) in E. discriminate.
  - unfold ht_extract. destruct (get_rm_spec t m k I) as [[E1 E2]|(v & a & t1 & e & E1 & E2 & E3 & E4 & E5)]; rewrite E2; cbn [rbind].
    + eexists _, _; (split; [reflexivity|]); cbn [spec_step]; rewrite E1; split; auto.
      rewrite without_none; auto. intro X. apply in_map_iff in X as ([k' v] & Ek & X). cbn in Ek. subst k'.
      assert (lookup keq m k <> None); [|auto]. clear - X keq_eq. induction m as [|[k' v'] m IH]; [destruct X|]. cbn [lookup].
      destruct (keq k' k) eqn:E; [discriminate|]. destruct X as [X|X]; [|auto]. injection X as -> ->. rewrite (proj2 (keq_eq k k) eq_refl) in E. discriminate.
    + unfold rd. rewrite E3. cbn [rbind]. eexists _, _; (split; [reflexivity|]); cbn [spec_step]; rewrite E1; split; auto. congruence.
  - destruct (ht_remove_if_spec t m p I) as (t' & E & H). rewrite E. cbn [rbind]. eexists _, _. split; [reflexivity|]. cbn. auto.
  - eexists _, _. split; [reflexivity|]. cbn. split; auto. eapply ht_clear_inv; eauto.
  - eexists _, _. split; [reflexivity|]. cbn. split; auto. f_equal. apply inv_size; auto.
Qed.
Lemma table_run_spec : forall ops t m, inv t m -> exists t', table_run keq hash lf t ops = Ok (t', snd (spec_map keq m ops)) /\
  inv t' (fst (spec_map keq m ops)).
Proof.
  induction ops as [|op ops IH]; intros t m I; cbn [table_run spec_map].
  - eauto.
  - destruct (table_step_spec t m op I) as (t1 & o & E & H). rewrite E. cbn [rbind].
    destruct (spec_step keq m op) as [m1 o1]. destruct H as [I1 ->].
    destruct (IH t1 m1 I1) as (t2 & E2 & I2). rewrite E2. cbn [rbind]. destruct (spec_map keq m1 ops) as [m2 os]. eauto.
Qed.
Lemma inv_new : forall buckets, inv (ht_new buckets) [].
Proof. intros. left. auto. Qed.

(** ** visiting *)
Definition stops (stop : K -> V -> bool) (x : K * V) : bool := stop (fst x) (snd x).
Lemma walk_spec : forall stop mem l p fuel, seg mem p l None -> (length l < fuel)%nat ->
  walk fuel mem p stop = Ok (visited (stops stop) (map snd l), existsb (stops stop) (map snd l)).
Proof.
  intros stop mem. induction l as [|[a [k v]] l IH]; intros p fuel S L; (destruct fuel as [|fuel]; [cbn in L; lia|]); cbn [walk seg map snd visited existsb] in *.
  - subst p. auto.
  - destruct S as (-> & nx & N & S). unfold rd. rewrite N. cbn [rbind e_key e_val e_next]. assert (Ef : stops stop (k, v) = stop k v) by auto. rewrite Ef.
    destruct (stop k v); cbn [orb]; auto. rewrite (IH nx fuel S) by (cbn in L; lia). cbn [rbind]. auto.
Qed.
Lemma visited_app : forall {A} (f : A -> bool) l r, visited f (l ++ r) = if existsb f l then visited f l else l ++ visited f r.
Proof.
  induction l as [|x l IH]; intro r; cbn [app visited existsb]; auto. destruct (f x); cbn [orb]; auto. rewrite IH. destruct (existsb f l); auto.
Qed.
Lemma visited_all : forall {A} (f : A -> bool) l, existsb f l = false -> visited f l = l.
Proof. induction l as [|x l IH]; cbn [visited existsb]; auto. destruct (f x); cbn [orb]; [discriminate|]. intro. f_equal. auto. Qed.

Lemma foreach_loop_spec : forall stop cs fuel t ca n, shape t (ca ++ cs) -> (length cs < fuel)%nat -> t_elems t = n + zlen (concat cs) ->
  foreach_loop t fuel (zlen ca) n stop = Ok (visited (stops stop) (map snd (concat cs))).
Proof.
  intros stop. induction cs as [|l cs IH]; intros fuel t ca n Sh L El; (destruct fuel as [|fuel]; [cbn in L; lia|]); cbn [foreach_loop].
  - pose proof (sh_len _ _ Sh) as Hl. rewrite app_nil_r in Hl. destruct (Z.leb_spec (t_cap t) (zlen ca)); [|lia]. auto.
  - pose proof (sh_len _ _ Sh) as Hl. unfold zlen in Hl. rewrite app_length in Hl. cbn [length] in Hl.
    destruct (Z.leb_spec (t_cap t) (zlen ca)); [unfold zlen in *; lia|].
    destruct (shape_slot _ _ _ _ Sh) as (p & Sp & S). rewrite Sp. cbn [rbind].
    rewrite (walk_spec stop _ _ _ _ S) by (eapply chain_fuel; [exact Sh|]; apply in_or_app; right; left; auto). cbn [rbind].
    cbn [concat]. rewrite map_app, visited_app. destruct (existsb (stops stop) (map snd l)) eqn:Ex; auto.
    rewrite (visited_all _ _ Ex). assert (Lm : zlen (map snd l) = Z.of_nat (length l)) by (unfold zlen; rewrite map_length; auto). rewrite Lm.
    cbn [concat] in El. unfold zlen in El. rewrite app_length in El.
    destruct (Z.leb_spec (t_elems t) (n + Z.of_nat (length l))) as [Hb|Hb].
    + assert (Cn : concat cs = []) by (destruct (concat cs); auto; exfalso; cbn [length] in *; lia).
      rewrite Cn. cbn. rewrite app_nil_r. auto.
    + replace (zlen ca + 1) with (zlen (ca ++ [l])) by (unfold zlen; rewrite app_length; cbn; lia).
      rewrite IH; auto.
      * rewrite <- app_assoc. auto.
      * cbn in L. lia.
      * unfold zlen. lia.
Qed.
Lemma ht_foreach_break_spec : forall t m stop, inv t m -> exists l, Permutation m l /\ ht_foreach_break t stop = Ok (visited (stops stop) l) /\
  ht_foreach t = Ok l.
Proof.
  intros t m stop I. unfold ht_foreach, ht_foreach_break. destruct (Z.ltb_spec (t_elems t) 1) as [E|E].
  - exists []. rewrite (inv_empty _ _ I E). auto.
  - destruct (inv_live _ _ I E) as (ch & L & P). apply live_shape in L as [Sh El]. exists (map snd (concat ch)). split; auto.
    assert (X : forall st, foreach_loop t (S (Z.to_nat (t_cap t))) 0 0 st = Ok (visited (stops st) (map snd (concat ch)))).
    { intro st. apply (foreach_loop_spec st ch _ t [] 0); auto. pose proof (sh_len _ _ Sh). unfold zlen in *. lia. }
    rewrite !X. split; auto. f_equal. apply visited_all. generalize (map snd (concat ch)). induction l; auto.
Qed.

(** the iterator *)
Lemma skip_empty_spec : forall cs fuel t ca, shape t (ca ++ cs) -> (length cs < fuel)%nat ->
  (concat cs = [] /\ exists b, skip_empty t fuel (zlen ca) = Ok (b, None)) \/
  (exists ce a x l cc, cs = ce ++ ((a, x) :: l) :: cc /\ concat ce = [] /\ skip_empty t fuel (zlen ca) = Ok (zlen (ca ++ ce), Some a)).
Proof.
  induction cs as [|l cs IH]; intros fuel t ca Sh L; (destruct fuel as [|fuel]; [cbn in L; lia|]); cbn [skip_empty].
  - pose proof (sh_len _ _ Sh) as Hl. rewrite app_nil_r in Hl. destruct (Z.leb_spec (t_cap t) (zlen ca)); [|lia]. left. eauto.
  - pose proof (sh_len _ _ Sh) as Hl. unfold zlen in Hl. rewrite app_length in Hl. cbn [length] in Hl.
    destruct (Z.leb_spec (t_cap t) (zlen ca)); [unfold zlen in *; lia|].
    destruct (shape_slot _ _ _ _ Sh) as (p & Sp & S). rewrite Sp. cbn [rbind].
    destruct l as [|[a x] l]; cbn [seg] in S.
    + subst p. replace (zlen ca + 1) with (zlen (ca ++ [[]])) by (unfold zlen; rewrite app_length; cbn; lia).
      destruct (IH fuel t (ca ++ [[]])) as [(E1 & b & E2)|(ce & a & x & l & cc & E1 & E2 & E3)].
      * rewrite <- app_assoc. auto.
      * cbn in L. lia.
      * left. cbn. eauto.
      * right. exists ([] :: ce), a, x, l, cc. rewrite E1. split; auto. split; auto. rewrite E3. rewrite <- app_assoc. auto.
    + right. destruct x as [k v]. destruct S as (-> & _). exists [], a, (k, v), l, cs. rewrite app_nil_r. auto.
Qed.

Lemma it_loop_spec : forall fuel t ca lp a k v l cc, shape t (ca ++ (lp ++ (a, (k, v)) :: l) :: cc) ->
  (length (l ++ concat cc) + 1 < fuel)%nat ->
  it_loop t fuel (zlen ca, Some a) = Ok ((k, v) :: map snd (l ++ concat cc)).
Proof.
  induction fuel as [|fuel IH]; intros t ca lp a k v l cc Sh L; [lia|]. cbn [it_loop snd].
  destruct (shape_slot _ _ _ _ Sh) as (p & Sp & S). apply seg_app in S as (r & S1 & S2). cbn [seg] in S2.
  destruct S2 as (-> & nx & N & S2). unfold rd at 1. rewrite N. cbn [rbind e_key e_val].
  destruct (sh_table _ _ Sh) as (tb & Et & _). unfold it_advance. rewrite Et. unfold rd. rewrite N. cbn [rbind e_next].
  destruct l as [|[b [k' v']] l]; cbn [seg] in S2.
  - subst nx. cbn [app] in *.
    replace (zlen ca + 1) with (zlen (ca ++ [lp ++ [(a, (k, v))]])) by (unfold zlen; rewrite app_length; cbn; lia).
    assert (Sh' : shape t ((ca ++ [lp ++ [(a, (k, v))]]) ++ cc)) by (rewrite <- app_assoc; auto).
    destruct (skip_empty_spec cc (S (Z.to_nat (t_cap t))) t _ Sh') as [(E1 & b & E2)|(ce & b & [k' v'] & l & cc' & E1 & E2 & E3)].
    + pose proof (sh_len _ _ Sh') as X. unfold zlen in X. rewrite app_length in X. lia.
    + rewrite E2. cbn [rbind]. rewrite E1. destruct fuel; [lia|]. cbn. auto.
    + rewrite E3. cbn [rbind]. rewrite E1 in *. rewrite concat_mid, E2 in *. cbn [app] in *.
      rewrite (IH t _ [] b k' v' l cc').
      * cbn [rbind map snd]. auto.
      * cbn [app]. rewrite <- !app_assoc. rewrite <- app_assoc in Sh'. auto.
      * cbn [length] in L. lia.
  - destruct S2 as (-> & nx' & N' & S2). cbn [rbind].
    rewrite (IH t ca (lp ++ [(a, (k, v))]) b k' v' l cc).
    + cbn [rbind app map snd]. auto.
    + rewrite <- app_assoc. auto.
    + cbn [app length] in L. lia.
Qed.

Lemma ht_iterate_live : forall t ch, shape t ch -> ht_iterate t = Ok (map snd (concat ch)).
Proof.
  intros t ch Sh. unfold ht_iterate, it_advance. destruct (sh_table _ _ Sh) as (tb & Et & F). rewrite Et.
  destruct (skip_empty_spec ch (S (Z.to_nat (t_cap t))) t [] Sh) as [(E1 & b & E2)|(ce & a & [k v] & l & cc & E1 & E2 & E3)].
  - pose proof (sh_len _ _ Sh). unfold zlen in *. lia.
  - change (zlen []) with 0 in E2. rewrite E2. cbn [rbind]. rewrite E1. unfold fuel_of. cbn. auto.
  - change (zlen []) with 0 in E3. rewrite E3. cbn [rbind]. cbn [app].
    assert (Cl : (length (concat ch) <= length (t_mem t))%nat).
    { rewrite <- (map_length fst). apply nodup_len.
      - pose proof (sh_addr _ _ Sh) as D. apply NoDup_app_l in D. auto.
      - intros x X. exact (chain_range _ _ _ _ F X). }
    rewrite E1 in *. rewrite concat_mid, E2 in *. cbn [app length] in *.
    rewrite (it_loop_spec _ t ce [] a k v l cc); auto. unfold fuel_of. cbn [app length] in Cl. lia.
Qed.

(** a table without entries on which clear was never called has no table to iterate over, or a live one *)
Definition tidy (t : htab) : Prop := t_limit t = 0 -> t_table t = None.
Lemma unlink_limit : forall (t : htab) prev i nx t1, match prev with
    | Some q => let* m := set_next (t_mem t) q nx in Ok (set_mem t m)
    | None => Ok (set_slot t i nx)
    end = Ok t1 -> t_limit t1 = t_limit t.
Proof.
  intros t prev i nx t1 H. destruct prev; [destruct (set_next (t_mem t) n nx); try discriminate H; cbn [rbind] in H|]; injection H as <-; auto.
Qed.
Lemma get_rm_limit : forall (t : htab) k h f t1, get_rm keq t k h = Ok (f, t1) -> t_limit t1 = t_limit t.
Proof.
  intros t k h f t1. unfold get_rm. destruct (t_elems t <? 1); [congruence|]. cbv zeta.
  destruct (slot t (get_bucket (t_cap t) h)); cbn [rbind]; try discriminate.
  destruct (ht_find keq (fuel_of t) (t_mem t) a None h k) as [[[b|] prev]| | |]; cbn [rbind]; try discriminate; [|congruence].
  destruct (rd (t_mem t) b); cbn [rbind]; try discriminate. destruct prev.
  - destruct (set_next (t_mem t) n (e_next a0)); cbn [rbind]; try discriminate. intro H. injection H as <- <-. auto.
  - intro H. injection H as <- <-. auto.
Qed.
Lemma rm_chain_limit : forall rm fuel (t : htab) i p prev n nd t1 n1 nd1, rm_chain fuel t i p prev rm n nd = Ok (t1, n1, nd1) -> t_limit t1 = t_limit t.
Proof.
  intros rm. induction fuel as [|fuel IH]; intros t i p prev n nd t1 n1 nd1; cbn [rm_chain]; [discriminate|].
  destruct p as [a|]; [|congruence]. destruct (rd (t_mem t) a) as [e| | |]; cbn [rbind]; try discriminate.
  destruct (rm (e_key e) (e_val e)); [|apply IH].
  match goal with |- context [rbind ?m _] => destruct m as [t2| | |] eqn:E end; cbn [rbind]; try discriminate.
  intro H. apply IH in H. rewrite H. cbn [t_limit]. eapply unlink_limit; eauto.
Qed.
Lemma rm_loop_limit : forall rm fuel (t : htab) i n nd t1 nd1, rm_loop fuel t i n nd rm = Ok (t1, nd1) -> t_limit t1 = t_limit t.
Proof.
  intros rm. induction fuel as [|fuel IH]; intros t i n nd t1 nd1; cbn [rm_loop]; [discriminate|].
  destruct (t_cap t <=? i); [congruence|]. destruct (slot t i) as [p| | |]; cbn [rbind]; try discriminate.
  destruct (rm_chain (fuel_of t) t i p None rm n nd) as [[[t2 n2] nd2]| | |] eqn:E; cbn [rbind]; try discriminate.
  apply rm_chain_limit in E. destruct (t_elems t2 <=? n2).
  - intro H. injection H as <- <-. auto.
  - intro H. apply IH in H. congruence.
Qed.
Lemma inv_nonempty : forall t m, inv t m -> m <> [] -> 0 < t_limit t.
Proof. intros t m [(A & B & C & D)|(ch & L & P)] H; [tauto|]. apply (lv_limit _ _ L). Qed.
Lemma tidy_step : forall t m op t' o, inv t m -> tidy t -> op <> MClear -> table_step keq hash lf t op = Ok (t', o) -> tidy t'.
Proof.
  intros t m op t' o I T Nc E. destruct (table_step_spec t m op I) as (t2 & o2 & E2 & H2). rewrite E in E2. injection E2 as <- <-.
  assert (Ne : fst (spec_step keq m op) <> [] -> tidy t').
  { intros X Y. destruct (spec_step keq m op) as [m' o']. cbn [fst] in X. destruct H2 as [H2 _]. pose proof (inv_nonempty _ _ H2 X). lia. }
  assert (Lv : 1 <= t_elems t -> 0 < t_limit t).
  { intro X. destruct (inv_live _ _ I X) as (ch & L & _). apply (lv_limit _ _ L). }
  destruct op as [k|k v|k v|k|k|p| |]; cbn [table_step] in E.
  - destruct (ht_get keq hash t k); cbn [rbind] in E; try discriminate. injection E as <- <-. auto.
  - apply Ne. cbn [spec_step]. destruct (lookup keq m k) eqn:El; [|discriminate]. cbn [fst]. intros ->. discriminate.
  - apply Ne. cbn [spec_step]. destruct (lookup keq m k); discriminate.
  - unfold ht_remove in E. destruct (get_rm keq t k (hash k)) as [[[a|] t1]| | |] eqn:G; cbn [rbind] in E; try discriminate; injection E as <- <-.
    + pose proof (get_rm_limit _ _ _ _ _ G) as Gl. intro X. unfold recycle in X. cbn [t_limit] in X.
      assert (t_elems t < 1) as Y by (destruct (Z_lt_dec (t_elems t) 1); auto; assert (0 < t_limit t) by (apply Lv; lia); lia).
      unfold get_rm in G. destruct (Z.ltb_spec (t_elems t) 1); [discriminate|lia].
    + destruct (Z_lt_dec (t_elems t) 1) as [Y|Y].
      * unfold get_rm in G. destruct (Z.ltb_spec (t_elems t) 1); [|lia]. injection G as <-. auto.
      * pose proof (get_rm_limit _ _ _ _ _ G) as Gl. intro X. assert (0 < t_limit t) by (apply Lv; lia). lia.
  - unfold ht_extract in E. destruct (get_rm keq t k (hash k)) as [[[a|] t1]| | |] eqn:G; cbn [rbind] in E; try discriminate.
    + destruct (rd (t_mem t1) a); cbn [rbind] in E; try discriminate. injection E as <- <-.
      pose proof (get_rm_limit _ _ _ _ _ G) as Gl. intro X. unfold recycle in X. cbn [t_limit] in X.
      assert (t_elems t < 1) as Y by (destruct (Z_lt_dec (t_elems t) 1); auto; assert (0 < t_limit t) by (apply Lv; lia); lia).
      unfold get_rm in G. destruct (Z.ltb_spec (t_elems t) 1); [discriminate|lia].
    + injection E as <- <-. destruct (Z_lt_dec (t_elems t) 1) as [Y|Y].
      * unfold get_rm in G. destruct (Z.ltb_spec (t_elems t) 1); [|lia]. injection G as <-. auto.
      * pose proof (get_rm_limit _ _ _ _ _ G) as Gl. intro X. assert (0 < t_limit t) by (apply Lv; lia). lia.
  - unfold ht_remove_if in E. destruct (Z.ltb_spec (t_elems t) 1) as [Y|Y]; cbn [rbind] in E; [injection E as <- <-; auto|].
    destruct (rm_loop (S (Z.to_nat (t_cap t))) t 0 0 0 p) as [[t1 nd]| | |] eqn:G; cbn [rbind] in E; try discriminate. injection E as <- <-.
    apply rm_loop_limit in G. intro X. cbn [t_limit] in X. specialize (Lv Y). lia.
  - destruct (Nc eq_refl).
  - injection E as <- <-. auto.
Qed.
Lemma tidy_run : forall ops t m t' outs, inv t m -> tidy t -> ~ In MClear ops -> table_run keq hash lf t ops = Ok (t', outs) -> tidy t'.
Proof.
  induction ops as [|op ops IH]; intros t m t' outs I T Nc E; cbn [table_run] in E.
  - injection E as <- <-. auto.
  - destruct (table_step keq hash lf t op) as [[t1 o]| | |] eqn:E1; cbn [rbind] in E; try discriminate.
    destruct (table_run keq hash lf t1 ops) as [[t2 os]| | |] eqn:E2; cbn [rbind] in E; try discriminate. injection E as <- <-.
    assert (T1 : tidy t1) by (eapply tidy_step; eauto; intros ->; apply Nc; left; auto).
    destruct (table_step_spec t m op I) as (t3 & o3 & E3 & H3). rewrite E1 in E3. injection E3 as <- <-.
    destruct (spec_step keq m op) as [m1 o1]. destruct H3 as [H3 _].
    eapply IH; eauto. intro X. apply Nc. right. auto.
Qed.

Lemma inv_keys : forall t m, inv t m -> NoDup (map fst m).
Proof.
  intros t m [(A & B & C & ->)|(ch & L & P)]; [constructor|]. exact (perm_keys _ _ P (lv_keys _ _ L)).
Qed.
Lemma run_inv : forall buckets ops t outs, table_run keq hash lf (ht_new buckets) ops = Ok (t, outs) -> inv t (fst (spec_map keq [] ops)).
Proof.
  intros buckets ops t outs E. destruct (table_run_spec ops _ _ (inv_new buckets)) as (t' & E' & I). rewrite E in E'. injection E' as <- _. auto.
Qed.

Theorem htable_finite_map : forall (buckets : Z) (ops : list (mop K V)),
  exists t, table_run keq hash lf (ht_new buckets) ops = Ok (t, snd (spec_map keq [] ops)).
Proof. intros. destruct (table_run_spec ops _ _ (inv_new buckets)) as (t & E & _). eauto. Qed.
Theorem htable_foreach : forall (buckets : Z) (ops : list (mop K V)) t outs,
  table_run keq hash lf (ht_new buckets) ops = Ok (t, outs) ->
  exists l, ht_foreach t = Ok l /\ Permutation l (fst (spec_map keq [] ops)) /\ NoDup (map fst l) /\
  forall stop, ht_foreach_break t stop = Ok (visited (fun x => stop (fst x) (snd x)) l).
Proof.
  intros buckets ops t outs E. pose proof (run_inv _ _ _ _ E) as I.
  destruct (ht_foreach_break_spec t _ (fun _ _ => false) I) as (l & P & _ & F). exists l. split; auto. split; [apply Permutation_sym; auto|].
  split; [eapply Permutation_NoDup; [apply Permutation_map; exact P|eapply inv_keys; eauto]|].
  intro stop. destruct (ht_foreach_break_spec t _ stop I) as (l' & _ & B & F'). rewrite F in F'. injection F' as <-. exact B.
Qed.
Theorem htable_iterate : forall (buckets : Z) (ops : list (mop K V)) t outs,
  table_run keq hash lf (ht_new buckets) ops = Ok (t, outs) ->
  ~ In MClear ops \/ fst (spec_map keq [] ops) <> [] ->
  exists l, ht_iterate t = Ok l /\ Permutation l (fst (spec_map keq [] ops)) /\ NoDup (map fst l) /\ ht_foreach t = Ok l.
Proof.
  intros buckets ops t outs E H. pose proof (run_inv _ _ _ _ E) as I. pose proof (inv_keys _ _ I) as D.
  set (m := fst (spec_map keq [] ops)) in *.
  assert (C : (t_limit t = 0 /\ t_table t = None /\ t_elems t = 0 /\ m = []) \/ (exists ch, live t ch /\ Permutation m (map snd (concat ch)))).
  { destruct I as [(A & B & C & Dm)|X]; auto. left. destruct H as [H|H]; [|tauto]. split; auto. split; auto.
    eapply (tidy_run ops (ht_new buckets) [] t outs); auto; [apply inv_new|]. intro; auto. }
  destruct C as [(A & B & C & Dm)|(ch & L & P)].
  - exists []. rewrite Dm. unfold ht_iterate, it_advance, ht_foreach, ht_foreach_break. rewrite B, C. cbn. repeat split; auto. constructor.
  - apply live_shape in L as [Sh El]. exists (map snd (concat ch)). split; [apply ht_iterate_live; auto|]. split; [apply Permutation_sym; auto|].
    split; [eapply Permutation_NoDup; [apply Permutation_map; exact P|auto]|].
    unfold ht_foreach, ht_foreach_break. destruct (Z.ltb_spec (t_elems t) 1) as [X|X].
    + destruct (concat ch); auto. unfold zlen in El. cbn [length] in El. lia.
    + rewrite (foreach_loop_spec (fun _ _ => false) ch _ t [] 0); auto.
      * f_equal. apply visited_all. generalize (map snd (concat ch)). induction l; auto.
      * pose proof (sh_len _ _ Sh). unfold zlen in *. lia.
Qed.
Theorem htable_move : forall (buckets : Z) (ops ops2 : list (mop K V)) t outs,
  table_run keq hash lf (ht_new buckets) ops = Ok (t, outs) ->
  (exists t2, table_run keq hash lf (fst (ht_move t)) ops2 = Ok (t2, snd (spec_map keq (fst (spec_map keq [] ops)) ops2))) /\
  (exists t2, table_run keq hash lf (snd (ht_move t)) ops2 = Ok (t2, snd (spec_map keq [] ops2))).
Proof.
  intros buckets ops ops2 t outs E. pose proof (run_inv _ _ _ _ E) as I. split.
  - destruct (table_run_spec ops2 (fst (ht_move t)) _ ltac:(destruct t; exact I)) as (t2 & E2 & _). eauto.
  - destruct (table_run_spec ops2 (snd (ht_move t)) [] ltac:(left; auto)) as (t2 & E2 & _). eauto.
Qed.
End Proof.
