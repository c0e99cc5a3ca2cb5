(** Every key and value of a hash table is destroyed exactly once. *)
From Coq Require Import ZArith List Bool Lia ZifyBool ZifyNat Permutation.
From Verif Require Import Base Lemmas M_HTable S_HTable P_HTable M_HTableLife S_HTableLife.
Import ListNotations.
Open Scope Z_scope.

Section Proof.
Context {K V : Type}.
Variable keq : K -> K -> bool.
Variable hash : K -> Z.
Variable lf : Z -> Z.
Hypothesis keq_eq : forall a b, keq a b = true <-> a = b.
Local Notation entry := (entry K V).
Local Notation htab := (htab K V).
Local Notation cell := (nat * (K * V))%type.
Local Notation obj := (obj K V).
Local Notation event := (event K V).
Local Notation inv := (@inv K V hash).
Local Notation shape := (@shape K V hash).

(** ** histories *)
Lemma history_perm : forall (h : list event) (A B A' B' : list obj), history A h B -> Permutation A A' -> Permutation B B' -> history A' h B'.
Proof.
  intros h A B A' B' H. revert A' B'. induction H as [L L' P|L x h L' H IH|L x L1 h L' P H IH]; intros A' B' PA PB.
  - constructor. rewrite <- PA, P. auto.
  - constructor. apply IH; auto.
  - econstructor; [rewrite <- PA; exact P|]. apply IH; auto.
Qed.
Lemma history_app : forall (h1 h2 : list event) (A B C : list obj), history A h1 B -> history B h2 C -> history A (h1 ++ h2) C.
Proof.
  intros h1 h2 A B C H. revert C. induction H as [L L' P|L x h L' H IH|L x L1 h L' P H IH]; intros C H2; cbn [app].
  - eapply history_perm; [exact H2|apply Permutation_sym; auto|auto].
  - constructor. auto.
  - econstructor; [exact P|]. auto.
Qed.
Lemma history_frame : forall (h : list event) (A B R : list obj), history A h B -> history (A ++ R) h (B ++ R).
Proof.
  intros h A B R H. induction H as [L L' P|L x h L' H IH|L x L1 h L' P H IH].
  - constructor. apply Permutation_app_tail. auto.
  - constructor. exact IH.
  - econstructor; [|exact IH]. change (x :: L1 ++ R) with ((x :: L1) ++ R). apply Permutation_app_tail. auto.
Qed.
Lemma history_destroy : forall (l : list (K * V)), history (objects l) (flat_map destroy_entry l) [].
Proof.
  induction l as [|[k v] l IH]; cbn [flat_map destroy_entry objects app fst snd]; [repeat constructor|].
  econstructor; [reflexivity|]. econstructor; [reflexivity|]. exact IH.
Qed.
Lemma objects_perm : forall (l1 l2 : list (K * V)), Permutation l1 l2 -> Permutation (objects l1) (objects l2).
Proof. intros. unfold objects. apply Permutation_flat_map. auto. Qed.
Lemma constructed_app : forall (h1 h2 : list event), constructed (h1 ++ h2) = constructed h1 ++ constructed h2.
Proof. induction h1 as [|[x|x] h1 IH]; intro h2; cbn [app constructed]; auto. rewrite IH. auto. Qed.
Lemma constructed_destroy : forall (l : list (K * V)), constructed (flat_map destroy_entry l) = [].
Proof. induction l; cbn; auto. Qed.

(** ** inserting *)
Lemma insert_life_spec : forall t m k v update, inv t m ->
  exists h, insert_life keq lf t (hash k) update k v = Ok h /\
  history (objects m) h (objects (fst (spec_step keq m (if update then MUpsert k v else MInsert k v)))) /\
  constructed h = expected keq m (if update then MUpsert k v else MInsert k v).
Proof.
  intros t m k v update I. unfold insert_life.
  assert (X : exists t1 ch, (if (t_limit t <? 1) || (t_limit t <=? t_elems t) then redistribute lf t else Ok t) = Ok t1 /\
    live hash t1 ch /\ Permutation m (map snd (concat ch))).
  { destruct (Z.ltb_spec (t_limit t) 1); cbn [orb]; [apply (redistribute_spec keq hash lf keq_eq); auto|].
    destruct (Z.leb_spec (t_limit t) (t_elems t)); [apply (redistribute_spec keq hash lf keq_eq); auto|].
    destruct I as [(A & _)|(ch & L & P)]; [lia|]. eauto. }
  destruct X as (t1 & ch & -> & L & P). cbn [rbind].
  destruct (live_slot keq hash lf keq_eq t1 ch k L) as (tb & p & l & ta & tc & ca & cc & T1 & T2 & T3 & L1 & L2 & C & C2 & C3 & Sl & Fu & Nk).
  rewrite Sl. cbn [rbind]. pose proof (perm_keys _ _ P (lv_keys _ _ _ L)) as Dm.
  destruct (ht_find_spec keq hash keq_eq (t_mem t1) k l p None (fuel_of t1) C Fu) as [(a & v' & la & lb & E1 & E2 & E3)|[E1 E2]].
  - rewrite E3. cbn [rbind]. pose proof C as C'. unfold chain in C'. rewrite E1 in C'. apply seg_app in C' as (r & S1 & S2). cbn [seg] in S2.
    destruct S2 as (-> & nx & N & S2). unfold rd. rewrite N. cbn [rbind e_val].
    assert (Pm : Permutation m ((k, v') :: map snd (concat ca ++ la) ++ map snd (lb ++ concat cc))).
    { rewrite P, T3, concat_mid, E1. rewrite <- app_assoc. cbn [app]. rewrite app_assoc, map_app. cbn [map snd].
      apply Permutation_sym, Permutation_middle. }
    assert (Lk : lookup keq m k = Some v').
    { apply (lookup_in keq keq_eq); auto. apply (Permutation_in _ (Permutation_sym Pm)). left. auto. }
    destruct update; cbn [spec_step expected]; rewrite Lk; cbn [fst]; eexists; (split; [reflexivity|]); (split; [|reflexivity]).
    + assert (X : Permutation (without keq m k) (map snd (concat ca ++ la) ++ map snd (lb ++ concat cc))).
      { transitivity (without keq ([] ++ (k, v') :: map snd (concat ca ++ la) ++ map snd (lb ++ concat cc)) k); [apply filter_perm; exact Pm|].
        rewrite (without_split keq keq_eq); [reflexivity|]. cbn [app]. eapply Permutation_NoDup; [apply Permutation_map; exact Pm|auto]. }
      apply objects_perm in X, Pm. cbn [objects flat_map app fst snd] in *.
      econstructor; [rewrite Pm; apply perm_swap|]. apply h_made. apply h_end. rewrite perm_swap. apply perm_skip, perm_skip, Permutation_sym, X.
    + constructor. auto.
  - rewrite E2. cbn [rbind].
    assert (Lk : lookup keq m k = None).
    { apply (lookup_none keq keq_eq); auto. intro X. apply (Nk E1). apply (Permutation_in _ (Permutation_map fst P)) in X. rewrite map_map in X. exact X. }
    eexists. split; [reflexivity|]. destruct update; cbn [spec_step expected]; rewrite Lk; cbn [fst constructed]; (split; [|reflexivity]);
    apply h_made, h_made, h_end; apply perm_swap.
Qed.

(** ** removing *)
Lemma set_next_key : forall (mem m : list entry) q p a e, set_next mem q p = Ok m -> nth_error m a = Some e ->
  exists e0, nth_error mem a = Some e0 /\ e_key e0 = e_key e /\ e_val e0 = e_val e.
Proof.
  intros mem m q p a e E N. unfold set_next, rd in E. destruct (nth_error mem q) as [eq|] eqn:Q; cbn [rbind] in E; [|discriminate E].
  assert (E' : m = upd q (mkEntry (e_hash eq) p (e_key eq) (e_val eq)) mem) by congruence. subst m.
  destruct (Nat.eq_dec q a) as [->|D].
  - rewrite nth_upd_eq in N by (eapply nth_lt; eauto). exists eq. injection N as <-. auto.
  - rewrite nth_upd_ne in N by auto. eauto.
Qed.
Lemma find_key : forall mem k h fuel p prev a r, ht_find keq fuel mem p prev h k = Ok (Some a, r) ->
  exists e : entry, nth_error mem a = Some e /\ e_key e = k.
Proof.
  intros mem k h. induction fuel as [|fuel IH]; intros p prev a r E; cbn [ht_find] in E; [discriminate|].
  destruct p as [b|]; [|discriminate]. unfold rd in E. destruct (nth_error mem b) as [e|] eqn:N; cbn [rbind] in E; [|discriminate].
  destruct ((e_hash e =? h) && keq (e_key e) k) eqn:B.
  - injection E as <- <-. exists e. split; auto. apply andb_prop in B as [_ B]. apply keq_eq. auto.
  - eapply IH; eauto.
Qed.
Lemma get_rm_key : forall (t : htab) k h a t1 e, get_rm keq t k h = Ok (Some a, t1) -> nth_error (t_mem t1) a = Some e -> e_key e = k.
Proof.
  intros t k h a t1 e E N. unfold get_rm in E. destruct (t_elems t <? 1); [discriminate|]. cbv zeta in E.
  destruct (slot t _) as [p| | |]; cbn [rbind] in E; try discriminate.
  destruct (ht_find keq (fuel_of t) (t_mem t) p None h k) as [[[b|] r]| | |] eqn:F; cbn [rbind] in E; try discriminate.
  destruct (find_key _ _ _ _ _ _ _ _ F) as (e0 & N0 & K0). unfold rd in E. rewrite N0 in E. cbn [rbind] in E.
  destruct r as [q|].
  - destruct (set_next (t_mem t) q (e_next e0)) as [mm| | |] eqn:S; cbn [rbind] in E; try discriminate.
    assert (X : b = a /\ t1 = set_mem t mm) by (split; congruence). destruct X as [-> ->]. cbn [set_mem t_mem] in N.
    destruct (set_next_key _ _ _ _ _ _ S N) as (e1 & N1 & K1 & _). congruence.
  - assert (X : b = a /\ t1 = set_slot t (get_bucket (t_cap t) h) (e_next e0)) by (split; congruence). destruct X as [-> ->].
    cbn [set_slot t_mem] in N. congruence.
Qed.
Lemma without_perm : forall (m : list (K * V)) k v, NoDup (map fst m) -> lookup keq m k = Some v -> Permutation m ((k, v) :: without keq m k).
Proof.
  intros m k v D L. apply (lookup_in keq keq_eq) in L; auto. apply in_split in L as (l1 & l2 & ->).
  rewrite (without_split keq keq_eq) by auto. apply Permutation_sym, Permutation_middle.
Qed.
Lemma remove_life_spec : forall t m k, inv t m ->
  exists h, remove_life keq hash t k = Ok h /\ history (objects m) h (objects (without keq m k)) /\ constructed h = [].
Proof.
  intros t m k I. unfold remove_life. destruct (get_rm_spec keq hash lf keq_eq t m k I) as [[E1 E2]|(v & a & t1 & e & E1 & E2 & E3 & E4 & E5)]; rewrite E2; cbn [rbind].
  - exists []. split; auto. split; auto. constructor. rewrite (without_none keq keq_eq); auto.
    intro X. apply in_map_iff in X as ([k' v] & Ek & X). cbn in Ek. subst k'.
    apply (lookup_in keq keq_eq) in X; [congruence|eapply inv_keys; eauto].
  - unfold rd. rewrite E3. cbn [rbind]. eexists. split; [reflexivity|]. split; [|reflexivity].
    rewrite E4, (get_rm_key _ _ _ _ _ _ E2 E3).
    pose proof (objects_perm _ _ (without_perm m k v (inv_keys _ _ _ I) E1)) as P. cbn [objects flat_map app fst snd] in P.
    econstructor; [rewrite P; apply perm_swap|]. econstructor; [reflexivity|]. constructor. reflexivity.
Qed.

(** ** removing by a predicate *)
Definition drop (rm : K -> V -> bool) (c : cell) : bool := negb (keep rm c).
Lemma tri' : forall {A B} (t : A) (e : B) (a b a' b' : Z), a = a' -> b = b' -> Ok (t, a, b, e) = Ok (t, a', b', e).
Proof. intros. subst. auto. Qed.
Lemma rm_chain_life_spec : forall rm l fuel t ca lp cc p n nd, shape t (ca ++ (lp ++ l) :: cc) -> seg hash (t_mem t) p l None ->
  (length l < fuel)%nat ->
  exists t1, rm_chain_life fuel t (zlen ca) p (last_of None lp) rm n nd =
    Ok (t1, n + zlen l, nd + (zlen l - zlen (filter (keep rm) l)), flat_map destroy_entry (map snd (filter (drop rm) l))) /\
  rm_chain fuel t (zlen ca) p (last_of None lp) rm n nd = Ok (t1, n + zlen l, nd + (zlen l - zlen (filter (keep rm) l))).
Proof.
  intros rm. induction l as [|[a [k v]] l IH]; intros fuel t ca lp cc p n nd Sh S L; (destruct fuel as [|fuel]; [cbn in L; lia|]); cbn [rm_chain rm_chain_life seg filter] in *.
  - subst p. exists t. split; [apply tri'|apply tri]; unfold zlen; cbn [length]; lia.
  - destruct S as (-> & nx & N & S). unfold rd. rewrite N. cbn [rbind e_key e_val].
    assert (Ek : keep rm (a, (k, v)) = negb (rm k v)) by auto. assert (Ed : drop rm (a, (k, v)) = rm k v) by (unfold drop; rewrite Ek; apply negb_involutive).
    rewrite Ek, Ed. destruct (rm k v) eqn:Er; cbn [negb].
    + destruct (unlink_spec keq hash lf keq_eq t ca lp a k v l cc (zlen ca) _ Sh eq_refl N) as (t1 & Q1 & Q2 & Q3 & Q4 & Q5 & Q6 & Q7 & Q8 & Q9 & _).
      cbn [e_next] in *. rewrite Q1. cbn [rbind]. fold (put_cache t1 a).
      destruct (IH fuel (put_cache t1 a) ca lp cc nx (n + 1) (nd + 1) Q2 Q3 ltac:(cbn in L; lia)) as (t2 & R1 & R2).
      exists t2. rewrite R1, R2. cbn [rbind map snd flat_map destroy_entry app fst].
      split; [apply tri'|apply tri]; unfold zlen; cbn [length]; lia.
    + destruct (IH fuel t ca (lp ++ [(a, (k, v))]) cc nx (n + 1) nd) as (t2 & R1 & R2); auto.
      { rewrite <- app_assoc. auto. }
      { cbn in L; lia. }
      rewrite last_of_app in R1, R2. exists t2. cbn [e_next]. rewrite R1, R2. split; [apply tri'|apply tri]; unfold zlen; cbn [length]; lia.
Qed.
Lemma rm_loop_life_spec : forall rm cs fuel t ca n nd, shape t (ca ++ cs) -> (length cs < fuel)%nat ->
  t_elems t = n + zlen (concat cs) ->
  exists t1 nd1, rm_loop_life fuel t (zlen ca) n nd rm = Ok (t1, nd1, flat_map destroy_entry (map snd (filter (drop rm) (concat cs)))) /\
  rm_loop fuel t (zlen ca) n nd rm = Ok (t1, nd1).
Proof.
  intros rm. induction cs as [|l cs IH]; intros fuel t ca n nd Sh L El; (destruct fuel as [|fuel]; [cbn in L; lia|]); cbn [rm_loop rm_loop_life].
  - pose proof (sh_len _ _ _ Sh) as Hl. rewrite app_nil_r in Hl. destruct (Z.leb_spec (t_cap t) (zlen ca)); [|lia].
    exists t, nd. split; auto.
  - pose proof (sh_len _ _ _ Sh) as Hl. unfold zlen in Hl. rewrite app_length in Hl. cbn [length] in Hl.
    destruct (Z.leb_spec (t_cap t) (zlen ca)); [unfold zlen in *; lia|].
    destruct (shape_slot _ _ _ _ _ Sh) as (p & Sp & S). rewrite Sp. cbn [rbind].
    assert (Fu : (length l < fuel_of t)%nat) by (eapply chain_fuel; [exact Sh|]; apply in_or_app; right; left; auto).
    destruct (rm_chain_life_spec rm l (fuel_of t) t ca [] cs p n nd Sh S Fu) as (t1 & Q1 & Q1').
    destruct (rm_chain_spec keq hash lf keq_eq rm l (fuel_of t) t ca [] cs p n nd Sh S Fu) as (t1' & Q1'' & Q2 & Q3 & Q4).
    rewrite Q1' in Q1''. assert (t1' = t1) by congruence. subst t1'.
    cbn [last_of fold_left] in Q1, Q1'. rewrite Q1, Q1'. cbn [rbind]. cbn [concat] in *. unfold zlen in El. rewrite app_length in El.
    cbn [app] in Q2.
    destruct (Z.leb_spec (t_elems t1) (n + zlen l)) as [Hb|Hb].
    + assert (Cn : concat cs = []) by (destruct (concat cs); auto; exfalso; rewrite Q3 in Hb; unfold zlen in *; cbn [length] in *; lia).
      eexists t1, _. rewrite Cn, app_nil_r. split; reflexivity.
    + destruct (IH fuel t1 (ca ++ [filter (keep rm) l]) (n + zlen l) (nd + (zlen l - zlen (filter (keep rm) l)))) as (t2 & nd2 & R1 & R2).
      * rewrite <- app_assoc. auto.
      * cbn in L. lia.
      * rewrite Q3, El. unfold zlen. lia.
      * exists t2, nd2. replace (zlen ca + 1) with (zlen (ca ++ [filter (keep rm) l])) by (unfold zlen; rewrite app_length; cbn; lia).
        rewrite R1, R2. split; auto. cbn [rbind]. rewrite filter_app, map_app, flat_map_app. auto.
Qed.
Lemma filter_split : forall {A} (f : A -> bool) l, Permutation l (filter (fun x => negb (f x)) l ++ filter f l).
Proof.
  induction l as [|x l IH]; cbn [filter]; auto. destruct (f x); cbn [negb app].
  - rewrite IH at 1. apply Permutation_middle.
  - apply perm_skip. auto.
Qed.
Lemma filter_map : forall rm (l : list cell), map snd (filter (drop rm) l) = filter (fun x => rm (fst x) (snd x)) (map snd l).
Proof.
  intro rm. induction l as [|[a [k v]] l IH]; cbn [map filter snd fst]; auto. unfold drop at 1, keep at 1. cbn [fst snd].
  rewrite negb_involutive. destruct (rm k v); cbn [map snd]; rewrite IH; auto.
Qed.
Lemma objects_app : forall a b : list (K * V), objects (a ++ b) = objects a ++ objects b.
Proof. intros. unfold objects. apply flat_map_app. Qed.
Lemma remove_if_life_spec : forall t m rm, inv t m ->
  exists t' h, remove_if_life t rm = Ok (t', h) /\ ht_remove_if t rm = Ok t' /\
  history (objects m) h (objects (filter (fun x => negb (rm (fst x) (snd x))) m)) /\ constructed h = [].
Proof.
  intros t m rm I. unfold remove_if_life, ht_remove_if. destruct (Z.ltb_spec (t_elems t) 1) as [E|E].
  - exists t, []. rewrite (inv_empty _ _ _ I E). repeat split; auto. constructor. reflexivity.
  - destruct (inv_live _ _ _ I E) as (ch & L & P). apply live_shape in L as [Sh El].
    destruct (rm_loop_life_spec rm ch (S (Z.to_nat (t_cap t))) t [] 0 0 Sh) as (t1 & nd & Q1 & Q2).
    + pose proof (sh_len _ _ _ Sh). unfold zlen in *. lia.
    + rewrite El. auto.
    + change (zlen []) with 0 in Q1, Q2. rewrite Q1, Q2. cbn [rbind]. eexists _, _. split; [reflexivity|]. split; [reflexivity|].
      split; [|apply constructed_destroy]. rewrite filter_map.
      eapply history_perm.
      * apply history_frame with (R := objects (filter (fun x => negb (rm (fst x) (snd x))) (map snd (concat ch)))).
        apply history_destroy.
      * rewrite Permutation_app_comm. rewrite <- objects_app. apply objects_perm. rewrite <- (filter_split (fun x => rm (fst x) (snd x))). apply Permutation_sym. auto.
      * cbn [app]. apply objects_perm. apply filter_perm, Permutation_sym. auto.
Qed.

(** ** destroying *)
Lemma destroy_all_spec : forall t m, inv t m -> exists h, destroy_all t = Ok h /\ history (objects m) h [] /\ constructed h = [].
Proof.
  intros t m I. unfold destroy_all. destruct (ht_foreach_break_spec keq hash lf keq_eq t m (fun _ _ => false) I) as (l & P & _ & ->). cbn [rbind].
  eexists. split; [reflexivity|]. split; [|apply constructed_destroy].
  eapply history_perm; [apply history_destroy|apply objects_perm, Permutation_sym; exact P|reflexivity].
Qed.

(** ** all operations *)
Lemma life_step_spec : forall t m op, inv t m -> exists t' o h,
  life_step keq hash lf t op = Ok (t', h) /\ table_step keq hash lf t op = Ok (t', o) /\
  inv t' (fst (spec_step keq m op)) /\
  history (objects m) h (objects (fst (spec_step keq m op))) /\ constructed h = expected keq m op.
Proof.
  intros t m op I. destruct (table_step_spec keq hash lf keq_eq t m op I) as (t' & o & E & H).
  exists t', o. assert (I' : inv t' (fst (spec_step keq m op))) by (destruct (spec_step keq m op); apply H). clear H.
  assert (Nil : history (objects m) [] (objects m)) by (constructor; reflexivity).
  destruct op as [k|k v|k v|k|k|p| |]; cbn [life_step table_step] in *.
  - exists []. destruct (ht_get keq hash t k); cbn [rbind] in *; try discriminate E.
    assert (t' = t) by congruence. subst. cbn [spec_step fst expected constructed] in *. auto.
  - destruct (insert_life_spec t m k v false I) as (h & E1 & H1 & H2). exists h. rewrite E1. cbn [rbind].
    destruct (ht_insert keq hash lf t k v) as [[r1 r2]| | |]; cbn [rbind] in *; try discriminate E.
    assert (t' = r2) by congruence. subst. auto.
  - destruct (insert_life_spec t m k v true I) as (h & E1 & H1 & H2). exists h. rewrite E1. cbn [rbind].
    destruct (ht_upsert keq hash lf t k v) as [[r1 r2]| | |]; cbn [rbind] in *; try discriminate E.
    assert (t' = r2) by congruence. subst. auto.
  - destruct (remove_life_spec t m k I) as (h & E1 & H1 & H2). exists h. rewrite E1. cbn [rbind].
    destruct (ht_remove keq hash t k) as [r1| | |]; cbn [rbind] in *; try discriminate E.
    assert (t' = r1) by congruence. subst. auto.
  - destruct (remove_life_spec t m k I) as (h & E1 & H1 & H2). exists h. rewrite E1. cbn [rbind].
    destruct (ht_extract keq hash t k) as [[r1 r2]| | |]; cbn [rbind] in *; try discriminate E.
    assert (t' = r2) by congruence. subst. auto.
  - destruct (remove_if_life_spec t m p I) as (t1 & h & E1 & E2 & H1 & H2). exists h. rewrite E1.
    rewrite E2 in E. cbn [rbind] in E. assert (t' = t1) by congruence. subst. rewrite E2. auto.
  - unfold clear_life. destruct (t_elems t <? 1) eqn:Z.
    + exists []. cbn [rbind]. assert (t' = ht_clear t) by congruence. subst. split; auto. split; auto. split; auto. split; auto.
      apply Z.ltb_lt in Z. rewrite (inv_empty _ _ _ I Z). constructor. reflexivity.
    + destruct (destroy_all_spec t m I) as (h & E1 & H1 & H2). exists h. rewrite E1. cbn [rbind]. assert (t' = ht_clear t) by congruence. subst. auto.
  - exists []. assert (t' = t) by congruence. subst. cbn [spec_step fst expected constructed] in *. auto.
Qed.
Lemma life_run_spec : forall ops t m, inv t m -> exists t' os h,
  life_run keq hash lf t ops = Ok (t', h) /\ table_run keq hash lf t ops = Ok (t', os) /\ inv t' (fst (spec_map keq m ops)) /\
  history (objects m) h (objects (fst (spec_map keq m ops))) /\ constructed h = expected_run keq m ops.
Proof.
  induction ops as [|op ops IH]; intros t m I; cbn [life_run table_run spec_map expected_run].
  - exists t, [], []. repeat split; auto. constructor. reflexivity.
  - destruct (life_step_spec t m op I) as (t1 & o & h1 & E1 & E2 & I1 & H1 & C1). rewrite E1, E2. cbn [rbind].
    destruct (spec_step keq m op) as [m1 o1]. cbn [fst] in *.
    destruct (IH t1 m1 I1) as (t2 & os & h2 & E3 & E4 & I2 & H2 & C2). rewrite E3, E4. cbn [rbind]. destruct (spec_map keq m1 ops) as [m2 os2].
    cbn [fst] in *. eexists _, _, _. split; [reflexivity|]. split; [reflexivity|]. split; auto.
    split; [eapply history_app; eauto|]. rewrite constructed_app. congruence.
Qed.

Theorem destroyed_once : forall (buckets : Z) (ops : list (mop K V)),
  exists t outs h hd,
  life_run keq hash lf (ht_new buckets) ops = Ok (t, h) /\ table_run keq hash lf (ht_new buckets) ops = Ok (t, outs) /\
  destroy_all t = Ok hd /\
  history [] h (objects (fst (spec_map keq [] ops))) /\ history [] (h ++ hd) [] /\
  constructed (h ++ hd) = expected_run keq [] ops.
Proof.
  intros buckets ops. destruct (life_run_spec ops _ _ (inv_new hash buckets)) as (t & os & h & E1 & E2 & I & H & C).
  destruct (destroy_all_spec t _ I) as (hd & E3 & H3 & C3). exists t, os, h, hd.
  do 4 (split; auto). split; [eapply history_app; eauto|]. rewrite constructed_app, C, C3, app_nil_r. auto.
Qed.

Theorem assigned_once : forall (b1 b2 : Z) (ops1 ops2 ops3 ops4 : list (mop K V)) dst src h1 h2,
  life_run keq hash lf (ht_new b1) ops1 = Ok (dst, h1) -> life_run keq hash lf (ht_new b2) ops2 = Ok (src, h2) ->
  exists d s ha d2 s2 h3 h4 hd hs,
  assign_life dst src = Ok (d, s, ha) /\
  life_run keq hash lf d ops3 = Ok (d2, h3) /\ life_run keq hash lf s ops4 = Ok (s2, h4) /\
  destroy_all d2 = Ok hd /\ destroy_all s2 = Ok hs /\
  history (objects (fst (spec_map keq [] ops1))) ha [] /\
  history (objects (fst (spec_map keq [] ops2))) (h3 ++ hd) [] /\
  history [] (h4 ++ hs) [].
Proof.
  intros b1 b2 ops1 ops2 ops3 ops4 dst src h1 h2 E1 E2.
  destruct (life_run_spec ops1 _ _ (inv_new hash b1)) as (t1 & os1 & h1' & F1 & _ & I1 & H1 & _). rewrite E1 in F1. assert (t1 = dst) by congruence. subst t1.
  destruct (life_run_spec ops2 _ _ (inv_new hash b2)) as (t2 & os2 & h2' & F2 & _ & I2 & H2 & _). rewrite E2 in F2. assert (t2 = src) by congruence. subst t2.
  destruct (destroy_all_spec _ _ I1) as (ha & G1 & G2 & _).
  destruct (life_run_spec ops3 (fst (ht_move src)) _ ltac:(destruct src; exact I2)) as (d2 & os3 & h3 & F3 & _ & I3 & H3 & _).
  destruct (life_run_spec ops4 (snd (ht_move src)) [] ltac:(left; auto)) as (s2 & os4 & h4 & F4 & _ & I4 & H4 & _).
  destruct (destroy_all_spec _ _ I3) as (hd & G3 & G4 & _). destruct (destroy_all_spec _ _ I4) as (hs & G5 & G6 & _).
  exists (fst (ht_move src)), (snd (ht_move src)), ha, d2, s2, h3, h4, hd, hs.
  unfold assign_life. rewrite G1. cbn [rbind]. do 6 (split; auto). split; eapply history_app; eauto.
Qed.
End Proof.
