(** VecWrap objects that are kept, used several times and copied. *)
From Coq Require Import ZArith List Bool Lia ZifyBool ZifyNat.
From Verif Require Import Base Lemmas M_Types M_Conv S_Conv M_Bits S_Bits P_Bits M_Wraps S_Wraps.
Import ListNotations.
Open Scope Z_scope.

Lemma put_len i k l : (i < length l)%nat -> length (put_wrap i k l) = length l.
Proof. intros H. unfold put_wrap. rewrite app_length. cbn [length]. rewrite firstn_length, skipn_length. lia. Qed.
Lemma put_nth i k l j : (i < length l)%nat -> nth_error (put_wrap i k l) j = if Nat.eqb i j then Some k else nth_error l j.
Proof.
  unfold put_wrap. revert i j. induction l as [|a l IH]; intros i j H; cbn [length] in H; [lia|]. destruct i as [|i], j as [|j]; cbn [firstn skipn app nth_error Nat.eqb]; auto. apply IH. lia.
Qed.
(** the wraps of the model and those of the view *)
Record agree (s : wstate) (V : view) : Prop := mkAgree {
  ag_held : x_data (g_vec s) = held V;
  ag_mem : vec_ok (g_vec s);
  ag_made : map k_this (g_wraps s) = made V;
  ag_live : forall i k, nth_error (g_wraps s) i = Some k -> (k_live k = true <-> ~ In i (gone V));
  ag_own : forall i o, nth_error (made V) i = Some o -> nth_error (made V) o = Some o;
  ag_fresh : forall i k, In i (fresh V) -> nth_error (g_wraps s) i = Some k -> k_gen k = g_gen s /\ k_null k = (x_mem (g_vec s) =? 0) /\ k_size k = zlen (held V);
  ag_old : forall i, In i (fresh V) \/ In i (gone V) -> (i < length (made V))%nat }.
Lemma made_len s V : agree s V -> length (g_wraps s) = length (made V).
Proof. intros A. rewrite <- (ag_made s V A), map_length. reflexivity. Qed.
Lemma live_here s V i : agree s V -> exists_ V i -> exists k, nth_error (g_wraps s) i = Some k /\ k_live k = true /\ live_wrap s i = Some k.
Proof.
  intros A [H N]. destruct (nth_error (g_wraps s) i) as [k|] eqn:E.
  - exists k. pose proof (proj2 (ag_live s V A i k E) N) as L. split; [reflexivity|]. split; [exact L|]. unfold live_wrap. now rewrite E, L.
  - apply nth_error_None in E. rewrite (made_len s V A) in E. lia.
Qed.
Lemma this_of s V i k : agree s V -> nth_error (g_wraps s) i = Some k -> nth_error (made V) i = Some (k_this k).
Proof. intros A H. rewrite <- (ag_made s V A). now apply map_nth_error. Qed.
Lemma nth_snoc {A} (l : list A) a i b : nth_error (l ++ [a]) i = Some b -> nth_error l i = Some b \/ i = length l /\ b = a.
Proof.
  intros H. destruct (Nat.lt_ge_cases i (length l)) as [L|L]; [left; now rewrite nth_error_app1 in H|]. right. rewrite nth_error_app2 in H by lia.
  destruct (i - length l)%nat as [|m] eqn:E; [|destruct m; discriminate]. injection H as <-. split; [lia|reflexivity].
Qed.
Lemma nth_lt {A} (l : list A) i a : nth_error l i = Some a -> (i < length l)%nat.
Proof. intros H. apply nth_error_Some. congruence. Qed.
Lemma map_put f k : forall i (l : list wrap) b, nth_error l i = Some b -> f k = f b -> map f (put_wrap i k l) = map f l :> list nat.
Proof.
  unfold put_wrap. induction i as [|i IH]; intros [|a l] b H E; try discriminate; cbn [nth_error] in H; cbn [firstn skipn app map].
  - injection H as <-. now rewrite E.
  - f_equal. now apply (IH l b).
Qed.
Lemma bits_refuse v : v_type v <> TString -> v_type v <> TBinary -> bits_type v = false.
Proof. unfold bits_type. destruct (v_type v); try reflexivity; intros A B; congruence. Qed.

Theorem step_does grow u s V o V' r : grows grow -> 1 <= u -> agree s V -> does u V o V' r -> exists s', wstep grow u s o = (s', r) /\ agree s' V'.
Proof.
  intros G U A D. pose proof (made_len s V A) as ML. inversion D; subst; clear D; cbn [wstep].
  - eexists. split; [reflexivity|]. split; cbn [g_vec g_gen g_wraps made gone fresh held].
    + apply A.
    + apply A.
    + rewrite map_app, (ag_made s V A). cbn [map points k_this]. now rewrite ML.
    + intros i k H. apply nth_snoc in H. destruct H as [H|[-> ->]]; [now apply (ag_live s V A)|]. split; [intros _ I|reflexivity]. assert (L := ag_old s V A _ (or_intror I)). lia.
    + intros i o H. apply nth_snoc in H. destruct H as [H|[-> ->]].
      * pose proof (ag_own s V A i o H) as H2. rewrite nth_error_app1; [exact H2|]. now apply nth_lt in H2.
      * now rewrite nth_error_app2, Nat.sub_diag by lia.
    + intros i k I H. apply nth_snoc in H. destruct H as [H|[-> ->]].
      * destruct I as [<-|I]; [apply nth_lt in H; lia|]. now apply (ag_fresh s V A i k I).
      * cbn [points k_gen k_null k_size]. now rewrite (ag_held s V A).
    + intros i [[<-|I]|I]; rewrite app_length; cbn [length]; [lia| |]; assert (L := ag_old s V A i ltac:(auto)); lia.
  - destruct (live_here s V i A H) as (k & N & L & ->). rewrite (this_of s V i k A N) in H0. injection H0 as <-. eexists. split; [reflexivity|]. split; cbn [g_vec g_gen g_wraps made gone fresh held].
    + apply A.
    + apply A.
    + rewrite map_app, (ag_made s V A). reflexivity.
    + intros j k' H1. apply nth_snoc in H1. destruct H1 as [H1|[-> ->]]; [now apply (ag_live s V A)|]. split; [intros _ I|intros _; exact L]. assert (L2 := ag_old s V A _ (or_intror I)). lia.
    + intros j o H1. apply nth_snoc in H1. destruct H1 as [H1|[-> ->]].
      * pose proof (ag_own s V A j o H1) as H2. rewrite nth_error_app1; [exact H2|]. now apply nth_lt in H2.
      * pose proof (ag_own s V A i _ (this_of s V i k A N)) as H2. rewrite nth_error_app1; [exact H2|]. now apply nth_lt in H2.
    + intros j k' I H1. apply nth_snoc in H1. destruct H1 as [H1|[-> ->]].
      * apply in_app_or in I. destruct I as [I|I]; [|now apply (ag_fresh s V A j k' I)]. exfalso. destruct (existsb _ _); [|destruct I]. destruct I as [<-|[]]. apply nth_lt in H1. lia.
      * apply in_app_or in I. destruct I as [I|I]; [|assert (L2 := ag_old s V A _ (or_introl I)); lia]. destruct (existsb (Nat.eqb i) (fresh V)) eqn:E; [|destruct I].
        apply existsb_exists in E. destruct E as (z & Iz & E). apply Nat.eqb_eq in E. subst z. now apply (ag_fresh s V A i k Iz).
    + intros j I. rewrite app_length. cbn [length]. destruct I as [I|I]; [|assert (L2 := ag_old s V A j ltac:(auto)); lia]. apply in_app_or in I. destruct I as [I|I]; [|assert (L2 := ag_old s V A j ltac:(auto)); lia].
      destruct (existsb _ _); [|destruct I]. destruct I as [<-|[]]. lia.
  - destruct (live_here s V i A H) as (k & N & L & ->). assert (Li := nth_lt _ _ _ N). eexists. split; [reflexivity|]. split; cbn [g_vec g_gen g_wraps made gone fresh held].
    + apply A.
    + apply A.
    + erewrite map_put; [apply A|exact N|reflexivity].
    + intros j k' H1. rewrite put_nth in H1 by exact Li. destruct (Nat.eqb_spec i j) as [<-|E].
      * injection H1 as <-. cbn [k_live]. split; [discriminate|]. intros B. exfalso. apply B. now left.
      * rewrite (ag_live s V A j k' H1). cbn [In]. tauto.
    + apply A.
    + intros j k' I H1. rewrite put_nth in H1 by exact Li. destruct (Nat.eqb_spec i j) as [<-|E].
      * injection H1 as <-. cbn [k_gen k_null k_size]. now apply (ag_fresh s V A i k I).
      * now apply (ag_fresh s V A j k' I).
    + intros j [I|[<-|I]]; [apply (ag_old s V A j); auto|lia|apply (ag_old s V A j); auto].
  - eexists. split; [reflexivity|]. split; cbn [g_vec g_gen g_wraps made gone fresh held x_data].
    + reflexivity.
    + unfold vec_ok. cbn [x_data x_mem]. destruct (Z.ltb_spec (x_mem (g_vec s)) (zlen bs)) as [L|L]; [now apply G|lia].
    + apply A.
    + apply A.
    + apply A.
    + intros i k [].
    + intros i [[]|I]. apply (ag_old s V A i). auto.
  - destruct (live_here s V i A H) as (k & N & L & ->). rewrite (this_of s V i k A N) in H0. injection H0 as <-. destruct (live_here s V _ A H1) as (j & Nj & Lj & LJ). unfold wrap_paste.
    destruct (brings_plain bs v H2) as (B1 & B2 & B3). rewrite B1, LJ. cbn [negb]. rewrite B3.
    destruct (vec_back grow u (g_vec s) bs v G U H3 H2) as (m & VP & M). rewrite VP. cbn [rbind]. eexists. split; [reflexivity|].
    assert (Lj' := nth_lt _ _ _ Nj).
    assert (Own : k_this j = k_this k). { pose proof (this_of s V _ j A Nj) as E. rewrite (ag_own s V A _ _ (this_of s V i k A N)) in E. now injection E as ->. }
    assert (ZL : Z.of_nat (length bs) / u * u = zlen bs). { unfold zlen in *. pose proof (Z.div_mod (Z.of_nat (length bs)) u ltac:(lia)). lia. }
    assert (MM : m = x_mem (vec_resize grow u (Z.of_nat (length bs) / u) (g_vec s))).
    { unfold vecwrap_paste in VP. rewrite B1, B3 in VP. cbn [negb] in VP. destruct (bitwrap_paste _ v) in VP. apply (f_equal (fun z => x_mem (fst z))) in VP. cbn [fst vec_write x_mem] in VP. now symmetry. }
    split; cbn [g_vec g_gen g_wraps made gone fresh held x_data].
    + reflexivity.
    + exact M.
    + erewrite map_put; [apply A|exact Nj|reflexivity].
    + intros a k' E. rewrite put_nth in E by exact Lj'. destruct (Nat.eqb_spec (k_this k) a) as [<-|E2].
      * injection E as <-. cbn [points k_live]. split; [intros _; apply H1|reflexivity].
      * now apply (ag_live s V A).
    + apply A.
    + intros a k' [<-|[]] E. rewrite put_nth, Nat.eqb_refl in E by exact Lj'. injection E as <-. cbn [points k_gen k_null k_size g_gen g_vec x_mem]. rewrite <- MM. auto.
    + intros a [[<-|[]]|I]; [rewrite <- ML; exact Lj'|]. apply (ag_old s V A a). auto.
  - destruct (live_here s V' i A H) as (k & N & L & ->). unfold wrap_paste. rewrite (bits_refuse v H0 H1). cbn [negb rbind]. eauto.
  - destruct (live_here s V' i A H) as (k & N & L & ->). destruct (ag_fresh s V' A i k H0 N) as (F1 & F2 & F3). exists s. split; [|exact A]. f_equal. unfold wrap_insert. rewrite F1, F2, F3, Nat.eqb_refl. cbn [negb].
    rewrite (ag_held s V' A). destruct (Z.eqb_spec (zlen (held V')) 0) as [E|E].
    + unfold zlen in E. destruct (held V'); [reflexivity|cbn [length] in E; lia].
    + pose proof (ag_mem s V' A) as M. unfold vec_ok in M. rewrite (ag_held s V' A) in M. replace (x_mem (g_vec s) =? 0) with false by (unfold zlen in *; lia). replace (zlen (held V') <? zlen (held V')) with false by lia.
      cbn [rbind]. unfold zlen. rewrite Nat2Z.id, firstn_all. reflexivity.
Qed.
Theorem run_does grow u : grows grow -> 1 <= u -> forall os s V V' rs, agree s V -> do_all u V os V' rs -> exists s', wrun grow u s os = (s', rs) /\ agree s' V'.
Proof.
  intros G U os. induction os as [|o os IH]; intros s V V' rs A D; inversion D; subst; cbn [wrun]; [eauto|]. destruct (step_does grow u s V o V1 r G U A) as (s1 & E & A1); [assumption|]. rewrite E.
  destruct (IH s1 V1 V' rs0 A1) as (s2 & E2 & A2); [assumption|]. rewrite E2. eauto.
Qed.
Lemma start_agree x : vec_ok x -> agree (mkWs x 0 []) (mkView [] [] [] (x_data x)).
Proof. intros H. split; cbn [g_vec g_gen g_wraps made gone fresh held]; auto; try (intros [|i]; discriminate); try (intros i k []). intros i [[]|[]]. Qed.
