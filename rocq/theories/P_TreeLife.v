(** Proofs about trees as objects. *)
From Coq Require Import ZArith List Bool Arith Lia.
From Verif Require Import Base M_Types M_Tree M_TreeLife S_TreeLife.
Import ListNotations.
Open Scope nat_scope.

(** every tree has the environment that points back to it, and its root is there *)
Definition holds (st : tstate) (v : vars) (a : nat) : Prop :=
  match s_trees st a with
  | None => v a = None
  | Some t =>
      match o_env t with
      | None => v a = Some None
      | Some e => o_root t = Some e /\ e < s_next st /\ exists n, s_envs st e = Some (mkEnvo a n) /\ v a = Some (Some n)
      end
  end.
Definition sound (st : tstate) (v : vars) : Prop := forall a, holds st v a.
Lemma eqb_no i j : i <> j -> (i =? j) = false.
Proof. apply Nat.eqb_neq. Qed.
Ltac pick := repeat match goal with
  | |- context [?i =? ?j] => destruct (Nat.eqb_spec i j); subst
  | H : context [?i =? ?j] |- _ => destruct (Nat.eqb_spec i j); subst
  end.
Lemma sound_shows st v a : sound st v -> shows st a = v a.
Proof.
  intros H. specialize (H a). unfold holds, shows in *. destruct (s_trees st a) as [[[e|] r]|]; cbn [o_env o_root] in *; [|now rewrite H..]. destruct H as (_ & _ & n & -> & ->). reflexivity.
Qed.
(** two trees do not share an environment *)
Lemma apart st v a b e r r' : sound st v -> s_trees st a = Some (mkTobj (Some e) r) -> s_trees st b = Some (mkTobj (Some e) r') -> a = b.
Proof.
  intros H A B. pose proof (H a) as HA. pose proof (H b) as HB. unfold holds in *. rewrite A in HA. rewrite B in HB. cbn [o_env o_root] in *. destruct HA as (_ & _ & n & E1 & _), HB as (_ & _ & n' & E2 & _). congruence.
Qed.
Lemma sound_create st v a tp : sound st v -> (s_trees st a = None \/ exists r, s_trees st a = Some (mkTobj None r)) -> sound (create_env st a tp) (assign v a (Some (Some (empty_node (if ty_eqb tp TArray then TArray else TObject))))).
Proof.
  intros H F b. pose proof (H b) as HB. unfold holds, create_env, assign, put in *. cbn [s_trees s_envs s_next]. destruct (Nat.eqb_spec b a); subst.
  - cbn [o_env o_root]. split; [reflexivity|]. split; [lia|]. rewrite Nat.eqb_refl. eauto.
  - destruct (s_trees st b) as [[[e|] r]|]; cbn [o_env o_root] in *; try exact HB. destruct HB as (R & L & n' & E & V). split; [exact R|]. split; [lia|]. rewrite eqb_no by lia. eauto.
Qed.
Lemma sound_new st v a : sound st v -> v a = None -> sound (set_tree st a (Some (mkTobj None None))) (assign v a (Some None)).
Proof. intros H F b. pose proof (H b) as HB. unfold holds, set_tree, assign, put in *. cbn [s_trees s_envs s_next]. destruct (Nat.eqb_spec b a); subst; [reflexivity|exact HB]. Qed.
Lemma sound_end st v a : sound st v -> v a <> None -> exists t, s_trees st a = Some t /\ sound (set_tree (drop_env st (o_env t)) a None) (assign v a None).
Proof.
  intros H N. pose proof (H a) as HA. destruct (s_trees st a) as [t|] eqn:T; [|unfold holds in HA; rewrite T in HA; contradiction]. exists t. split; [reflexivity|].
  intros b. pose proof (H b) as HB. unfold holds, set_tree, assign, put in *. cbn [s_trees s_envs s_next]. destruct (Nat.eqb_spec b a) as [->|NB]; [reflexivity|].
  replace (s_trees (drop_env st (o_env t)) b) with (s_trees st b) by (destruct (o_env t); reflexivity). replace (s_next (drop_env st (o_env t))) with (s_next st) by (destruct (o_env t); reflexivity).
  destruct (s_trees st b) as [[[e|] r]|] eqn:TB; cbn [o_env o_root] in *; try exact HB. destruct HB as (R & L & n & E & V). split; [exact R|]. split; [exact L|]. exists n. split; [|exact V].
  destruct t as [[e'|] r']; cbn [o_env drop_env]; [|exact E]. unfold set_env, put. cbn [s_envs]. destruct (Nat.eqb_spec e e') as [->|]; [|exact E]. destruct NB. eapply (apart st v b a); eauto.
Qed.
Lemma live st v a : sound st v -> v a <> None -> exists t, s_trees st a = Some t.
Proof. intros H N. specialize (H a). unfold holds in H. destruct (s_trees st a); [eauto|contradiction]. Qed.
Lemma sound_move st v a b : sound st v -> v a <> None -> v b <> None -> a <> b ->
  exists st' x, v b = Some x /\ move_tree st a b = Ok st' /\ sound st' (assign (assign v a (Some x)) b (Some None)).
Proof.
  intros H NA NB AB. destruct (live _ _ _ H NA) as [ta TA], (live _ _ _ H NB) as [tb TB].
  pose proof (H a) as HA. pose proof (H b) as HB. unfold holds in HA, HB. rewrite TA in HA. rewrite TB in HB.
  assert (BA : (b =? a) = false) by (apply eqb_no; congruence).
  unfold move_tree. rewrite TA, TB, (eqb_no a b AB). destruct ta as [ea ra], tb as [eb rb]. cbn [o_env o_root] in *.
  set (st2 := drop_env _ ea).
  assert (T2 : s_trees st2 = s_trees (set_tree (set_tree (set_tree st a (Some (mkTobj ea rb))) b (Some (mkTobj None rb))) a (Some (mkTobj eb rb)))) by (unfold st2; destruct ea; reflexivity).
  assert (N2 : s_next st2 = s_next st) by (unfold st2; destruct ea; reflexivity).
  assert (E2 : forall e, s_envs st2 e = if match ea with Some e' => e =? e' | None => false end then None else s_envs st e) by (intros e; unfold st2; destruct ea; reflexivity).
  assert (TA2 : s_trees st2 a = Some (mkTobj eb rb)) by (rewrite T2; unfold set_tree, put; cbn [s_trees]; now rewrite Nat.eqb_refl).
  assert (TB2 : s_trees st2 b = Some (mkTobj None rb)) by (rewrite T2; unfold set_tree, put; cbn [s_trees]; now rewrite BA, Nat.eqb_refl).
  assert (TO : forall c, c <> a -> c <> b -> s_trees st2 c = s_trees st c) by (intros c CA CB; rewrite T2; unfold set_tree, put; cbn [s_trees]; now rewrite (eqb_no _ _ CA), (eqb_no _ _ CB)).
  rewrite TA2. clearbody st2.
  (* what the other trees have *)
  assert (OTH : forall c t e, c <> a -> c <> b -> s_trees st c = Some t -> o_env t = Some e -> s_envs st2 e = s_envs st e /\ eb <> Some e).
  { intros c [ec rc] e CA CB TC EC. cbn [o_env] in EC. subst ec. split.
    - rewrite E2. destruct ea as [e'|]; [|reflexivity]. destruct (Nat.eqb_spec e e') as [->|]; [|reflexivity]. destruct CA. eapply (apart st v c a); eauto.
    - intros ->. apply CB. eapply (apart st v c b); eauto. }
  destruct eb as [e|].
  - destruct HB as (RB & LB & n & EB & VB). assert (EE : s_envs st2 e = Some (mkEnvo b n)).
    { rewrite E2. destruct ea as [e'|]; [|exact EB]. destruct (Nat.eqb_spec e e') as [->|]; [|exact EB]. destruct AB. eapply (apart st v a b); eauto. }
    rewrite EE. cbn [rbind set_env s_trees]. rewrite TB2. cbn [o_env en_root]. eexists. exists (Some n). split; [exact VB|]. split; [reflexivity|].
    intros c. unfold holds, set_tree, set_env, assign, put. cbn [s_trees s_envs s_next]. destruct (Nat.eqb_spec c b) as [->|CB]; [reflexivity|].
    destruct (Nat.eqb_spec c a) as [->|CA].
    + rewrite TA2. cbn [o_env o_root]. split; [exact RB|]. split; [lia|]. rewrite Nat.eqb_refl. eauto.
    + rewrite (TO c CA CB). pose proof (H c) as HC. unfold holds in HC. destruct (s_trees st c) as [t|] eqn:TC; [|exact HC]. destruct (o_env t) as [ec|] eqn:EC; [|exact HC].
      destruct HC as (R & L & m & EM & VM). destruct (OTH c t ec CA CB TC EC) as [Q1 Q2]. split; [exact R|]. split; [lia|]. rewrite (eqb_no ec e) by congruence. rewrite Q1. eauto.
  - cbn [rbind]. rewrite TB2. cbn [o_env]. eexists. exists None. split; [exact HB|]. split; [reflexivity|].
    intros c. unfold holds, set_tree, assign, put. cbn [s_trees s_envs s_next]. destruct (Nat.eqb_spec c b) as [->|CB]; [reflexivity|].
    destruct (Nat.eqb_spec c a) as [->|CA].
    + rewrite TA2. reflexivity.
    + rewrite (TO c CA CB). pose proof (H c) as HC. unfold holds in HC. destruct (s_trees st c) as [t|] eqn:TC; [|exact HC]. destruct (o_env t) as [ec|] eqn:EC; [|exact HC].
      destruct HC as (R & L & m & EM & VM). destruct (OTH c t ec CA CB TC EC) as [Q1 Q2]. split; [exact R|]. split; [lia|]. rewrite Q1. eauto.
Qed.
Lemma sound_use st v a f : sound st v -> v a <> None -> exists x, v a = Some x /\
  match f (the_root x) with
  | Ok n => exists st', use_root st a f = Ok st' /\ sound st' (assign v a (Some (Some n)))
  | Err => use_root st a f = Err | UB u => use_root st a f = UB u | Fuel => use_root st a f = Fuel
  end.
Proof.
  intros H N. destruct (live _ _ _ H N) as [t T]. pose proof (H a) as HA. unfold holds in HA. rewrite T in HA.
  assert (G : forall st1 v1 e n, sound st1 v1 -> s_trees st1 a = Some (mkTobj (Some e) (Some e)) -> s_envs st1 e = Some (mkEnvo a n) -> tree_root st a = Ok (e, st1) -> (forall b, b <> a -> v1 b = v b) ->
    match f n with
    | Ok n' => exists st', use_root st a f = Ok st' /\ sound st' (assign v a (Some (Some n')))
    | Err => use_root st a f = Err | UB u => use_root st a f = UB u | Fuel => use_root st a f = Fuel
    end).
  { intros st1 v1 e n H1 T1 E1 R1 V1. unfold use_root. rewrite R1. cbn [rbind]. rewrite E1. cbn [en_tree en_root]. rewrite T1. cbn [o_env]. rewrite Nat.eqb_refl.
    destruct (f n) as [n'| |u|]; cbn [rbind]; try reflexivity. eexists. split; [reflexivity|]. intros b. pose proof (H1 b) as HB. unfold holds, set_env, assign, put in *. cbn [s_trees s_envs s_next].
    destruct (Nat.eqb_spec b a) as [->|BA].
    - rewrite T1 in *. cbn [o_env o_root] in *. destruct HB as (_ & L & _). split; [reflexivity|]. split; [exact L|]. rewrite Nat.eqb_refl. eauto.
    - rewrite <- (V1 b BA). destruct (s_trees st1 b) as [[[eb|] rb]|] eqn:TB; cbn [o_env o_root] in *; try exact HB. destruct HB as (R & L & m & EM & VM). split; [exact R|]. split; [exact L|].
      rewrite eqb_no; [eauto|]. intros ->. apply BA. eapply (apart st1 v1 b a); eauto. }
  destruct t as [[e|] r]; cbn [o_env o_root] in HA.
  - destruct HA as (-> & L & n & E & V). exists (Some n). split; [exact V|]. apply (G st v e n); auto. unfold tree_root. rewrite T. cbn [o_env]. now rewrite T.
  - exists None. split; [exact HA|]. cbn [the_root]. refine (G (create_env st a TObject) _ (s_next st) no_content (sound_create st v a TObject H _) _ _ _ _).
    + right. eauto.
    + unfold create_env, put. cbn [s_trees]. now rewrite Nat.eqb_refl.
    + unfold create_env, put. cbn [s_envs]. now rewrite Nat.eqb_refl.
    + unfold tree_root. rewrite T. cbn [o_env]. unfold create_env at 1, put. cbn [s_trees]. now rewrite Nat.eqb_refl.
    + intros b BA. unfold assign. now rewrite (eqb_no _ _ BA).
Qed.
Lemma sound_ext st v v' : sound st v -> (forall a, v a = v' a) -> sound st v'.
Proof. intros H E a. specialize (H a). unfold holds in *. now rewrite <- E. Qed.

Definition agree (r : res tstate) (r' : res vars) : Prop :=
  match r' with Ok v => exists st, r = Ok st /\ sound st v | Err => r = Err | UB u => r = UB u | Fuel => r = Fuel end.
Lemma deed_ok st v d : sound st v -> allowed v d -> agree (do_deed st d) (value_deed v d).
Proof.
  intros H A. destruct d as [a|a tp|a b|a b|a b c|a|a f|a|a f]; cbn [do_deed value_deed allowed agree] in *.
  - eexists. split; [reflexivity|]. now apply sound_new.
  - eexists. split; [reflexivity|]. apply sound_create; [exact H|]. left. specialize (H a). unfold holds in H. destruct (s_trees st a) as [t|]; [|reflexivity]. destruct (o_env t) as [e9|]; [destruct H as (_ & _ & n & _ & V)|]; congruence.
  - destruct A as [A B]. assert (AB : a <> b) by congruence. pose proof (sound_new st v a H A) as H1.
    destruct (sound_move _ _ a b H1) as (st' & x & V & M & S'); [| |exact AB|].
    { unfold assign. rewrite Nat.eqb_refl. discriminate. } { unfold assign. rewrite (eqb_no b a) by congruence. exact B. }
    unfold assign in V. rewrite (eqb_no b a) in V by congruence. rewrite V. cbn [agree]. exists st'. split; [exact M|]. refine (sound_ext _ _ _ S' _). intros c. unfold assign. pick; congruence.
  - destruct A as (A & B & AB). destruct (sound_move st v a b H A B AB) as (st' & x & V & M & S'). rewrite V. exists st'. auto.
  - destruct A as (A & B & AB & C). assert (CA : c <> a) by congruence. assert (CB : c <> b) by congruence. pose proof (sound_new st v c H C) as H1.
    destruct (sound_move _ _ c a H1) as (st1 & x & V1 & M1 & S1); [| |exact CA|].
    { unfold assign. rewrite Nat.eqb_refl. discriminate. } { unfold assign. rewrite (eqb_no a c) by congruence. exact A. }
    unfold assign in V1. rewrite (eqb_no a c) in V1 by congruence.
    destruct (sound_move _ _ a b S1) as (st2 & y & V2 & M2 & S2); [| |exact AB|].
    { unfold assign. rewrite Nat.eqb_refl. discriminate. } { unfold assign. rewrite (eqb_no b a), (eqb_no b c) by congruence. exact B. }
    unfold assign in V2. rewrite (eqb_no b a), (eqb_no b c) in V2 by congruence.
    destruct (sound_move _ _ b c S2) as (st3 & z & V3 & M3 & S3); [| |congruence|].
    { unfold assign. rewrite Nat.eqb_refl. discriminate. } { unfold assign. rewrite (eqb_no c b), (eqb_no c a), Nat.eqb_refl by congruence. discriminate. }
    unfold assign in V3. rewrite (eqb_no c b), (eqb_no c a), Nat.eqb_refl in V3 by congruence. injection V3 as <-.
    destruct (sound_end _ _ c S3) as (t & T & S4). { unfold assign. rewrite Nat.eqb_refl. discriminate. }
    rewrite V1, V2, M1. cbn [rbind]. rewrite M2. cbn [rbind]. rewrite M3. cbn [rbind]. rewrite T. cbn [agree]. eexists. split; [reflexivity|]. refine (sound_ext _ _ _ S4 _). intros q. unfold assign. pick; congruence.
  - destruct (sound_end st v a H A) as (t & -> & S'). eauto.
  - destruct (sound_use st v a f H A) as (x & -> & U). destruct (f (the_root x)); cbn [rbind agree]; exact U.
  - destruct (live _ _ _ H A) as [t T]. rewrite T. pose proof (H a) as HA. unfold holds in HA. rewrite T in HA. destruct t as [[e|] r]; cbn [o_env o_root] in HA.
    + destruct (sound_use st v a (fun n => Ok (empty_node (n_type n))) H A) as (x & V & U). destruct HA as (_ & _ & n & _ & V'). rewrite V' in *. injection V as <-. exact U.
    + rewrite HA. cbn [agree]. eauto.
  - destruct (sound_use st v a (fun n => Ok (f (n_type n))) H A) as (x & -> & U). exact U.
Qed.
Theorem deeds_ok : forall ds st v, sound st v -> proper v ds -> agree (do_deeds st ds) (value_deeds v ds).
Proof.
  induction ds as [|d ds IH]; intros st v H P; cbn [do_deeds value_deeds proper] in *. { exists st. auto. }
  destruct P as [A P]. pose proof (deed_ok st v d H A) as D. destruct (value_deed v d) as [v'| |u|]; cbn [agree rbind] in *; [|rewrite D; reflexivity..].
  destruct D as (st' & -> & S'). cbn [rbind]. now apply IH.
Qed.
Lemma sound0 : sound tstate0 (fun _ => None).
Proof. intros a. reflexivity. Qed.
