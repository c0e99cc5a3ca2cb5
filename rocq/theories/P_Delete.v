(** Proofs for property C95. *)
From Coq Require Import ZArith List Bool Arith Lia ZifyBool ZifyNat.
From Verif Require Import Base Lemmas M_Types M_Conv M_TpTools M_Charset M_In S_Doc M_Env M_Event M_PSrl M_MsgPack M_Json M_Tree M_TreeIO M_Object M_ObjIO M_Bits M_Fail S_Fail P_Fail P_ObjStore M_Delete S_Delete.
Import ListNotations.
Open Scope Z_scope.

(** what a program deletes, whatever it reads: [ok]: result and deletions if it returns, [bad]: deletions if it does not *)
Fixpoint del {R} (p : oprog R) (ok : R -> list path -> Prop) (bad : list path -> Prop) : Prop :=
  match p with
  | ORet r => ok r []
  | OThrow | OUndef _ | OFuel => bad []
  | ORead k => bad [] /\ forall e, del (k e) ok bad
  | OSet _ _ q => del q ok bad
  | ODel x q => del q (fun r d => ok r (x :: d)) (fun d => bad (x :: d))
  end.
Lemma del_weaken {R} (p : oprog R) : forall (ok ok' : R -> list path -> Prop) (bad bad' : list path -> Prop), del p ok bad -> (forall r d, ok r d -> ok' r d) -> (forall d, bad d -> bad' d) -> del p ok' bad'.
Proof.
  induction p as [r| | | |k IH|x v q IH|x q IH]; intros ok ok' bad bad' D O B; cbn [del] in *; auto.
  - destruct D as [D1 D2]. split; [auto|]. intros e. eapply IH; eauto.
  - eapply IH; eauto.
  - eapply IH; [exact D| |]; cbn beta; auto.
Qed.
Lemma del_bind {A B} (p : oprog A) (f : A -> oprog B) : forall ok bad, del p (fun r d => del (f r) (fun r' d' => ok r' (d ++ d')) (fun d' => bad (d ++ d'))) bad -> del (obind p f) ok bad.
Proof.
  induction p as [r| | | |k IH|x v q IH|x q IH]; intros ok bad D; cbn [del obind] in *; auto.
  - destruct D as [D1 D2]. auto.
Qed.
Lemma del_at {R} i (p : oprog R) : forall ok bad, del p (fun r d => ok r (map (cons i) d)) (fun d => bad (map (cons i) d)) -> del (oat i p) ok bad.
Proof.
  induction p as [r| | | |k IH|x v q IH|x q IH]; intros ok bad D; cbn [del oat map] in *; auto.
  - destruct D as [D1 D2]. auto.
Qed.
Lemma del_lift {R} (p : eprog R) (ok : R -> list path -> Prop) (bad : list path -> Prop) : (forall r, ok r []) -> bad [] -> del (olift p) ok bad.
Proof. intros O B. induction p; cbn [olift del]; auto. Qed.
Lemma del_after {A B} (p : eprog A) (f : A -> oprog B) (ok : B -> list path -> Prop) (bad : list path -> Prop) : bad [] -> (forall a, del (f a) ok bad) -> del (obind (olift p) f) ok bad.
Proof. intros B0 H. apply del_bind. apply del_lift; cbn [app]; auto. Qed.
Lemma del_run {S R} (step : S -> res (event * S)) (p : oprog R) : forall ok bad, del p ok bad -> forall s,
  match deletions step p s with (Ok (r, _), d) => ok r d | (_, d) => bad d end.
Proof.
  induction p as [r| | | |k IH|x v q IH|x q IH]; intros ok bad D s; cbn [del deletions] in *; auto.
  - destruct D as [D1 D2]. destruct (step s) as [[e s']| | |]; auto. now apply IH.
  - apply (IH _ _ D s).
  - specialize (IH _ _ D s). destruct (deletions step q s) as [[[r s']| | |] d]; exact IH.
Qed.

(** * Selections *)
Lemma sel_nil {A} (l : list A) : selection [] l. Proof. induction l; constructor; auto. Qed.
Lemma sel_refl {A} (l : list A) : selection l l. Proof. induction l; constructor; auto. Qed.
Lemma sel_app {A} (a b c d : list A) : selection a b -> selection c d -> selection (a ++ c) (b ++ d).
Proof. intros H K. induction H; cbn [app]; [exact K| |]; constructor; auto. Qed.
Lemma sel_map {A B} (f : A -> B) a b : selection a b -> selection (map f a) (map f b).
Proof. induction 1; cbn [map]; constructor; auto. Qed.
Lemma sel_in {A} (a b : list A) x : selection a b -> In x a -> In x b.
Proof. induction 1; cbn [In]; intuition. Qed.
Lemma sel_nodup {A} (a b : list A) : selection a b -> NoDup b -> NoDup a.
Proof. induction 1 as [|x d l S IH|x d l S IH]; intros N; inversion N; subst; auto. constructor; auto. intros I. eapply sel_in in I; eauto. Qed.

(** * Members *)
Section Parts.
Variable w : world.
Fixpoint parts (i : nat) (ts : list ct) (vs : list cv) {struct vs} : list (list nat) :=
  match ts, vs with u :: ts', x :: vs' => map (cons i) (own_pointers w u x) ++ parts (S i) ts' vs' | _, _ => [] end.
End Parts.
Lemma own_cls w c vs : own_pointers w (CCls c) (VList vs) = parts w 0 (map f_type (w_cls w c)) vs. Proof. reflexivity. Qed.
Lemma own_tup w c vs : own_pointers w (CTup c) (VList vs) = parts w 0 (map f_type (w_cls w c)) vs. Proof. reflexivity. Qed.
Lemma own_arr w n e vs : own_pointers w (CArr n e) (VList vs) = parts w 0 (map (fun _ => e) vs) vs. Proof. reflexivity. Qed.
Lemma own_pair w a b vs : own_pointers w (CPair a b) (VList vs) = parts w 0 [a; b] vs. Proof. reflexivity. Qed.
Lemma parts_in w : forall vs i ts q, In q (parts w i ts vs) -> exists j p u x, q = (i + j)%nat :: p /\ nth_error ts j = Some u /\ nth_error vs j = Some x /\ In p (own_pointers w u x).
Proof.
  induction vs as [|x vs IH]; intros i ts q I; (destruct ts as [|u ts]; [destruct I|]); [destruct I|]. cbn [parts] in I. apply in_app_or in I. destruct I as [I|I].
  - apply in_map_iff in I. destruct I as (p & <- & I). exists 0%nat, p, u, x. rewrite Nat.add_0_r. auto.
  - destruct (IH _ _ _ I) as (j & p & u' & x' & -> & T & V & J). exists (S j), p, u', x'. replace (i + S j)%nat with (S i + j)%nat by lia. auto.
Qed.
Lemma nodup_app {A} (a b : list A) : NoDup a -> NoDup b -> (forall x, In x a -> ~ In x b) -> NoDup (a ++ b).
Proof. intros N M D. induction N as [|y l NI N IN]; cbn [app]; [exact M|]. constructor. { intros J. apply in_app_or in J. destruct J as [J|J]; [auto|]. eapply D; [left; reflexivity|exact J]. } apply IN. intros x I. apply D. now right. Qed.
Lemma parts_nodup w : forall vs i ts, Forall (fun x => forall t, NoDup (own_pointers w t x)) vs -> NoDup (parts w i ts vs).
Proof.
  induction vs as [|x vs IH]; intros i ts H; (destruct ts as [|u ts]; [constructor|]); [constructor|]. inversion H as [|? ? H1 H2]; subst. cbn [parts]. apply nodup_app.
  - specialize (H1 u). induction H1 as [|y l NI N IN]; cbn [map]; constructor; auto. intros J. apply in_map_iff in J. destruct J as (z & E & J). injection E as ->. auto.
  - now apply IH.
  - intros q I J. apply in_map_iff in I. destruct I as (p & <- & I). destruct (parts_in _ _ _ _ _ J) as (j & p' & u' & x' & E & _). injection E as E _. lia.
Qed.
Lemma own_nodup w : forall v t, NoDup (own_pointers w t v).
Proof.
  assert (T : forall t v, (forall vs, v <> VList vs) -> NoDup (own_pointers w t v)).
  { intros t v N. destruct t, v; try (now destruct (N vs)); cbn [own_pointers]; repeat constructor; intros []. }
  induction v using cv_ind2; try (intros; apply T; intros ?; discriminate).
  intros t. destruct t; try (cbn [own_pointers]; repeat constructor; fail).
  all: try (cbn [own_pointers]; constructor; [intros []|constructor]).
  - rewrite own_cls. now apply parts_nodup.
  - rewrite own_arr. now apply parts_nodup.
  - rewrite own_pair. now apply parts_nodup.
  - rewrite own_tup. now apply parts_nodup.
Qed.

(** * Restoring *)
Section Restore.
Variable w : world.
Definition okv (t : ct) (old v : cv) (d : list path) : Prop :=
  selection d (own_pointers w t old) /\ (complete_classes w -> d = own_pointers w t old) /\ forall p, In p (own_pointers w t old) -> In p d \/ part_at p v = part_at p old.
Definition badv (t : ct) (old : cv) (d : list path) : Prop := selection d (own_pointers w t old).
Lemma ok_none t old v : own_pointers w t old = [] -> okv t old v [].
Proof. intros E. unfold okv. rewrite E. split; [constructor|]. split; [reflexivity|]. intros p []. Qed.
Lemma bad_none t old : badv t old []. Proof. apply sel_nil. Qed.

(** a pointer, null or deleted first *)
Definition pointer (t : ct) : bool := match t with CPtr _ | CPoly _ => true | _ => false end.
Lemma own_pointer t old : pointer t = true -> own_pointers w t old = match old with VNone => [] | _ => [[]] end.
Proof. destruct t; try discriminate; intros _; destruct old; reflexivity. Qed.
Lemma del_pointer {R} t old (val : R -> cv) (q : oprog R) : pointer t = true ->
  (forall (ok : R -> list path -> Prop) (bad : list path -> Prop), (forall r, ok r []) -> bad [] -> del q ok bad) -> del (odelete old q) (fun r d => okv t old (val r) d) (badv t old).
Proof.
  intros P H. pose proof (own_pointer t old P) as O. unfold odelete. unfold okv, badv. rewrite O.
  assert (K : forall old', old' <> VNone -> del (ODel [] q) (fun r d => selection d [[]] /\ (complete_classes w -> d = [[]]) /\ (forall p : list nat, In p [[]] -> In p d \/ part_at p (val r) = part_at p old)) (fun d => selection d [[]])).
  { intros _ _. cbn [del]. apply H; [intros r; split; [repeat constructor|]; split; [reflexivity|]; intros p I; now left|repeat constructor]. }
  destruct old; try (apply (K (VNum 0)); discriminate). apply H; [intros r; split; [constructor|]; split; [reflexivity|]; intros p []|constructor].
Qed.
Lemma del_value t old v : scoped t = false -> del (ovalue w t old v) (fun r d => okv t old r d) (badv t old).
Proof.
  intros SC. destruct t; try discriminate SC; cbn [ovalue].
  all: try (apply del_after; [apply bad_none|]; intros a; cbn [del]; apply ok_none; destruct old; reflexivity).
  - destruct old; try apply bad_none. destruct (negb _); [apply bad_none|]. destruct (bytes_paste _ _ _) as [x r]. cbn [del]. apply del_after; [apply bad_none|]. intros _. cbn [del]. now apply ok_none.
  - apply (del_pointer (CPtr t) old (fun r => r)); [reflexivity|]. intros ok bad O B. apply del_after; [exact B|]. intros a. apply O.
Qed.

(** * Members one after the other *)
Definition okm (i : nat) (ts : list ct) (olds vs : list cv) (d : list path) : Prop :=
  selection d (parts w i ts olds) /\ (complete_classes w -> d = parts w i ts olds) /\
  forall q, In q (parts w i ts olds) -> In q d \/ forall pre pre', length pre = i -> length pre' = i -> part_at q (VList (pre ++ vs)) = part_at q (VList (pre' ++ olds)).
Definition badm (i : nat) (ts : list ct) (olds : list cv) (d : list path) : Prop := selection d (parts w i ts olds).
Lemma nth_mid {A} (pre : list A) x l : nth_error (pre ++ x :: l) (length pre) = Some x.
Proof. induction pre; cbn; auto. Qed.
Lemma okm_cons i u ts old olds v vs d d' : okv u old v d -> okm (S i) ts olds vs d' -> okm i (u :: ts) (old :: olds) (v :: vs) (map (cons i) d ++ d').
Proof.
  intros (A1 & A2 & A3) (B1 & B2 & B3). unfold okm. cbn [parts]. split; [apply sel_app; [now apply sel_map|exact B1]|]. split.
  - intros C. now rewrite (A2 C), (B2 C).
  - intros q I. apply in_app_or in I. destruct I as [I|I].
    + apply in_map_iff in I. destruct I as (p & <- & I). destruct (A3 p I) as [J|E]; [left; apply in_or_app; left; now apply in_map|]. right. intros pre pre' L L'. cbn [part_at].
      rewrite <- L at 1. rewrite nth_mid. rewrite <- L'. now rewrite nth_mid.
    + destruct (B3 q I) as [J|E]; [left; apply in_or_app; now right|]. right. intros pre pre' L L'. specialize (E (pre ++ [v]) (pre' ++ [old])). rewrite <- !app_assoc in E. cbn [app] in E. apply E; rewrite app_length; cbn [length]; lia.
Qed.
Lemma okm_skip i u ts old olds vs d' : (complete_classes w -> False) -> okm (S i) ts olds vs d' -> okm i (u :: ts) (old :: olds) (old :: vs) d'.
Proof.
  intros NC H. assert (K : okm i (u :: ts) (old :: olds) (old :: vs) (map (cons i) [] ++ d')); [|exact K]. destruct H as (B1 & B2 & B3). unfold okm. cbn [parts]. split; [apply (sel_app []); [apply sel_nil|exact B1]|]. split; [intros C; destruct (NC C)|].
  intros q I. apply in_app_or in I. destruct I as [I|I].
  - apply in_map_iff in I. destruct I as (p & <- & I). right. intros pre pre' L L'. cbn [part_at]. rewrite <- L at 1. rewrite nth_mid. rewrite <- L'. now rewrite nth_mid.
  - destruct (B3 q I) as [J|E]; [left; exact J|]. right. intros pre pre' L L'. specialize (E (pre ++ [old]) (pre' ++ [old])). rewrite <- !app_assoc in E. cbn [app] in E. apply E; rewrite app_length; cbn [length]; lia.
Qed.
Lemma okm_nil i ts vs : parts w i ts vs = [] -> forall us, okm i ts vs us [].
Proof. intros E us. unfold okm. rewrite E. split; [constructor|]. split; [reflexivity|]. intros q []. Qed.
Lemma badm_first i u ts old olds d : badv u old d -> badm i (u :: ts) (old :: olds) (map (cons i) d).
Proof. intros H. unfold badm. cbn [parts]. rewrite <- (app_nil_r (map _ d)). apply sel_app; [now apply sel_map|apply sel_nil]. Qed.
Lemma badm_later i u ts old olds d d' : selection d (own_pointers w u old) -> badm (S i) ts olds d' -> badm i (u :: ts) (old :: olds) (map (cons i) d ++ d').
Proof. intros H K. unfold badm. cbn [parts]. apply sel_app; [now apply sel_map|exact K]. Qed.
Lemma okm_okv ts t olds vs d : own_pointers w t (VList olds) = parts w 0 ts olds -> okm 0 ts olds vs d -> okv t (VList olds) (VList vs) d.
Proof. intros E (A & B & C). unfold okv. rewrite E. repeat split; auto. intros q I. destruct (C q I) as [J|J]; [now left|]. right. apply (J [] []); reflexivity. Qed.

Section Step.
Variables (op : ct -> cv -> lnode -> rstate -> oprog (cv * lnode * rstate)) (pn : ct -> cv -> lnode -> rstate -> eprog (cv * lnode * rstate)) (F : nat).
Hypothesis IH : forall t old n s, del (op t old n s) (fun r d => okv t old (fst (fst r)) d) (badv t old).

Lemma ok_bad t old v d : okv t old v d -> badv t old d. Proof. now intros (H & _). Qed.
Lemma del_field t id old n s : del (ofield w op F t id old n s) (fun r d => okv t old (fst (fst r)) d) (badv t old).
Proof.
  unfold ofield. destruct (scoped t) eqn:SC.
  - apply del_after; [apply bad_none|]. intros r. apply del_bind. eapply del_weaken; [apply IH| |auto]. intros [[v c'] s'] d O. cbn [fst] in O. destruct (l_parsed n).
    + cbn [del]. rewrite app_nil_r. exact O.
    + apply del_after; [rewrite app_nil_r; eapply ok_bad, O|]. intros _. cbn [del]. rewrite app_nil_r. exact O.
  - apply del_after; [apply bad_none|]. intros r. apply del_bind. eapply del_weaken; [apply del_value, SC| |auto]. intros v d O. cbn [del]. rewrite app_nil_r. exact O.
Qed.
Lemma del_fields : forall fs, (complete_classes w -> forall f, In f fs -> f_opt f = false) -> forall i olds n s vi ni,
  del (ofields w op F i fs olds n s vi ni) (fun r d => okm i (map f_type fs) olds (fst (fst r)) d) (badm i (map f_type fs) olds).
Proof.
  induction fs as [|f fs IHf]; intros OP i olds n s vi ni; cbn [ofields map].
  - cbn [del fst]. apply okm_nil. now destruct olds.
  - destruct olds as [|old olds]; [cbn [del]; constructor|]. assert (OP' : complete_classes w -> forall g, In g fs -> f_opt g = false) by (intros C g I; apply OP; [exact C|now right]).
    specialize (IHf OP'). destruct (f_opt f) eqn:O.
    + assert (NC : complete_classes w -> False) by (intros C; rewrite (OP C f) in O; [discriminate|now left]).
      apply del_after; [apply sel_nil|]. intros [b h]. cbn [fst snd]. destruct b; cbn [negb].
      * apply del_bind, del_at. eapply del_weaken; [apply del_field| |intros d B; now apply badm_first]. intros [[v n1] s1] d Ok1. apply del_bind. eapply del_weaken; [apply IHf| |].
        -- intros [[vs n'] s'] d' Ok2. cbn [del fst] in *. rewrite app_nil_r. now apply okm_cons.
        -- intros d' B. cbn beta. apply badm_later; [apply Ok1|exact B].
      * apply del_bind. eapply del_weaken; [apply IHf| |].
        -- intros [[vs n'] s'] d' Ok2. cbn [del fst] in *. rewrite app_nil_r. now apply okm_skip.
        -- intros d' B. cbn beta. apply (badm_later _ _ _ _ _ []); [apply sel_nil|exact B].
    + cbn [olift obind fst snd negb]. apply del_bind, del_at. eapply del_weaken; [apply del_field| |intros d B; now apply badm_first]. intros [[v n1] s1] d Ok1. apply del_bind. eapply del_weaken; [apply IHf| |].
      * intros [[vs n'] s'] d' Ok2. cbn [del fst] in *. rewrite app_nil_r. now apply okm_cons.
      * intros d' B. cbn beta. apply badm_later; [apply Ok1|exact B].
Qed.
Lemma del_stored {A} e (g : cv -> bytes * A -> rstate -> oprog (cv * rstate)) : (forall old a s, del (g old a s) (fun r d => okv e old (fst r) d) (badv e old)) ->
  forall olds (l : list (bytes * A)) i s, length l = length olds -> del (oarray_stored g i olds l s) (fun r d => okm i (map (fun _ => e) olds) olds (fst r) d) (badm i (map (fun _ => e) olds) olds).
Proof.
  intros G. induction olds as [|old olds IHo]; intros [|a l] i s L; try discriminate L; cbn [oarray_stored map]; [cbn [del]; now apply okm_nil|].
  apply del_bind, del_at. eapply del_weaken; [apply G| |intros d B; now apply badm_first]. intros [v s1] d Ok1. apply del_bind. eapply del_weaken; [apply IHo; cbn in L; lia| |].
  - intros [vs s'] d' Ok2. cbn [del fst snd] in *. rewrite app_nil_r. now apply okm_cons.
  - intros d' B. cbn beta. apply badm_later; [apply Ok1|exact B].
Qed.
Lemma del_read e : forall olds i c n s, del (oarray_read w op F e i c olds n s) (fun r d => okm i (map (fun _ => e) olds) olds (fst (fst r)) d) (badm i (map (fun _ => e) olds) olds).
Proof.
  induction olds as [|old olds IHo]; intros i c n s; cbn [oarray_read map]; [cbn [del]; now apply okm_nil|]. destruct (l_parsed n); [apply sel_nil|].
  apply del_bind, del_at. eapply del_weaken; [apply del_field| |intros d B; now apply badm_first]. intros [[v n1] s1] d Ok1. apply del_bind. eapply del_weaken; [apply IHo| |].
  - intros [[vs n'] s'] d' Ok2. cbn [del fst] in *. rewrite app_nil_r. now apply okm_cons.
  - intros d' B. cbn beta. apply badm_later; [apply Ok1|exact B].
Qed.

(** tables delete nothing *)
Lemma del_each_stored {A B} (mk : B -> cv) (f : bytes * A -> B -> rstate -> eprog (B * rstate)) (bad : list path -> Prop) : bad [] -> forall l acc s, del (oeach_stored mk f l acc s) (fun _ d => d = []) bad.
Proof. intros B0. induction l as [|a l IHl]; intros acc s; cbn [oeach_stored]; [reflexivity|]. apply del_after; [exact B0|]. intros r. cbn [del]. apply IHl. Qed.
Lemma del_each_value {B} (mk : B -> cv) f (bad : list path -> Prop) : bad [] -> forall k acc n s, del (oeach_value F mk f k acc n s) (fun _ d => d = []) bad.
Proof.
  intros B0. induction k as [|k IHk]; intros acc n s; cbn [oeach_value]; [exact B0|]. apply del_after; [exact B0|]. intros [[[[nm v] c]|] n']; cbn [fst snd]; [|reflexivity].
  destruct (l_parsed n'); [reflexivity|]. apply del_after; [exact B0|]. intros q. cbn [del]. apply IHk.
Qed.
Lemma del_each_node {B} (mk : B -> cv) f (bad : list path -> Prop) : bad [] -> forall k acc n s, del (oeach_node F mk f k acc n s) (fun _ d => d = []) bad.
Proof.
  intros B0. induction k as [|k IHk]; intros acc n s; cbn [oeach_node]; [exact B0|]. apply del_after; [exact B0|]. intros [[c|] n']; cbn [fst snd]; [|reflexivity].
  destruct (l_parsed n'); [reflexivity|]. apply del_after; [exact B0|]. intros [[acc' c'] s']. cbn [del]. apply del_after; [exact B0|]. intros _. apply IHk.
Qed.
Lemma del_each {B} (mk : B -> cv) sc fv fn acc n s (bad : list path -> Prop) : bad [] -> del (oeach F mk sc fv fn acc n s) (fun _ d => d = []) bad.
Proof.
  intros B0. unfold oeach. destruct (l_parsed n).
  - destruct sc; (apply del_bind; eapply del_weaken; [apply (del_each_stored mk _ bad B0)| |auto]); intros r d ->; reflexivity.
  - destruct sc; [now apply del_each_node|now apply del_each_value].
Qed.
Lemma del_members t fs old n s vi : (complete_classes w -> forall f, In f fs -> f_opt f = false) -> (forall olds, own_pointers w t (VList olds) = parts w 0 (map f_type fs) olds) ->
  del (match old with VList olds => obind (ofields w op F 0 fs olds n s vi 0) (fun r => let '(vs, n', s') := r in ORet (VList vs, n', s')) | _ => OThrow end)
    (fun r d => okv t old (fst (fst r)) d) (badv t old).
Proof.
  intros OP E. destruct old; try apply bad_none. apply del_bind. eapply del_weaken; [apply del_fields, OP| |].
  - intros [[us n'] s'] d O. cbn [del fst] in *. rewrite app_nil_r. eapply okm_okv; eauto.
  - intros d B. unfold badv. rewrite E. exact B.
Qed.
Lemma del_step t old n s : del (opaste_step w op pn F t old n s) (fun r d => okv t old (fst (fst r)) d) (badv t old).
Proof.
  assert (SA : own_pointers w t old = [] -> del (obind (olift (paste_step w pn F t old n s)) (fun r => OSet [] (fst (fst r)) (ORet r))) (fun r d => okv t old (fst (fst r)) d) (badv t old)).
  { intros E. apply del_after; [apply bad_none|]. intros r. cbn [del]. now apply ok_none. }
  destruct t; try (apply SA; destruct old; reflexivity); unfold opaste_step; cbv zeta.
  - destruct (negb _); [apply bad_none|]. apply del_members; [|intros; apply own_cls]. intros C f I. eapply C, I.
  - destruct (negb _); [apply bad_none|]. cbn [del]. apply del_bind. eapply del_weaken; [apply (del_each VTab _ _ _ _ _ _ (badv (CTab t) old) (bad_none _ _))| |auto].
    intros [[l n'] s'] d ->. cbn [del app]. apply ok_none. destruct old; reflexivity.
  - destruct (negb _); [apply bad_none|]. destruct old as [| |olds| | | | | |]; try apply bad_none. destruct (negb (Nat.eqb (length olds) n0)) eqn:L; [apply bad_none|]. destruct (l_parsed n).
    + destruct (scoped t) eqn:SC.
      * destruct (negb (Nat.eqb (length (n_nodes (l_node n))) n0)) eqn:L'; [apply bad_none|]. apply del_bind. eapply del_weaken; [apply del_stored with (e := t)| |]; [|lia| |].
        -- intros old a s0. apply del_bind. eapply del_weaken; [apply IH| |auto]. intros r d O. cbn [del fst]. rewrite app_nil_r. exact O.
        -- intros r d O. cbn [del fst]. rewrite app_nil_r. eapply okm_okv; [apply own_arr|exact O].
        -- intros d B. exact B.
      * destruct (negb (Nat.eqb (length (n_values (l_node n))) n0)) eqn:L'; [apply bad_none|]. apply del_bind. eapply del_weaken; [apply del_stored with (e := t)| |]; [|lia| |].
        -- intros old a s0. apply del_bind. eapply del_weaken; [apply del_value, SC| |auto]. intros r d O. cbn [del fst]. rewrite app_nil_r. exact O.
        -- intros r d O. cbn [del fst]. rewrite app_nil_r. eapply okm_okv; [apply own_arr|exact O].
        -- intros d B. exact B.
    + apply del_bind. eapply del_weaken; [apply del_read| |].
      * intros [[vs n'] s'] d O. cbn [del fst] in *. rewrite app_nil_r. eapply okm_okv; [apply own_arr|exact O].
      * intros d B. exact B.
  - destruct (negb _); [apply bad_none|]. destruct old as [| |olds| | | | | |]; try apply bad_none. destruct olds as [|oa [|ob [|]]]; try apply bad_none.
    apply del_bind, del_at. eapply del_weaken; [apply del_field| |].
    + intros [[x n1] s1] d O1. apply del_bind, del_at. eapply del_weaken; [apply del_field| |].
      * intros [[y n2] s2] d2 O2. cbn [del fst] in *. rewrite app_nil_r. eapply okm_okv; [apply own_pair|]. apply okm_cons; [exact O1|]. rewrite <- (app_nil_r (map _ d2)). apply okm_cons; [exact O2|]. now apply okm_nil.
      * intros d2 B. unfold badv. rewrite own_pair. apply badm_later; [apply O1|]. now apply badm_first.
    + intros d B. unfold badv. rewrite own_pair. now apply badm_first.
  - destruct (negb _); [apply bad_none|]. apply del_members.
    + intros _ f I. apply in_map_iff in I. destruct I as (g & <- & _). reflexivity.
    + intros olds. rewrite own_tup, map_map. reflexivity.
  - apply (del_pointer (CPtr t) old (fun r => fst (fst r))); [reflexivity|]. intros ok bad O B. apply del_after; [exact B|]. intros r. apply O.
  - destruct (negb _); [apply bad_none|]. apply del_after; [apply bad_none|]. intros [[v c] n1]. destruct (_ && _); [apply bad_none|].
    apply (del_pointer (CPoly u) old (fun r => fst (fst r))); [reflexivity|]. intros ok bad O B. destruct (_ && _); [exact B|]. apply del_after; [exact B|]. intros [cc|]; [|exact B]. destruct (w_new w (CCls cc)); try exact B.
    apply del_after; [exact B|]. intros [[us n'] s']. cbn [del]. apply O.
Qed.
End Step.

Lemma del_paste : forall F t old n s, del (opaste F w t old n s) (fun r d => okv t old (fst (fst r)) d) (badv t old).
Proof. induction F as [|F IHF]; intros t old n s; cbn [opaste]; [apply bad_none|]. now apply del_step. Qed.
Lemma del_restore F t old : del (orestore F w t old) (fun r d => okv t old (fst r) d) (badv t old).
Proof.
  unfold orestore. cbn [del]. split; [apply bad_none|]. intros [name v]. destruct (negb _); [apply bad_none|]. apply del_bind. eapply (del_weaken _ (fun r d => okv t old (fst (fst r)) d) _ (badv t old)).
  - destruct (scoped t); [apply del_paste|]. apply del_field. apply del_paste.
  - intros r d O. cbn [del fst]. rewrite app_nil_r. exact O.
  - auto.
Qed.
Lemma del_paste_tree F t old n s : del (opaste_tree F w t old n s) (fun r d => okv t old (fst r) d) (badv t old).
Proof.
  unfold opaste_tree. apply del_bind. eapply (del_weaken _ (fun r d => okv t old (fst (fst r)) d) _ (badv t old)).
  - destruct (scoped t); [apply del_paste|]. apply del_field. apply del_paste.
  - intros r d O. cbn [del fst]. rewrite app_nil_r. exact O.
  - auto.
Qed.
Lemma restore_deleted {I} (run : forall A, prog A -> I -> res (A * I)) x F q t old i :
  match restore_deletes run x F w q t old i with (Ok (v, _), d) => okv t old v d | (_, d) => badv t old d end.
Proof.
  pose proof (fun St (step : St -> res (event * St)) => del_run step _ _ _ (del_restore F t old)) as H. unfold restore_deletes, with_parser_d.
  destruct (parser_clear q) as [st|st|st]; cbn [fst snd].
  - specialize (H _ (rd_step run psrl_read) (st, i)). destruct (deletions _ _ _) as [[[[v r] s]| | |] d]; cbn [fst snd rbind] in *; exact H.
  - specialize (H _ (rd_step run msgp_read) (st, i)). destruct (deletions _ _ _) as [[[[v r] s]| | |] d]; cbn [fst snd rbind] in *; exact H.
  - specialize (H _ (rd_step run (json_read x F)) (st, i)). destruct (deletions _ _ _) as [[[[v r] s]| | |] d]; cbn [fst snd rbind] in *; exact H.
Qed.
Lemma paste_deleted F t old n s : match paste_deletes F w t old n s with (Ok (v, _), d) => okv t old v d | (_, d) => badv t old d end.
Proof.
  pose proof (del_run (fun _ : unit => Err) _ _ _ (del_paste_tree F t old n s) tt) as H. unfold paste_deletes. destruct (deletions _ _ _) as [[[[v r] u]| | |] d]; cbn [fst snd rbind] in *; exact H.
Qed.
End Restore.

(** the outcome is that of [restore_over] *)
Lemma sim_deletions {S A} (step : S -> res (event * S)) (P : A -> obj -> Prop) (N : obj -> Prop) o q p : sim P N o q p -> forall s, fst (deletions step q s) = fst (orun step q s o).
Proof.
  induction 1; intros s; cbn [deletions orun]; try reflexivity.
  - destruct (step s) as [[e s']| | |]; auto.
  - apply IHsim.
  - rewrite H. specialize (IHsim s). destruct (deletions step q s). exact IHsim.
Qed.
Lemma restore_same {I} (run : forall A, prog A -> I -> res (A * I)) x F w q t o v i : whole o = Some v -> formed w t v -> fst (restore_deletes run x F w q t v i) = fst (restore_over run x F w q t o i).
Proof.
  intros W Fm. pose proof (sim_restore w F t v o W Fm) as H. unfold restore_deletes, restore_over, with_parser_d, with_parser_o. rewrite (held_whole _ _ W).
  destruct (parser_clear q); cbn [fst]; now rewrite (sim_deletions _ _ _ _ _ _ H).
Qed.
Lemma paste_same F w t o v n s : whole o = Some v -> formed w t v -> fst (paste_deletes F w t v n s) = fst (paste_over F w t o n s).
Proof.
  intros W Fm. pose proof (sim_root w F t v (mkL true n) s o W Fm) as H. fold (opaste_tree F w t v n s) in H. unfold paste_deletes, paste_over. rewrite (held_whole _ _ W).
  pose proof (sim_deletions (fun _ : unit => Err) _ _ _ _ _ H tt) as E. destruct (deletions _ _ _), (orun _ _ _ _). cbn [fst] in *. now rewrite E.
Qed.
Definition deletes_once w t old (r : res (cv * rstate) * list path) : Prop :=
  selection (snd r) (own_pointers w t old) /\ NoDup (snd r) /\
  forall v s, fst r = Ok (v, s) -> (forall p, In p (own_pointers w t old) -> In p (snd r) \/ part_at p v = part_at p old) /\ (complete_classes w -> snd r = own_pointers w t old).
Lemma once_from w t old (r : res (cv * rstate) * list path) : match r with (Ok (v, _), d) => okv w t old v d | (_, d) => badv w t old d end -> deletes_once w t old r.
Proof.
  intros H. destruct r as [[[v s]| | |] d]; unfold deletes_once; cbn [fst snd].
  - destruct H as (A & B & C). split; [exact A|]. split; [eapply sel_nodup; [exact A|apply own_nodup]|]. intros v0 s0 [= <- <-]. auto.
  - split; [exact H|]. split; [eapply sel_nodup; [exact H|apply own_nodup]|discriminate].
  - split; [exact H|]. split; [eapply sel_nodup; [exact H|apply own_nodup]|discriminate].
  - split; [exact H|]. split; [eapply sel_nodup; [exact H|apply own_nodup]|discriminate].
Qed.
Lemma sel_of_nil {A} (d : list A) : selection d [] -> d = []. Proof. now inversion 1. Qed.
