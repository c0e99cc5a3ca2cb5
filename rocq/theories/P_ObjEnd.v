(** Restoring objects comes to an end: every loop and every recursion uses up items of the input. *)
From Coq Require Import ZArith List Bool Lia ZifyBool ZifyNat.
From Verif Require Import Base Lemmas M_Types M_Conv M_TpTools M_Charset M_In S_Conv S_Charset S_Doc M_Env M_Event M_Tree S_Tree M_TreeIO M_Object M_ObjIO
  S_ObjSafe S_ObjEnd P_Conv P_Text P_Float P_Paste P_Charset P_Tree P_TreeOps P_ObjPart P_ObjEager P_ObjSafe.
Import ListNotations.
Open Scope nat_scope.

(** * Single values *)
Definition rend {A} (r : res A) (Q : A -> Prop) : Prop := match r with Ok a => Q a | Fuel => False | _ => True end.
Lemma rend_bind {A B} (r : res A) (f : A -> res B) Q : rend r (fun a => rend (f a) Q) -> rend (rbind r f) Q.
Proof. destruct r; auto. Qed.
Lemma rend_weaken {A} (r : res A) (Q R : A -> Prop) : rend r Q -> (forall a, Q a -> R a) -> rend r R.
Proof. destruct r; cbn; auto. Qed.

Lemma conv_vec_end to from d throw : wf_bytes d -> rend (conv_charset_vec to from d throw) (fun _ => True).
Proof.
  intros W. unfold conv_charset_vec.
  assert (K : conv_charset to from d [] throw 0 <> Fuel).
  { destruct (enc_eqb to from) eqn:E; [unfold conv_charset; destruct d; [discriminate|]; rewrite E; unfold store; cbn zeta; destruct (_ <=? _)%Z; discriminate|].
    assert (N : to <> from) by (intros ->; now rewrite (proj2 (enc_eqb_spec from from) eq_refl) in E).
    destruct (enc_eqb to EUnknown || enc_eqb from EUnknown) eqn:Ek.
    - unfold conv_charset. destruct d; [discriminate|]. rewrite E, Ek. destruct throw; discriminate.
    - assert (Kt : known to) by (intros ->; discriminate).
      assert (Kf : known from) by (intros ->; rewrite orb_comm in Ek; discriminate).
      destruct (text_dec from d Kf W) as [(cs & F & ->)|Hn].
      + destruct (convert_text to from cs [] throw Kt Kf F) as (b & -> & _). discriminate.
      + pose proof (convert_rejects to from d [] throw Kt Kf N W Hn) as H. destruct throw; [rewrite H; discriminate|].
        destruct H as (b & ->). discriminate. }
  destruct (conv_charset to from d [] throw 0) as [[n b]| |u|]; cbn; auto.
Qed.
Lemma fp_cast_end t v : rend (fp_cast t v) (fun _ => True).
Proof. unfold fp_cast. destruct t; try exact I; (destruct (_ =? _)%Z; [exact I|]; destruct (_ && _); exact I). Qed.
Lemma apply_end t v : rend (apply_or_throw t v) (fun _ => True).
Proof.
  unfold apply_or_throw, apply_type. destruct (v_type v); try exact I; try (destruct (_ || _); exact I); try (destruct (overflows_u64 _ _); exact I).
  all: destruct (_ && _); [exact I|]; pose proof (fp_cast_end t v) as H; destruct (fp_cast t v); exact H || exact I.
Qed.
Lemma paste_num_end x t v : rend (paste_num x t v) (fun _ => True).
Proof. unfold paste_num. destruct (_ && _); [exact I|]. destruct (ty_eqb _ _); [|apply apply_end]. destruct (str_to_type _ _ _); [apply apply_end|exact I]. Qed.
Lemma b64_end : forall fuel s i todo, rend (b64_decode_loop fuel s i todo) (fun _ => True).
Proof.
  assert (L : forall s i, rend (b64_lookup s i) (fun _ => True)) by (intros s i; unfold b64_lookup; destruct (nth_error s i); [destruct (_ <? _)%Z|]; exact I).
  induction fuel as [|f IH]; intros s i todo; cbn [b64_decode_loop]; [exact I|]. destruct (Nat.eqb todo 0); [exact I|].
  do 4 (apply rend_bind; eapply rend_weaken; [apply L|]; intros ? _). destruct (_ || _); [exact I|].
  apply rend_bind. eapply rend_weaken; [apply IH|]. intros r _. exact I.
Qed.
Lemma conv_int_end t raw : rend (conv_type_int t raw) (fun _ => True).
Proof.
  assert (L : forall room val acc, rend (print_loop room val acc) (fun _ => True)).
  { induction room as [|r IH]; intros val acc; cbn [print_loop]; destruct (_ =? _)%Z; try exact I. apply IH. }
  unfold conv_type_int. destruct (_ && _); [exact I|]. destruct (_ =? _)%Z; [exact I|]. apply rend_bind. eapply rend_weaken; [apply L|].
  intros [d r] _. destruct (_ && _); [destruct r|]; exact I.
Qed.
Lemma text_end x v : (forall d, wf_bytes (x_dtoa x d)) -> wf_value v -> rend (type_to_str x v) wf_bytes.
Proof.
  intros DT W. pose proof (text_ok x v DT W) as H.
  assert (K : rend (type_to_str x v) (fun _ => True)).
  { unfold type_to_str, conv_type_fp. destruct (v_type v); try exact I; try apply conv_int_end. all: destruct (fp_prints_as_int _); [|exact I]; destruct (_ =? _)%Z; [exact I|apply conv_int_end]. }
  destruct (type_to_str x v); cbn in *; auto.
Qed.
Lemma unwrap_text_end to from d : wf_bytes d -> rend (unwrap_text to from d) (fun _ => True).
Proof. intros W. unfold unwrap_text. apply rend_bind. destruct (enc_eqb from to); [exact I|]. eapply rend_weaken; [now apply conv_vec_end|]. intros; exact I. Qed.
Lemma poke_end mem off bs : rend (poke mem off bs) (fun _ => True).
Proof. unfold poke. destruct (_ <? _)%Z; exact I. Qed.
Lemma paste_value_end w : (forall d, wf_bytes (x_dtoa (w_fp w) d)) -> forall t old v, wf_value v -> rend (paste_value w t old v) (fun _ => True).
Proof.
  intros DTOA. induction t as [t|e|e|e n| |c|e IH|e IH|k IHk e IHe|e IH|n e IH|a IHa b IHb|c|e IH|e IH|e IH|e IH|]; intros old v W; cbn [paste_value]; try exact I.
  - apply rend_bind. eapply rend_weaken; [|intros a _; exact I]. unfold paste_number. destruct (_ && _) eqn:T; [|apply paste_num_end].
    apply rend_bind. eapply rend_weaken; [apply conv_vec_end|]. { unfold wf_value in W. destruct (v_type v); try discriminate T; apply W. }
    intros d _. destruct (_ <? _)%Z; [exact I|apply paste_num_end].
  - destruct (ty_eqb (v_type v) TNull); [exact I|]. destruct (ty_eqb (v_type v) TString) eqn:T.
    + apply ty_eqb_eq in T. unfold wf_value in W. rewrite T in W. apply rend_bind. eapply rend_weaken; [apply unwrap_text_end; apply W|]. intros; exact I.
    + destruct (negb _); [exact I|]. apply rend_bind. eapply rend_weaken; [apply text_end; auto|]. intros d Wd. apply rend_bind. eapply rend_weaken; [now apply unwrap_text_end|intros; exact I].
  - apply rend_bind. unfold paste_char. destruct (_ && _) eqn:T; [exact I|].
    apply rend_bind. destruct (enc_eqb _ _); [cbn; destruct (_ =? _)%Z; exact I|].
    eapply rend_weaken; [apply conv_vec_end|]. { unfold wf_value in W. destruct (v_type v); try discriminate T; apply W. }
    intros; destruct (_ =? _)%Z; exact I.
  - destruct old; try exact I. apply rend_bind. eapply rend_weaken with (Q := fun _ => True); [|intros; exact I]. unfold paste_chars. destruct (_ && _) eqn:T; [exact I|].
    apply rend_bind. assert (R : forall c, rend (if ((n - 1) * unit_size e <? zlen c)%Z then Err else
      let* mem1 := poke bs 0 c in poke mem1 (zlen (v_data v) / unit_size e * unit_size e) (repeat 0%Z (Z.to_nat (unit_size e)))) (fun _ => True)).
    { intros c. destruct (_ <? _)%Z; [exact I|]. apply rend_bind. eapply rend_weaken; [apply poke_end|]. intros m _. apply poke_end. }
    destruct (enc_eqb _ _); [apply R|]. eapply rend_weaken; [apply conv_vec_end|]. { unfold wf_value in W. destruct (v_type v); try discriminate T; apply W. }
    intros c _. apply R.
  - destruct (v_type v); try exact I. destruct (Nat.eqb _ 0); [exact I|]. apply rend_bind. eapply rend_weaken with (Q := fun _ => True); [|intros; exact I]. unfold base64_to_bytes, base64_to_bytes_dest. destruct (_ && _); [exact I|]. apply b64_end.
  - destruct (ty_eqb (v_type v) TNull); [exact I|]. apply rend_bind. eapply rend_weaken; [apply IH; auto|]. intros; exact I.
  - apply rend_bind. eapply rend_weaken; [apply IH; auto|]. intros; exact I.
Qed.

(** * Programs that read at most [N] more items *)
Fixpoint eend {R} (N : nat) (p : eprog R) (Q : nat -> R -> Prop) {struct p} : Prop :=
  match p with
  | ERet r => Q N r | EThrow | EUndef _ => True | EFuel => False
  | ERead k => match N with O => True | S m => forall e, sound_event e -> eend m (k e) Q end
  end.
Lemma eend_bind {A B} (p : eprog A) (f : A -> eprog B) Q : forall N, eend N p (fun m a => eend m (f a) Q) -> eend N (ebind p f) Q.
Proof. induction p as [r| |u| |k IH]; intros N H; cbn [eend ebind] in *; [exact H|exact I|exact I|exact H|]. destruct N as [|m]; [exact I|]. intros e He. apply IH. now apply H. Qed.
Lemma eend_weaken {A} (p : eprog A) (Q R : nat -> A -> Prop) : forall N, eend N p Q -> (forall m a, m <= N -> Q m a -> R m a) -> eend N p R.
Proof.
  induction p as [r| |u| |k IH]; intros N H X; cbn [eend] in *; [apply X; auto|exact I|exact I|exact H|]. destruct N as [|m]; [exact I|]. intros e He.
  eapply IH; [now apply H|]. intros j a L. apply X. lia.
Qed.
Lemma eend_less {A} (p : eprog A) : forall N M, M <= N -> eend N p (fun _ _ => True) -> eend M p (fun _ _ => True).
Proof.
  induction p as [r| |u| |k IH]; intros N M L H; cbn [eend] in *; [exact I|exact I|exact I|exact H|]. destruct M as [|m]; [exact I|]. destruct N as [|n]; [lia|].
  intros e He. apply (IH e n); [lia|auto].
Qed.
Lemma eend_lift {A} N (r : res A) Q : rend r (Q N) -> eend N (elift r) Q.
Proof. destruct r; cbn; auto. Qed.

Lemma size_parts n : tree_size n = length (n_values n) + list_sum (map (fun q => S (tree_size (snd q))) (n_nodes n)).
Proof.
  destruct n as [t vs ns]. cbn [n_values n_nodes tree_size]. f_equal. induction ns as [|q ns IH]; [reflexivity|]. cbn [map list_sum fold_right]. now rewrite IH.
Qed.
Lemma size_value n k v : tree_size (mkNode (n_type n) (n_values n ++ [(k, v)]) (n_nodes n)) = S (tree_size n).
Proof. rewrite !size_parts. cbn [n_values n_nodes]. rewrite app_length. cbn [length]. lia. Qed.
Lemma size_node n k c : tree_size (mkNode (n_type n) (n_values n) (n_nodes n ++ [(k, c)])) = S (tree_size n + tree_size c).
Proof. rewrite (size_parts (mkNode _ _ _)), (size_parts n). cbn [n_values n_nodes]. rewrite map_app, list_sum_app. unfold list_sum at 2. cbn [map fold_right snd]. lia. Qed.
Lemma size_child n q : In q (n_nodes n) -> S (tree_size (snd q)) <= tree_size n.
Proof.
  rewrite (size_parts n). generalize (length (n_values n)). induction (n_nodes n) as [|r l IH]; intros a I; [destruct I|]. 
  change (list_sum (map (fun q => S (tree_size (snd q))) (r :: l))) with (S (tree_size (snd r)) + list_sum (map (fun q => S (tree_size (snd q))) l)).
  destruct I as [->|I]; [lia|]. specialize (IH 0 I). lia.
Qed.
Lemma erase_length {A} : forall (l : list A) i, nth_error l i <> None -> S (length (erase i l)) = length l.
Proof. induction l as [|x l IH]; intros [|i] K; cbn in *; try congruence. now rewrite IH. Qed.
Lemma erase_sum {A} (f : A -> nat) : forall (l : list A) i a, nth_error l i = Some a -> f a + list_sum (map f (erase i l)) = list_sum (map f l).
Proof.
  induction l as [|x l IH]; intros [|i] a K; cbn in *; try discriminate; [injection K as ->; reflexivity|]. specialize (IH i a K). unfold list_sum in IH. lia.
Qed.

Section End.
Variables (w : world) (t0 : ct) (H : nat).
Hypothesis DTOA : forall d, wf_bytes (x_dtoa (w_fp w) d).
Hypothesis REG : forall u id, w_reg w u id <> Fuel.
Hypothesis PTR : forall p, part w t0 p -> pointers p <= H.
Let V := wf_value.
Notation wt n := (tree_size (l_node n)).
Let nk (n : lnode) : Prop := from V (l_node n).

Lemma from_none t : from V (empty_node t).
Proof. constructor; constructor. Qed.
Lemma from_add_value n v k : from V n -> V v -> from V (mkNode (n_type n) (n_values n ++ [(k, v)]) (n_nodes n)).
Proof. intros HN HV. apply from_parts in HN. destruct HN. constructor; [apply Forall_app; auto|auto]. Qed.
Lemma from_add_node n c k : from V n -> from V c -> from V (mkNode (n_type n) (n_values n) (n_nodes n ++ [(k, c)])).
Proof. intros HN HV. apply from_parts in HN. destruct HN. constructor; [auto|apply Forall_app; auto]. Qed.

(** what is left: nodes stay sound, and nothing is read that is not kept *)
Definition left (N : nat) (n : lnode) (m : nat) (n' : lnode) : Prop := nk n' /\ m <= N /\ m + wt n' <= N + wt n.
Ltac bnd H := apply eend_bind; eapply eend_weaken; [apply H|].

Lemma sound_value name v : sound_event (name, v) -> is_scope (v_type v) = false -> ty_eqb (v_type v) TScopeEnd = false -> V v.
Proof. unfold sound_event, V. cbn [snd]. destruct (v_type v); try discriminate; auto. Qed.

Lemma read_source_end : forall F d n N, N < F -> from V n -> eend N (read_source F d n) (fun m n' => from V n' /\ m + tree_size n' <= N + tree_size n).
Proof.
  clear DTOA REG PTR. clear w t0 H. induction F as [|f IH]; intros d n N L HN; [lia|]. cbn [read_source eend]. destruct N as [|N]; [exact I|]. intros [name v] HE.
  destruct (ty_eqb (v_type v) TScopeEnd) eqn:T1; [cbn; split; [exact HN|lia]|]. destruct (is_scope (v_type v)) eqn:T2; cbn [negb].
  - destruct (_ <? _)%Z; [exact I|]. bnd (IH (d + 1)%Z (empty_node (v_type v)) N ltac:(lia) (from_none _)).
    intros m c Lm [Hc Wc]. rewrite store_node_utf8. cbn [elift ebind]. eapply eend_weaken; [apply IH; [lia|now apply from_add_node]|].
    intros m' n' _ [A B]. split; [exact A|]. rewrite size_node in B. cbn in Wc. lia.
  - rewrite store_value_utf8. cbn [elift ebind]. eapply eend_weaken; [apply IH; [lia|apply from_add_value; [exact HN|eapply sound_value; eauto]]|].
    intros m' n' _ [A B]. split; [exact A|]. rewrite size_value in B. lia.
Qed.

Lemma keep_item_end F n name v N : N < F -> nk n -> sound_event (name, v) -> ty_eqb (v_type v) TScopeEnd = false -> eend N (keep_item F n name v) (fun m n' => nk n' /\ m + wt n' <= S N + wt n).
Proof.
  intros L HN HE T. unfold keep_item. destruct (is_scope (v_type v)) eqn:S.
  - bnd (read_source_end F 0%Z (empty_node (v_type v)) N L (from_none _)). intros m c _ [Hc Wc]. rewrite store_node_utf8. cbn [elift ebind eend].
    split; [now apply from_add_node|]. cbn [l_node]. rewrite size_node. cbn in Wc. lia.
  - rewrite store_value_utf8. cbn [elift ebind eend]. split; [apply from_add_value; [exact HN|eapply sound_value; eauto]|]. cbn [l_node]. rewrite size_value. lia.
Qed.
Lemma scan_end : forall F want p n N, N < F -> nk n -> eend N (scan F want p n) (fun m r => nk (snd r) /\
  match fst r with Some q => (want = false -> V (snd q)) /\ S m + wt (snd r) <= N + wt n | None => m + wt (snd r) <= N + wt n end).
Proof.
  induction F as [|f IH]; intros want p n N L HN; [lia|]. cbn [scan]. destruct (l_parsed n); [cbn; auto|]. cbn [eend]. destruct N as [|N]; [exact I|]. intros [name v] HE.
  destruct (ty_eqb (v_type v) TScopeEnd) eqn:T; [cbn [eend fst snd l_node]; split; [exact HN|lia]|]. destruct (_ && _) eqn:B.
  - cbn [eend fst snd]. split; [exact HN|]. split; [|lia]. intros ->. apply andb_true_iff in B. destruct B as [B _]. apply (sound_value name v); auto. destruct (is_scope (v_type v)); [discriminate|reflexivity].
  - bnd (keep_item_end f n name v N ltac:(lia) HN HE T). intros m n' Lm [A B']. eapply eend_weaken; [apply IH; [lia|exact A]|].
    intros m' [o n2] Lm' [C D]. cbn [fst snd] in *. split; [exact C|]. destruct o as [q|]; [destruct D; split; [auto|lia]|lia].
Qed.
Definition found {A} (P : A -> Prop) (sz : A -> nat) (N : nat) (n : lnode) (m : nat) (r : option A * lnode) : Prop :=
  nk (snd r) /\ match fst r with Some q => P q /\ S m + sz q + wt (snd r) <= N + wt n | None => m + wt (snd r) <= N + wt n end.
Lemma size_empty t : tree_size (empty_node t) = 0.
Proof. reflexivity. Qed.
Lemma consume_node_end F id n N : N < F -> nk n -> eend N (consume_node F id n) (found (fun c => nk (snd c)) (fun c => wt (snd c)) N n).
Proof.
  intros L HN. unfold consume_node. assert (HN' := HN). apply from_parts in HN. destruct HN as [HV HC]. destruct n as [pd [t vs ns]]. cbn [l_node n_values n_nodes l_parsed] in *.
  destruct (stored_ok id ns) as [i ->]. cbn [elift ebind]. destruct (pick ns i) as [[k c]|] eqn:P.
  - unfold found. cbn [eend fst snd l_node]. split; [constructor; [exact HV|now apply erase_Forall]|]. split; [apply (pick_Forall _ _ _ _ HC P)|].
    rewrite (size_parts (mkNode t vs ns)), (size_parts (mkNode t vs (erase _ ns))). cbn [n_values n_nodes]. destruct i as [i|]; [|discriminate P]. cbn [pick] in P.
    pose proof (erase_sum (fun q => S (tree_size (snd q))) ns i (k, c) P) as X. cbn [snd] in X. lia.
  - bnd (scan_end F true (id_matches id) (mkL pd (mkNode t vs ns)) N L HN'). intros m [o n'] Lm [A B]. unfold found. cbn [fst snd eend] in *.
    split; [exact A|]. destruct o as [[k v]|]; [destruct B as [_ B]; split; [apply from_none|]; cbn [snd l_node] in *; rewrite size_empty; lia|exact B].
Qed.
Lemma consume_value_end F id n N : N < F -> nk n -> eend N (consume_value F id n) (found (fun c => V (snd (fst c))) (fun _ => 0) N n).
Proof.
  intros L HN. unfold consume_value. assert (HN' := HN). apply from_parts in HN. destruct HN as [HV HC]. destruct n as [pd [t vs ns]]. cbn [l_node n_values n_nodes l_parsed] in *.
  destruct (stored_ok id vs) as [i ->]. cbn [elift ebind]. destruct (pick vs i) as [[k c]|] eqn:P.
  - unfold found. cbn [eend fst snd l_node]. split; [constructor; [now apply erase_Forall|exact HC]|]. split; [apply (pick_Forall _ _ _ _ HV P)|].
    rewrite (size_parts (mkNode t vs ns)), (size_parts (mkNode t (erase _ vs) ns)). cbn [n_values n_nodes]. destruct i as [i|]; [|discriminate P]. cbn [pick] in P.
    pose proof (erase_length vs i ltac:(congruence)) as X. lia.
  - bnd (scan_end F false (id_matches id) (mkL pd (mkNode t vs ns)) N L HN'). intros m [o n'] Lm [A B]. unfold found. cbn [fst snd eend] in *.
    split; [exact A|]. destruct o as [[k v]|]; [destruct B as [B1 B2]; split; [now apply B1|lia]|exact B].
Qed.
Lemma scan_item_end h k : forall F n N, N < F -> nk n -> eend N (scan_item F h k n) (fun m r => left N n m (snd r)).
Proof.
  induction F as [|f IH]; intros n N L HN; [lia|]. cbn [scan_item]. destruct (l_parsed n); [cbn; unfold left; auto|]. cbn [eend]. destruct N as [|N]; [exact I|]. intros [name v] HE.
  destruct (ty_eqb (v_type v) TScopeEnd) eqn:T; [cbn [eend snd]; unfold left; cbn [l_node]; split; [exact HN|lia]|]. bnd (keep_item_end f n name v N ltac:(lia) HN HE T). intros m n' Lm [A B].
  destruct (cmp_hash_ok (A := value) h k (name, v)) as [b ->]. cbn [elift ebind]. destruct b; [cbn [eend snd]; unfold left; split; [exact A|lia]|].
  eapply eend_weaken; [apply IH; [lia|exact A]|]. intros m' [o n2] _ (C & D & E). unfold left. cbn [snd] in *. split; [exact C|lia].
Qed.
Lemma left_refl N n : nk n -> left N n N n.
Proof. unfold left. auto. Qed.
Lemma has_field_end F want k n N : N < F -> nk n -> eend N (has_field F want k n) (fun m r => left N n m (snd r)).
Proof.
  intros L HN. unfold has_field. pose proof (left_refl N n HN) as LR. destruct (l_parsed n).
  - unfold has_node, has_value, has_named. destruct (find_link_ok k (n_nodes (l_node n))) as [i ->]. destruct (find_link_ok k (n_values (l_node n))) as [j ->]. destruct want; exact LR.
  - unfold consume_item. destruct (find_link_ok k (n_nodes (l_node n))) as [i ->]. cbn [elift ebind]. destruct i; [exact LR|].
    destruct (find_link_ok k (n_values (l_node n))) as [j ->]. cbn [elift ebind]. destruct j; [exact LR|]. rewrite hash_utf8. cbn [elift ebind].
    bnd (scan_item_end (fnv1a_ref k) k F n N L HN). intros m [o n'] _ H'. exact H'.
Qed.
Lemma consume_scope_end F n N : N < F -> eend N (consume_scope F n) (fun _ _ => True).
Proof.
  intros L. unfold consume_scope. destruct (l_parsed n); [exact I|]. revert N L. generalize 0%Z. induction F as [|f IH]; intros d N L; [lia|]. cbn [consume_scope_loop eend].
  destruct N as [|N]; [exact I|]. intros e _. destruct (is_scope _); [apply IH; lia|]. destruct (ty_eqb _ _); [|apply IH; lia]. destruct (_ <=? _)%Z; [exact I|apply IH; lia].
Qed.

Lemma lookup_end {A} (l : list (bytes * A)) k : rend (lookup l (k, EUTF8)) (fun q => In q l).
Proof.
  unfold lookup. rewrite hash_utf8. cbn [rbind]. unfold find_link.
  destruct (find_loop_ok (cmp_hash_name (A := A) (fnv1a_ref k) (k, EUTF8)) (cmp_hash_ok _ _) l 0) as [->|(j & -> & L)]; cbn [rbind]; [exact I|].
  destruct (pick l (Some j)) as [q|] eqn:Q; cbn [deref rend]; [|exact I]. cbn in Q. eapply nth_error_In, Q.
Qed.
Lemma link_at_end {A} (l : list (bytes * A)) i : rend (let* q := link_at true i l in deref q) (fun q => In q l).
Proof.
  unfold link_at. destruct (_ && _) eqn:B; cbn [rbind]; [|exact I]. destruct (nth_error l (Z.to_nat i)) as [q|] eqn:Q; cbn [deref rend]; [|exact I]. eapply nth_error_In, Q.
Qed.
(** the node of a field is smaller; reading it, the rest is what it leaves *)
Lemma field_node_end F id n N : N < F -> nk n -> eend N (field_node F id n) (fun m r => nk (fst r) /\ nk (snd r) /\
  (if l_parsed n then snd r = n /\ S (m + wt (fst r)) <= N + wt n else S (m + wt (fst r) + wt (snd r)) <= N + wt n)).
Proof.
  intros L HN. unfold field_node. destruct (l_parsed n).
  - apply eend_bind. apply eend_lift. apply rend_weaken with (Q := fun q => In q (n_nodes (l_node n))).
    + destruct id; [apply lookup_end|apply link_at_end].
    + intros q HQ. cbn [eend fst snd l_node]. split; [|split; [exact HN|split; [reflexivity|]]].
      * apply from_parts in HN. apply (proj1 (Forall_forall _ _) (proj2 HN) q HQ).
      * pose proof (size_child _ _ HQ). lia.
  - bnd (consume_node_end F id n N L HN). intros m [o n'] _ [A B]. cbn [fst snd] in *. destruct o as [c|]; cbn [need ebind eend]; [|exact I].
    cbn [fst snd]. destruct B as [B C]. split; [exact B|]. split; [exact A|lia].
Qed.
Lemma field_value_end F id n N : N < F -> nk n -> eend N (field_value F id n) (fun m r => V (fst (fst r)) /\ left N n m (snd r)).
Proof.
  intros L HN. unfold field_value. destruct (l_parsed n).
  - apply eend_bind. apply eend_lift. apply rend_weaken with (Q := fun q => In q (n_values (l_node n))).
    + destruct id; [apply lookup_end|apply link_at_end].
    + intros q HQ. cbn [eend fst snd]. split; [|now apply left_refl]. apply from_parts in HN. apply (proj1 (Forall_forall _ _) (proj1 HN) q HQ).
  - bnd (consume_value_end F id n N L HN). intros m [o n'] Lm [A B]. cbn [fst snd] in *. destruct o as [c|]; cbn [need ebind eend]; [|exact I].
    cbn [fst snd]. destruct B as [B C]. split; [exact B|]. unfold left. split; [exact A|lia].
Qed.

Section Step.
Variable pn : ct -> cv -> lnode -> rstate -> eprog (cv * lnode * rstate).
Variable F : nat.
Definition goes {A} (N : nat) (n : lnode) (m : nat) (r : A * lnode * rstate) : Prop := left N n m (snd (fst r)).
Hypothesis PN : forall t old n s N, part w t0 t -> nk n -> (N + wt n + 2) * (H + 2) + pointers t < F -> eend N (pn t old n s) (goes N n).
Definition big (N : nat) (n : lnode) : Prop := (N + wt n + 2) * (H + 2) <= F.
Lemma big_small N n m n' : big N n -> m + wt n' <= N + wt n -> big m n'.
Proof. unfold big. intros B L. etransitivity; [|exact B]. apply Nat.mul_le_mono_r. lia. Qed.
Lemma big_lt N n : big N n -> N < F.
Proof. unfold big. intros B. assert (X : (N + wt n + 2) * 1 <= (N + wt n + 2) * (H + 2)) by (apply Nat.mul_le_mono_l; lia). lia. Qed.
Lemma big_child N n m c t : part w t0 t -> big N n -> S (m + wt c) <= N + wt n -> (m + wt c + 2) * (H + 2) + pointers t < F.
Proof.
  unfold big. intros P B L. apply PTR in P. assert (X : (S (m + wt c) + 2) * (H + 2) <= (N + wt n + 2) * (H + 2)) by (apply Nat.mul_le_mono_r; lia).
  replace ((S (m + wt c) + 2) * (H + 2)) with ((m + wt c + 2) * (H + 2) + (H + 2)) in X by (cbn [Nat.add Nat.mul]; lia). lia.
Qed.
Lemma left_trans N n m n1 m' n2 : left N n m n1 -> left m n1 m' n2 -> left N n m' n2.
Proof. unfold left. intros (A & B & C) (D & E & G). split; [exact D|]. lia. Qed.
Lemma left_big N n m n' : big N n -> left N n m n' -> big m n'.
Proof. intros B (_ & _ & L). eapply big_small; eauto. Qed.

Lemma paste_field_end t id old n s N : part w t0 t -> nk n -> big N n -> eend N (paste_field w pn F t id old n s) (goes N n).
Proof.
  intros P HN B. unfold paste_field. pose proof (big_lt N n B) as L. destruct (scoped t).
  - bnd (field_node_end F id n N L HN). intros m [c n'] Lm (A1 & A2 & A3). cbn [fst snd] in *.
    assert (SM : S (m + wt c) <= N + wt n) by (destruct (l_parsed n); lia).
    bnd (PN t old c s m P A1 (big_child N n m c t P B SM)). intros m2 [[v c'] s'] L2 (C1 & C2 & C3). cbn [fst snd] in *. destruct (l_parsed n).
    + cbn [eend goes fst snd]. unfold goes, left. cbn [fst snd]. destruct A3 as [-> _]. split; [exact HN|lia].
    + bnd (consume_scope_end F c' m2 ltac:(lia)). intros m3 _ L3 _. cbn [eend]. unfold goes, left. cbn [fst snd]. split; [exact A2|lia].
  - bnd (field_value_end F id n N L HN). intros m [[v cp] n'] Lm [A1 A2]. cbn [fst snd] in *. apply eend_bind, eend_lift. eapply rend_weaken; [now apply paste_value_end|]. intros x _. exact A2.
Qed.
Lemma paste_fields_end : forall fs olds n s vi ni N, Forall (fun f => part w t0 (f_type f)) fs -> nk n -> big N n -> eend N (paste_fields w pn F fs olds n s vi ni) (goes N n).
Proof.
  induction fs as [|f fs IH]; intros olds n s vi ni N P HN B; cbn [paste_fields]; [cbn [eend]; now apply left_refl|]. destruct olds as [|old olds]; [exact I|]. inversion P as [|? ? P1 P2]; subst.
  apply eend_bind. apply eend_weaken with (Q := fun m h => left N n m (snd h)); [destruct (f_opt f); [apply has_field_end; [eapply big_lt; eauto|exact HN]|cbn [eend snd]; now apply left_refl]|].
  intros m [h n1] Lm H1. cbn [fst snd] in *. assert (B1 := left_big _ _ _ _ B H1). assert (HN1 := proj1 H1). destruct h; cbn [negb].
  - bnd (paste_field_end (f_type f) (if (0 <? zlen (f_name f))%Z then IdName (f_name f) else IdPos (if scoped (f_type f) then ni else vi)) old n1 s m P1 HN1 B1).
    intros m2 [[v n2] s2] L2 H2. unfold goes in H2. cbn [fst snd] in *. assert (B2 := left_big _ _ _ _ B1 H2). assert (HN2 := proj1 H2).
    bnd (IH olds n2 s2 (if scoped (f_type f) then vi else vi + 1)%Z (if scoped (f_type f) then ni + 1 else ni)%Z m2 P2 HN2 B2).
    intros m3 [[vs n3] s3] L3 H3. unfold goes in *. cbn [fst snd eend] in *. eauto using left_trans.
  - bnd (IH olds n1 s vi ni m P2 HN1 B1). intros m3 [[vs n3] s3] L3 H3. unfold goes in *. cbn [fst snd eend] in *. eauto using left_trans.
Qed.

(** elements of a node that is there *)
Lemma each_stored_end {A B} (f : bytes * A -> B -> rstate -> eprog (B * rstate)) (P : bytes * A -> Prop) N :
  (forall a acc s m, m <= N -> P a -> eend m (f a acc s) (fun _ _ => True)) -> forall l acc s m, m <= N -> Forall P l -> eend m (each_stored f l acc s) (fun _ _ => True).
Proof.
  intros HF. induction l as [|a l IH]; intros acc s m L HL; cbn [each_stored]; [exact I|]. inversion HL; subst. bnd (HF a acc s m L H2). intros m2 [b s'] L2 _. apply IH; [lia|assumption].
Qed.
Lemma each_value_read_end {B} (f : bytes * value -> B -> rstate -> eprog (B * rstate)) M :
  (forall a acc s m, m <= M -> V (snd a) -> eend m (f a acc s) (fun _ _ => True)) -> M < F -> forall fuel acc n s N, N <= M -> N + wt n < fuel -> nk n -> eend N (each_value_read F f fuel acc n s) (goes N n).
Proof.
  intros HF LM. induction fuel as [|k IH]; intros acc n s N L LF HN; [lia|]. cbn [each_value_read]. bnd (consume_value_end F (IdPos 0) n N ltac:(lia) HN). intros m [o n'] Lm [A C]. cbn [fst snd] in *.
  destruct o as [[[name v] cp]|]; [|cbn [eend]; unfold goes, left; cbn [fst snd]; split; [exact A|lia]]. destruct C as [C1 C2]. cbn [fst snd] in C1. destruct (l_parsed n'); [cbn [eend]; unfold goes, left; cbn [fst snd]; split; [exact A|lia]|].
  bnd (HF (name, v) acc s m ltac:(lia) C1). intros m2 [b s'] L2 _. cbn [fst snd]. eapply eend_weaken; [apply IH; [lia|lia|exact A]|].
  intros m3 [[x n3] s3] L3 (D1 & D2 & D3). unfold goes, left. cbn [fst snd] in *. split; [exact D1|lia].
Qed.
Lemma each_node_read_end {B} (f : bytes * lnode -> B -> rstate -> eprog (B * lnode * rstate)) M :
  (forall a acc s m, S (m + wt (snd a)) <= M -> nk (snd a) -> eend m (f a acc s) (fun m' r => left m (snd a) m' (snd (fst r)))) -> M < F ->
  forall fuel acc n s N, N + wt n <= M -> N + wt n < fuel -> nk n -> eend N (each_node_read F f fuel acc n s) (goes N n).
Proof.
  intros HF LM. induction fuel as [|k IH]; intros acc n s N L LF HN; [lia|]. cbn [each_node_read]. bnd (consume_node_end F (IdPos 0) n N ltac:(lia) HN). intros m [o n'] Lm [A C]. cbn [fst snd] in *.
  destruct o as [c|]; [|cbn [eend]; unfold goes, left; cbn [fst snd]; split; [exact A|lia]]. destruct C as [C1 C2]. destruct (l_parsed n'); [cbn [eend]; unfold goes, left; cbn [fst snd]; split; [exact A|lia]|].
  bnd (HF c acc s m ltac:(lia) C1). intros m2 [[b c'] s'] L2 (D1 & D2 & D3). cbn [fst snd] in *. bnd (consume_scope_end F c' m2 ltac:(lia)). intros m3 _ L3 _.
  eapply eend_weaken; [apply IH; [lia|lia|exact A]|]. intros m4 [[x n3] s3] L4 (G1 & G2 & G3). unfold goes, left. cbn [fst snd] in *. split; [exact G1|lia].
Qed.
Lemma each_item_end {B} sc (fv : bytes * value -> B -> rstate -> eprog (B * rstate)) (fn : bytes * lnode -> B -> rstate -> eprog (B * lnode * rstate)) acc n s N :
  (forall a acc s m, V (snd a) -> eend m (fv a acc s) (fun _ _ => True)) ->
  (forall a acc s m, S (m + wt (snd a)) <= N + wt n -> nk (snd a) -> eend m (fn a acc s) (fun m' r => left m (snd a) m' (snd (fst r)))) ->
  nk n -> big N n -> eend N (each_item F sc fv fn acc n s) (goes N n).
Proof.
  intros HV HF HN B1. unfold each_item. pose proof (big_lt N n B1) as LN. destruct (l_parsed n).
  - apply eend_bind. apply eend_weaken with (Q := fun _ _ => True).
    + assert (HN' := HN). apply from_parts in HN'. destruct sc.
      * apply each_stored_end with (P := fun q => from V (snd q) /\ In q (n_nodes (l_node n))) (N := N); [|lia|].
        -- intros a acc' s' m Lm [Ha Ia]. pose proof (size_child _ _ Ia) as SC. bnd (HF (fst a, mkL true (snd a)) acc' s' m ltac:(cbn [snd l_node]; lia) Ha). intros; exact I.
        -- apply Forall_forall. intros q Iq. split; [apply (proj1 (Forall_forall _ _) (proj2 HN') q Iq)|exact Iq].
      * apply each_stored_end with (P := fun q => V (snd q)) (N := N); [intros; now apply HV|lia|apply HN'].
    + intros m [b s'] Lm _. cbn [eend]. unfold goes, left. cbn [fst snd]. split; [exact HN|lia].
  - assert (X : (N + wt n + 2) * 1 <= (N + wt n + 2) * (H + 2)) by (apply Nat.mul_le_mono_l; lia). unfold big in B1.
    destruct sc; [apply each_node_read_end with (M := N + wt n); auto; lia|apply each_value_read_end with (M := N); auto; lia].
Qed.
Lemma array_stored_end {A} (f : cv -> bytes * A -> rstate -> eprog (cv * rstate)) (P : bytes * A -> Prop) N :
  (forall old a s m, m <= N -> P a -> eend m (f old a s) (fun _ _ => True)) -> forall olds l s m, m <= N -> Forall P l -> eend m (array_stored f olds l s) (fun _ _ => True).
Proof.
  intros HF. induction olds as [|old olds IH]; intros l s m L HL; cbn [array_stored]; [exact I|]. destruct l as [|a l]; [exact I|].
  inversion HL; subst. bnd (HF old a s m L H2). intros m2 [v s'] L2 _. cbn [fst snd] in *. bnd (IH l s' m2 ltac:(lia) H3). intros; exact I.
Qed.
Lemma array_read_end e : part w t0 e -> forall olds count n s N, nk n -> big N n -> eend N (array_read w pn F e count olds n s) (goes N n).
Proof.
  intros P. induction olds as [|old olds IH]; intros count n s N HN B; cbn [array_read]; [cbn [eend]; now apply left_refl|]. destruct (l_parsed n); [exact I|].
  bnd (paste_field_end e (IdPos count) old n s N P HN B). intros m [[v n1] s1] Lm H1. unfold goes in H1. cbn [fst snd] in *.
  bnd (IH (count + 1)%Z n1 s1 m (proj1 H1) (left_big _ _ _ _ B H1)). intros m2 [[vs n2] s2] L2 H2. unfold goes in *. cbn [fst snd eend] in *. eauto using left_trans.
Qed.

#[local] Hint Constructors part : core.
Lemma shared_end e n s t N : t = CShared e \/ t = CWeak e -> part w t0 t -> nk n -> big N n -> eend N
        (ebind (paste_field w pn F (CNum TUI64) (IdName str_shared_key) (VNum 0) n s) (fun r =>
          let '(k, n1, s1) := r in
          match k with
          | VNum key =>
              match find_key key (r_tab s1) with
              | Some a =>
                  match nth_error (r_heap s1) a with
                  | Some (u, _) => if ct_eqb u e then ERet (VRef a, n1, s1) else EUndef UbCast
                  | None => EUndef UbDangling
                  end
              | None =>
                  ebind (paste_field w pn F e (IdName str_shared_value) (w_new w e) n1 s1) (fun r =>
                    let '(x, n2, s2) := r in
                    let a := length (r_heap s2) in
                    ERet (VRef a, n2, mkRs (r_heap s2 ++ [(e, x)]) (match find_key key (r_tab s2) with Some _ => r_tab s2 | None => (key, a) :: r_tab s2 end)))
              end
          | _ => EThrow
          end)) (goes N n).
Proof.
  intros T P HN B.
  assert (PK : part w t0 (CNum TUI64)) by (eapply part_trans; [exact P|]; destruct T as [->| ->]; [apply pt_shared_key|apply pt_weak_key]).
  assert (PE : part w t0 e) by (eapply part_trans; [exact P|]; destruct T as [->| ->]; [apply pt_shared|apply pt_weak]; constructor).
  bnd (paste_field_end (CNum TUI64) (IdName str_shared_key) (VNum 0) n s N PK HN B). intros m [[k n1] s1] Lm H1. unfold goes in H1. cbn [fst snd] in *.
  destruct k; try exact I. destruct (find_key _ (r_tab s1)) as [a|].
  - destruct (nth_error (r_heap s1) a) as [[u x]|]; [|exact I]. destruct (ct_eqb u e); [exact H1|exact I].
  - bnd (paste_field_end e (IdName str_shared_value) (w_new w e) n1 s1 m PE (proj1 H1) (left_big _ _ _ _ B H1)). intros m2 [[x n2] s2] L2 H2. unfold goes in *. cbn [fst snd eend] in *. eauto using left_trans.
Qed.

Lemma paste_step_end t old n s N : part w t0 t -> nk n -> (N + wt n + 2) * (H + 2) + pointers t < S F -> eend N (paste_step w pn F t old n s) (goes N n).
Proof.
  intros P HN BT. assert (B : big N n) by (unfold big; lia).
  assert (MEM : forall (fs : list field) (old : cv) (n : lnode) (s : rstate) (vi : Z) (mk : list cv -> cv) N, Forall (fun f => part w t0 (f_type f)) fs -> nk n -> big N n ->
    eend N match old with VList olds => ebind (paste_fields w pn F fs olds n s vi 0) (fun r => let '(vs, n', s') := r in ERet (mk vs, n', s')) | _ => EThrow end (goes N n)).
  { intros fs o n1 s1 vi mk N1 HF HN1 B1. destruct o; try exact I. bnd (paste_fields_end fs vs n1 s1 vi 0%Z N1 HF HN1 B1). intros m [[x n2] s2] _ A. exact A. }
  assert (PV : forall e v m, V v -> eend m (elift (paste_value w e (w_new w e) v)) (fun _ _ => True)) by (intros e v m HV; apply eend_lift, paste_value_end; auto).
  assert (EL : forall (X : Type) (add : cv -> X -> X) e, part w t0 e -> (forall a acc s m, V (snd a) -> eend m (elem_value w add e a acc s) (fun _ _ => True)) /\
     (forall a acc s m, S (m + wt (snd a)) <= N + wt n -> nk (snd a) -> eend m (elem_node w pn add e a acc s) (fun m' r => left m (snd a) m' (snd (fst r))))).
  { intros X add e PE. split; [intros a acc s1 m Ha|intros a acc s1 m La Ha].
    - unfold elem_value. bnd (PV e (snd a) m Ha). intros; exact I.
    - unfold elem_node. bnd (PN e (w_new w e) (snd a) s1 m PE Ha (big_child N n m (snd a) e PE B La)). intros m2 [[v c] s2] _ A. exact A. }
  unfold paste_step. destruct t as [t|e|e|e len| |c|e|e|k e|e|len e|a b|c|e|e|e|e|]; try exact I.
  - destruct (negb _); [exact I|]. apply MEM; auto. apply Forall_forall. intros f Hf. eapply part_trans; [exact P|]. eapply pt_cls; [exact Hf|constructor].
  - destruct (negb _); [exact I|]. assert (PE : part w t0 e) by (eapply part_trans; eauto). destruct (EL _ (fun v acc => acc ++ [v]) e PE) as [E1 E2].
    bnd (each_item_end (scoped e) _ _ [] n s N E1 E2 HN B). intros m [[vs n'] s'] _ A. exact A.
  - destruct (negb _); [exact I|]. assert (PE : part w t0 e) by (eapply part_trans; eauto). destruct (EL _ (emplace (w_lt w) (fun v => v)) e PE) as [E1 E2].
    bnd (each_item_end (scoped e) _ _ [] n s N E1 E2 HN B). intros m [[vs n'] s'] _ A. exact A.
  - destruct (negb _); [exact I|]. assert (PE : part w t0 e) by (eapply part_trans; eauto). assert (PK : part w t0 k) by (eapply part_trans; [exact P|]; apply pt_key; constructor).
    assert (E2 : forall a acc s m, S (m + wt (snd a)) <= N + wt n -> nk (snd a) -> eend m (elem_entry w pn F k e a acc s) (fun m' r => left m (snd a) m' (snd (fst r)))).
    { intros a acc s1 m La Ha. assert (Ba : big m (snd a)) by (eapply big_small; [exact B|lia]). unfold elem_entry.
      bnd (paste_field_end k (IdName str_key) (w_new w k) (snd a) s1 m PK Ha Ba). intros m2 [[v c] s2] _ H1. unfold goes in H1. cbn [fst snd] in *.
      bnd (paste_field_end e (IdName str_value) (w_new w e) c s2 m2 PE (proj1 H1) (left_big _ _ _ _ Ba H1)). intros m3 [[v2 c2] s3] _ H2. unfold goes in *. cbn [fst snd eend] in *. eauto using left_trans. }
    bnd (each_item_end true (fun _ _ _ => EThrow) _ [] n s N (fun _ _ _ _ _ => I) E2 HN B). intros m [[vs n'] s'] _ A. exact A.
  - destruct (negb _); [exact I|]. assert (PE : part w t0 e) by (eapply part_trans; eauto).
    assert (E1 : forall a acc s m, V (snd a) -> eend m (entry_value w e a acc s) (fun _ _ => True)).
    { intros a acc s1 m Ha. unfold entry_value. bnd (PV e (snd a) m Ha). intros; exact I. }
    assert (E2 : forall a acc s m, S (m + wt (snd a)) <= N + wt n -> nk (snd a) -> eend m (entry_node w pn e a acc s) (fun m' r => left m (snd a) m' (snd (fst r)))).
    { intros a acc s1 m La Ha. unfold entry_node. bnd (PN e (w_new w e) (snd a) s1 m PE Ha (big_child N n m (snd a) e PE B La)). intros m2 [[v c] s2] _ A. exact A. }
    bnd (each_item_end (scoped e) _ _ [] n s N E1 E2 HN B). intros m [[vs n'] s'] _ A. exact A.
  - destruct (negb _); [exact I|]. assert (PE : part w t0 e) by (eapply part_trans; eauto). destruct old as [| |olds| | | | | |]; try exact I. destruct (negb _); [exact I|].
    assert (HN' := HN). apply from_parts in HN'. destruct (l_parsed n).
    + assert (ST : forall m, m <= N -> left N n m n) by (intros m Lm; unfold left; split; [exact HN|lia]). destruct (scoped e).
      * destruct (negb _); [exact I|]. apply eend_bind. eapply eend_weaken; [apply array_stored_end with (P := fun q => from V (snd q) /\ In q (n_nodes (l_node n))) (N := N); [|lia|]|].
        -- intros o a s1 m Lm [Ha Ia]. pose proof (size_child _ _ Ia) as SC. bnd (PN e o (mkL true (snd a)) s1 m PE Ha (big_child N n m (mkL true (snd a)) e PE B ltac:(cbn [l_node]; lia))). intros; exact I.
        -- apply Forall_forall. intros q Iq. split; [apply (proj1 (Forall_forall _ _) (proj2 HN') q Iq)|exact Iq].
        -- intros m [vs s1] Lm _. now apply ST.
      * destruct (negb _); [exact I|]. apply eend_bind. eapply eend_weaken; [apply array_stored_end with (P := fun q => V (snd q)) (N := N); [|lia|apply HN']|].
        -- intros o a s1 m Lm Ha. apply eend_bind, eend_lift. eapply rend_weaken; [apply paste_value_end; auto|]. intros; exact I.
        -- intros m [vs s1] Lm _. now apply ST.
    + bnd (array_read_end e PE olds 0%Z n s N HN B). intros m [[vs n'] s'] _ A. exact A.
  - destruct (negb _); [exact I|]. assert (PA : part w t0 a) by (eapply part_trans; [exact P|]; apply pt_fst; constructor).
    assert (PB : part w t0 b) by (eapply part_trans; [exact P|]; apply pt_snd; constructor).
    destruct old as [| |[|oa [|ob [|? ?]]]| | | | | |]; try exact I.
    bnd (paste_field_end a (IdName str_first) oa n s N PA HN B). intros m [[x n1] s1] _ H1. unfold goes in H1. cbn [fst snd] in *.
    bnd (paste_field_end b (IdName str_second) ob n1 s1 m PB (proj1 H1) (left_big _ _ _ _ B H1)). intros m2 [[y n2] s2] _ H2. unfold goes in *. cbn [fst snd eend] in *. eauto using left_trans.
  - destruct (negb _); [exact I|]. apply MEM; auto. apply Forall_map. apply Forall_forall. intros f Hf. cbn [f_type]. eapply part_trans; [exact P|]. eapply pt_tup; [exact Hf|constructor].
  - assert (PE : part w t0 e) by (eapply part_trans; eauto). cbn [pointers] in BT. bnd (PN e (w_new w e) n s N PE HN ltac:(lia)). intros m [[x n'] s'] _ A. exact A.
  - assert (PE : part w t0 e) by (eapply part_trans; eauto). cbn [pointers] in BT. bnd (PN e (w_new w e) n s N PE HN ltac:(lia)). intros m [[x n'] s'] _ A. exact A.
  - apply (shared_end e n s (CShared e)); auto.
  - apply (shared_end e n s (CWeak e)); auto.
  - destruct (negb _); [exact I|]. bnd (field_value_end F (IdName str_type_id) n N (big_lt _ _ B) HN). intros m [[v cp] n1] Lm (A1 & A2). cbn [fst snd] in *.
    destruct (_ && _); [exact I|]. destruct (_ && _); [exact I|].
    apply eend_bind, eend_lift. pose proof (fun b => REG b (v_data v, v_enc v)) as RG. destruct (w_reg w _ (v_data v, v_enc v)) as [[c|]| |z|] eqn:W; cbn [rend]; try exact I; [|exact (RG _ W)].
    eapply eend_weaken; [apply MEM; [|apply A2|eapply left_big; eauto]|].
    + apply Forall_forall. intros f Hf. eapply part_trans; [exact P|]. eapply pt_poly; [exact W|exact Hf|constructor].
    + intros m2 [[x n2] s2] _ H2. unfold goes in *. cbn [fst snd] in *. eauto using left_trans.
Qed.
End Step.

Lemma paste_node_end : forall F t old n s N, part w t0 t -> nk n -> (N + wt n + 2) * (H + 2) + pointers t < F -> eend N (paste_node F w t old n s) (goes N n).
Proof. induction F as [|f IH]; intros; [lia|]. cbn [paste_node]. now apply paste_step_end. Qed.

Lemma restore_end F old N : (N + 2) * (H + 2) <= F -> eend N (restore_prog F w t0 old) (fun _ _ => True).
Proof.
  intros L. unfold restore_prog. cbn [eend]. destruct N as [|N]; [exact I|]. intros [name v] _. destruct (negb _); [exact I|]. apply eend_bind.
  assert (HN : nk (mkL false (empty_node (v_type v)))) by apply from_none. pose proof (PTR t0 (pt_self w t0)) as PT.
  assert (X : (N + 2) * (H + 2) + (H + 2) <= F) by (cbn [Nat.add Nat.mul] in L; lia).
  destruct (scoped t0).
  - eapply eend_weaken; [apply paste_node_end; [constructor|exact HN|]|intros; exact I]. cbn [l_node]. rewrite size_empty, Nat.add_0_r. lia.
  - eapply eend_weaken; [apply paste_field_end; [|constructor|exact HN|]|intros; exact I].
    + intros. now apply paste_node_end.
    + unfold big. cbn [l_node]. rewrite size_empty, Nat.add_0_r. lia.
Qed.
Lemma unwrap_end F old n s : from V n -> (tree_size n + 3) * (H + 2) <= F -> eend 0 (unwrap_prog F w t0 old n s) (fun _ _ => True).
Proof.
  intros HN L. unfold unwrap_prog. apply eend_bind. pose proof (PTR t0 (pt_self w t0)) as PT.
  replace ((tree_size n + 3) * (H + 2)) with ((tree_size n + 2) * (H + 2) + (H + 2)) in L by (rewrite <- (Nat.mul_1_l (H + 2)) at 2; rewrite <- Nat.mul_add_distr_r; f_equal; lia).
  destruct (scoped t0).
  - eapply eend_weaken; [apply paste_node_end; [constructor|exact HN|]|intros; exact I]. cbn [l_node Nat.add]. lia.
  - eapply eend_weaken; [apply paste_field_end; [|constructor|exact HN|]|intros; exact I].
    + intros. now apply paste_node_end.
    + unfold big. cbn [l_node Nat.add]. lia.
Qed.
End End.
