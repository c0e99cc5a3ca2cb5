(** Proofs about pointers to characters. *)
From Coq Require Import ZArith List Bool Lia ZifyBool ZifyNat.
From Verif Require Import Base Lemmas M_Types M_Conv M_TpTools M_Charset S_Doc M_Tree S_Tree P_Tree P_TreeOps M_Object S_Object S_Chars P_Chars P_ObjEager M_CStr.
Import ListNotations.
Open Scope Z_scope.

Lemma cloop_finds e n mem i : array_of e n mem -> i < n -> ends_at (unit_size e) mem i ->
  forall f k, 0 <= k <= i -> (Z.to_nat (n - k) < f)%nat -> cstr_loop f (unit_size e) n k mem = Ok i.
Proof.
  intros A L (I & Z0 & NZ). induction f as [|f IH]; intros k K F; [lia|]. cbn [cstr_loop]. destruct (n <=? k) eqn:E2; [lia|].
  pose proof (char_len e n mem k A ltac:(lia)) as CL. fold (char_at (unit_size e) mem k). destruct (forallb _ _) eqn:E3.
  - apply (zero_char _ _ CL) in E3. destruct (Z.eq_dec k i) as [->|NE]; [reflexivity|]. destruct (NZ k); [lia|exact E3].
  - apply IH; [|lia]. destruct (Z.eq_dec k i) as [->|NE]; [|lia]. apply (zero_char _ _ CL) in Z0. congruence.
Qed.
Lemma cloop_misses e n mem : unterminated e n mem -> forall f k, 0 <= k <= n -> (Z.to_nat (n - k) < f)%nat -> cstr_loop f (unit_size e) n k mem = UB UbOob.
Proof.
  intros [A NZ]. induction f as [|f IH]; intros k K F; [lia|]. cbn [cstr_loop]. destruct (n <=? k) eqn:E2; [reflexivity|].
  pose proof (char_len e n mem k A ltac:(lia)) as CL. fold (char_at (unit_size e) mem k).
  destruct (forallb _ _) eqn:E3; [apply (zero_char _ _ CL) in E3; destruct (NZ k); [lia|exact E3]|]. apply IH; lia.
Qed.
Lemma wrap_cstr_text e n mem s : holds_text e n mem s -> wrap_cstr e (Some (n, mem)) = Ok s.
Proof. intros (A & i & L & E & ->). unfold wrap_cstr. pose proof E as (I & _). rewrite (cloop_finds e n mem i A L E) by lia. reflexivity. Qed.
Lemma wrap_cstr_none e n mem : unterminated e n mem -> wrap_cstr e (Some (n, mem)) = UB UbOob.
Proof. intros U. unfold wrap_cstr. pose proof U as [[A _] _]. now rewrite (cloop_misses e n mem U) by lia. Qed.
(** an array has a terminator or not *)
Lemma terminated_or_not e n mem : array_of e n mem -> (exists s, holds_text e n mem s) \/ unterminated e n mem.
Proof.
  intros A. assert (H : forall k, (Z.of_nat k <= n) -> (exists i, i < n /\ ends_at (unit_size e) mem i) \/ forall i, 0 <= i < Z.of_nat k -> char_at (unit_size e) mem i <> repeat 0 (Z.to_nat (unit_size e))).
  { induction k as [|k IH]; intros L; [right; intros i J; lia|]. destruct (IH ltac:(lia)) as [H|H]; [now left|].
    destruct (list_eq_dec Z.eq_dec (char_at (unit_size e) mem (Z.of_nat k)) (repeat 0 (Z.to_nat (unit_size e)))) as [E|E].
    - left. exists (Z.of_nat k). split; [lia|]. split; [lia|]. split; [exact E|]. intros j J. apply H. lia.
    - right. intros i J. destruct (Z.eq_dec i (Z.of_nat k)) as [->|NE]; [exact E|]. apply H. lia. }
  pose proof A as [A1 _]. destruct (H (Z.to_nat n) ltac:(lia)) as [(i & L & E)|N].
  - left. eexists. split; [exact A|]. exists i. split; [exact L|]. split; [exact E|reflexivity].
  - right. split; [exact A|]. intros i J. apply N. lia.
Qed.
Lemma insert_emit F w hp e n mem s name tab : holds_text e n mem s -> emit (S F) w hp (CStr e) (VStr s) name tab = let* d := insert_cstr e (Some (n, mem)) name in Ok (d, tab).
Proof. intros H. unfold insert_cstr. now rewrite (wrap_cstr_text _ _ _ _ H). Qed.

(** members *)
Definition says_text (m : cmember) (s : bytes) : Prop := exists n mem, c_ptr m = Some (n, mem) /\ holds_text (c_enc m) n mem s.
Definition text_field (m : cmember) : field := mkField (c_name m) false (CStr (c_enc m)).
Lemma members_emit F w hp ms ss tab : Forall2 says_text ms ss ->
  exists its, insert_cstrs ms = Ok its /\
    emits (fun fv : field * cv => emit (S F) w hp (f_type (fst fv)) (snd fv) (f_name (fst fv))) (combine (map text_field ms) (map VStr ss)) tab = Ok (its, tab).
Proof.
  induction 1 as [|m s ms ss (n & mem & P & T) H (its & A & B)]; [exists []; now split|]. cbn [insert_cstrs map combine emits fst snd f_type f_name text_field].
  rewrite (insert_emit F w hp _ _ _ _ (c_name m) tab T), P. unfold insert_cstr. rewrite (wrap_cstr_text _ _ _ _ T). cbn [rbind]. rewrite A, B. cbn [rbind]. eauto.
Qed.
Lemma class_emit F w hp c ms ss name tab : w_cls w c = map text_field ms -> Forall2 says_text ms ss ->
  exists d, insert_cclass ms name = Ok d /\ emit (S (S F)) w hp (CCls c) (VList (map VStr ss)) name tab = Ok (d, tab).
Proof.
  intros C H. destruct (members_emit F w hp ms ss tab H) as (its & A & B). unfold insert_cclass. rewrite A. cbn [rbind]. eexists. split; [reflexivity|].
  assert (L : length ms = length ss) by (clear - H; induction H; cbn; congruence).
  cbn [emit]. rewrite C. rewrite !map_length, L, Nat.eqb_refl. cbn [emit] in B. rewrite B. reflexivity.
Qed.

(** restoring *)
Lemma paste_cstr_place w pn F t id old n s es v n' s' es' p : scoped t = false ->
  erun (paste_field w pn F t id old n s) es = Some (Ok ((v, n', s'), es')) -> erun (paste_cstr_field F id p n) es = Some (Ok ((p, n'), es')).
Proof.
  unfold paste_field, paste_cstr_field. intros ->. rewrite !erun_bind. destruct (erun (field_value F id n) es) as [[[r es1]| | |]|]; try discriminate.
  cbn [paste_cstr elift ebind erun]. rewrite erun_bind. destruct (paste_value w t old (fst (fst r))); cbn [elift erun]; try discriminate. intros [= _ <- _ <-]. reflexivity.
Qed.
Lemma field_value_tree F id ty its : field_value F id (pnode ty its) = match select false id its with Some (_, d) => ERet (snd (val_of d), false, pnode ty its) | None => EThrow end.
Proof.
  unfold field_value, pnode. cbn [l_parsed l_node]. destruct id as [k|i].
  - unfold value_named. cbn [n_values]. rewrite (lookup_spec _ _ k) by apply utf8_names. rewrite first_value. now destruct (select false (IdName k) its) as [[? d]|].
  - unfold value_at. cbn [n_values]. unfold select. destruct (Z.ltb_spec i 0) as [N|N]; [now rewrite link_at_neg|].
    rewrite link_at_spec by lia. rewrite nth_value. now destruct (nth_match (of_kind false) (Z.to_nat i) its) as [[? d]|].
Qed.
(** an item that is a value of that name *)
Definition has_value (k : bytes) (its : list doc) : Prop := exists v, In (DVal k v) its.
Lemma select_value k its : match select false (IdName k) its with Some _ => has_value k its | None => ~ has_value k its end.
Proof.
  unfold select. pose proof (nth_match_find (of_name false k) its) as E. destruct (nth_match (of_name false k) 0 its) as [[j d]|].
  - symmetry in E. apply find_some in E. destruct E as [I P]. unfold of_name in P. apply andb_prop in P. destruct P as [P1 P2]. destruct d as [k' v|]; [|discriminate].
    cbn [doc_name] in P2. destruct (bytes_eqb_spec k' k) as [->|]; [|discriminate]. now exists v.
  - symmetry in E. intros [v I]. pose proof (find_none _ _ E _ I) as N. unfold of_name in N. cbn [is_sc doc_name Bool.eqb andb] in N. now rewrite (proj2 (bytes_eqb_eq k k) eq_refl) in N.
Qed.
Lemma paste_cstrs_tree F ty its : forall ms, (Forall (fun m => has_value (c_name m) its) ms -> paste_cstrs F ms (pnode ty its) = ERet (ms, pnode ty its)) /\
  (~ Forall (fun m => has_value (c_name m) its) ms -> paste_cstrs F ms (pnode ty its) = EThrow).
Proof.
  induction ms as [|m ms [I1 I2]]; [split; [reflexivity|intros N; destruct N; constructor]|]. cbn [paste_cstrs]. unfold paste_cstr_field. rewrite field_value_tree.
  pose proof (select_value (c_name m) its) as S. destruct (select false (IdName (c_name m)) its) as [[j d]|]; cbn [paste_cstr elift ebind fst snd].
  - split; intros H.
    + inversion H as [|? ? H1 H2]; subst. rewrite (I1 H2). destruct m; reflexivity.
    + rewrite I2; [reflexivity|]. intros K. apply H. now constructor.
  - split; intros H; [inversion H; contradiction|reflexivity].
Qed.
Lemma paste_cstrs_place w pn F (t : cmember -> ct) : forall ms olds n s vi ni es vs n' s' es', Forall (fun m => 0 < zlen (c_name m) /\ scoped (t m) = false) ms ->
  erun (paste_fields w pn F (map (fun m => mkField (c_name m) false (t m)) ms) olds n s vi ni) es = Some (Ok ((vs, n', s'), es')) -> erun (paste_cstrs F ms n) es = Some (Ok ((ms, n'), es')).
Proof.
  induction ms as [|m ms IH]; intros olds n s vi ni es vs n' s' es' FA H; cbn [map paste_fields paste_cstrs] in *; [now injection H as _ <- _ <-|]. inversion FA as [|? ? [L S] FA']; subst. destruct olds as [|old olds]; [discriminate|].
  cbn [f_opt f_name f_type] in H. rewrite S in H. rewrite erun_bind in H. cbn [erun fst snd negb] in H. replace (0 <? zlen (c_name m)) with true in H by (symmetry; now apply Z.ltb_lt). rewrite erun_bind in H. rewrite erun_bind.
  destruct (erun (paste_field w pn F (t m) (IdName (c_name m)) old n s) es) as [[[[[v n1] s1] es1]| | |]|] eqn:E; try discriminate. rewrite (paste_cstr_place _ _ _ _ _ _ _ _ _ _ _ _ _ (c_ptr m) S E). cbn [snd fst].
  rewrite erun_bind in H. rewrite erun_bind. destruct (erun (paste_fields w pn F _ olds n1 s1 _ _) es1) as [[[[[vs2 n2] s2] es2]| | |]|] eqn:E2; try discriminate. rewrite (IH _ _ _ _ _ _ _ _ _ _ FA' E2). cbn [erun fst snd]. cbn [erun] in H.
  injection H as _ <- _ <-. now destruct m.
Qed.
