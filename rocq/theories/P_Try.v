(** Making objects with the table of shared objects also after an exception. *)
From Coq Require Import ZArith List Bool Lia ZifyBool ZifyNat.
From Verif Require Import Base Lemmas M_Types M_Conv M_TpTools M_In M_Event M_Tree M_Object M_Access M_Try S_ObjSafe S_Again S_Try P_Again P_ObjStore.
Import ListNotations.
Open Scope Z_scope.

(** * The same as M_Object *)
Definition as_prog {A} (n : node) (m : tres A) : eprog (A * lnode * rstate) :=
  match m with (Ok a, s) => ERet (a, mkL true n, s) | (Err, _) => EThrow | (UB u, _) => EUndef u | (Fuel, _) => EFuel end.
Definition as_prog2 {A} (m : tres A) : eprog (A * rstate) :=
  match m with (Ok a, s) => ERet (a, s) | (Err, _) => EThrow | (UB u, _) => EUndef u | (Fuel, _) => EFuel end.
Section Same.
Variables (w : world) (tn : ct -> cv -> node -> rstate -> tres cv) (pn : ct -> cv -> lnode -> rstate -> eprog (cv * lnode * rstate)) (F : nat).
Hypothesis H : forall t old n s, pn t old (mkL true n) s = as_prog n (tn t old n s).
Ltac go := match goal with |- context [ebind (as_prog _ ?m)] => destruct m as [[?| |?|] ?] | |- context [ebind (as_prog2 ?m)] => destruct m as [[?| |?|] ?] end; cbn [as_prog as_prog2 tbind ebind fst snd]; try reflexivity.
Lemma same_field t id old n s : paste_field w pn F t id old (mkL true n) s = as_prog n (tfield w tn t id old n s).
Proof.
  unfold paste_field, tfield, field_node, field_value. cbn [l_parsed l_node]. destruct (scoped t).
  - destruct (match id with IdName k => _ | IdPos i => _ end) as [c| | |]; cbn [elift ebind tbind as_prog fst snd]; try reflexivity. rewrite H. go.
  - destruct (match id with IdName k => _ | IdPos i => _ end) as [c| | |]; cbn [elift ebind tbind as_prog fst snd]; try reflexivity. destruct (paste_value w t old (snd c)); reflexivity.
Qed.
Lemma same_fields n : forall fs olds s vi ni, paste_fields w pn F fs olds (mkL true n) s vi ni = as_prog n (tfields w tn fs olds n s vi ni).
Proof.
  induction fs as [|f fs IH]; intros olds s vi ni; cbn [paste_fields tfields]; [reflexivity|]. destruct olds as [|old olds]; [reflexivity|]. cbv zeta.
  assert (E : (if f_opt f then has_field F (scoped (f_type f)) (f_name f) (mkL true n) else ERet (true, mkL true n)) =
              ebind (elift (if f_opt f then if scoped (f_type f) then has_node n (f_name f, EUTF8) else has_value n (f_name f, EUTF8) else Ok true)) (fun b => ERet (b, mkL true n))).
  { destruct (f_opt f); [reflexivity|reflexivity]. }
  rewrite E. clear E. set (hr := if f_opt f then _ else _). destruct hr as [b| | |]; cbn [elift ebind tbind as_prog fst snd]; try reflexivity. destruct b; cbn [negb].
  - rewrite same_field. go. rewrite IH. go.
  - rewrite IH. go.
Qed.
Lemma same_each {A B} (f : bytes * A -> B -> rstate -> eprog (B * rstate)) g : (forall a acc s, f a acc s = as_prog2 (g a acc s)) -> forall l acc s, each_stored f l acc s = as_prog2 (teach g l acc s).
Proof. intros E. induction l as [|a l IH]; intros acc s; cbn [each_stored teach]; [reflexivity|]. rewrite E. go. apply IH. Qed.
Lemma same_array {A} (f : cv -> bytes * A -> rstate -> eprog (cv * rstate)) g : (forall old a s, f old a s = as_prog2 (g old a s)) -> forall olds l s, array_stored f olds l s = as_prog2 (tarray g olds l s).
Proof.
  intros E. induction olds as [|old olds IH]; intros l s; cbn [array_stored tarray]; [reflexivity|]. destruct l as [|a l]; [reflexivity|]. rewrite E. go. rewrite IH. go.
Qed.
Lemma same_elem {B} (mk : bytes -> cv -> B -> B) e n acc s fv fn :
  (forall a acc s, fv a acc s = ebind (elift (paste_value w e (w_new w e) (snd a))) (fun v => ERet (mk (fst a) v acc, s))) ->
  (forall a acc s, fn a acc s = ebind (pn e (w_new w e) (snd a) s) (fun r => let '(v, c', s') := r in ERet (mk (fst a) v acc, c', s'))) ->
  each_item F (scoped e) fv fn acc (mkL true n) s = as_prog n (telem w tn mk e n acc s).
Proof.
  intros Ev En. unfold each_item, telem. cbn [l_parsed l_node]. destruct (scoped e).
  - rewrite (same_each _ (fun a acc s => tbind (tn e (w_new w e) (snd a) s) (fun v s => (Ok (mk (fst a) v acc), s)))); [go|]. intros a acc' s'. rewrite En. cbn [fst snd]. rewrite H. go.
  - rewrite (same_each _ (fun a acc s => tbind (paste_value w e (w_new w e) (snd a), s) (fun v s => (Ok (mk (fst a) v acc), s)))); [go|]. intros a acc' s'. rewrite Ev. destruct (paste_value w e (w_new w e) (snd a)); reflexivity.
Qed.
Lemma same_map k e n acc s : each_item F true (fun _ _ _ => EThrow) (elem_entry w pn F k e) acc (mkL true n) s = as_prog n (teach (tentry w tn k e) (n_nodes n) acc s).
Proof.
  unfold each_item. cbn [l_parsed l_node]. rewrite (same_each _ (tentry w tn k e)); [go|]. intros a acc' s'. unfold elem_entry, tentry. cbn [fst snd]. rewrite same_field. go. rewrite same_field. go.
Qed.
Lemma same_step t old n s : paste_step w pn F t old (mkL true n) s = as_prog n (tstep w tn t old n s).
Proof.
  assert (M : forall fs old s vi (mk : list cv -> cv), match old with VList olds => ebind (paste_fields w pn F fs olds (mkL true n) s vi 0) (fun r => let '(vs, n', s') := r in ERet (mk vs, n', s')) | _ => EThrow end =
    as_prog n (match old with VList olds => tbind (tfields w tn fs olds n s vi 0) (fun vs s => (Ok (mk vs), s)) | _ => (Err, s) end)).
  { intros fs o s' vi mk. destruct o; try reflexivity. rewrite same_fields. go. }
  destruct t; unfold paste_step, tstep; cbv zeta; cbn [l_node l_parsed]; try reflexivity.
  - destruct (negb _); [reflexivity|]. apply M.
  - destruct (negb _); [reflexivity|]. rewrite (same_elem (fun _ v acc => acc ++ [v])); [go|reflexivity|reflexivity].
  - destruct (negb _); [reflexivity|]. rewrite (same_elem (fun _ => emplace (w_lt w) (fun v => v))); [go|reflexivity|reflexivity].
  - destruct (negb _); [reflexivity|]. rewrite same_map. go.
  - destruct (negb _); [reflexivity|]. rewrite (same_elem tab_insert); [go|reflexivity|reflexivity].
  - destruct (negb _); [reflexivity|]. destruct old; try reflexivity. destruct (negb _); [reflexivity|]. destruct (scoped t).
    + destruct (negb _); [reflexivity|]. rewrite (same_array _ (fun old a s => tn t old (snd a) s)); [go|]. intros. rewrite H. go.
    + destruct (negb _); [reflexivity|]. rewrite (same_array _ (fun old a s => (paste_value w t old (snd a), s))); [go|]. intros. destruct (paste_value _ _ _ _); reflexivity.
  - destruct (negb _); [reflexivity|]. destruct old as [| |[|oa [|ob [|]]]| | | | | |]; try reflexivity. rewrite same_field. go. rewrite same_field. go.
  - destruct (negb _); [reflexivity|]. apply M.
  - rewrite H. go.
  - rewrite H. go.
  - rewrite same_field. go. destruct a; try reflexivity. destruct (find_key _ _); [destruct (nth_error _ _) as [[? ?]|]; [destruct (ct_eqb _ _)|]; reflexivity|]. rewrite same_field. go.
  - rewrite same_field. go. destruct a; try reflexivity. destruct (find_key _ _); [destruct (nth_error _ _) as [[? ?]|]; [destruct (ct_eqb _ _)|]; reflexivity|]. rewrite same_field. go.
  - destruct (negb _); [reflexivity|]. unfold field_value. cbn [l_parsed l_node]. destruct (value_named n (str_type_id, EUTF8)) as [[k v]| | |]; cbn [elift ebind tbind as_prog fst snd]; try reflexivity. destruct (_ && _); [reflexivity|]. cbn [andb].
    destruct (w_reg w _ (v_data v, v_enc v)) as [[c|]| | |]; cbn [elift ebind tbind as_prog]; try reflexivity. apply M.
Qed.
End Same.
Lemma same_node w : forall F t old n s, paste_node F w t old (mkL true n) s = as_prog n (tpaste F w t old n s).
Proof. induction F as [|F IH]; intros t old n s; cbn [paste_node tpaste]; [reflexivity|]. apply same_step. intros. apply IH. Qed.
Lemma same_union F w t u s : handle_unwrap F w t u s = as_prog2 (union_unwrap F w t u s).
Proof.
  unfold handle_unwrap, union_unwrap. destruct (scoped t).
  - destruct u as [[k n|k v]|]; try reflexivity. unfold node_paste. rewrite same_node. destruct (tpaste F w t (w_new w t) n s) as [[?| |?|] ?]; reflexivity.
  - destruct u as [[k n|k v]|]; try reflexivity. destruct (value_unwrap w t v); reflexivity.
Qed.

(** * What a step does to the table *)
Lemma lookup_in {A} (l : list (bytes * A)) k c : lookup l (k, EUTF8) = Ok c -> In c l /\ fst c = k.
Proof.
  unfold lookup. destruct (hash_string (k, EUTF8)) as [h| | |]; cbn [rbind]; try discriminate. unfold find_link.
  assert (G : forall (l : list (bytes * A)) i j, find_loop (cmp_hash_name h (k, EUTF8)) i l = Ok (Some j) -> exists c, nth_error l (j - i) = Some c /\ (i <= j)%nat /\ fst c = k).
  { induction l0 as [|a l0 IH]; intros i j; cbn [find_loop]; [discriminate|]. unfold cmp_hash_name at 1, cmp_name. destruct (fnv1a (fst a)) as [x| | |]; cbn [rbind]; try discriminate. destruct (x =? h).
    - destruct (str_eq (fst a, EUTF8) (k, EUTF8)) as [b| | |] eqn:E; cbn [rbind]; try discriminate. destruct b.
      + intros [= <-]. exists a. rewrite Nat.sub_diag. split; [reflexivity|]. split; [lia|]. unfold str_eq in E. cbn [fst snd enc_eqb] in E. destruct ((zlen (fst a) =? 0) && (zlen k =? 0)) eqn:Z.
        * unfold zlen in Z. apply andb_true_iff in Z. destruct Z as [Z1 Z2]. destruct (fst a), k; cbn [length] in *; try lia. reflexivity.
        * injection E as E. now apply bytes_eqb_eq.
      + intros E'. destruct (IH _ _ E') as (c0 & N & L & Q). exists c0. replace (j - i)%nat with (S (j - S i)) by lia. cbn [nth_error]. repeat split; auto; lia.
    - cbn [rbind]. intros E'. destruct (IH _ _ E') as (c0 & N & L & Q). exists c0. replace (j - i)%nat with (S (j - S i)) by lia. cbn [nth_error]. repeat split; auto; lia. }
  destruct (find_loop _ 0 l) as [[j|]| | |] eqn:E; cbn [rbind]; try discriminate. destruct (G _ _ _ E) as (c0 & N & _ & Q). rewrite Nat.sub_0_r in N. cbn [pick]. rewrite N. cbn [deref]. intros [= <-]. split; [now apply nth_error_In in N|exact Q].
Qed.
Lemma at_in {A} (l : list A) i c : rbind (link_at true i l) deref = Ok c -> In c l.
Proof. unfold link_at. destruct (_ && _); cbn [rbind]; [|discriminate]. destruct (nth_error l (Z.to_nat i)) eqn:E; cbn [deref]; [|discriminate]. intros [= <-]. now apply nth_error_In in E. Qed.

Section Kept.
Variables (w : world) (I : node -> forall A : Type, (rstate -> tres A) -> Prop) (U : ct -> Prop) (D : node -> Prop).
Hypothesis I_ret : forall n A (r : res A), I n A (fun s => (r, s)).
Hypothesis I_bind : forall n A B (m : rstate -> tres A) (f : A -> rstate -> tres B), I n A m -> (forall a, I n B (f a)) -> I n B (fun s => tbind (m s) f).
Hypothesis I_up : forall n q A m, In q (n_nodes n) -> I (snd q) A m -> I n A m.
Hypothesis HU : forall t u, U t -> part w t u -> U u.
Hypothesis HD : forall n q, D n -> In q (n_nodes n) -> D (snd q).
Section Step.
Variable tn : ct -> cv -> node -> rstate -> tres cv.
Hypothesis Htn : forall t old n, U t -> D n -> I n cv (tn t old n).
Hypothesis Hshared : forall t e old n, t = CShared e \/ t = CWeak e -> U t -> D n -> I n cv (tstep w tn t old n).

Lemma k_child t old n q : U t -> D n -> In q (n_nodes n) -> I n cv (tn t old (snd q)).
Proof. intros Ut Dn J. apply (I_up n q); [exact J|]. apply Htn; [exact Ut|]. now apply (HD n). Qed.
Lemma k_field t id old n : U t -> D n -> I n cv (tfield w tn t id old n).
Proof.
  intros Ut Dn. unfold tfield. destruct (scoped t).
  - destruct (match id with IdName k => _ | IdPos i => _ end) as [c| | |] eqn:E; cbn [tbind]; [|apply I_ret..]. apply k_child; auto. destruct id; [now apply lookup_in in E|now apply at_in in E].
  - destruct (match id with IdName k => _ | IdPos i => _ end) as [c| | |]; cbn [tbind]; apply I_ret.
Qed.
Lemma k_fields n : D n -> forall fs olds vi ni, Forall (fun f => U (f_type f)) fs -> I n _ (fun s => tfields w tn fs olds n s vi ni).
Proof.
  intros Dn. induction fs as [|f fs IH]; intros olds vi ni G; cbn [tfields]; [apply I_ret|]. destruct olds as [|old olds]; [apply I_ret|]. inversion G as [|? ? Uf G']; subst. cbv zeta. apply (I_bind n _ _ (fun s => (_, s))); [apply I_ret|]. intros h. destruct (negb h).
  - apply (I_bind n _ _ (fun s => tfields w tn fs olds n s vi ni)); [now apply IH|]. intros. apply I_ret.
  - apply I_bind; [now apply k_field|]. intros v. apply (I_bind n _ _ (fun s => tfields w tn fs olds n s _ _)); [now apply IH|]. intros. apply I_ret.
Qed.
Lemma k_each n {A B} (f : bytes * A -> B -> rstate -> tres B) : forall l acc, (forall a acc, In a l -> I n B (f a acc)) -> I n B (fun s => teach f l acc s).
Proof. induction l as [|a l IH]; intros acc G; cbn [teach]; [apply I_ret|]. apply I_bind; [apply G; now left|]. intros b. apply IH. intros; apply G; now right. Qed.
Lemma k_array n {A} (f : cv -> bytes * A -> rstate -> tres cv) : forall olds l, (forall old a, In a l -> I n cv (f old a)) -> I n _ (fun s => tarray f olds l s).
Proof.
  induction olds as [|old olds IH]; intros l G; cbn [tarray]; [apply I_ret|]. destruct l as [|a l]; [apply I_ret|]. apply I_bind; [apply G; now left|]. intros v. apply (I_bind n _ _ (fun s => tarray f olds l s)); [apply IH; intros; apply G; now right|]. intros. apply I_ret.
Qed.
Lemma k_elem {B} (mk : bytes -> cv -> B -> B) e n acc : U e -> D n -> I n B (fun s => telem w tn mk e n acc s).
Proof.
  intros Ue Dn. unfold telem. destruct (scoped e); apply k_each; intros a acc' J.
  - apply I_bind; [now apply k_child|]. intros. apply I_ret.
  - apply (I_bind n _ _ (fun s => (_, s))); [apply I_ret|]. intros. apply I_ret.
Qed.
Lemma k_entry k e n a acc : U k -> U e -> D n -> In a (n_nodes n) -> I n _ (tentry w tn k e a acc).
Proof.
  intros Uk Ue Dn J. assert (Da : D (snd a)) by now apply (HD n). apply (I_up n a); [exact J|]. unfold tentry. apply I_bind; [now apply k_field|]. intros x. apply I_bind; [now apply k_field|]. intros. apply I_ret.
Qed.
Lemma k_step t old n : U t -> D n -> I n cv (tstep w tn t old n).
Proof.
  intros Ut Dn.
  assert (P : forall u, part w t u -> U u) by (intros u; now apply HU).
  assert (M : forall fs old vi (mk : list cv -> cv), Forall (fun f => U (f_type f)) fs -> I n cv (fun s => match old with VList olds => tbind (tfields w tn fs olds n s vi 0) (fun vs s => (Ok (mk vs), s)) | _ => (Err, s) end)).
  { intros fs o vi mk G. destruct o as [| |l| | | | | |]; try apply I_ret. apply (I_bind n _ _ (fun s => tfields w tn fs l n s vi 0)); [now apply k_fields|]. intros. apply I_ret. }
  destruct t; try (unfold tstep; apply I_ret); try (eapply Hshared; [|exact Ut|exact Dn]; [(left; reflexivity) || (right; reflexivity)]); unfold tstep; cbv zeta.
  - destruct (negb _); [apply I_ret|]. apply M. apply Forall_forall. intros f J. apply P. eapply pt_cls; [exact J|apply pt_self].
  - destruct (negb _); [apply I_ret|]. apply (I_bind n _ _ (fun s => telem w tn _ t n _ s)); [apply k_elem; [apply P, pt_seq, pt_self|exact Dn]|]. intros. apply I_ret.
  - destruct (negb _); [apply I_ret|]. apply (I_bind n _ _ (fun s => telem w tn _ t n _ s)); [apply k_elem; [apply P, pt_set, pt_self|exact Dn]|]. intros. apply I_ret.
  - destruct (negb _); [apply I_ret|]. apply (I_bind n _ _ (fun s => teach _ (n_nodes n) _ s)); [apply k_each; intros; apply k_entry; auto; apply P; [apply pt_key, pt_self|apply pt_map, pt_self]|]. intros. apply I_ret.
  - destruct (negb _); [apply I_ret|]. apply (I_bind n _ _ (fun s => telem w tn _ t n _ s)); [apply k_elem; [apply P, pt_tab, pt_self|exact Dn]|]. intros. apply I_ret.
  - assert (Ut' : U t) by apply P, pt_arr, pt_self. destruct (negb _); [apply I_ret|]. destruct old as [| |l| | | | | |]; try apply I_ret. destruct (negb _); [apply I_ret|]. destruct (scoped t); (destruct (negb _); [apply I_ret|]).
    + apply (I_bind n _ _ (fun s => tarray _ l (n_nodes n) s)); [apply (k_array n (fun old a s => tn t old (snd a) s)); intros; now apply k_child|]. intros. apply I_ret.
    + apply (I_bind n _ _ (fun s => tarray _ l (n_values n) s)); [apply k_array; intros; apply I_ret|]. intros. apply I_ret.
  - destruct (negb _); [apply I_ret|]. destruct old as [| |[|oa [|ob [|]]]| | | | | |]; try apply I_ret. apply I_bind; [apply k_field; [apply P, pt_fst, pt_self|exact Dn]|]. intros x. apply I_bind; [apply k_field; [apply P, pt_snd, pt_self|exact Dn]|]. intros. apply I_ret.
  - destruct (negb _); [apply I_ret|]. apply M. apply Forall_forall. intros f J. apply in_map_iff in J. destruct J as (g & <- & J). cbn [f_type]. apply P. eapply pt_tup; [exact J|apply pt_self].
  - apply I_bind; [apply Htn; [apply P, pt_ptr, pt_self|exact Dn]|]. intros. apply I_ret.
  - apply I_bind; [apply Htn; [apply P, pt_uniq, pt_self|exact Dn]|]. intros. apply I_ret.
  - destruct (negb _); [apply I_ret|]. apply (I_bind n _ _ (fun s => (_, s))); [apply I_ret|]. intros c. cbv zeta. destruct (_ && _); [apply I_ret|].
    destruct (w_reg w _ (v_data (snd c), v_enc (snd c))) as [[c'|]| | |] eqn:E; cbn [tbind]; try apply I_ret. apply M. apply Forall_forall. intros f J. apply P. eapply pt_poly; [exact E|exact J|apply pt_self].
Qed.
End Step.
Hypothesis Hshared : forall tn, (forall t old n, U t -> D n -> I n cv (tn t old n)) -> forall t e old n, t = CShared e \/ t = CWeak e -> U t -> D n -> I n cv (tstep w tn t old n).
Lemma k_paste : forall F t old n, U t -> D n -> I n cv (tpaste F w t old n).
Proof. induction F as [|F IH]; intros t old n Ut Dn; cbn [tpaste]; [apply I_ret|]. apply k_step; [exact IH|exact (Hshared _ IH)|exact Ut|exact Dn]. Qed.
End Kept.

(** ** The table only grows *)
Definition grows {A} (m : rstate -> tres A) : Prop := forall s, later s (snd (m s)).
Lemma grows_ret {A} (r : res A) : grows (fun s => (r, s)).
Proof. intros s. apply P_Again.ext_refl. Qed.
Lemma grows_bind {A B} (m : rstate -> tres A) (f : A -> rstate -> tres B) : grows m -> (forall a, grows (f a)) -> grows (fun s => tbind (m s) f).
Proof. intros M G s. specialize (M s). destruct (m s) as [[a| |u|] s']; cbn [tbind snd] in *; auto. eapply P_Again.ext_trans; [exact M|apply G]. Qed.
Lemma later_more s key (a : nat) q : find_key key (r_tab s) = None -> later s (mkRs (r_heap s ++ [q]) ((key, a) :: r_tab s)).
Proof.
  intros N. split; cbn [r_tab r_heap].
  - intros k b E. cbn [find_key]. destruct (key =? k) eqn:Z; [|exact E]. apply Z.eqb_eq in Z. congruence.
  - intros b p E. rewrite nth_error_app1; [exact E|]. apply nth_error_Some. congruence.
Qed.
Lemma later_heap s q : later s (mkRs (r_heap s ++ [q]) (r_tab s)).
Proof. split; cbn [r_tab r_heap]; [auto|]. intros b p E. rewrite nth_error_app1; [exact E|]. apply nth_error_Some. congruence. Qed.
Lemma shared_step w tn t e old n : t = CShared e \/ t = CWeak e -> tstep w tn t old n = fun s => tbind (tfield w tn (CNum TUI64) (IdName str_shared_key) (VNum 0) n s) (fun k s =>
          match k with
          | VNum key =>
              match find_key key (r_tab s) with
              | Some a => match nth_error (r_heap s) a with Some (u, _) => if ct_eqb u e then (Ok (VRef a), s) else (UB UbCast, s) | None => (UB UbDangling, s) end
              | None =>
                  tbind (tfield w tn e (IdName str_shared_value) (w_new w e) n s) (fun x s =>
                    let a := length (r_heap s) in
                    (Ok (VRef a), mkRs (r_heap s ++ [(e, x)]) (match find_key key (r_tab s) with Some _ => r_tab s | None => (key, a) :: r_tab s end)))
              end
          | _ => (Err, s)
          end).
Proof. intros [-> | ->]; reflexivity. Qed.
Lemma paste_grows w F t old n : grows (tpaste F w t old n).
Proof.
  apply (k_paste w (fun _ A m => grows m) (fun _ => True) (fun _ => True)); auto.
  - intros _ A r. apply grows_ret.
  - intros _ A B m f. apply grows_bind.
  - intros tn H t' e old' n' E _ _. rewrite (shared_step _ _ _ _ _ _ E).
    assert (K : forall t id old, grows (tfield w tn t id old n')).
    { intros t0 id o. apply (k_field w (fun _ A m => grows m) (fun _ => True) (fun _ => True)); auto. intros _ A r. apply grows_ret. }
    apply grows_bind; [apply K|]. intros k s. destruct k as [key| | | | | | | |]; try apply P_Again.ext_refl. destruct (find_key key (r_tab s)) eqn:Fk.
    + destruct (nth_error (r_heap s) n0) as [[? ?]|]; [destruct (ct_eqb _ _)|]; apply P_Again.ext_refl.
    + apply grows_bind; [apply K|]. intros x s'. cbv zeta. cbn [snd]. destruct (find_key key (r_tab s')) eqn:Fk'; [apply later_heap|now apply later_more].
Qed.

(** ** Types without shared pointers leave it alone *)
Definition quiet {A} (m : rstate -> tres A) : Prop := exists r, forall s, m s = (r, s).
Lemma quiet_bind {A B} (m : rstate -> tres A) (f : A -> rstate -> tres B) : quiet m -> (forall a, quiet (f a)) -> quiet (fun s => tbind (m s) f).
Proof.
  intros [r M] G. destruct r as [a| |u|].
  - destruct (G a) as [r' E]. exists r'. intros s. rewrite M. cbn [tbind]. apply E.
  - exists Err. intros s. now rewrite M.
  - exists (UB u). intros s. now rewrite M.
  - exists Fuel. intros s. now rewrite M.
Qed.
Lemma part_trans w : forall a b c, part w a b -> part w b c -> part w a c.
Proof. intros a b c P Q. induction P; try (solve [econstructor; eauto]); [exact Q|inversion Q; apply pt_shared_key|inversion Q; apply pt_weak_key]. Qed.
Lemma paste_quiet w F t old n : unshared w t -> quiet (tpaste F w t old n).
Proof.
  intros Ut. apply (k_paste w (fun _ A m => quiet m) (unshared w) (fun _ => True)); auto.
  - intros _ A r. exists r. auto.
  - intros _ A B m f. apply quiet_bind.
  - intros a b Ua Pb e. specialize (Ua e). destruct Ua as [U1 U2]. split; intros P; [apply U1|apply U2]; eapply part_trans; eauto.
  - intros tn _ t' e old' n' E Ut' _. destruct (Ut' e) as [U1 U2]. destruct E as [-> | ->]; [destruct U1|destruct U2]; constructor.
Qed.

(** ** The same question again *)
Section Steady.
Variable w : world.
Definition steady (n : node) (A : Type) (m : rstate -> tres A) : Prop := forall s,
  later s (snd (m s)) /\ newk (fun k => key_in w k n) s (snd (m s)) /\
  match fst (m s) with Ok a => forall s2, later (snd (m s)) s2 -> m s2 = (Ok a, s2) | r => m (snd (m s)) = (r, snd (m s)) end.
Lemma steady_ret n A (r : res A) : steady n A (fun s => (r, s)).
Proof. intros s. cbn [fst snd]. split; [apply P_Again.ext_refl|]. split; [apply newk_refl|]. destruct r; auto. Qed.
Lemma steady_bind n A B (m : rstate -> tres A) (f : A -> rstate -> tres B) : steady n A m -> (forall a, steady n B (f a)) -> steady n B (fun s => tbind (m s) f).
Proof.
  intros M G s. destruct (M s) as (L & N & R). destruct (m s) as [[a| |u|] s'] eqn:E; cbn [tbind fst snd] in *.
  - destruct (G a s') as (L' & N' & R'). destruct (f a s') as [r s2] eqn:E2. cbn [fst snd] in *. split; [eapply P_Again.ext_trans; eauto|]. split; [eapply newk_trans; eauto|].
    destruct r as [b| |u|].
    + intros s3 L3. rewrite (R s3 (P_Again.ext_trans _ _ _ L' L3)). cbn [tbind]. now apply R'.
    + rewrite (R s2 L'). exact R'.
    + rewrite (R s2 L'). exact R'.
    + rewrite (R s2 L'). exact R'.
  - split; [exact L|]. split; [exact N|]. now rewrite R.
  - split; [exact L|]. split; [exact N|]. now rewrite R.
  - split; [exact L|]. split; [exact N|]. now rewrite R.
Qed.
Lemma steady_up n q A m : In q (n_nodes n) -> steady (snd q) A m -> steady n A m.
Proof.
  intros J M s. destruct (M s) as (L & N & R). split; [exact L|]. split; [|exact R]. intros k N1 N2. destruct n as [ty vs ns]. eapply ki_below; [exact J|]. now apply N.
Qed.
Lemma apart_up n q : keys_apart w n -> In q (n_nodes n) -> keys_apart w (snd q).
Proof. intros K J. inversion K as [ty vs ns A _]; subst. rewrite Forall_forall in A. now apply A. Qed.
Lemma bare_key k ty : ~ key_in w k (mkNode ty [] []).
Proof. intros H. inversion H as [? ? ? ? J|? ? ? ? J]; subst; destruct J. Qed.
Lemma paste_steady F t old n : keys_apart w n -> steady n cv (tpaste F w t old n).
Proof.
  intros K. apply (k_paste w steady (fun _ => True) (keys_apart w)); auto using steady_ret, steady_bind.
  { intros; eapply steady_up; eauto. } { intros; eapply apart_up; eauto. }
  clear. intros tn Htn t e old n E _ K. rewrite (shared_step _ _ _ _ _ _ E). clear E. unfold tfield at 1. change (scoped (CNum TUI64)) with false. cbv iota.
  destruct (value_named n (str_shared_key, EUTF8)) as [[nm v]| | |] eqn:V; cbn [tbind snd]; try apply steady_ret. apply lookup_in in V. cbn [fst] in V. destruct V as [V ->].
  destruct (paste_value w (CNum TUI64) (VNum 0) v) as [[key| | | | | | | |]| | |] eqn:P; cbn [tbind]; try apply steady_ret.
  (* the content is in another node, if it has shared objects *)
  assert (C : exists n', steady n' cv (tfield w tn e (IdName str_shared_value) (w_new w e) n) /\ ~ key_in w key n' /\ forall k, key_in w k n' -> key_in w k n).
  { inversion K as [ty vs ns Ka Kk]; subst. cbn [n_values] in V. specialize (Kk v key V P). rewrite Forall_forall in Kk. unfold tfield. destruct (scoped e).
    - unfold node_named. destruct (lookup (n_nodes (mkNode ty vs ns)) (str_shared_value, EUTF8)) as [q| | |] eqn:L; cbn [tbind].
      + apply lookup_in in L. destruct L as [L _]. exists (snd q). split; [apply Htn; [exact Logic.I|]; eapply apart_up; eauto|]. split; [now apply Kk|]. intros k. now apply ki_below.
      + exists (mkNode ty [] []). split; [apply steady_ret|]. split; [apply bare_key|intros k H; destruct (bare_key _ _ H)].
      + exists (mkNode ty [] []). split; [apply steady_ret|]. split; [apply bare_key|intros k H; destruct (bare_key _ _ H)].
      + exists (mkNode ty [] []). split; [apply steady_ret|]. split; [apply bare_key|intros k H; destruct (bare_key _ _ H)].
    - exists (mkNode ty [] []). split; [destruct (value_named (mkNode ty vs ns) (str_shared_value, EUTF8)); cbn [tbind]; apply steady_ret|]. split; [apply bare_key|intros k H; destruct (bare_key _ _ H)]. }
  destruct C as (n' & C & Nk & Up). intros s. destruct (find_key key (r_tab s)) as [a|] eqn:Fk.
  - destruct (nth_error (r_heap s) a) as [[u x]|] eqn:Hp.
    + destruct (ct_eqb u e) eqn:Ce; cbn [fst snd]; (split; [apply P_Again.ext_refl|]; split; [apply newk_refl|]).
      * intros s2 [L1 L2]. now rewrite (L1 _ _ Fk), (L2 _ _ Hp), Ce.
      * now rewrite Fk, Hp, Ce.
    + cbn [fst snd]. split; [apply P_Again.ext_refl|]; split; [apply newk_refl|]. now rewrite Fk, Hp.
  - destruct (C s) as (L & N & R). destruct (tfield w tn e (IdName str_shared_value) (w_new w e) n s) as [r s1] eqn:Ef. cbn [fst snd] in L, N, R.
    assert (F1 : find_key key (r_tab s1) = None). { destruct (find_key key (r_tab s1)) eqn:Z; [|reflexivity]. destruct Nk. apply N; [exact Fk|congruence]. }
    assert (N' : newk (fun k => key_in w k n) s s1) by (intros k A B; apply Up, N; assumption).
    destruct r as [x| |u|]; cbn [tbind fst snd].
    + cbv zeta. rewrite F1. cbn [fst snd]. split; [eapply P_Again.ext_trans; [exact L|now apply later_more]|]. split.
      * eapply newk_trans; [exact N'|]. intros k A B. cbn [r_tab find_key] in B. destruct (key =? k) eqn:Z; [|congruence]. apply Z.eqb_eq in Z. subst k. destruct n as [ty vs ns]. eapply ki_here; eauto.
      * intros s2 [L1 L2]. cbn [r_tab r_heap] in L1, L2. rewrite (L1 key (length (r_heap s1))) by (cbn [find_key]; now rewrite Z.eqb_refl). rewrite (L2 (length (r_heap s1)) (e, x)) by (rewrite nth_error_app2, Nat.sub_diag by lia; reflexivity). now rewrite ct_eqb_refl.
    + split; [exact L|]. split; [exact N'|]. rewrite F1, R. reflexivity.
    + split; [exact L|]. split; [exact N'|]. rewrite F1, R. reflexivity.
    + split; [exact L|]. split; [exact N'|]. rewrite F1, R. reflexivity.
Qed.
End Steady.

(** * unwrap_if *)
Lemma if_answers F w t u s : match handle_unwrap F w t u s with
  | ERet (v, s') => unwrap_if F w t u s = (Ok (Some v), s')
  | EThrow => fst (unwrap_if F w t u s) = Ok None
  | EUndef x => fst (unwrap_if F w t u s) = UB x
  | EFuel => fst (unwrap_if F w t u s) = Fuel
  | ERead _ => False
  end.
Proof. rewrite same_union. unfold unwrap_if. destruct (union_unwrap F w t u s) as [[v| |x|] s']; reflexivity. Qed.
Lemma if_later F w t u s : later s (snd (unwrap_if F w t u s)).
Proof.
  unfold unwrap_if. assert (G : later s (snd (union_unwrap F w t u s))).
  { unfold union_unwrap. destruct (scoped t); (destruct u as [[k n|k v]|]; [| |]); try apply P_Again.ext_refl. apply paste_grows. }
  destruct (union_unwrap F w t u s). exact G.
Qed.
Lemma if_unshared F w t u s s' : unshared w t -> unwrap_if F w t u s' = (fst (unwrap_if F w t u s), s').
Proof.
  intros Ut. unfold unwrap_if, union_unwrap. destruct (scoped t); (destruct u as [[k n|k v]|]; [| |]); try reflexivity. destruct (paste_quiet w F t (w_new w t) n Ut) as [r E]. now rewrite !E.
Qed.
Definition part_of (u : handle) (P : node -> Prop) : Prop := match u with Some (UnNode _ n) => P n | _ => True end.
Lemma if_again F w t u s r s1 : part_of u (keys_apart w) -> unwrap_if F w t u s = (r, s1) -> unwrap_if F w t u s1 = (r, s1).
Proof.
  intros K. unfold unwrap_if, union_unwrap. destruct (scoped t); (destruct u as [[k n|k v]|]; [| |]); try (intros [= <- <-]; reflexivity).
  cbn [part_of] in K. destruct (paste_steady w F t (w_new w t) n K s) as (_ & _ & R). destruct (tpaste F w t (w_new w t) n s) as [[x| |x|] s2]; cbn [fst snd] in R; intros [= <- <-]; [rewrite (R s2 (P_Again.ext_refl s2))|rewrite R..]; reflexivity.
Qed.
Lemma first_sound F w u : forall ts s i v s', first_of F w u s ts i v s' -> Forall (unshared w) (firstn i ts) -> unwrap_first F w ts u s = (Ok (Some (i, v)), s').
Proof.
  intros ts s i v s'. induction 1 as [t ts v s' E|t ts i v s' E _ IH]; intros G; cbn [unwrap_first].
  - pose proof (if_answers F w t u s) as A. rewrite E in A. rewrite A. reflexivity.
  - cbn [firstn] in G. inversion G as [|? ? Ut G']; subst. pose proof (if_answers F w t u s) as A. rewrite E in A. rewrite (if_unshared F w t u s s Ut), A. cbn [tbind]. rewrite IH by exact G'. reflexivity.
Qed.
Lemma first_complete F w u : forall ts s i v s', unwrap_first F w ts u s = (Ok (Some (i, v)), s') -> Forall (unshared w) (firstn i ts) -> first_of F w u s ts i v s'.
Proof.
  induction ts as [|t ts IH]; intros s i v s'; cbn [unwrap_first]; [discriminate|]. pose proof (if_answers F w t u s) as A. intros E G. destruct (handle_unwrap F w t u s) as [[x s1]| | | |] eqn:E1.
  - rewrite A in E. cbn [tbind] in E. injection E as <- <- <-. now constructor.
  - destruct (unwrap_if F w t u s) as [r s1] eqn:E2. cbn [fst] in A. subst r. cbn [tbind] in E. destruct (unwrap_first F w ts u s1) as [[[[j x]|]| | |] s2] eqn:E3; cbn [tbind] in E; try discriminate. injection E as <- <- <-.
    cbn [firstn] in G. inversion G as [|? ? Ut G']; subst. rewrite (if_unshared F w t u s s Ut) in E2. injection E2 as _ <-. apply fo_next; [exact E1|]. now apply IH.
  - destruct (unwrap_if F w t u s) as [r s1]. cbn [fst] in A. subst r. discriminate.
  - destruct (unwrap_if F w t u s) as [r s1]. cbn [fst] in A. subst r. discriminate.
  - destruct A.
Qed.
Lemma first_iff F w u ts s i v s' : Forall (unshared w) (firstn i ts) -> unwrap_first F w ts u s = (Ok (Some (i, v)), s') <-> first_of F w u s ts i v s'.
Proof. intros G. split; [intros; now apply first_complete|intros; now apply first_sound]. Qed.
Lemma first_none F w u : forall ts s, Forall (unshared w) ts -> (exists s', unwrap_first F w ts u s = (Ok None, s')) <-> Forall (fun t => refuses F w t u s) ts.
Proof.
  induction ts as [|t ts IH]; intros s G; cbn [unwrap_first]. { split; [constructor|]. intros _. now exists s. }
  inversion G as [|? ? Ut G']; subst. pose proof (if_answers F w t u s) as A. pose proof (if_unshared F w t u s s Ut) as Q. destruct (unwrap_if F w t u s) as [r s1]. cbn [fst] in *. injection Q as ->.
  unfold refuses at 1. destruct (handle_unwrap F w t u s) as [[x s1]| | | |] eqn:E1; try (injection A as -> ->) || subst r; cbn [tbind].
  - split; [intros [s' E]; discriminate|]. intros B. inversion B; subst. unfold refuses in *. congruence.
  - split.
    + intros [s' E]. destruct (unwrap_first F w ts u s) as [[[[j x]|]| | |] s2] eqn:E3; cbn [tbind] in E; try discriminate. constructor; [exact E1|]. apply IH; [exact G'|]. eauto.
    + intros B. inversion B as [|? ? _ B']; subst. apply IH in B'; [|exact G']. destruct B' as [s' ->]. cbn [tbind]. eauto.
  - split; [intros [s' E]; discriminate|]. intros B. inversion B; subst. unfold refuses in *. congruence.
  - split; [intros [s' E]; discriminate|]. intros B. inversion B; subst. unfold refuses in *. congruence.
  - destruct A.
Qed.
Lemma unwrap_later F w t old n s v s1 : unwrap_prog F w t old n s = ERet (v, s1) -> later s s1.
Proof.
  unfold unwrap_prog. destruct (scoped t) eqn:Sc.
  - rewrite same_node. pose proof (paste_grows w F t old n s) as G. destruct (tpaste F w t old n s) as [[x| |x|] s2]; cbn [as_prog ebind fst snd] in *; try discriminate. now intros [= <- <-].
  - unfold paste_field, field_value. rewrite Sc. cbn [l_parsed l_node]. destruct (value_at n 0) as [c| | |]; cbn [elift ebind fst snd]; try discriminate. destruct (paste_value w t old (snd c)); cbn [elift ebind fst snd]; try discriminate.
    intros [= <- <-]. apply P_Again.ext_refl.
Qed.
