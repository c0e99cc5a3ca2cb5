(** The texts of exceptions. *)
From Coq Require Import ZArith List Bool Lia ZifyBool ZifyNat.
From Verif Require Import Base Lemmas M_Types M_Conv M_TpTools M_Charset M_In M_Event M_Tree S_Tree M_Object M_Access M_Try M_Msg S_Msg P_Tree P_TreeOps P_ObjEager P_Try.
Import ListNotations.
Open Scope Z_scope.

(** * Without the texts *)
Definition agrees {A} (m : told A) (r : tres A) : Prop :=
  match m with Told a s => r = (Ok a, s) | Thrown _ => fst r = Err | Broken u => fst r = UB u | Endless => fst r = Fuel end.
Lemma agrees_bind {A B} (m : told A) r (f : A -> rstate -> told B) g : agrees m r -> (forall a s, agrees (f a s) (g a s)) -> agrees (kbind m f) (tbind r g).
Proof. intros H E. destruct m as [a s|x|u|], r as [r s']; cbn [agrees fst kbind] in *; [injection H as -> ->; apply E|..]; subst; reflexivity. Qed.
Lemma agrees_untold {A} (r : res A) s : agrees (untold r s) (r, s). Proof. destruct r; reflexivity. Qed.
Lemma agrees_telling {A} m (r : res A) s : agrees (telling m r s) (r, s). Proof. destruct r; reflexivity. Qed.
Lemma agrees_number w t id old v s : agrees (kbind (tell_number (w_fp w) t id v s) (fun z s => Told (VNum z) s)) (paste_value w (CNum t) old v, s).
Proof.
  cbn [paste_value]. unfold paste_number, tell_number, paste_num.
  assert (Ap : forall v', agrees (kbind (tell_apply t id v' s) (fun z s => Told (VNum z) s)) (let* n := apply_or_throw t v' in Ok (VNum n), s)).
  { intros v'. unfold tell_apply. destruct (apply_or_throw t v'); reflexivity. }
  destruct (ty_eqb (v_type v) TString) eqn:T; cbn [negb andb].
  2:{ destruct (is_scalar (v_type v)); cbn [negb]; [apply Ap|reflexivity]. }
  unfold tell_string. destruct (enc_eqb (v_enc v) EUTF8) eqn:E; cbn [negb].
  - cbn [untold kbind]. destruct (str_to_type (w_fp w) (v_data v) TNull) as [v'|]; [apply Ap|]. destruct (unwrap_quiet (v_data v) (v_enc v)) eqn:U; try reflexivity; unfold unwrap_quiet in U; rewrite E in U; destruct (zlen (v_data v) <? 1); discriminate.
  - destruct (conv_charset_vec EUTF8 (v_enc v) (v_data v) false) as [c| | |] eqn:C; cbn [rbind untold kbind]; try reflexivity.
    assert (Qu : exists text, unwrap_quiet (v_data v) (v_enc v) = Ok text) by (unfold unwrap_quiet; rewrite E; destruct (zlen (v_data v) <? 1); eauto). destruct Qu as [text Qu].
    destruct (zlen c <? 1).
    + rewrite Qu. reflexivity.
    + change (v_type (val_string c EUTF8)) with TString. cbn [ty_eqb negb andb]. destruct (str_to_type (w_fp w) (v_data (val_string c EUTF8)) TNull) as [v'|]; [apply Ap|]. rewrite Qu. reflexivity.
Qed.
Lemma agrees_value w t id old v s : agrees (tell_value w t id old v s) (paste_value w t old v, s).
Proof.
  assert (X : agrees (untold (paste_value w t old v) s) (paste_value w t old v, s)) by apply agrees_untold.
  destruct t; try exact X; unfold tell_value.
  - apply agrees_number.
  - destruct (_ && _ && _) eqn:E; [|exact X]. cbn [paste_value agrees fst]. destruct (ty_eqb (v_type v) TNull); [discriminate|]. destruct (ty_eqb (v_type v) TString); [discriminate|]. destruct (is_scalar (v_type v)); [discriminate|]. reflexivity.
  - destruct (negb _) eqn:E.
    + cbn [paste_value agrees fst]. unfold paste_char. replace (negb (ty_eqb (v_type v) TString) && negb (ty_eqb (v_type v) TBinary)) with true by (destruct (ty_eqb (v_type v) TString), (ty_eqb (v_type v) TBinary); try discriminate; reflexivity). reflexivity.
    + assert (Y : paste_value w (CChar e) old v = let* s := (let* c := chars_of e v in if zlen c =? unit_size e then Ok c else Err) in Ok (VStr s)).
      { cbn [paste_value]. unfold paste_char, chars_of. replace (negb (ty_eqb (v_type v) TString) && negb (ty_eqb (v_type v) TBinary)) with false by (destruct (ty_eqb (v_type v) TString), (ty_eqb (v_type v) TBinary); try discriminate; reflexivity). reflexivity. }
      rewrite Y in *. destruct (chars_of e v) as [c| | |]; cbn [untold kbind rbind agrees fst]; try reflexivity. destruct (zlen c =? unit_size e); cbn [negb]; reflexivity.
  - destruct (negb _) eqn:E.
    + cbn [paste_value agrees fst]. unfold paste_chars. replace (negb (ty_eqb (v_type v) TString) && negb (ty_eqb (v_type v) TBinary)) with true by (destruct (ty_eqb (v_type v) TString), (ty_eqb (v_type v) TBinary); try discriminate; reflexivity). destruct old; reflexivity.
    + destruct old as [|bs| | | | | | |]; try reflexivity. destruct (chars_of e v) as [c| | |] eqn:C; cbn [untold kbind].
      1: destruct ((n - 1) * unit_size e <? zlen c) eqn:L; [|exact X].
      all: cbn [paste_value agrees fst]; unfold paste_chars; fold (chars_of e v); rewrite C; replace (negb (ty_eqb (v_type v) TString) && negb (ty_eqb (v_type v) TBinary)) with false by (destruct (ty_eqb (v_type v) TString), (ty_eqb (v_type v) TBinary); try discriminate; reflexivity); cbn [rbind]; try rewrite L; reflexivity.
Qed.
Lemma agrees_field w tn tn' name t id old n s : (forall id name t old n s, agrees (tn id name t old n s) (tn' t old n s)) -> agrees (tell_field w tn name t id old n s) (tfield w tn' t id old n s).
Proof.
  intros H. unfold tell_field, tfield. destruct (scoped t).
  - apply agrees_bind; [apply agrees_telling|]. intros. apply H.
  - apply agrees_bind; [apply agrees_telling|]. intros c s'. apply agrees_value.
Qed.
Lemma agrees_fields w tn tn' name : (forall id name t old n s, agrees (tn id name t old n s) (tn' t old n s)) ->
  forall fs olds n s vi ni, agrees (tell_fields w tn name fs olds n s vi ni) (tfields w tn' fs olds n s vi ni).
Proof.
  intros H. induction fs as [|f fs IH]; intros [|old olds] n s vi ni; cbn [tell_fields tfields]; try reflexivity. apply agrees_bind; [apply agrees_untold|]. intros h s1. destruct (negb h).
  - apply agrees_bind; [apply IH|]. intros. reflexivity.
  - apply agrees_bind; [now apply agrees_field|]. intros v s2. apply agrees_bind; [apply IH|]. intros. reflexivity.
Qed.
Lemma agrees_each {A} (f : Z -> bytes * A -> rstate -> told cv) g : (forall i a s, agrees (f i a s) (g a s)) ->
  forall l i acc s, agrees (tell_each f l i acc s) (teach (fun a acc s => tbind (g a s) (fun v s => (Ok (acc ++ [v]), s))) l acc s).
Proof.
  intros H. induction l as [|a l IH]; intros i acc s; cbn [tell_each teach]; [reflexivity|]. specialize (H i a s).
  destruct (f i a s) as [v s1|x|u|], (g a s) as [r s']; cbn [agrees fst kbind tbind] in *; [injection H as -> ->; cbn [tbind]; apply IH|..]; subst; reflexivity.
Qed.
Lemma agrees_elems w tn tn' e n s : (forall id name t old n s, agrees (tn id name t old n s) (tn' t old n s)) -> agrees (tell_elems w tn e n s) (telem w tn' (fun _ v acc => acc ++ [v]) e n [] s).
Proof.
  intros H. unfold tell_elems, telem. destruct (scoped e).
  - apply (agrees_each (fun i a s => tn (IdPos i) (fst a) e (w_new w e) (snd a) s) (fun a s => tn' e (w_new w e) (snd a) s)). intros. apply H.
  - apply (agrees_each _ (fun a s => (paste_value w e (w_new w e) (snd a), s))). intros i a s'. apply agrees_value.
Qed.
Theorem tell_same w : forall F id name t old n s, agrees (tell_paste F w id name t old n s) (tpaste F w t old n s).
Proof.
  induction F as [|F IH]; intros id name t old n s; [reflexivity|].
  assert (X : agrees (let (r, s') := tpaste (S F) w t old n s in untold r s') (tpaste (S F) w t old n s)) by (destruct (tpaste (S F) w t old n s); apply agrees_untold).
  destruct t; try exact X; cbn [tell_paste tpaste tstep]; (destruct (negb _); [reflexivity|]).
  - destruct old; try reflexivity. apply agrees_bind; [now apply agrees_fields|]. intros. reflexivity.
  - apply agrees_bind; [now apply agrees_elems|]. intros. reflexivity.
Qed.

(** * The texts *)
Lemma name_called t : type_name t = called t. Proof. destruct t; reflexivity. Qed.
Lemma to_zero_shown m : shown m (to_zero m).
Proof.
  induction m as [|c m (r & E & P & R)]; cbn [to_zero]; [exists []; repeat split; auto; intros []|]. destruct (Z.eqb_spec c 0) as [->|N].
  - exists (0 :: m). split; [reflexivity|]. split; [intros []|]. right. eauto.
  - exists r. split; [cbn [app]; now rewrite <- E|]. split; [|exact R]. intros [C|C]; [congruence|exact (P C)].
Qed.
Lemma to_zero_app a b : printable a -> to_zero (a ++ b) = a ++ to_zero b.
Proof. induction a as [|c a IH]; intros H; [reflexivity|]. cbn [app to_zero]. destruct (Z.eqb_spec c 0) as [->|]; [destruct H; now left|]. rewrite IH; [reflexivity|]. intros C. apply H. now right. Qed.
Lemma set_named k r : 0 < zlen k -> shown (set_text k r) (set_error r (IdName k)).
Proof.
  intros H. unfold set_error, set_text, what. replace (0 <? zlen k) with true by lia.
  change ($"Srl error: " ++ $"Unable to set field" ++ ($" " ++ k) ++ $". " ++ r) with ($"Srl error: Unable to set field " ++ k ++ $". " ++ r). apply to_zero_shown.
Qed.
Lemma scalar_literal t : is_scalar t = true <-> literal t. Proof. unfold literal. destruct t; cbn; split; intros; try reflexivity; try discriminate; lia. Qed.
Lemma refused_amount t v : literal (v_type v) -> apply_or_throw t v = Err -> amount (v_type v).
Proof. unfold apply_or_throw, apply_type, literal, amount. destruct (v_type v); cbn; intros L E; try discriminate; lia. Qed.
Lemma number_literal x bs v : str_to_type x bs TNull = Some v -> literal (v_type v).
Proof.
  unfold str_to_type. destruct (trim_space bs) as [|c0 r] eqn:T; [discriminate|]. rewrite <- T. cbv zeta.
  destruct (_ && _ && _); [intros X; inversion X; reflexivity|]. destruct (_ && _ && _); [intros X; inversion X; reflexivity|]. destruct (_ && _ && _); [intros X; inversion X; reflexivity|].
  cbn [is_fp]. destruct (str_to_int _) as [[i sg] ok]. destruct ok; [intros X; inversion X; destruct sg; reflexivity|].
  destruct (x_strtod x (trim_space bs)) as [d|] eqn:E; [|discriminate]. intros X. inversion X. unfold val_f64. destruct (narrow64 d); reflexivity.
Qed.
(** a number: the reason *)
Lemma number_reason x t id v s : v_type v <> TString \/ v_enc v = EUTF8 -> paste_number x t v = Err ->
  exists r, tell_number x t id v s = Thrown (Some (set_error r id)) /\ reason t v r.
Proof.
  intros He P. unfold paste_number, paste_num in P. unfold tell_number.
  assert (Ap : forall v', apply_or_throw t v' = Err -> tell_apply t id v' s = Thrown (Some (set_error ($"Cannot cast type " ++ called (v_type v') ++ $" to " ++ called t ++ $". Overflow detected.") id))).
  { intros v' E. unfold tell_apply. rewrite E, !name_called. reflexivity. }
  destruct (ty_eqb (v_type v) TString) eqn:T; cbn [negb andb] in *.
  - assert (Tv : v_type v = TString) by (destruct (v_type v); try discriminate; reflexivity). destruct He as [C|He]; [congruence|]. rewrite He in *. change (enc_eqb EUTF8 EUTF8) with true in P. cbn [negb] in P. unfold tell_string. change (enc_eqb EUTF8 EUTF8) with true. cbv iota. cbn [untold kbind].
    destruct (str_to_type x (v_data v) TNull) as [v'|] eqn:S.
    + rewrite (Ap _ P). eexists. split; [reflexivity|]. apply TextNotInRange; [exact Tv|]. eapply refused_amount; [eapply number_literal; eauto|exact P].
    + assert (Q : unwrap_quiet (v_data v) EUTF8 = Ok (v_data v)).
      { unfold unwrap_quiet. destruct (Z.ltb_spec (zlen (v_data v)) 1) as [L|]; [|reflexivity]. destruct (v_data v); [reflexivity|unfold zlen in L; cbn [length] in L; lia]. }
      rewrite Q. cbn [untold kbind]. rewrite name_called. eexists. split; [reflexivity|]. apply NotANumber; exact Tv.
  - assert (Tv : v_type v <> TString) by (intros C; rewrite C in T; discriminate). destruct (is_scalar (v_type v)) eqn:Sc; cbn [negb] in *.
    + rewrite (Ap _ P). eexists. split; [reflexivity|]. apply NotInRange; eapply refused_amount; [now apply scalar_literal|exact P].
    + rewrite name_called. eexists. split; [reflexivity|]. apply NotALiteral; [exact Tv|]. intros C. apply scalar_literal in C. congruence.
Qed.
Theorem number_says x t k v s : 0 < zlen k -> v_type v <> TString \/ v_enc v = EUTF8 -> paste_number x t v = Err ->
  exists m r, tell_number x t (IdName k) v s = Thrown (Some m) /\ reason t v r /\ shown (set_text k r) m.
Proof. intros Hk He P. destruct (number_reason x t (IdName k) v s He P) as (r & -> & R). do 2 eexists. split; [reflexivity|]. split; [exact R|]. now apply set_named. Qed.
(** ... and the field *)
Lemma set_prefix k r : 0 < zlen k -> printable k -> exists more, set_error r (IdName k) = $"Srl error: Unable to set field " ++ k ++ $". " ++ more.
Proof.
  intros H P. unfold set_error, what. replace (0 <? zlen k) with true by lia.
  change ($"Srl error: " ++ $"Unable to set field" ++ ($" " ++ k) ++ $". " ++ r) with ($"Srl error: Unable to set field " ++ k ++ $". " ++ r).
  rewrite to_zero_app by (intros C; cbn in C; repeat (destruct C as [C|C]; [discriminate C|]); exact C). rewrite to_zero_app by exact P. rewrite to_zero_app by (intros C; cbn in C; repeat (destruct C as [C|C]; [discriminate C|]); exact C). eauto.
Qed.
Theorem number_field x t k v s m : 0 < zlen k -> printable k -> tell_number x t (IdName k) v s = Thrown (Some m) -> exists more, m = $"Srl error: Unable to set field " ++ k ++ $". " ++ more.
Proof.
  intros H P. assert (Ap : forall v' s, tell_apply t (IdName k) v' s = Thrown (Some m) -> exists more, m = $"Srl error: Unable to set field " ++ k ++ $". " ++ more).
  { intros v' s'. unfold tell_apply. destruct (apply_or_throw t v'); cbn [telling]; try discriminate. intros E. injection E as <-. now apply set_prefix. }
  unfold tell_number. destruct (_ && _); [intros E; injection E as <-; now apply set_prefix|]. destruct (ty_eqb _ _); [|apply Ap]. unfold tell_string.
  match goal with |- context [untold ?r s] => destruct r as [[v'|]| | |] end; cbn [untold kbind]; try discriminate; [apply Ap|].
  destruct (unwrap_quiet _ _); cbn [untold kbind]; try discriminate. intros E. injection E as <-. now apply set_prefix.
Qed.

(** * Members *)
Lemma value_first k n : value_named n (k, EUTF8) = match value_of k n with Some _ => match first_named k (n_values n) with Some q => Ok q | None => Err end | None => Err end.
Proof.
  unfold value_named. rewrite (lookup_spec _ _ k) by apply utf8_names. unfold value_of, first_named. destruct (find _ (n_values n)) as [[a b]|]; reflexivity.
Qed.
Lemma value_there k n v : value_of k n = Some v -> exists k', first_named k (n_values n) = Some (k', v).
Proof. unfold value_of, first_named. destruct (find _ (n_values n)) as [[a b]|]; [|discriminate]. intros E. injection E as <-. eauto. Qed.
(** positions *)
Lemma number_app a b : number_of (a ++ [b]) = 10 * number_of a + (b - 48).
Proof. unfold number_of. now rewrite fold_left_app. Qed.
Lemma position_digits : forall fuel n acc, 0 <= n < 10 ^ Z.of_nat (S fuel) -> exists ds, position_loop (S fuel) n acc = ds ++ acc /\ decimal n ds.
Proof.
  induction fuel as [|fuel IH]; intros n acc H.
  - change (10 ^ Z.of_nat 1) with 10 in H. cbn [position_loop]. rewrite Z.div_small, Z.mod_small by lia. cbn [Z.eqb]. exists [48 + n]. split; [reflexivity|]. split; [unfold number_of; cbn [fold_left]; lia|]. split; [repeat constructor; lia|].
    destruct (Z.eq_dec n 0) as [->|]; [now left|]. right. do 2 eexists. split; [reflexivity|]. lia.
  - remember (S fuel) as f eqn:Ef. cbn [position_loop]. pose proof (Z.mod_pos_bound n 10 eq_refl) as B. assert (D : n = 10 * (n / 10) + n mod 10) by (apply Z.div_mod; lia). destruct (Z.eqb_spec (n / 10) 0) as [E|N].
    + exists [48 + n mod 10]. split; [reflexivity|]. split; [unfold number_of; cbn [fold_left]; lia|]. split; [repeat constructor; lia|]. destruct (Z.eq_dec n 0) as [->|]; [now left|]. right. do 2 eexists. split; [reflexivity|]. lia.
    + assert (P : 0 <= n / 10 < 10 ^ Z.of_nat f).
      { split; [apply Z.div_pos; lia|]. apply Z.div_lt_upper_bound; [lia|]. rewrite Nat2Z.inj_succ, Z.pow_succ_r in H by lia. lia. }
      subst f. destruct (IH (n / 10) (48 + n mod 10 :: acc) P) as (ds & -> & V & F & L). exists (ds ++ [48 + n mod 10]). split; [now rewrite <- app_assoc|]. split; [rewrite number_app; lia|]. split.
      * apply Forall_app. split; [exact F|]. repeat constructor; lia.
      * right. destruct L as [->|(d & r & -> & Nd)]; [unfold number_of in V; cbn in V; lia|]. do 2 eexists. split; [reflexivity|exact Nd].
Qed.
Lemma position_decimal i : 0 <= i < 100000000000000000000 -> decimal i (position i).
Proof. intros H. unfold position. destruct (position_digits 19 i []) as (ds & E & D); [exact H|]. change (position_loop 20 i [] ) with (position_loop (S 19) i []). rewrite E, app_nil_r. exact D. Qed.

Definition member_id (i : nat) (f : field) : fid := if 0 <? zlen (f_name f) then IdName (f_name f) else IdPos (Z.of_nat i).
Lemma named_or_not (f : field) : (0 <? zlen (f_name f)) = true /\ f_name f <> [] \/ (0 <? zlen (f_name f)) = false /\ f_name f = [].
Proof. destruct (f_name f); [now right|left]. split; [|discriminate]. unfold zlen. cbn [length]. lia. Qed.
Lemma set_shown i f r : Z.of_nat i < 100000000000000000000 -> exists whole, says_set i f r whole /\ shown whole (set_error r (member_id i f)).
Proof.
  intros B. unfold member_id. destruct (named_or_not f) as [[-> N]|[-> N]].
  - eexists. split; [apply SetNamed; exact N|]. apply set_named. destruct (f_name f); [easy|]. unfold zlen. cbn [length]. lia.
  - eexists. split; [apply SetNumbered; [exact N|apply position_decimal; lia]|]. unfold set_error, what. apply to_zero_shown.
Qed.
Lemma absent_shown i f name : Z.of_nat i < 100000000000000000000 -> exists whole, says_absent i f name whole /\ shown whole (not_found ($"Value") (member_id i f) name).
Proof.
  intros B. unfold member_id. destruct (named_or_not f) as [[-> N]|[-> N]].
  - eexists. split; [apply AbsentNamed; exact N|]. unfold absent_text, not_found, what. apply to_zero_shown.
  - eexists. split; [apply AbsentNumbered; [exact N|apply position_decimal; lia]|]. unfold not_found, what. apply to_zero_shown.
Qed.
Lemma member_value i f n : match value_for i f n with
  | Some v => (exists k', match member_id i f with IdName k => value_named n (k, EUTF8) | IdPos i => value_at n i end = Ok (k', v)) /\ exists k', In (k', v) (n_values n)
  | None => match member_id i f with IdName k => value_named n (k, EUTF8) | IdPos i => value_at n i end = Err
  end.
Proof.
  unfold member_id, value_for. destruct (named_or_not f) as [[-> N]|[-> N]].
  - replace (match f_name f with [] => option_map snd (nth_error (n_values n) i) | _ => value_of (f_name f) n end) with (value_of (f_name f) n) by (destruct (f_name f); [easy|reflexivity]).
    rewrite value_first. destruct (value_of (f_name f) n) as [v|] eqn:V; [|reflexivity]. destruct (value_there _ _ _ V) as [k' E]. rewrite E. split; [eauto|]. unfold value_of in V. destruct (find _ (n_values n)) as [[a b]|] eqn:F; [|discriminate]. injection V as <-. apply find_some in F. destruct F. eauto.
  - rewrite N. unfold value_at. rewrite link_at_spec by lia. rewrite Nat2Z.id. destruct (nth_error (n_values n) i) as [[k v]|] eqn:E; cbn [option_map rbind deref]; [|reflexivity]. split; [eauto|]. apply nth_error_In in E. eauto.
Qed.
Definition blamed (w : world) (n : node) (name : bytes) (k : nat) (f : field) (t : ty) (m : option bytes) : Prop :=
  match value_for k f n with
  | None => exists whole seen, m = Some seen /\ says_absent k f name whole /\ shown whole seen
  | Some v => paste_number (w_fp w) t v = Err /\ exists whole seen r, m = Some seen /\ reason t v r /\ says_set k f r whole /\ shown whole seen
  end.
Lemma members_blamed w tn name n : Forall (fun q => v_type (snd q) <> TString \/ v_enc (snd q) = EUTF8) (n_values n) ->
  forall fs olds s j ni m, Forall plain_number fs -> (length fs <= length olds)%nat -> Z.of_nat (j + length fs) < 100000000000000000000 -> tell_fields w tn name fs olds n s (Z.of_nat j) ni = Thrown m ->
  exists i f t, nth_error fs i = Some f /\ f_type f = CNum t /\ (forall h g, (h < i)%nat -> nth_error fs h = Some g -> good_member w n (j + h) g) /\ blamed w n name (j + i) f t m.
Proof.
  intros En. induction fs as [|f fs IH]; intros [|old olds] s j ni m Pl L B; cbn [tell_fields length] in *; try discriminate; try lia.
  assert (Bj : Z.of_nat j < 100000000000000000000) by lia. assert (B' : Z.of_nat (S j + length fs) < 100000000000000000000) by lia.
  inversion Pl as [|? ? (Po & t & Pt & Ps) Pl']; subst. rewrite Po, Pt. rewrite Ps. cbn [untold kbind negb]. fold (member_id j f). unfold tell_field. rewrite Ps. pose proof (member_value j f n) as M.
  assert (Bl : forall m, blamed w n name j f t m -> exists i g tg, nth_error (f :: fs) i = Some g /\ f_type g = CNum tg /\ (forall h g', (h < i)%nat -> nth_error (f :: fs) h = Some g' -> good_member w n (j + h) g') /\ blamed w n name (j + i) g tg m).
  { intros x X. exists 0%nat, f, t. split; [reflexivity|]. split; [exact Pt|]. split; [intros; lia|]. now rewrite Nat.add_0_r. }
  destruct (value_for j f n) as [v|] eqn:V.
  - destruct M as [[k' ->] [k2 Iv]]. assert (Ev : v_type v <> TString \/ v_enc v = EUTF8) by (rewrite Forall_forall in En; apply (En _ Iv)). cbn [telling kbind fst snd tell_value].
    pose proof (agrees_number w t (member_id j f) (VNum 0) v s) as A. cbn [paste_value] in A. destruct (paste_number (w_fp w) t v) as [z| |u|] eqn:P; cbn [rbind] in A.
    + destruct (tell_number (w_fp w) t (member_id j f) v s) as [z' s'|?|?|]; cbn [kbind agrees fst] in A; try discriminate. cbn [kbind].
      replace (Z.of_nat j + 1) with (Z.of_nat (S j)) by lia. destruct (tell_fields w tn name fs olds n s' (Z.of_nat (S j)) ni) as [vs s2|m'|?|] eqn:R; cbn [kbind]; try discriminate. intros H. injection H as <-.
      assert (L' : (length fs <= length olds)%nat) by lia. destruct (IH _ _ _ _ _ Pl' L' B' R) as (i & g & tg & N & T & G & X). exists (S i), g, tg. split; [exact N|]. split; [exact T|]. rewrite Nat.add_succ_r. split; [|exact X].
      intros [|h] g' Hh E; [injection E as <-; rewrite Nat.add_0_r; exists v, z, t; auto|]. rewrite Nat.add_succ_r. apply (G h g'); [lia|exact E].
    + destruct (number_reason (w_fp w) t (member_id j f) v s Ev P) as (r & -> & R1). cbn [kbind]. intros H. injection H as <-. apply Bl. unfold blamed. rewrite V. split; [exact P|]. destruct (set_shown j f r Bj) as (whole & S1 & S2). exists whole. do 2 eexists. split; [reflexivity|]. repeat split; eauto.
    + destruct (tell_number (w_fp w) t (member_id j f) v s) as [z' s'|?|?|]; cbn [kbind agrees fst] in A; discriminate.
    + destruct (tell_number (w_fp w) t (member_id j f) v s) as [z' s'|?|?|]; cbn [kbind agrees fst] in A; discriminate.
  - rewrite M. cbn [telling kbind]. intros H. injection H as <-. apply Bl. unfold blamed. rewrite V. destruct (absent_shown j f name Bj) as (whole & S1 & S2). eauto.
Qed.
Theorem class_blames F w id name c olds n s m : Forall plain_number (w_cls w c) -> (length (w_cls w c) <= length olds)%nat -> Z.of_nat (length (w_cls w c)) < 18446744073709551616 -> is_scope (n_type n) = true ->
  Forall (fun q => v_type (snd q) <> TString \/ v_enc (snd q) = EUTF8) (n_values n) ->
  tell_paste (S F) w id name (CCls c) (VList olds) n s = Thrown m ->
  exists i f t, nth_error (w_cls w c) i = Some f /\ f_type f = CNum t /\ (forall h g, (h < i)%nat -> nth_error (w_cls w c) h = Some g -> good_member w n h g) /\
    match value_for i f n with
    | None => exists whole seen, m = Some seen /\ says_absent i f name whole /\ shown whole seen
    | Some v => paste_number (w_fp w) t v = Err /\ exists whole seen r, m = Some seen /\ reason t v r /\ says_set i f r whole /\ shown whole seen
    end.
Proof.
  intros Pl L Bn Sc En. cbn [tell_paste]. rewrite Sc. cbn [negb]. destruct (tell_fields w (tell_paste F w) name (w_cls w c) olds n s 0 0) as [vs s2|m'|?|] eqn:R; cbn [kbind]; try discriminate.
  intros H. injection H as <-. assert (B : Z.of_nat (0 + length (w_cls w c)) < 100000000000000000000) by (cbn [Nat.add]; lia). exact (members_blamed w (tell_paste F w) name n En (w_cls w c) olds s 0%nat 0 m' Pl L B R).
Qed.
Theorem tell_node F w id name t old n s :
  match tell_paste F w id name t old n s with
  | Told v s' => paste_node F w t old (mkL true n) s = ERet (v, mkL true n, s')
  | Thrown _ => paste_node F w t old (mkL true n) s = EThrow
  | Broken u => paste_node F w t old (mkL true n) s = EUndef u
  | Endless => paste_node F w t old (mkL true n) s = EFuel
  end.
Proof.
  rewrite same_node. pose proof (tell_same w F id name t old n s) as A. destruct (tpaste F w t old n s) as [r s2].
  destruct (tell_paste F w id name t old n s); cbn [agrees fst] in A; [injection A as -> ->|subst r..]; reflexivity.
Qed.
(** a member that is a class itself: the text is that of the inner class, with the name of the inner node *)
Theorem inner_text F w id name c d f fs old olds n k' n' s m : w_cls w c = f :: fs -> f_opt f = false -> f_type f = CCls d -> f_name f <> [] -> is_scope (n_type n) = true ->
  first_named (f_name f) (n_nodes n) = Some (k', n') -> tell_paste F w (IdName (f_name f)) (f_name f) (CCls d) old n' s = Thrown m ->
  tell_paste (S F) w id name (CCls c) (VList (old :: olds)) n s = Thrown m.
Proof.
  intros C Po Pt N Sc Fi E. cbn [tell_paste]. rewrite Sc, C. cbn [negb tell_fields]. rewrite Po, Pt. change (scoped (CCls d)) with true. cbn [untold kbind negb].
  destruct (named_or_not f) as [[-> _]|[_ X]]; [|congruence]. unfold tell_field. change (scoped (CCls d)) with true. cbv iota. unfold node_named. rewrite (lookup_spec _ _ (f_name f)) by apply utf8_names. rewrite Fi. cbn [telling kbind fst snd].
  assert (K : k' = f_name f). { unfold first_named in Fi. apply find_some in Fi. destruct Fi as [_ Fi]. cbn [fst] in Fi. now apply bytes_eqb_eq. }
  rewrite K, E. reflexivity.
Qed.
Theorem union_text x t k v s : v_type v <> TString \/ v_enc v = EUTF8 -> paste_number x t v = Err ->
  exists m seen r, tell_union x t (UnValue k v) s = Thrown (Some m) /\ reason t v r /\ shown ($"Srl error: Unable to set field. " ++ r) seen /\
    shown ($"Srl error: Failed to convert union <" ++ k ++ $"> of type <" ++ called (v_type v) ++ $"> to type <" ++ called t ++ $"> because the following error occured: " ++ seen) m.
Proof.
  intros He P. unfold tell_union. destruct (number_reason x t (IdName []) v s He P) as (r & -> & R). eexists. exists (set_error r (IdName [])), r. split; [reflexivity|]. split; [exact R|].
  split; [unfold set_error, what; apply to_zero_shown|]. rewrite <- !name_called. unfold what. apply to_zero_shown.
Qed.
(** vectors of numbers *)
Lemma each_blamed w t (l : list (bytes * value)) : Forall (fun q => v_type (snd q) <> TString \/ v_enc (snd q) = EUTF8) l -> forall j acc s m, Z.of_nat (j + length l) < 100000000000000000000 ->
  tell_each (fun i a s => kbind (tell_number (w_fp w) t (IdPos i) (snd a) s) (fun z s => Told (VNum z) s)) l (Z.of_nat j) acc s = Thrown m ->
  exists i k v, nth_error l i = Some (k, v) /\ (forall h k' v', (h < i)%nat -> nth_error l h = Some (k', v') -> exists z, paste_number (w_fp w) t v' = Ok z) /\ paste_number (w_fp w) t v = Err /\
    exists ds seen r, m = Some seen /\ decimal (Z.of_nat (j + i)) ds /\ reason t v r /\ shown ($"Srl error: Unable to set field at pos : " ++ ds ++ $". " ++ r) seen.
Proof.
  induction 1 as [|[k v] l Ev _ IH]; intros j acc s m B; cbn [tell_each length] in *; [discriminate|]. cbn [snd] in *.
  pose proof (agrees_number w t (IdPos (Z.of_nat j)) (VNum 0) v s) as A. cbn [paste_value] in A. destruct (paste_number (w_fp w) t v) as [z| |u|] eqn:P; cbn [rbind] in A.
  - destruct (tell_number (w_fp w) t (IdPos (Z.of_nat j)) v s) as [z' s'|?|?|]; cbn [kbind agrees fst] in A; try discriminate. cbn [kbind]. replace (Z.of_nat j + 1) with (Z.of_nat (S j)) by lia. intros R.
    assert (B' : Z.of_nat (S j + length l) < 100000000000000000000) by lia. destruct (IH _ _ _ _ B' R) as (i & k1 & v1 & N & G & E & X). exists (S i), k1, v1. split; [exact N|]. rewrite Nat.add_succ_r. split; [|split; [exact E|exact X]].
    intros [|h] k' v' Hh Eh; [injection Eh as <- <-; eauto|]. apply (G h k' v'); [lia|exact Eh].
  - destruct (number_reason (w_fp w) t (IdPos (Z.of_nat j)) v s Ev P) as (r & -> & R1). cbn [kbind]. intros H. injection H as <-. exists 0%nat, k, v. split; [reflexivity|]. split; [intros; lia|]. split; [exact P|].
    rewrite Nat.add_0_r. exists (position (Z.of_nat j)). do 2 eexists. split; [reflexivity|]. split; [apply position_decimal; lia|]. split; [exact R1|]. unfold set_error, what. apply to_zero_shown.
  - destruct (tell_number (w_fp w) t (IdPos (Z.of_nat j)) v s) as [z' s'|?|?|]; cbn [kbind agrees fst] in A; discriminate.
  - destruct (tell_number (w_fp w) t (IdPos (Z.of_nat j)) v s) as [z' s'|?|?|]; cbn [kbind agrees fst] in A; discriminate.
Qed.
Theorem vector_blames F w id name t old n s m : scoped (CNum t) = false -> is_scope (n_type n) = true -> Z.of_nat (length (n_values n)) < 18446744073709551616 ->
  Forall (fun q => v_type (snd q) <> TString \/ v_enc (snd q) = EUTF8) (n_values n) ->
  tell_paste (S F) w id name (CSeq (CNum t)) old n s = Thrown m ->
  exists i k v, nth_error (n_values n) i = Some (k, v) /\ (forall h k' v', (h < i)%nat -> nth_error (n_values n) h = Some (k', v') -> exists z, paste_number (w_fp w) t v' = Ok z) /\ paste_number (w_fp w) t v = Err /\
    exists ds seen r, m = Some seen /\ decimal (Z.of_nat i) ds /\ reason t v r /\ shown ($"Srl error: Unable to set field at pos : " ++ ds ++ $". " ++ r) seen.
Proof.
  intros Ps Sc B En. cbn [tell_paste]. rewrite Sc. cbn [negb]. unfold tell_elems. rewrite Ps.
  destruct (tell_each _ (n_values n) 0 [] s) as [vs s2|m'|?|] eqn:R; cbn [kbind]; try discriminate. intros H. injection H as <-.
  assert (B' : Z.of_nat (0 + length (n_values n)) < 100000000000000000000) by (cbn [Nat.add]; lia). exact (each_blamed w t (n_values n) En 0%nat [] s m' B' R).
Qed.
(** strings, arrays of characters and characters *)
Lemma ty_eqb_is a b : ty_eqb a b = true <-> a = b. Proof. split; [|intros ->; destruct b; reflexivity]. destruct a, b; cbn; intros; try discriminate; reflexivity. Qed.
Lemma ty_eqb_not a b : a <> b -> ty_eqb a b = false. Proof. intros H. destruct (ty_eqb a b) eqn:E; [|reflexivity]. apply ty_eqb_is in E. easy. Qed.
Lemma enc_eqb_self e : enc_eqb e e = true. Proof. destruct e; reflexivity. Qed.
Lemma text_told w t id old v s r : text_reason v t r -> (exists bs, old = VStr bs) -> tell_value w t id old v s = Thrown (Some (set_error r id)).
Proof.
  intros R [bs ->]. destruct R as [e N L|e n N B|e N B|n T L|T L]; unfold tell_value; cbv zeta.
  - rewrite (ty_eqb_not _ _ N). assert (Nu : ty_eqb (v_type v) TNull = false) by (apply ty_eqb_not; intros C; apply L; rewrite C; reflexivity). rewrite Nu.
    assert (Sc : is_scalar (v_type v) = false) by (destruct (is_scalar (v_type v)) eqn:Q; [apply scalar_literal in Q; easy|reflexivity]). rewrite Sc. cbn [negb andb]. now rewrite name_called.
  - rewrite (ty_eqb_not _ _ N), (ty_eqb_not _ _ B). cbn [orb negb]. unfold string_error. now rewrite name_called.
  - rewrite (ty_eqb_not _ _ N), (ty_eqb_not _ _ B). cbn [orb negb]. unfold string_error. now rewrite name_called.
  - replace (ty_eqb (v_type v) TString || ty_eqb (v_type v) TBinary) with true by (destruct T as [-> | ->]; reflexivity). cbn [negb]. unfold chars_of. rewrite enc_eqb_self. cbn [untold kbind]. replace (_ <? _) with true by lia. reflexivity.
  - replace (ty_eqb (v_type v) TString || ty_eqb (v_type v) TBinary) with true by (destruct T as [-> | ->]; reflexivity). cbn [negb]. unfold chars_of. rewrite enc_eqb_self. cbn [untold kbind]. replace (_ =? _) with false by lia. reflexivity.
Qed.
Theorem text_says w t k old v s r : 0 < zlen k -> text_reason v t r -> (exists bs, old = VStr bs) -> exists m, tell_value w t (IdName k) old v s = Thrown (Some m) /\ shown (set_text k r) m.
Proof. intros H R O. rewrite (text_told w t (IdName k) old v s r R O). eexists. split; [reflexivity|]. now apply set_named. Qed.
Theorem text_field w tn name t k old n v s r : 0 < zlen k -> scoped t = false -> value_of k n = Some v -> text_reason v t r -> (exists bs, old = VStr bs) ->
  exists m, tell_field w tn name t (IdName k) old n s = Thrown (Some m) /\ shown (set_text k r) m.
Proof.
  intros H Sc V R O. unfold tell_field. rewrite Sc, value_first, V. destruct (value_there _ _ _ V) as [k' ->]. cbn [telling kbind snd]. now apply text_says.
Qed.
(** ... as the first member of a class *)
Theorem text_first F w id name c f fs old olds n v s r : w_cls w c = f :: fs -> f_opt f = false -> 0 < zlen (f_name f) -> scoped (f_type f) = false -> is_scope (n_type n) = true ->
  value_of (f_name f) n = Some v -> text_reason v (f_type f) r -> (exists bs, old = VStr bs) ->
  exists m, tell_paste (S F) w id name (CCls c) (VList (old :: olds)) n s = Thrown (Some m) /\ shown (set_text (f_name f) r) m.
Proof.
  intros C Po H Sc Sn V R O. cbn [tell_paste]. rewrite Sn, C. cbn [negb tell_fields]. rewrite Po, Sc. cbn [untold kbind negb]. replace (0 <? zlen (f_name f)) with true by lia.
  destruct (text_field w (tell_paste F w) name (f_type f) (f_name f) old n v s r H Sc V R O) as (m & -> & S1). cbn [kbind]. eauto.
Qed.
