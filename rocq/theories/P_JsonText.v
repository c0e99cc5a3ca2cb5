(** What PJson writes: the layout of S_JsonText.v, and a JSON text in the sense of RFC 8259. *)
From Coq Require Import ZArith List Bool Lia ZifyBool ZifyNat.
From Verif Require Import Base Lemmas M_Types M_Conv M_Charset M_In S_Conv S_Doc S_Json S_JsonText S_Charset M_OutOps S_Out M_Event M_Env M_Json
  P_Conv P_Text P_Float P_Paste P_Doc P_Scan P_JsonStr P_JsonLit P_JsonDoc.
Import ListNotations.
Open Scope Z_scope.

(** * Decimal numbers *)
Lemma print_loop_decimal room : forall f val acc d r, 0 < val < 10 ^ Z.of_nat f -> print_loop room val acc = Ok (d, r) -> d = decimal_nat f val ++ acc.
Proof.
  induction room as [|room IH]; intros f val acc d r V H; cbn [print_loop] in H.
  - replace (val =? 0) with false in H by lia. discriminate.
  - replace (val =? 0) with false in H by lia. destruct f as [|f]; [cbn in V; lia|]. cbn [decimal_nat].
    destruct (Z.ltb_spec val 10) as [L|L].
    + replace (val / 10) with 0 in H by (symmetry; apply Z.div_small; lia). rewrite Z.mod_small in H by lia.
      destruct room; cbn [print_loop] in H; injection H as <- <-; reflexivity.
    + apply (IH f) in H.
      * rewrite H, <- app_assoc. reflexivity.
      * replace (Z.of_nat (S f)) with (Z.of_nat f + 1) in V by lia. rewrite Z.pow_add_r in V by lia. change (10 ^ 1) with 10 in V.
        split; [apply Z.div_str_pos; lia|]. apply Z.div_lt_upper_bound; lia.
Qed.
Lemma digits20 n : 0 < n < two64 -> 0 < n < 10 ^ Z.of_nat 20.
Proof. intros [A B]. split; [exact A|]. eapply Z.lt_trans; [exact B|reflexivity]. Qed.
Lemma conv_int_decimal t n s : is_int_ty t = true -> in_range t n -> conv_type_int t (u64 n) = Ok s -> s = decimal n.
Proof.
  intros It R. destruct (ty_bounds t n It R) as (B & U & R2 & SG). unfold conv_type_int.
  assert (E : is_signed t && (s64 (u64 n) <? 0) = (n <? 0)).
  { destruct (is_signed t) eqn:S; cbn [andb].
    - rewrite s64_u64; [reflexivity|]. unfold in_range in R. unfold is_int_ty in It. destruct t; try discriminate It; try discriminate S; cbn in R; unfold_words; lia.
    - unfold in_range in R. unfold is_int_ty in It. destruct t; try discriminate It; try discriminate S; cbn in R; lia. }
  rewrite E. clear E. unfold decimal.
  destruct (n <? 0) eqn:N; cbn [andb].
  - rewrite s64_u64 by (unfold in_range in R; unfold is_int_ty in It; destruct t; try discriminate It; cbn in R; unfold_words; lia).
    destruct (n =? - two63); [discriminate|]. replace (- n =? 0) with false by lia.
    destruct (print_loop _ (- n) []) as [[d r]| | |] eqn:P; cbn [rbind]; try discriminate. apply (print_loop_decimal _ 20) in P; [|apply digits20; unfold_words; lia].
    destruct r; [discriminate|]. intros H. injection H as <-. now rewrite P, app_nil_r.
  - replace (u64 n) with n by (symmetry; unfold u64; apply Z.mod_small; unfold_words; lia). destruct (Z.eqb_spec n 0) as [->|Z0].
    + intros H. injection H as <-. reflexivity.
    + destruct (print_loop _ n []) as [[d r]| | |] eqn:P; cbn [rbind]; try discriminate. apply (print_loop_decimal _ 20) in P; [|apply digits20; unfold_words; lia].
      intros H. injection H as <-. now rewrite P, app_nil_r.
Qed.

Lemma decimal_nat_digits f : forall n, (0 < f)%nat -> 0 <= n < 10 ^ Z.of_nat f -> js_digits (decimal_nat f n) /\ dec_value (decimal_nat f n) = n /\ (n <> 0 -> hd 48 (decimal_nat f n) <> 48).
Proof.
  induction f as [|f IH]; intros n Hf H; [lia|]. clear Hf. cbn [decimal_nat]. destruct (Z.ltb_spec n 10) as [L|L].
  - split; [|split; [unfold dec_value, dec_from; cbn [fold_left]; lia|cbn [hd]; lia]]. split; [split; [discriminate|constructor; [unfold is_digit; lia|constructor]]|].
    destruct (Z.eq_dec n 0) as [->|]; [left; reflexivity|right; cbn [hd]; lia].
  - replace (Z.of_nat (S f)) with (Z.of_nat f + 1) in H by lia. rewrite Z.pow_add_r in H by lia. change (10 ^ 1) with 10 in H.
    assert (Q : 0 < n / 10 < 10 ^ Z.of_nat f) by (split; [apply Z.div_str_pos; lia|apply Z.div_lt_upper_bound; lia]).
    destruct (IH (n / 10)) as ([[D1 D2] C] & V & Hh); [destruct f; [cbn in Q; lia|lia]|lia|]. specialize (Hh ltac:(lia)).
    assert (HD : forall (l : bytes) y, l <> [] -> hd 48 (l ++ y) = hd 48 l) by (intros [|? ?] ? Hl; [congruence|reflexivity]).
    split; [|split].
    + split; [split|].
      * intros E. apply app_eq_nil in E. destruct E; discriminate.
      * apply Forall_app. split; [exact D2|]. constructor; [|constructor]. pose proof (Z.mod_pos_bound n 10 ltac:(lia)). unfold is_digit. lia.
      * right. rewrite HD by exact D1. exact Hh.
    + unfold dec_value, dec_from in *. rewrite fold_left_app, V. cbn [fold_left]. pose proof (Z.div_mod n 10 ltac:(lia)). lia.
    + intros _. rewrite HD by exact D1. exact Hh.
Qed.
Lemma decimal_int n : - two64 < n < two64 -> js_int (decimal n) n.
Proof.
  intros H. unfold decimal, js_int. destruct (Z.ltb_spec n 0) as [L|L].
  - destruct (decimal_nat_digits 20 (- n)) as (D & V & _); [lia|pose proof (digits20 (- n)); lia|]. exists (decimal_nat 20 (- n)). split; [exact D|]. right. split; [reflexivity|]. lia.
  - destruct (decimal_nat_digits 20 n) as (D & V & _); [lia|destruct (Z.eq_dec n 0) as [->|]; [split; [reflexivity|reflexivity]|pose proof (digits20 n ltac:(lia)); lia]|]. exists (decimal_nat 20 n). split; [exact D|]. left. split; [reflexivity|]. lia.
Qed.

(** * The layout *)
Lemma json_escape_eq c : escape_char c = json_escape c.
Proof.
  unfold escape_char, json_escape, escapes. cbn [assoc]. rewrite !(Z.eqb_sym _ c).
  destruct (Z.eqb_spec c 34); [reflexivity|]. destruct (Z.eqb_spec c 92); [reflexivity|]. destruct (Z.eqb_spec c 47); [reflexivity|].
  destruct (Z.eqb_spec c 10); [subst; reflexivity|]. destruct (Z.eqb_spec c 9); [subst; reflexivity|]. destruct (Z.eqb_spec c 13); [subst; reflexivity|].
  destruct (Z.eqb_spec c 8); [reflexivity|]. destruct (Z.eqb_spec c 12); reflexivity.
Qed.
Lemma escaped_eq s : escaped s = flat_map json_escape s.
Proof. unfold escaped. apply flat_map_ext. apply json_escape_eq. Qed.

Lemma vtext_value x scope v : wf_value v -> json_value x v -> vtext x scope v = value_text x (meaning_of v).
Proof.
  intros W J. unfold json_value in J.
  assert (IC : (exists n, in_range (v_type v) n /\ v_raw v = u64 n) -> is_int_ty (v_type v) = true -> meaning_of v = MeInt (int_value v) ->
    type_to_str x v = conv_type_int (v_type v) (v_raw v) -> match type_to_str x v with Ok t => t | _ => [] end = value_text x (meaning_of v)).
  { intros (n & R & E) It M T. destruct (int_value_of v n It R E) as [I B]. rewrite M in *. rewrite I in *. rewrite T, E.
    destruct (conv_type_int_spec (v_type v) n It R J) as (s & Hs & _). rewrite Hs. cbn [value_text]. eapply conv_int_decimal; eauto. }
  assert (FC : fp_value v -> meaning_of v = MeFloat (v_double v) -> match type_to_str x v with Ok t => t | _ => [] end = value_text x (meaning_of v)).
  { intros Fv M. rewrite M in *. cbn [value_text]. rewrite type_to_str_fp by (destruct Fv as [[? _]|[? _]]; auto). unfold conv_type_fp.
    destruct (whole (v_double v)) as [n|] eqn:Wd.
    - destruct (whole_spec _ _ Wd) as (H1 & H2 & H3). destruct (scaled_div _ _ H2) as [D Mo]. pose proof fp_unit_pos.
      replace (fp_prints_as_int (v_double v)) with true.
      2:{ symmetry. unfold fp_prints_as_int. rewrite Mo, H2. replace (f64_exp (v_double v) =? 2047) with false by lia. cbn [negb Z.eqb andb].
          apply andb_true_iff. split; apply Z.leb_le; nia. }
      rewrite D. replace (n =? two63) with false by lia.
      assert (R : in_range TI64 n) by (unfold in_range; cbn [int_min int_max]; lia).
      destruct (conv_type_int_spec TI64 n eq_refl R) as (s & Hs & _); [lia|]. rewrite Hs. apply (conv_int_decimal TI64); auto.
    - now rewrite whole_none. }
  unfold wf_value in W. unfold vtext. destruct (v_type v) eqn:T; try contradiction;
    try (apply IC; [exact W|reflexivity|unfold meaning_of; rewrite T; reflexivity|unfold type_to_str; rewrite T; reflexivity]).
  - unfold meaning_of, type_to_str. rewrite T. destruct (v_raw v =? 0); reflexivity.
  - apply FC; [left; auto|unfold meaning_of; now rewrite T].
  - apply FC; [right; auto|unfold meaning_of; now rewrite T].
  - unfold meaning_of, type_to_str. rewrite T. reflexivity.
  - unfold meaning_of. rewrite T. cbn [value_text]. unfold quoted. now rewrite escaped_eq.
  - unfold meaning_of. rewrite T. reflexivity.
Qed.

Fixpoint items compact x (named : bool) (k : nat) (first : bool) (l : list doc) : bytes :=
  match l with
  | [] => []
  | y :: l' => (if first then [] else [44]) ++ nl compact (S k) ++ render compact x named (S k) y ++ items compact x named k false l'
  end.
Lemma render_scope compact x named k n t its : render compact x named k (DScope n t its) =
  key compact named n ++ [if ty_eqb t TArray then 91 else 123] ++ items compact x (ty_eqb t TObject) k true its ++ nl compact k ++ [if ty_eqb t TArray then 93 else 125].
Proof.
  cbn [render]. do 2 f_equal. f_equal. generalize true. induction its as [|y l IH]; intros b; cbn [items]; [reflexivity|]. rewrite IH. reflexivity.
Qed.

(** a document in front of further events *)
Definition lead (compact : bool) (closed : bool) (k : nat) : bytes :=
  (if closed then [] else [44]) ++ (if compact then [] else (if Nat.ltb 0 k then [10] else []) ++ repeat 9 k).
Lemma jout_doc compact x d : wf_doc d -> all_vals (fun _ v => json_value x v) d ->
  forall stack closed es, scopes stack ->
  jout compact x stack closed (events d ++ es) =
  lead compact closed (length stack) ++ render compact x (ty_eqb (top stack) TObject) (length stack) d ++ jout compact x stack false es.
Proof.
  induction d as [n v|n t its IH] using doc_ind2; intros W A stack closed es Sc.
  - cbn in W, A. destruct W as [_ W].
    assert (N : next_stack stack (n, v) = stack /\ is_scope (v_type v) = false /\ ty_eqb (v_type v) TScopeEnd = false).
    { unfold next_stack. cbn [snd]. unfold wf_value in W. destruct (v_type v); try contradiction; auto. }
    destruct N as (N1 & N2 & N3). cbn [events app jout fst snd render]. rewrite N1, N2. unfold sep, core, nametext, lead, key, has_name. cbn [fst snd].
    rewrite N3. cbn [negb andb]. rewrite !andb_true_r, vtext_value by tauto. unfold quoted.
    destruct closed, compact, (ty_eqb (top stack) TObject); cbn [negb app]; rewrite <- ?app_assoc; cbn [app]; reflexivity.
  - apply wf_doc_scope in W. destruct W as (_ & Wt & Wi). apply all_vals_scope in A.
    assert (N : next_stack stack (n, val_type t) = t :: stack /\ is_scope t = true /\ ty_eqb t TScopeEnd = false) by (destruct Wt; subst; auto).
    destruct N as (N1 & N2 & N3). assert (Sc2 : scopes (t :: stack)) by (constructor; auto).
    cbn [events app jout fst snd val_type v_type]. rewrite N1, N2. rewrite render_scope.
    assert (G : forall first, jout compact x (t :: stack) first (flat_map events its ++ [ev_end] ++ es) =
        items compact x (ty_eqb t TObject) (length stack) first its ++ nl compact (length stack) ++ [if ty_eqb t TArray then 93 else 125] ++ jout compact x stack false es).
    { clear N1 N2 N3 Wt. induction its as [|y l IHl]; intros first.
      - cbn [flat_map app jout items]. unfold sep, core, nametext, has_name, ev_end, nl. cbn [fst snd v_type val_type ty_eqb ty_num Z.eqb Pos.eqb negb]. rewrite !andb_false_r. cbn [andb app length Nat.ltb Nat.leb].
        replace (S (length stack) - 1)%nat with (length stack) by lia. unfold next_stack. cbn [snd v_type val_type tl]. unfold vtext. cbn [v_type val_type top].
        destruct compact; reflexivity.
      - inversion IH; inversion Wi; inversion A; subst. cbn [flat_map items]. rewrite <- app_assoc.
        match goal with H : wf_doc y -> _ |- _ => rewrite H by auto end. cbn [top length]. rewrite IHl by auto.
        unfold lead, nl. cbn [Nat.ltb Nat.leb]. destruct first, compact; cbn [app]; rewrite <- ?app_assoc; reflexivity. }
    rewrite <- app_assoc, G. unfold sep, core, nametext, lead, key, has_name. cbn [fst snd v_type val_type]. rewrite N3. cbn [negb andb].
    rewrite !andb_true_r. unfold vtext, quoted. cbn [v_type val_type].
    replace (match t with TObject => [123] | TArray => [91] | TScopeEnd => [if ty_eqb (top stack) TArray then 93 else 125] | TString => 34 :: escaped (v_data (val_type t)) ++ [34]
      | TBinary => 34 :: b64_text (v_data (val_type t)) ++ [34] | _ => match type_to_str x (val_type t) with Ok t0 => t0 | _ => [] end end)
      with [if ty_eqb t TArray then 91 else 123] by (destruct Wt; subst; reflexivity).
    destruct closed, compact, (ty_eqb (top stack) TObject); cbn [negb app]; repeat (rewrite <- ?app_assoc; cbn [app]); reflexivity.
Qed.

Lemma json_layout compact x d : wf_doc d -> all_vals (fun _ v => json_value x v) d ->
  jout compact x [] true (events d) = render compact x false 0 d.
Proof.
  intros W A. pose proof (jout_doc compact x d W A [] true [] ltac:(constructor)) as H. rewrite app_nil_r in H. rewrite H.
  cbn. destruct compact; cbn; now rewrite app_nil_r.
Qed.
