(** What PJson writes conforms to RFC 8259, and PJson reads what conforms to it. *)
From Coq Require Import ZArith List Bool Lia ZifyBool ZifyNat.
From Verif Require Import Base Lemmas M_Types M_Conv M_Charset M_In S_Conv S_Doc S_Json S_JsonText S_Charset M_OutOps S_Out M_Event M_Env M_Json
  P_Conv P_Text P_Float P_Paste P_Doc P_Scan P_JsonStr P_JsonLit P_JsonDoc P_JsonText.
Import ListNotations.
Open Scope Z_scope.

(** * Conformance of the output *)

Lemma rfc_names_scope nm n t its : rfc_names nm (DScope n t its) <-> (nm = true -> Forall (fun c => 32 <= c) n) /\ Forall (rfc_names (ty_eqb t TObject)) its.
Proof.
  cbn [rfc_names]. split; intros [A B]; (split; [exact A|]); clear A.
  - induction its; constructor; [tauto|apply IHits; tauto].
  - induction B; [exact I|split; auto].
Qed.

Lemma js_escape u c t s : rfc_char c -> js_chars u t s -> js_chars u (json_escape c ++ t) (c :: s).
Proof.
  intros R H. unfold json_escape, escapes. cbn [assoc].
  repeat match goal with |- context [if ?a =? c then _ else _] => destruct (Z.eqb_spec a c) as [<-|]; [apply JcEsc; [cbn; tauto|exact H]|] end.
  apply JcRaw; auto. destruct R as [R|R]; [lia|]. cbn in R. lia.
Qed.
Lemma js_escaped u s : Forall rfc_char s -> js_chars u (flat_map json_escape s) s.
Proof. induction 1; cbn [flat_map]; [constructor|]. now apply js_escape. Qed.
Lemma js_plain u s : Forall (fun c => 32 <= c) s -> json_name s -> js_chars u s s.
Proof.
  intros F [N1 N2]. induction F; [constructor|]. apply JcRaw; auto.
  - intros ->. apply N1. now left.
  - intros ->. apply N2. now left.
  - apply IHF; intros I; [apply N1|apply N2]; now right.
Qed.
Lemma js_b64 u s : wf_bytes s -> js_chars u (b64_text s) (b64_text s).
Proof.
  intros W. assert (F : Forall (fun c => 32 <= c /\ plain_char c) (b64_text s)).
  { assert (C : forall n, 0 <= n < 64 -> 32 <= b64_char n /\ plain_char (b64_char n)).
    { intros n H. split; [|now apply b64_char_cases]. unfold b64_char.
      assert (A : Forall (fun c => 32 <= c) b64_alphabet) by (apply Forall_forall; intros c Hc; cbn in Hc; repeat (destruct Hc as [<-|Hc]; [lia|]); destruct Hc).
      rewrite Forall_forall in A. apply A. apply nth_In. replace (length b64_alphabet) with 64%nat by reflexivity. lia. }
    assert (E : 32 <= 61 /\ plain_char 61) by (unfold plain_char; lia).
    induction s as [|a|a b|a b c bs IHbs] using list_ind3; cbn [b64_text].
    - constructor.
    - inversion W; subst. unfold is_byte in *. repeat (constructor; [first [exact E|apply C; Z.to_euclidean_division_equations; lia]|]). constructor.
    - inversion W as [|? ? Ha W1]; inversion W1 as [|? ? Hb W2]; subst. unfold is_byte in *. repeat (constructor; [first [exact E|apply C; Z.to_euclidean_division_equations; lia]|]). constructor.
    - inversion W as [|? ? Ha W1]; inversion W1 as [|? ? Hb W2]; inversion W2 as [|? ? Hc W3]; subst. unfold is_byte in *.
      repeat (constructor; [apply C; Z.to_euclidean_division_equations; lia|]). auto. }
  clear W. induction F as [|c l [A [B1 B2]] F IH]; [constructor|]. apply JcRaw; auto.
Qed.

Lemma js_value_text x u nm v : wf_value v -> json_value x v -> rfc_value x v ->
  js_value x u nm (value_text x (meaning_of v)) (MVal nm (json_meaning (meaning_of v))).
Proof.
  intros W J R. unfold rfc_value, json_value in *. unfold wf_value in W.
  assert (IC : (exists n, in_range (v_type v) n /\ v_raw v = u64 n) -> is_int_ty (v_type v) = true -> meaning_of v = MeInt (int_value v) ->
    js_value x u nm (value_text x (meaning_of v)) (MVal nm (json_meaning (meaning_of v)))).
  { intros (n & Rn & E) It M. destruct (int_value_of v n It Rn E) as [I B]. rewrite M, I. apply JvInt, decimal_int. unfold_words. lia. }
  assert (FC : fp_value v -> meaning_of v = MeFloat (v_double v) -> js_value x u nm (value_text x (meaning_of v)) (MVal nm (json_meaning (meaning_of v)))).
  { intros Fv M. rewrite M in *. cbn [value_text json_meaning]. destruct (whole (v_double v)) as [n|] eqn:Wd.
    - destruct (whole_spec _ _ Wd) as (_ & _ & B). apply JvInt, decimal_int. unfold_words. lia.
    - apply JvNum; [auto| |apply (v_double_range v Fv)]. destruct J as (_ & _ & _ & _ & J). exact J. }
  destruct (v_type v) eqn:T; try contradiction;
    try (apply IC; [exact W|reflexivity|unfold meaning_of; rewrite T; reflexivity]).
  - unfold meaning_of. rewrite T. destruct (v_raw v =? 0); constructor.
  - apply FC; [left; auto|unfold meaning_of; now rewrite T].
  - apply FC; [right; auto|unfold meaning_of; now rewrite T].
  - unfold meaning_of. rewrite T. constructor.
  - assert (M : meaning_of v = MeStr (v_data v)) by (unfold meaning_of; now rewrite T). rewrite M in *. apply JvStr. now apply js_escaped.
  - assert (M : meaning_of v = MeBin (v_data v)) by (unfold meaning_of; now rewrite T). rewrite M in *. apply JvStr. apply js_b64. tauto.
Qed.

Lemma nl_space compact k : Forall js_space (nl compact k).
Proof.
  unfold nl. destruct compact; [constructor|]. constructor; [cbn; auto|]. induction k; cbn; constructor; [cbn; auto|assumption].
Qed.

Lemma render_json x compact d : wf_doc d -> all_vals (fun _ v => json_value x v /\ rfc_value x v) d ->
  forall named k, json_names named d -> rfc_names named d ->
  exists kt bt nm, render compact x named k d = kt ++ bt /\ js_key false (if named then TObject else TArray) kt nm /\
    js_value x false nm bt (json_denote named d).
Proof.
  induction d as [n v|n t its IH] using doc_ind2; intros W A named k N R.
  - cbn in W, A, N, R. cbn [render json_denote]. exists (key compact named n), (value_text x (meaning_of v)), (if named then n else []).
    split; [reflexivity|]. split; [|apply js_value_text; tauto].
    destruct named; unfold key, quoted; [|constructor].
    change ((34 :: n ++ [34]) ++ [58] ++ (if compact then [] else [32])) with (34 :: (n ++ [34]) ++ [58] ++ (if compact then [] else [32])).
    rewrite <- app_assoc. apply (JkObj false n n [] (if compact then [] else [32])); [apply js_plain; auto|constructor|].
    destruct compact; constructor; [cbn; auto|constructor].
  - apply wf_doc_scope in W. destruct W as (_ & Wt & Wi). apply all_vals_scope in A. apply json_names_scope in N. apply rfc_names_scope in R.
    destruct N as [Nn Ni], R as [Rn Ri]. rewrite render_scope. cbn [json_denote].
    exists (key compact named n), ([if ty_eqb t TArray then 91 else 123] ++ items compact x (ty_eqb t TObject) k true its ++ nl compact k ++ [if ty_eqb t TArray then 93 else 125]), (if named then n else []).
    split; [reflexivity|]. split.
    { destruct named; unfold key, quoted; [|constructor].
      change ((34 :: n ++ [34]) ++ [58] ++ (if compact then [] else [32])) with (34 :: (n ++ [34]) ++ [58] ++ (if compact then [] else [32])).
      rewrite <- app_assoc. apply (JkObj false n n [] (if compact then [] else [32])); [apply js_plain; auto|constructor|].
      destruct compact; constructor; [cbn; auto|constructor]. }
    assert (G : js_items x false t (items compact x (ty_eqb t TObject) k true its ++ nl compact k) (map (json_denote (ty_eqb t TObject)) its)).
    { assert (Et : (if ty_eqb t TObject then TObject else TArray) = t) by (destruct Wt; subst; reflexivity).
      clear Nn Rn Wt.
      assert (G1 : forall l first, Forall (fun d => wf_doc d -> all_vals (fun _ v => json_value x v /\ rfc_value x v) d ->
          forall named k, json_names named d -> rfc_names named d -> exists kt bt nm, render compact x named k d = kt ++ bt /\ js_key false (if named then TObject else TArray) kt nm /\ js_value x false nm bt (json_denote named d)) l ->
          Forall wf_doc l -> Forall (all_vals (fun _ v => json_value x v /\ rfc_value x v)) l -> Forall (json_names (ty_eqb t TObject)) l -> Forall (rfc_names (ty_eqb t TObject)) l ->
          exists body, items compact x (ty_eqb t TObject) k first l = (if first then [] else match l with [] => [] | _ => [44] end) ++ body /\ js_items x false t (body ++ nl compact k) (map (json_denote (ty_eqb t TObject)) l)).
      { induction l as [|y l IHl]; intros first H1 H2 H3 H4 H5.
        - exists []. split; [destruct first; reflexivity|]. apply JiNone, nl_space.
        - inversion H1; inversion H2; inversion H3; inversion H4; inversion H5; subst. cbn [items map].
          destruct (IHl false) as (body & E & Hb); auto. clear IHl.
          match goal with H : wf_doc y -> _ |- _ => destruct (H ltac:(assumption) ltac:(assumption) (ty_eqb t TObject) (S k)) as (kt & bt & nm & Er & Hk & Hv); [assumption|assumption|] end.
          rewrite Et in Hk. rewrite E, Er. 
          exists (nl compact (S k) ++ (kt ++ bt) ++ match l with [] => [] | _ => [44] end ++ body). split; [destruct first; reflexivity|].
          destruct l as [|z l].
          + cbn [items] in E. assert (body = []) as -> by (destruct body; [reflexivity|discriminate E]). cbn [app map].
            rewrite app_nil_r, <- !app_assoc. apply (JiOne x false t _ kt nm); auto using nl_space.
          + rewrite <- !app_assoc. apply (JiCons x false t _ kt nm bt []); auto using nl_space. discriminate. }
      destruct (G1 its true) as (body & E & Hb); auto. cbn [app] in E. rewrite E. exact Hb. }
    destruct Wt; subst; cbn [ty_eqb ty_num Z.eqb Pos.eqb app] in G |- *; rewrite app_assoc; now constructor.
Qed.

(** * No JSON text contains control characters other than white space *)
Scheme js_value_mut := Minimality for js_value Sort Prop
  with js_items_mut := Minimality for js_items Sort Prop.
Combined Scheme js_mut from js_value_mut, js_items_mut.

Definition seen (c : Z) : Prop := 32 <= c \/ js_space c.
Lemma seen_space w : Forall js_space w -> Forall seen w.
Proof. apply Forall_impl. right. assumption. Qed.
Lemma seen_digits s : digits s -> Forall seen s.
Proof. intros [_ D]. eapply Forall_impl; [|exact D]. unfold is_digit, seen. intros; left; lia. Qed.
Lemma seen_hex h n : hex4 h n -> Forall seen h.
Proof.
  intros (L & a & b & H & _). do 5 (destruct h as [|? h]; try discriminate). cbn [hex_ref] in H.
  repeat match type of H with context [hex_digit ?c] => destruct (hex_digit c) eqn:?; try discriminate end.
  assert (D : forall c n, hex_digit c = Some n -> seen c).
  { intros c k. unfold hex_digit. repeat match goal with |- context [if ?b then _ else _] => destruct b eqn:? end; intros; try discriminate; left; lia. }
  repeat (apply Forall_cons; [eauto|]). apply Forall_nil.
Qed.
Lemma seen_chars u t s : js_chars u t s -> Forall seen t.
Proof.
  induction 1; try (constructor; fail).
  - constructor; [left; lia|assumption].
  - constructor; [left; lia|]. constructor; [|assumption]. left. cbn in H. repeat (destruct H as [H|H]; [injection H; lia|]). destruct H.
  - constructor; [left; lia|]. constructor; [left; lia|]. apply Forall_app. eauto using seen_hex.
  - constructor; [left; lia|]. constructor; [left; lia|]. apply Forall_app. split; [eauto using seen_hex|].
    constructor; [left; lia|]. constructor; [left; lia|]. apply Forall_app. eauto using seen_hex.
Qed.
Lemma seen_int t n : js_int t n -> Forall seen t.
Proof. intros (s & [D _] & [[-> _]|[-> _]]); [now apply seen_digits|]. constructor; [left; lia|now apply seen_digits]. Qed.
Lemma seen_number t : js_number t -> Forall seen t.
Proof.
  intros (i & n & f & e & -> & I & F & E & _). repeat (apply Forall_app; split).
  - eapply seen_int; eauto.
  - destruct F as [->|(s & -> & D)]; [constructor|]. constructor; [left; lia|now apply seen_digits].
  - destruct E as [->|(c & sg & s & -> & C & Sg & D)]; [constructor|]. constructor; [left; lia|]. apply Forall_app. split; [|now apply seen_digits].
    destruct Sg as [->|[->| ->]]; repeat constructor; lia.
Qed.
Lemma seen_key u sc k nm : js_key u sc k nm -> Forall seen k.
Proof.
  intros [|k' n w1 w2 C W1 W2]; [constructor|]. constructor; [left; lia|]. repeat (apply Forall_app; split); eauto using seen_chars, seen_space; repeat constructor; lia.
Qed.
Lemma seen_json x u :
  (forall nm t m, js_value x u nm t m -> Forall seen t) /\ (forall sc t ms, js_items x u sc t ms -> Forall seen t).
Proof.
  apply (js_mut x u (fun _ t _ => Forall seen t) (fun _ t _ => Forall seen t)); intros;
    try (apply Forall_forall; intros c Hc; cbn in Hc; left; repeat (destruct Hc as [<-|Hc]; [lia|]); destruct Hc; fail);
    eauto using seen_int, seen_number, seen_space.
  - unfold quoted. constructor; [left; lia|]. apply Forall_app. split; [eauto using seen_chars|repeat constructor; lia].
  - constructor; [left; lia|]. apply Forall_app. split; [assumption|repeat constructor; lia].
  - constructor; [left; lia|]. apply Forall_app. split; [assumption|repeat constructor; lia].
  - repeat (apply Forall_app; split); eauto using seen_key, seen_space.
  - repeat (apply Forall_app; split); eauto using seen_key, seen_space. constructor; [left; lia|assumption].
Qed.
