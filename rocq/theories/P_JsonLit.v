(** The text of a scalar in JSON and what it is read back as. *)
From Coq Require Import ZArith List Bool Lia ZifyBool ZifyNat.
From Verif Require Import Base Lemmas M_Types M_Conv M_Charset M_In S_Conv S_Doc S_Json M_OutOps M_Env M_Json P_Conv P_Text P_Float P_Paste P_Doc P_Scan P_JsonStr.
Import ListNotations.
Open Scope Z_scope.

Definition json_norm_v (v : value) : value :=
  match meaning_of v with
  | MeInt n => val_int (if n <? 0 then TI64 else TUI64) n
  | MeFloat d => match whole d with Some n => val_int (if n <? 0 then TI64 else TUI64) n | None => val_f64 d end
  | MeNull => val_type TNull
  | MeBool b => val_bool b
  | MeStr s => val_string s EUTF8
  | MeBin s => val_string (b64_text s) EUTF8
  | MeObj => val_type TObject | MeArr => val_type TArray | MeEnd => val_type TScopeEnd
  end.

(** * base64 *)
Lemma b64_text_eq bs : wf_bytes bs -> bytes_to_base64 bs = b64_text bs.
Proof.
  intros W. rewrite bytes_to_base64_ref by exact W. clear W.
  induction bs as [|a|a b|a b c bs IHbs] using list_ind3.
  1-3: reflexivity.
  cbn [b64_enc_ref b64_text]. rewrite IHbs. reflexivity.
Qed.
Lemma b64_text_len bs : zlen (b64_text bs) = 4 * ((zlen bs + 2) / 3).
Proof.
  induction bs as [|a|a b|a b c bs IHbs] using list_ind3; try reflexivity.
  cbn [b64_text]. rewrite !zlen_cons, IHbs. Z.to_euclidean_division_equations. lia.
Qed.
Lemma b64_char_cases n : 0 <= n < 64 -> is_byte (b64_char n) /\ plain_char (b64_char n).
Proof.
  intros H. unfold is_byte, plain_char, b64_char.
  assert (A : Forall (fun c => 0 <= c < 256 /\ c <> 34 /\ c <> 92) b64_alphabet).
  { apply Forall_forall. intros c Hc. cbn in Hc. repeat (destruct Hc as [<-|Hc]; [lia|]). destruct Hc. }
  rewrite Forall_forall in A. apply A. apply nth_In. replace (length b64_alphabet) with 64%nat by reflexivity. lia.
Qed.
Lemma b64_text_plain bs : wf_bytes bs -> wf_bytes (b64_text bs) /\ Forall plain_char (b64_text bs).
Proof.
  induction bs as [|a|a b|a b c bs IHbs] using list_ind3; intros W.
  - split; constructor.
  - inversion W; subst. unfold is_byte in *.
    destruct (b64_char_cases (a / 4)), (b64_char_cases (a mod 4 * 16)); try (split; [|]; Z.to_euclidean_division_equations; lia); try (Z.to_euclidean_division_equations; lia).
    cbn [b64_text]. split; repeat (constructor; [first [assumption|unfold is_byte, plain_char; lia]|]); constructor.
  - inversion W as [|? ? Ha W1]; inversion W1 as [|? ? Hb W2]; subst. unfold is_byte in *.
    destruct (b64_char_cases (a / 4)), (b64_char_cases (a mod 4 * 16 + b / 16)), (b64_char_cases (b mod 16 * 4)); try (Z.to_euclidean_division_equations; lia).
    cbn [b64_text]. split; repeat (constructor; [first [assumption|unfold is_byte, plain_char; lia]|]); constructor.
  - inversion W as [|? ? Ha W1]; inversion W1 as [|? ? Hb W2]; inversion W2 as [|? ? Hc W3]; subst. unfold is_byte in *.
    destruct (b64_char_cases (a / 4)), (b64_char_cases (a mod 4 * 16 + b / 16)), (b64_char_cases (b mod 16 * 4 + c / 64)), (b64_char_cases (c mod 64)); try (Z.to_euclidean_division_equations; lia).
    destruct (IHbs W3). cbn [b64_text]. split; repeat (constructor; [first [assumption|unfold is_byte, plain_char; lia]|]); assumption.
Qed.

(** * scalars *)
Definition lit_stop (c : Z) : Prop := c = 44 \/ c = 32 \/ c = 125 \/ c = 93.
Definition ws_nt (c : Z) : Prop := c = 10 \/ c = 9.
Definition lit_hint (t : bytes) : ty := if existsb (Z.eqb 46) t then TFP64 else TNull.
Record lit_ok (x : fp_text) (v : value) (t : bytes) : Prop := {
  lo_print : type_to_str x v = Ok t;
  lo_first : exists c r, t = c :: r /\ is_literal c = true /\ c <> 34 /\ c <> 58 /\ c <> 47 /\ c <> 123 /\ c <> 91 /\ ~ In c [32; 44; 10; 9; 13];
  lo_chars : Forall (fun c => ~ lit_stop c) t;
  lo_len : zlen t < 800;
  lo_parse : forall ws, Forall ws_nt ws -> str_to_type x (t ++ ws) (lit_hint t) = Some (json_norm_v v)
}.

Lemma ws_white ws : Forall ws_nt ws -> Forall white ws.
Proof. apply Forall_impl. unfold ws_nt, white. lia. Qed.

Lemma digit_not_stop c : is_digit c -> ~ lit_stop c.
Proof. unfold is_digit, lit_stop. lia. Qed.
Lemma digits_no_dot s : Forall is_digit s -> existsb (Z.eqb 46) s = false.
Proof. induction 1 as [|c s H]; cbn [existsb]; [reflexivity|]. unfold is_digit in H. replace (46 =? c) with false by lia. auto. Qed.
Lemma digit_literal c : is_digit c -> is_literal c = true.
Proof. unfold is_digit, is_literal. intros. replace ((48 <=? c) && (c <=? 57)) with true by lia. reflexivity. Qed.
Ltac first_char := repeat split; try reflexivity; try lia; try (cbn; lia).

Lemma lit_dec x v n s : type_to_str x v = Ok s -> dec_text n s -> - two63 < n < two64 -> zlen s < 800 ->
  json_norm_v v = val_int (if n <? 0 then TI64 else TUI64) n -> lit_ok x v s.
Proof.
  intros P D B L N. destruct D as [(H0 & [Dn Dd] & Dv)|(H0 & s' & -> & [Dn Dd] & Dv)].
  - constructor; auto.
    + destruct s as [|c r]; [congruence|]. inversion Dd; subst. exists c, r. split; [reflexivity|]. split; [now apply digit_literal|].
      unfold is_digit in *. first_char.
    + eapply Forall_impl; [|exact Dd]. intros; now apply digit_not_stop.
    + intros ws W. unfold lit_hint. rewrite digits_no_dot by auto. rewrite <- (app_nil_l (s ++ ws)), parse_nat.
      * rewrite N, Dv. replace (n <? 0) with false by lia. reflexivity.
      * reflexivity.
      * constructor.
      * now apply ws_white.
      * split; auto.
      * lia.
  - constructor; auto.
    + exists 45, s'. split; [reflexivity|]. first_char.
    + constructor; [unfold lit_stop; lia|]. eapply Forall_impl; [|exact Dd]. intros; now apply digit_not_stop.
    + intros ws W. unfold lit_hint. cbn [existsb]. rewrite digits_no_dot by auto. cbn [Z.eqb Pos.eqb orb].
      rewrite <- (app_nil_l ((45 :: s') ++ ws)), parse_neg.
      * rewrite N, Dv. replace (n <? 0) with true by lia. now rewrite Z.opp_involutive.
      * reflexivity.
      * constructor.
      * now apply ws_white.
      * split; auto.
      * lia.
Qed.

(** texts of integers are short *)
Lemma print_loop_len room : forall val acc d r, print_loop room val acc = Ok (d, r) -> (length d + r <= length acc + room)%nat.
Proof.
  induction room as [|room IH]; intros val acc d r H; cbn [print_loop] in H.
  - destruct (val =? 0); [injection H as <- <-; lia|discriminate].
  - destruct (val =? 0); [injection H as <- <-; lia|]. apply IH in H. cbn [length] in H. lia.
Qed.
Lemma conv_type_int_len t raw s : conv_type_int t raw = Ok s -> zlen s < 800.
Proof.
  unfold conv_type_int. set (bs := (digits10 t + 1 + (if is_signed t then 1 else 0))%nat).
  assert (B : (bs <= 21)%nat) by (unfold bs; destruct t; cbn; lia). clearbody bs.
  destruct (_ && _); [discriminate|]. destruct (_ =? 0); [intros H; injection H as <-; cbn; lia|].
  destruct (print_loop bs _ []) as [[d r]| | |] eqn:E; cbn [rbind]; try discriminate. apply print_loop_len in E. cbn [length] in E.
  destruct (is_signed t && (s64 raw <? 0)); [destruct r; [discriminate|]|]; intros H; injection H as <-; unfold zlen; cbn [length]; lia.
Qed.

Lemma whole_spec d n : whole d = Some n -> f64_exp d <> 2047 /\ f64_scaled d = n * fp_unit /\ Z.abs n <= two63.
Proof.
  unfold whole. destruct (_ && _) eqn:E; [|discriminate]. intros H. injection H as <-. pose proof fp_unit_pos.
  rewrite !andb_true_iff in E. destruct E as [[E1 E2] E3].
  pose proof (Z.div_mod (f64_scaled d) fp_unit ltac:(lia)). split; [lia|]. split; [lia|]. lia.
Qed.
Lemma whole_none d : whole d = None -> fp_prints_as_int d = false.
Proof.
  unfold whole, fp_prints_as_int. pose proof fp_unit_pos.
  destruct (negb (f64_exp d =? 2047)); [|reflexivity]. cbn [andb].
  destruct (Z.eqb_spec (f64_scaled d mod fp_unit) 0) as [M|M]; [|reflexivity]. cbn [andb].
  destruct (Z.leb_spec (Z.abs (f64_scaled d / fp_unit)) two63) as [A|A]; [discriminate|]. intros _.
  pose proof (Z.div_mod (f64_scaled d) fp_unit ltac:(lia)). set (q := f64_scaled d / fp_unit) in *.
  destruct (Z.leb_spec (f64_scaled d) (two63 * fp_unit)); [|reflexivity]. cbn [andb].
  apply Z.leb_gt. assert (q < - two63 \/ two63 < q) as [C|C] by lia; nia.
Qed.

Lemma int_loop_digits s : forall val, snd (str_to_int_loop s val) = true -> Forall number_char s -> Forall is_digit s.
Proof.
  induction s as [|b s IH]; intros val H F; [constructor|]. cbn [str_to_int_loop] in H. inversion F as [|? ? Hb Fs]; subst.
  destruct (_ || _) eqn:E; [discriminate|]. destruct (u64 _ <? _); [discriminate|]. constructor; [|eauto].
  destruct Hb as [Hb|Hb]; [exact Hb|]. exfalso. cbn in Hb. destruct Hb as [<-|[<-|[<-|[<-|[<-|[]]]]]]; vm_compute in E; discriminate E.
Qed.
Lemma number_text_not_int s : Forall number_char s -> s <> [] -> ~ plain_int s -> snd (str_to_int s) = false.
Proof.
  intros F N P. unfold str_to_int.
  assert (A : snd (let '(val, all) := str_to_int_loop s 0 in (val, false, all)) = false).
  { destruct (str_to_int_loop s 0) as [v [|]] eqn:E; cbn [snd]; [|reflexivity]. exfalso. apply P. left. split; [exact N|].
    apply (int_loop_digits s 0); [now rewrite E|exact F]. }
  destruct s as [|c s']; [congruence|]. destruct (Z.eq_dec c 45) as [->|Nc].
  - destruct s' as [|c' s'']; [reflexivity|]. destruct (str_to_int_loop (c' :: s'') 0) as [v [|]] eqn:E; cbn [snd andb]; [|reflexivity].
    exfalso. apply P. right. exists (c' :: s''). split; [reflexivity|]. split; [discriminate|].
    inversion F; subst. apply (int_loop_digits _ 0); [now rewrite E|assumption].
  - destruct c as [|p|p]; try exact A. do 6 (destruct p as [p|p|]; try exact A). lia.
Qed.

Lemma number_char_facts c : number_char c -> ~ lit_stop c /\ ~ white c.
Proof. unfold number_char, is_digit, lit_stop, white. cbn. lia. Qed.

Lemma lit_float x v d : (v_type v = TFP32 \/ v_type v = TFP64) -> v_double v = d -> whole d = None -> prints_well x d ->
  json_norm_v v = val_f64 d -> lit_ok x v (x_dtoa x d).
Proof.
  intros T D W (F & (c & r & E & Hc) & NI & L & RT) N. set (s := x_dtoa x d) in *.
  assert (Nn : s <> []) by (rewrite E; discriminate).
  constructor; auto.
  - rewrite type_to_str_fp by auto. unfold conv_type_fp. rewrite D, whole_none by auto. reflexivity.
  - exists c, r. split; [exact E|]. split; [destruct Hc as [Hc| ->]; [now apply digit_literal|reflexivity]|].
    destruct Hc as [Hc| ->]; [unfold is_digit in Hc|]; first_char.
  - eapply Forall_impl; [|exact F]. intros a Ha. apply number_char_facts in Ha. tauto.
  - intros ws Hw. unfold str_to_type. rewrite <- (app_nil_l (s ++ ws)). rewrite trim_space_exact.
    + rewrite E. rewrite <- E. replace (102 <=? c) with false by (destruct Hc as [Hc| ->]; [unfold is_digit in Hc|]; lia).
      rewrite andb_false_r. cbn [andb]. rewrite RT, N. destruct (is_fp (lit_hint s)); [reflexivity|].
      pose proof (number_text_not_int s F Nn NI) as S. destruct (str_to_int s) as [[i sg] ok]. cbn in S. now rewrite S.
    + constructor.
    + now apply ws_white.
    + exact Nn.
    + intros a Ha. eapply Forall_hd in F; eauto. apply number_char_facts in F. tauto.
    + intros a Ha. apply Forall_rev in F. eapply Forall_hd in F; eauto. apply number_char_facts in F. tauto.
Qed.

Lemma lit_const x v t0 r : type_to_str x v = Ok t0 -> In (t0, r) [(str_true, val_bool true); (str_false, val_bool false); (str_null, val_type TNull)] ->
  json_norm_v v = r -> lit_ok x v t0.
Proof.
  intros P I N. constructor; auto.
  - cbn in I. destruct I as [I|[I|[I|[]]]]; injection I as <- <-; eexists _, _; (split; [reflexivity|]); first_char.
  - cbn in I. destruct I as [I|[I|[I|[]]]]; injection I as <- <-; repeat (constructor; [unfold lit_stop; lia|]); constructor.
  - cbn in I. destruct I as [I|[I|[I|[]]]]; injection I as <- <-; cbn; lia.
  - intros ws W. rewrite N. cbn in I. destruct I as [I|[I|[I|[]]]]; injection I as <- <-; unfold str_to_type; rewrite <- (app_nil_l (_ ++ ws)), trim_space_exact;
      try (now apply ws_white); try constructor; try discriminate; try (cbn; intros a Ha; injection Ha as <-; unfold white; lia); reflexivity.
Qed.

Lemma lit_spec x v : wf_value v -> json_value x v -> is_scalar (v_type v) = true -> exists t, lit_ok x v t.
Proof.
  intros W J S.
  assert (I : forall n, is_int_ty (v_type v) = true -> in_range (v_type v) n -> v_raw v = u64 n -> meaning_of v = MeInt n ->
    type_to_str x v = conv_type_int (v_type v) (v_raw v) -> exists t, lit_ok x v t).
  { intros n It R E M T. unfold json_value in J. rewrite M in J. destruct (conv_type_int_spec (v_type v) n It R J) as (s & Hs & Hd).
    exists s. apply (lit_dec x v n); auto.
    - rewrite T, E. exact Hs.
    - destruct (ty_bounds _ n It R) as (_ & _ & B & _). lia.
    - eapply conv_type_int_len; eauto.
    - unfold json_norm_v. now rewrite M. }
  assert (Fl : fp_value v -> meaning_of v = MeFloat (v_double v) -> exists t, lit_ok x v t).
  { intros Fv M. unfold json_value in J. rewrite M in J. destruct (whole (v_double v)) as [n|] eqn:Wd.
    - destruct (whole_spec _ _ Wd) as (H1 & H2 & H3). destruct (print_fp_integral x v n Fv H1 H2) as (s & Hs & Hd); [lia|].
      exists s. apply (lit_dec x v n); auto.
      + unfold_words. lia.
      + rewrite type_to_str_fp in Hs by (destruct Fv as [[? _]|[? _]]; auto). unfold conv_type_fp in Hs.
        destruct (fp_prints_as_int (v_double v)) eqn:Pi.
        * destruct (_ =? two63); [discriminate|]. eapply conv_type_int_len; eauto.
        * exfalso. unfold fp_prints_as_int in Pi. destruct (scaled_div _ _ H2) as [_ Mo]. rewrite Mo, H2 in Pi. pose proof fp_unit_pos.
          replace (f64_exp (v_double v) =? 2047) with false in Pi by lia. cbn [negb andb Z.eqb] in Pi. apply andb_false_iff in Pi. nia.
      + unfold json_norm_v. now rewrite M, Wd.
    - exists (x_dtoa x (v_double v)). apply lit_float; auto.
      + destruct Fv as [[? _]|[? _]]; auto.
      + unfold json_norm_v. now rewrite M, Wd. }
  unfold wf_value in W. unfold meaning_of in I, Fl.
  destruct (v_type v) eqn:T; try discriminate S; try contradiction;
    try (destruct W as (n & R & E); apply (I n); auto;
         [cbn; f_equal; unfold int_value; rewrite T; cbn; rewrite E; unfold in_range in R; cbn in R;
          first [apply s64_u64; unfold_words; lia|apply Z.mod_small; unfold_words; lia] | unfold type_to_str; rewrite T; reflexivity]).
  - (* bool *) destruct (v_raw v =? 0) eqn:R.
    + exists str_false. eapply lit_const; [unfold type_to_str; rewrite T, R; reflexivity|cbn; auto|]. unfold json_norm_v, meaning_of. rewrite T, R. reflexivity.
    + exists str_true. eapply lit_const; [unfold type_to_str; rewrite T, R; reflexivity|cbn; auto|]. unfold json_norm_v, meaning_of. rewrite T, R. reflexivity.
  - apply Fl; [left; auto|reflexivity].
  - apply Fl; [right; auto|reflexivity].
  - exists str_null. eapply lit_const; [unfold type_to_str; rewrite T; reflexivity|cbn; auto|]. unfold json_norm_v, meaning_of. rewrite T. reflexivity.
Qed.
