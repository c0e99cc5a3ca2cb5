(** Doubles in JSON documents and objects. *)
From Coq Require Import ZArith List Bool QArith Qabs Qpower Lqa Lia ZifyBool ZifyNat.
From Verif Require Import Base Lemmas M_Types M_Conv M_In S_Conv S_Doc S_Json S_JsonText M_OutOps S_Out M_Event M_Env M_Json M_Fpconv
  S_Fpconv S_FpRead S_FpJson S_ObjIO P_Doc P_JsonMain P_JsonGrammar P_FpDigits P_FpScale P_FpNear P_FpEmit P_FpRead.
Import ListNotations.
Open Scope Z_scope.

Theorem fpconv_text bits : finite bits ->
  exists t q, fpconv_dtoa bits = Ok t /\ zlen t <= 24 /\ decimal_text t (negative bits) q /\ nearest (bits mod 2 ^ 63) q.
Proof.
  intros F. destruct (fpconv_spec bits F) as (t & q & b & E & L & N & NR & _). exists ((if negative bits then [45] else []) ++ t), q. split; [exact E|].
  split; [rewrite zlen_app; destruct (negative bits); [change (zlen [45]) with 1|change (zlen (@nil Z)) with 0]; lia|]. split; [eapply parts_decimal; exact N|exact NR].
Qed.
Theorem fpconv_special bits : 0 <= bits < 2 ^ 64 -> ~ finite bits ->
  fpconv_dtoa bits = Ok ((if negative bits then [45] else []) ++ if bits mod 2 ^ 63 =? 2047 * 2 ^ 52 then $"inf" else $"nan").
Proof.
  intros B NF. unfold fpconv_dtoa. rewrite neg_test, land_frac, land_exp by lia. set (n := bits mod 2 ^ 63) in *.
  assert (N0 : 2047 * 2 ^ 52 <= n < 2 ^ 63). { pose proof (Z.mod_pos_bound bits (2 ^ 63) ltac:(lia)) as MB. fold n in MB. destruct (Z_lt_le_dec n (2047 * 2 ^ 52)); [|lia]. exfalso. apply NF. split; [exact B|assumption]. }
  assert (E : bits mod 2 ^ 52 = n mod 2 ^ 52). { unfold n. change (2 ^ 63) with (2 ^ 52 * 2 ^ 11). rewrite Z.rem_mul_r by lia. rewrite Z.mul_comm, Z.mod_add by lia. rewrite Z.mod_mod by lia. reflexivity. }
  rewrite E. assert (Q : n / 2 ^ 52 = 2047) by (symmetry; apply (Z.div_unique_pos n (2 ^ 52) 2047 (n - 2047 * 2 ^ 52)); lia).
  assert (M : n mod 2 ^ 52 = n - 2047 * 2 ^ 52) by (symmetry; apply (Z.mod_unique_pos n (2 ^ 52) 2047 (n - 2047 * 2 ^ 52)); lia). rewrite Q, M. cbn [Z.eqb andb]. change (2047 =? 2047) with true. cbv iota.
  replace (n - 2047 * 2 ^ 52 =? 0) with (n =? 2047 * 2 ^ 52) by lia. reflexivity.
Qed.
Theorem fpconv_reads_back strtod : reads_nearest strtod -> forall bits, finite bits -> exists t, fpconv_dtoa bits = Ok t /\ strtod t = Some bits.
Proof.
  intros R bits F. destruct (fpconv_text bits F) as (t & q & E & _ & D & N). exists t. split; [exact E|]. rewrite (R t (negative bits) q (bits mod 2 ^ 63) D); [f_equal; now apply sign_bits| |exact N].
  destruct F as [_ FF]. pose proof (Z.mod_pos_bound bits (2 ^ 63) ltac:(lia)). lia.
Qed.
Theorem fpconv_injective a b t : finite a -> finite b -> fpconv_dtoa a = Ok t -> fpconv_dtoa b = Ok t -> a = b.
Proof.
  intros FA FB EA EB. destruct (fpconv_reads_back _ ref_reads_nearest a FA) as (ta & Ta & Ra). destruct (fpconv_reads_back _ ref_reads_nearest b FB) as (tb & Tb & Rb). congruence.
Qed.

Theorem grisu2_digits bits : finite bits -> 0 < bits mod 2 ^ 63 ->
  exists ds K, grisu2 bits = Ok (ds, K) /\ digits ds /\ hd 48 ds <> 48 /\ zlen ds <= 17 /\ nearest (bits mod 2 ^ 63) (inject_Z (dec_value ds) * power 10 K).
Proof.
  intros F N. destruct (grisu2_nearest bits _ F eq_refl N) as (ds & K & E & G & ND & L & _ & NR). exists (rev ds), K. split; [exact E|]. rewrite <- rval_dec, zlen_rev.
  split; [split; [intros X; apply ND; apply (f_equal (@rev Z)) in X; rewrite rev_involutive in X; exact X|apply Forall_rev, G]|]. split; [now apply dig_first|]. split; assumption.
Qed.

Lemma the_fp_real : real_fp the_fp.
Proof.
  split; [|exact ref_reads_nearest]. intros d F. cbn [the_fp x_dtoa]. destruct (fpconv_text d F) as (t & _ & E & _). rewrite E. reflexivity.
Qed.
Lemma moderate_prints x d : real_fp x -> moderate d -> whole d = None -> prints_well x d /\ js_number (x_dtoa x d).
Proof. intros [P R] [F M] W. apply fpconv_prints_well; auto. Qed.
Lemma whole_moderate d n : moderate d -> whole d = Some n -> Z.abs n <> 2 ^ 63.
Proof.
  intros [F M] W. unfold whole in W. destruct (_ && _) eqn:C in W; [|discriminate]. injection W as <-. assert (U : 0 < fp_unit) by (unfold fp_unit; apply Z.pow_pos_nonneg; lia).
  apply andb_prop in C. destruct C as [C C3]. apply andb_prop in C. destruct C as [_ C2]. apply Z.eqb_eq in C2. apply Z.leb_le in C3. change two63 with (2 ^ 63) in C3. pose proof (Z.div_mod (f64_scaled d) fp_unit ltac:(lia)) as DM. rewrite C2 in DM.
  set (k := f64_scaled d / fp_unit) in *. assert (A : Z.abs (f64_scaled d) = Z.abs k * fp_unit) by (rewrite DM, Z.add_0_r, Z.mul_comm, Z.abs_mul, (Z.abs_eq fp_unit); lia). rewrite A in M.
  destruct M as [M|M]; [apply Z.mul_lt_mono_pos_r in M; lia|]. apply Z.mul_le_mono_pos_r in M; lia.
Qed.
Lemma moderate_printable x d : real_fp x -> moderate d -> printable x d.
Proof. intros R M. unfold printable. destruct (whole d) as [n|] eqn:W; [eapply whole_moderate; eauto|]. now apply moderate_prints. Qed.
Lemma plain_json x v : real_fp x -> plain_value v -> json_value x v.
Proof.
  intros R P. unfold plain_value, json_value in *. destruct (meaning_of v); auto. change two63 with (2 ^ 63). now apply moderate_printable.
Qed.
Lemma plain_rfc x v : real_fp x -> plain_value v -> rfc_string v -> rfc_value x v.
Proof. intros R P S. unfold plain_value, rfc_value, rfc_string in *. destruct (meaning_of v); auto. intros W. now apply moderate_prints. Qed.

Theorem json_doubles x d w0 r0 : real_fp x -> wf_doc d -> is_scope_doc d -> all_vals (fun _ v => plain_value v) d -> json_names false d ->
  exists w' ops, write_events (json_save x) (json_clear w0) (events d) = Ok (w', ops) /\ valid_ops [] ops /\
  exists d', mdoc_of d' = json_denote false d /\
    forall F before rest, (length (spec_out ops) + 5 <= F)%nat ->
    exists r', run_block (read_events (json_read x F) (length (events d)) (json_clear r0)) (mkBlk before (spec_out ops ++ rest)) =
      Ok ((r', events d'), mkBlk (rev (spec_out ops) ++ before) rest).
Proof. intros R W S A N. apply json_roundtrip; auto. eapply all_vals_impl; [|exact A]. cbv beta. intros _ v H. now apply plain_json. Qed.
Theorem json_doubles_conform x d w0 : real_fp x -> wf_doc d -> is_scope_doc d -> all_vals (fun _ v => plain_value v /\ rfc_string v) d -> json_names false d -> rfc_names false d ->
  exists w' ops, write_events (json_save x) (json_clear w0) (events d) = Ok (w', ops) /\ js_value x false [] (spec_out ops) (json_denote false d).
Proof. intros R W S A N N2. apply json_output_conforms; auto. eapply all_vals_impl; [|exact A]. cbv beta. intros _ v [H H2]. split; [now apply plain_json|now apply plain_rfc]. Qed.
