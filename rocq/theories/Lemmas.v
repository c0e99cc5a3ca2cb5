(** Generic lemmas about bytes, words and lists. *)
From Coq Require Import ZArith List Bool Lia ZifyBool ZifyNat.
From Verif Require Import Base.
Import ListNotations.
Open Scope Z_scope.

Ltac unfold_words := unfold two8, two16, two31, two32, two63, two64 in *.

Lemma bytes_eqb_spec a b : reflect (a = b) (bytes_eqb a b).
Proof. unfold bytes_eqb. destruct (list_eq_dec Z.eq_dec a b); constructor; auto. Qed.

Lemma bytes_eqb_refl a : bytes_eqb a a = true.
Proof. destruct (bytes_eqb_spec a a); congruence. Qed.

Lemma bytes_eqb_eq a b : bytes_eqb a b = true <-> a = b.
Proof. destruct (bytes_eqb_spec a b); split; congruence. Qed.

Lemma bytes_eqb_neq a b : bytes_eqb a b = false <-> a <> b.
Proof. destruct (bytes_eqb_spec a b); split; congruence. Qed.

Lemma wf_bytesb_spec l : wf_bytesb l = true <-> wf_bytes l.
Proof.
  unfold wf_bytesb, wf_bytes. rewrite forallb_forall, Forall_forall.
  split; intros H x Hx; specialize (H x Hx); unfold is_byteb, is_byte in *; lia.
Qed.

Lemma wf_bytes_app a b : wf_bytes (a ++ b) <-> wf_bytes a /\ wf_bytes b.
Proof. apply Forall_app. Qed.

Lemma zlen_nonneg {A} (l : list A) : 0 <= zlen l.
Proof. unfold zlen; lia. Qed.

Lemma zlen_app {A} (a b : list A) : zlen (a ++ b) = zlen a + zlen b.
Proof. unfold zlen. rewrite app_length. lia. Qed.

Lemma zlen_cons {A} (x : A) l : zlen (x :: l) = 1 + zlen l.
Proof. unfold zlen. cbn [length]. lia. Qed.

Lemma zlen_nil {A} : zlen (@nil A) = 0.
Proof. reflexivity. Qed.

Lemma le_length n x : length (le n x) = n.
Proof. revert x; induction n; intros; cbn [le length]; auto. Qed.

Lemma le_wf n x : wf_bytes (le n x).
Proof.
  revert x; induction n; intros; cbn [le]; constructor.
  - unfold is_byte. apply Z.mod_pos_bound. lia.
  - apply IHn.
Qed.

Lemma unle_le n x : 0 <= x < 256 ^ Z.of_nat n -> unle (le n x) = x.
Proof.
  revert x; induction n; intros x Hx; cbn [le unle].
  - change (256 ^ Z.of_nat 0) with 1 in Hx. lia.
  - rewrite IHn.
    + rewrite (Z.div_mod x 256) at 3 by lia. lia.
    + rewrite Nat2Z.inj_succ, Z.pow_succ_r in Hx by lia.
      split; [apply Z.div_pos; lia | apply Z.div_lt_upper_bound; lia].
Qed.

Lemma unle_le_mod n x : unle (le n x) = x mod 256 ^ Z.of_nat n.
Proof.
  revert x; induction n; intros x; cbn [le unle].
  - change (256 ^ Z.of_nat 0) with 1. now rewrite Z.mod_1_r.
  - rewrite IHn, Nat2Z.inj_succ, Z.pow_succ_r by lia.
    rewrite Z.rem_mul_r by lia. lia.
Qed.

Lemma unle_bound l : wf_bytes l -> 0 <= unle l < 256 ^ zlen l.
Proof.
  induction 1 as [|b l Hb Hl IH]; cbn [unle].
  - cbn. lia.
  - rewrite zlen_cons, Z.pow_add_r by (pose proof (zlen_nonneg l); lia).
    unfold is_byte in Hb. change (256 ^ 1) with 256. nia.
Qed.

Lemma le_unle l : wf_bytes l -> le (length l) (unle l) = l.
Proof.
  induction 1 as [|b l Hb Hl IH]; cbn [length le unle]; auto.
  unfold is_byte in Hb.
  f_equal.
  - rewrite Z.mul_comm, Z.mod_add, Z.mod_small by lia. auto.
  - rewrite Z.mul_comm, Z.div_add, Z.div_small by lia. auto.
Qed.

Lemma s64_range x : 0 <= x < two64 -> - two63 <= s64 x < two63.
Proof. unfold s64; unfold_words; intros. destruct (x <? 9223372036854775808) eqn:E; lia. Qed.

Lemma u64_s64 x : 0 <= x < two64 -> u64 (s64 x) = x.
Proof.
  unfold u64, s64; unfold_words; intros.
  destruct (x <? 9223372036854775808) eqn:E.
  - apply Z.mod_small; lia.
  - rewrite <- (Z.mod_add _ 1) by lia. rewrite Z.mod_small by lia. lia.
Qed.

Lemma s64_u64 x : - two63 <= x < two63 -> s64 (u64 x) = x.
Proof.
  unfold u64, s64; unfold_words; intros.
  destruct (Z_lt_dec x 0).
  - rewrite <- (Z.mod_add _ 1) by lia. rewrite Z.mod_small by lia.
    destruct (_ <? _) eqn:E; lia.
  - rewrite Z.mod_small by lia. destruct (_ <? _) eqn:E; lia.
Qed.

Lemma u64_range x : 0 <= u64 x < two64.
Proof. unfold u64; unfold_words. apply Z.mod_pos_bound. lia. Qed.

(** lor of disjoint bit ranges is addition *)
Lemma lor_add a b k : 0 <= k -> 0 <= b < 2 ^ k -> Z.lor (a * 2 ^ k) b = a * 2 ^ k + b.
Proof.
  intros Hk Hb.
  rewrite <- Z.shiftl_mul_pow2 by lia.
  symmetry. rewrite <- Z.lxor_lor.
  - apply Z.add_nocarry_lxor.
    apply Z.bits_inj'. intros i Hi.
    rewrite Z.land_spec, Z.shiftl_spec, Z.bits_0 by lia.
    destruct (Z_lt_dec i k).
    + now rewrite Z.testbit_neg_r by lia.
    + assert (Hz: Z.testbit b i = false).
      { destruct (Z.eq_dec b 0) as [->|]; [apply Z.bits_0|].
        apply Z.bits_above_log2; [lia|].
        apply Z.log2_lt_pow2; [lia|].
        eapply Z.lt_le_trans; [apply Hb|]. apply Z.pow_le_mono_r; lia. }
      rewrite Hz. apply andb_false_r.
  - apply Z.bits_inj'. intros i Hi.
    rewrite Z.land_spec, Z.shiftl_spec, Z.bits_0 by lia.
    destruct (Z_lt_dec i k).
    + now rewrite Z.testbit_neg_r by lia.
    + assert (Hz: Z.testbit b i = false).
      { destruct (Z.eq_dec b 0) as [->|]; [apply Z.bits_0|].
        apply Z.bits_above_log2; [lia|].
        apply Z.log2_lt_pow2; [lia|].
        eapply Z.lt_le_trans; [apply Hb|]. apply Z.pow_le_mono_r; lia. }
      rewrite Hz. apply andb_false_r.
Qed.

Lemma land_ones_mod a k : 0 <= k -> Z.land a (2 ^ k - 1) = a mod 2 ^ k.
Proof. intros. rewrite <- Z.land_ones by auto. f_equal. rewrite Z.ones_equiv. lia. Qed.

(** list splitting *)
Lemma firstn_app_exact {A} (a b : list A) n : n = length a -> firstn n (a ++ b) = a.
Proof. intros ->. rewrite firstn_app, Nat.sub_diag, firstn_all, firstn_O, app_nil_r. auto. Qed.

Lemma skipn_app_exact {A} (a b : list A) n : n = length a -> skipn n (a ++ b) = b.
Proof. intros ->. rewrite skipn_app, Nat.sub_diag, skipn_all. auto. Qed.

Lemma rbind_assoc {A B C} (r : res A) (f : A -> res B) (g : B -> res C) :
  rbind (rbind r f) g = rbind r (fun a => rbind (f a) g).
Proof. destruct r; auto. Qed.

Lemma rbind_ok_inv {A B} (r : res A) (f : A -> res B) b :
  rbind r f = Ok b -> exists a, r = Ok a /\ f a = Ok b.
Proof. destruct r; cbn; try discriminate. eauto. Qed.

Lemma skipn_skipn {A} (l : list A) n m : skipn n (skipn m l) = skipn (m + n) l.
Proof.
  revert l; induction m; intros; cbn [Nat.add skipn]; auto.
  destruct l; auto. now rewrite skipn_nil.
Qed.

Lemma skipn_all2' {A} (l : list A) n : (length l <= n)%nat -> skipn n l = [].
Proof. apply skipn_all2. Qed.

Lemma rev_append_app {A} (a b : list A) : rev_append a b = rev a ++ b.
Proof. now rewrite rev_append_rev. Qed.
