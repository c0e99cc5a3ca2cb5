(** Proofs about character arrays. *)
From Coq Require Import ZArith List Bool Lia ZifyBool ZifyNat.
From Verif Require Import Base Lemmas M_Types M_Conv M_TpTools M_Charset S_Doc M_Tree M_Object S_Chars.
Import ListNotations.
Open Scope Z_scope.

Lemma unit_pos e : 1 <= unit_size e.
Proof. destruct e; cbn; lia. Qed.
Lemma zero_char l u : length l = u -> forallb (fun b => b =? 0) l = true <-> l = repeat 0 u.
Proof.
  revert u. induction l as [|a l IH]; intros [|u] L; cbn in *; try discriminate; [tauto|]. rewrite andb_true_iff, (IH u) by lia. split.
  - intros [A ->]. f_equal. lia.
  - intros H. injection H as -> ->. split; [reflexivity|reflexivity].
Qed.
Lemma char_len e n mem i : array_of e n mem -> 0 <= i < n -> length (char_at (unit_size e) mem i) = Z.to_nat (unit_size e).
Proof.
  intros [A B] I. pose proof (unit_pos e). unfold char_at. rewrite firstn_length, skipn_length. unfold zlen in B. assert (i * unit_size e + unit_size e <= n * unit_size e) by nia. lia.
Qed.
Lemma loop_finds e n mem i : array_of e n mem -> i < n -> ends_at (unit_size e) mem i -> n <> 1 ->
  forall f k, 0 <= k <= i -> (Z.to_nat (n - k) < f)%nat -> wrap_loop f (unit_size e) n k mem = Ok i.
Proof.
  intros A L (I & Z0 & NZ) N1. pose proof (unit_pos e) as U. induction f as [|f IH]; intros k K F; [lia|]. cbn [wrap_loop].
  destruct (negb (k <? (n - 1) * unit_size e)) eqn:E.
  - f_equal. assert (n - 1 <= (n - 1) * unit_size e) by nia. lia.
  - destruct (n <=? k) eqn:E2; [lia|]. pose proof (char_len e n mem k A ltac:(lia)) as CL. fold (char_at (unit_size e) mem k).
    destruct (forallb _ _) eqn:E3.
    + apply (zero_char _ _ CL) in E3. destruct (Z.eq_dec k i) as [->|NE]; [reflexivity|]. destruct (NZ k); [lia|exact E3].
    + apply IH; [|lia]. destruct (Z.eq_dec k i) as [->|NE]; [|lia]. apply (zero_char _ _ CL) in Z0. congruence.
Qed.
Lemma wrap_text e n mem s : holds_text e n mem s -> wrap_array e n mem = Ok s.
Proof.
  intros (A & i & L & E & ->). unfold wrap_array. pose proof E as (I & _). destruct (n - 1 =? 0) eqn:N1.
  - assert (i = 0) by lia. subst i. reflexivity.
  - rewrite (loop_finds e n mem i) by (auto; lia). reflexivity.
Qed.
Lemma loop_misses e n mem : unterminated e n mem -> n <> 1 -> forall f k, 0 <= k <= n -> k <= (n - 1) * unit_size e -> (Z.to_nat (n - k) < f)%nat ->
  wrap_loop f (unit_size e) n k mem = if n <? (n - 1) * unit_size e then UB UbOob else Ok ((n - 1) * unit_size e).
Proof.
  intros [A NZ] N1. pose proof (unit_pos e) as U. induction f as [|f IH]; intros k K K1 F; [lia|]. cbn [wrap_loop].
  destruct (negb (k <? (n - 1) * unit_size e)) eqn:E.
  - replace (n <? _) with false by lia. f_equal. lia.
  - destruct (n <=? k) eqn:E2; [replace (n <? _) with true by lia; reflexivity|]. pose proof (char_len e n mem k A ltac:(lia)) as CL. fold (char_at (unit_size e) mem k).
    destruct (forallb _ _) eqn:E3; [apply (zero_char _ _ CL) in E3; destruct (NZ k); [lia|exact E3]|]. apply IH; lia.
Qed.
Lemma wrap_narrow n mem : unterminated EUTF8 n mem -> wrap_array EUTF8 n mem = Ok (firstn (Z.to_nat (n - 1)) mem).
Proof.
  intros H. pose proof H as [[A B] _]. unfold wrap_array. destruct (n - 1 =? 0) eqn:N1; [replace (n - 1) with 0 by lia; reflexivity|].
  rewrite (loop_misses EUTF8 n mem H) by (cbn [unit_size]; lia). cbn [unit_size]. replace (n <? _) with false by lia. cbn [rbind]. do 2 f_equal. lia.
Qed.
Lemma wrap_wide e n mem : unterminated e n mem -> e = EUTF16 /\ 3 <= n \/ e = EUTF32 /\ 2 <= n -> wrap_array e n mem = UB UbOob.
Proof.
  intros H C. unfold wrap_array. replace (n - 1 =? 0) with false by lia.
  rewrite (loop_misses e n mem H) by (destruct C as [[-> C]|[-> C]]; cbn [unit_size]; lia). replace (n <? _) with true; [reflexivity|]. destruct C as [[-> C]|[-> C]]; cbn [unit_size]; lia.
Qed.

(** * The text that is in an array *)
Lemma narrow_char mem i : 0 <= i < zlen mem -> exists b, nth_error mem (Z.to_nat i) = Some b /\ char_at 1 mem i = [b].
Proof.
  intros R. unfold char_at. rewrite Z.mul_1_r. unfold zlen in R. destruct (nth_error mem (Z.to_nat i)) as [b|] eqn:E; [|apply nth_error_None in E; lia]. exists b. split; [reflexivity|].
  apply nth_error_split in E. destruct E as (l1 & l2 & -> & <-). rewrite skipn_app, skipn_all, Nat.sub_diag. reflexivity.
Qed.
Lemma text_before n s rest : ~ In 0 s -> zlen (s ++ 0 :: rest) = n -> holds_text EUTF8 n (s ++ 0 :: rest) s.
Proof.
  intros NI L. rewrite zlen_app in L. unfold zlen in L. cbn [length] in L. split; [split; cbn [unit_size]; [lia|rewrite zlen_app; unfold zlen; cbn [length]; lia]|]. exists (zlen s). unfold zlen. cbn [unit_size]. split; [lia|]. split.
  - split; [lia|]. split.
    + destruct (narrow_char (s ++ 0 :: rest) (Z.of_nat (length s))) as (b & N & ->); [rewrite zlen_app; unfold zlen; cbn [length]; lia|].
      rewrite Nat2Z.id, nth_error_app2, Nat.sub_diag in N by lia. cbn in N. injection N as <-. reflexivity.
    + intros j J. destruct (narrow_char (s ++ 0 :: rest) j) as (b & N & ->); [rewrite zlen_app; unfold zlen; cbn [length]; lia|].
      rewrite nth_error_app1 in N by lia. apply nth_error_In in N. intros X. cbn in X. injection X as ->. contradiction.
  - rewrite Z.mul_1_r, Nat2Z.id, firstn_app, firstn_all, Nat.sub_diag. cbn. now rewrite app_nil_r.
Qed.
Lemma pad_cons n (s : bytes) : zlen s < n -> repeat 0 (Z.to_nat (n - zlen s)) = 0 :: repeat 0 (Z.to_nat (n - zlen s - 1)).
Proof. intros L. replace (Z.to_nat (n - zlen s)) with (S (Z.to_nat (n - zlen s - 1))) by lia. reflexivity. Qed.
Lemma padded_text n s mem : padded n s mem -> holds_text EUTF8 n mem s.
Proof.
  intros (-> & L & NI). rewrite (pad_cons n s L). apply text_before; [exact NI|]. rewrite zlen_app. unfold zlen in *. cbn [length]. rewrite repeat_length. lia.
Qed.

(** * Pasting into a [char[n]] *)
Lemma paste_narrow n mem s : 1 <= n -> zlen mem = n -> zlen s < n -> forall v, v_type v = TString -> v_data v = s -> v_enc v = EUTF8 ->
  paste_chars EUTF8 n mem v = Ok (s ++ 0 :: skipn (Z.to_nat (zlen s + 1)) mem).
Proof.
  intros N L LS v T D E. unfold paste_chars. rewrite T, D, E. change (ty_eqb TString TString) with true. change (enc_eqb EUTF8 EUTF8) with true. cbn [negb andb rbind unit_size]. replace ((n - 1) * 1 <? zlen s) with false by lia.
  unfold poke. rewrite !Z.add_0_l. replace (zlen mem <? zlen s) with false by lia. cbn [rbind]. rewrite Z.div_1_r, Z.mul_1_r. change (Z.to_nat 0) with O. cbn [firstn app]. change (Z.to_nat 1) with 1%nat. cbn [repeat].
  assert (LM : zlen (s ++ skipn (Z.to_nat (zlen s)) mem) = n). { rewrite zlen_app. unfold zlen in *. rewrite skipn_length. lia. }
  change (zlen [0]) with 1. rewrite LM. replace (n <? _) with false by lia. f_equal.
  assert (FS : Z.to_nat (zlen s) = length s) by (unfold zlen; lia). rewrite FS at 1. rewrite firstn_app, firstn_all, Nat.sub_diag. cbn [firstn]. rewrite app_nil_r. cbn [app]. do 2 f_equal.
  rewrite skipn_app, skipn_all2 by (unfold zlen; lia). cbn [app]. rewrite skipn_skipn. f_equal. unfold zlen. lia.
Qed.
Lemma paste_padded n s v : 1 <= n -> zlen s < n -> v_type v = TString -> v_data v = s -> v_enc v = EUTF8 ->
  paste_chars EUTF8 n (repeat 0 (Z.to_nat (n * unit_size EUTF8))) v = Ok (s ++ repeat 0 (Z.to_nat (n - zlen s))).
Proof.
  intros N L T D E. cbn [unit_size]. rewrite Z.mul_1_r, (paste_narrow n _ s) by (auto; unfold zlen; rewrite repeat_length; lia). rewrite (pad_cons n s L). do 3 f_equal.
  assert (X : forall k m, (k <= m)%nat -> skipn k (repeat 0 m) = repeat 0 (m - k)) by (induction k as [|k IH]; intros [|m] LE; cbn; auto; apply IH; lia).
  pose proof (zlen_nonneg s). rewrite X by lia. f_equal. lia.
Qed.
Lemma paste_long n mem s v : v_type v = TString -> v_data v = s -> v_enc v = EUTF8 -> n <= zlen s -> paste_chars EUTF8 n mem v = Err.
Proof. intros T D E L. unfold paste_chars. rewrite T, D, E. change (ty_eqb TString TString) with true. change (enc_eqb EUTF8 EUTF8) with true. cbn [negb andb rbind unit_size]. now replace (_ <? _) with true by lia. Qed.
