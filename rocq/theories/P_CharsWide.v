(** Proofs about arrays of wide characters. *)
From Coq Require Import ZArith List Bool Lia ZifyBool ZifyNat.
From Verif Require Import Base Lemmas M_Types M_Conv M_TpTools M_Charset S_Charset S_Doc M_Tree M_Object S_Chars P_Doc P_Charset P_Chars P_ObjIO.
Import ListNotations.
Open Scope Z_scope.

Section Chars.
Variable e : enc.
Notation u := (unit_size e).
Lemma char_app_l (a b : bytes) i : 0 <= i -> (i + 1) * u <= zlen a -> char_at u (a ++ b) i = char_at u a i.
Proof.
  intros I L. pose proof (unit_pos e). unfold char_at. rewrite skipn_app, firstn_app. unfold zlen in L. rewrite (proj2 (Nat.sub_0_le (Z.to_nat u) (length (skipn (Z.to_nat (i * u)) a)))) by (rewrite skipn_length; nia).
  cbn [firstn]. apply app_nil_r.
Qed.
Lemma char_app_r (a b : bytes) i m : 0 <= m -> zlen a = m * u -> m <= i -> char_at u (a ++ b) i = char_at u b (i - m).
Proof.
  intros M L I. pose proof (unit_pos e). unfold char_at. rewrite skipn_app. unfold zlen in L. rewrite (skipn_all2 a) by nia. cbn [app]. do 2 f_equal. nia.
Qed.
Lemma char_skip (a : bytes) i m : 0 <= m -> 0 <= i -> char_at u (skipn (Z.to_nat (m * u)) a) i = char_at u a (m + i).
Proof. intros M I. pose proof (unit_pos e). unfold char_at. rewrite skipn_skipn. do 2 f_equal. nia. Qed.
Lemma char_first (a : bytes) i m : 0 <= i < m -> m * u <= zlen a -> char_at u (firstn (Z.to_nat (m * u)) a) i = char_at u a i.
Proof.
  intros I L. rewrite <- (firstn_skipn (Z.to_nat (m * u)) a) at 2. symmetry. apply char_app_l; [lia|]. unfold zlen in *. rewrite firstn_length. pose proof (unit_pos e). nia.
Qed.
End Chars.

Section Wide.
Variables (e : enc) (n : Z) (mem : bytes) (cs : list Z).
Hypothesis WIDE : e = EUTF16 \/ e = EUTF32.
Hypothesis SC : Forall scalar cs.
Hypothesis ARR : array_of e n mem.
Hypothesis ROOM : zlen (text e cs) <= (n - 1) * unit_size e.
Hypothesis SMALL : zlen (text EUTF8 cs) < 2 ^ 32.
Notation u := (unit_size e).
Notation k := (zlen (text EUTF8 cs) / unit_size e).
Notation put := (text e cs ++ skipn (length (text e cs)) mem).

Lemma put_len : zlen put = n * u.
Proof. destruct ARR as [A B]. rewrite zlen_app. unfold zlen in *. rewrite skipn_length. pose proof (unit_pos e). nia. Qed.
Lemma paste_wide_is : paste_chars e n mem (val_string (text EUTF8 cs) EUTF8) = poke put (k * u) (repeat 0 (Z.to_nat u)).
Proof.
  assert (K : known e) by (destruct WIDE as [-> | ->]; discriminate). unfold paste_chars. cbn [v_type val_string v_enc v_data]. rewrite trunc_block_id by (unfold_words; lia). change (ty_eqb TString TString) with true. cbn [negb andb].
  replace (enc_eqb EUTF8 e) with false by (destruct WIDE as [-> | ->]; reflexivity). rewrite convert_vec by (auto; discriminate). cbn [rbind].
  replace (_ <? _) with false by lia. unfold poke at 1. destruct ARR as [A B]. rewrite Z.add_0_l. pose proof (unit_pos e). replace (zlen mem <? zlen (text e cs)) with false by (symmetry; apply Z.ltb_ge; nia).
  cbn [rbind]. change (Z.to_nat 0) with O. cbn [firstn app]. unfold zlen at 1. rewrite Nat2Z.id. reflexivity.
Qed.
Lemma k_pos : 0 <= k.
Proof. pose proof (unit_pos e). apply Z.div_pos; [apply zlen_nonneg|lia]. Qed.
Lemma paste_wide_over : n <= k -> paste_chars e n mem (val_string (text EUTF8 cs) EUTF8) = UB UbOob.
Proof.
  intros L. rewrite paste_wide_is. unfold poke. rewrite put_len. pose proof (unit_pos e). assert (Z : zlen (repeat 0 (Z.to_nat u)) = u) by (unfold zlen; rewrite repeat_length; lia). rewrite Z.
  now replace (_ <? _) with true by (symmetry; apply Z.ltb_lt; nia).
Qed.
Lemma paste_wide_in : k < n -> exists mem', paste_chars e n mem (val_string (text EUTF8 cs) EUTF8) = Ok mem' /\ array_of e n mem' /\
  char_at u mem' k = repeat 0 (Z.to_nat u) /\ forall i, 0 <= i < n -> i <> k -> char_at u mem' i = char_at u put i.
Proof.
  intros L. rewrite paste_wide_is. unfold poke. pose proof put_len as PL. rewrite PL. pose proof (unit_pos e) as U. pose proof k_pos as KP.
  generalize dependent (zlen (text EUTF8 cs) / unit_size e). intros kk L KP. generalize dependent (text e cs ++ skipn (length (text e cs)) mem). intros pp PL. pose proof (proj1 ARR) as N1. clear - L KP PL U N1.
  assert (Z : zlen (repeat 0 (Z.to_nat u)) = u) by (unfold zlen; rewrite repeat_length; lia). rewrite Z.
  replace (_ <? _) with false by (symmetry; apply Z.ltb_ge; nia). eexists. split; [reflexivity|].
  assert (L1 : zlen (firstn (Z.to_nat (kk * u)) pp) = kk * u). { unfold zlen in PL |- *. rewrite firstn_length. nia. }
  assert (SK : skipn (Z.to_nat (kk * u + u)) pp = skipn (Z.to_nat ((kk + 1) * u)) pp) by (f_equal; nia).
  split; [|split].
  - split; [exact N1|]. rewrite !zlen_app, L1, Z. unfold zlen in PL |- *. rewrite skipn_length. nia.
  - rewrite (char_app_r e _ _ kk kk) by (auto; lia). rewrite Z.sub_diag, char_app_l by lia. unfold char_at. cbn [Z.mul]. change (Z.to_nat 0) with O. cbn [skipn]. apply firstn_all2. rewrite repeat_length. lia.
  - intros i I NE. destruct (Z_lt_le_dec i kk) as [LT|GE].
    + rewrite (char_app_l e) by nia. apply (char_first e); nia.
    + rewrite (char_app_r e _ _ i kk) by (auto; lia). rewrite (char_app_r e _ _ (i - kk) 1) by (try rewrite Z; lia). rewrite SK, (char_skip e) by lia. f_equal. lia.
Qed.
End Wide.

(** ASCII *)
Lemma ascii_len cs : Forall (fun c => 0 < c < 128) cs -> zlen (text EUTF8 cs) = zlen cs.
Proof.
  induction 1 as [|c cs H F IH]; [reflexivity|]. cbn [text flat_map encode]. change (flat_map (encode EUTF8) cs) with (text EUTF8 cs). unfold utf8. replace (c <? 128) with true by lia.
  rewrite zlen_app, IH. unfold zlen. cbn [length]. lia.
Qed.
Lemma ascii_unit e c : e = EUTF16 \/ e = EUTF32 -> 0 < c < 128 -> zlen (encode e c) = unit_size e /\ encode e c <> repeat 0 (Z.to_nat (unit_size e)).
Proof.
  intros W C. destruct W as [-> | ->]; cbn [encode unit_size]; unfold utf16le, utf32le; [replace (c <? 65536) with true by lia|]; (split; [reflexivity|]); cbn [le]; intros H;
    assert (Q : c mod 256 = 0) by (injection H; intros; assumption); rewrite Z.mod_small in Q by lia; lia.
Qed.
Lemma ascii_text e cs : e = EUTF16 \/ e = EUTF32 -> Forall (fun c => 0 < c < 128) cs -> zlen (text e cs) = zlen cs * unit_size e.
Proof.
  intros W. induction 1 as [|c cs H F IH]; [reflexivity|]. cbn [text flat_map]. change (flat_map (encode e) cs) with (text e cs). rewrite zlen_app, IH, (proj1 (ascii_unit e c W H)). unfold zlen. cbn [length]. lia.
Qed.
Lemma ascii_char e cs : e = EUTF16 \/ e = EUTF32 -> Forall (fun c => 0 < c < 128) cs -> forall i, 0 <= i < zlen cs -> char_at (unit_size e) (text e cs) i <> repeat 0 (Z.to_nat (unit_size e)).
Proof.
  intros W. induction 1 as [|c cs H F IH]; intros i I; [unfold zlen in I; cbn in I; lia|]. destruct (ascii_unit e c W H) as [L NZ]. cbn [text flat_map]. change (flat_map (encode e) cs) with (text e cs).
  destruct (Z.eq_dec i 0) as [-> |NE].
  - rewrite char_app_l by lia. unfold char_at. cbn [Z.mul]. change (Z.to_nat 0) with O. cbn [skipn]. rewrite firstn_all2 by (unfold zlen in L; lia). exact NZ.
  - rewrite (char_app_r e _ _ i 1) by lia. apply IH. unfold zlen in *. cbn [length] in I. lia.
Qed.
Lemma ascii_first e cs m : e = EUTF16 \/ e = EUTF32 -> Forall (fun c => 0 < c < 128) cs -> 0 <= m -> firstn (Z.to_nat (m * unit_size e)) (text e cs) = text e (firstn (Z.to_nat m) cs).
Proof.
  intros W F. pose proof (unit_pos e) as U. revert m. induction F as [|c cs H F IH]; intros m M; [now rewrite !firstn_nil|]. destruct (ascii_unit e c W H) as [L _]. cbn [text flat_map]. change (flat_map (encode e) cs) with (text e cs).
  destruct (Z.eq_dec m 0) as [-> |NE]; [reflexivity|]. replace (Z.to_nat m) with (S (Z.to_nat (m - 1))) by lia. cbn [firstn flat_map text]. change (flat_map (encode e) ?l) with (text e l).
  rewrite <- IH by lia. rewrite firstn_app, firstn_all2 by (unfold zlen in L; nia). do 2 f_equal. unfold zlen in L. nia.
Qed.
Lemma paste_ascii e n mem cs : e = EUTF16 \/ e = EUTF32 -> Forall (fun c => 0 < c < 128) cs -> array_of e n mem -> zlen cs < n -> zlen cs < 2 ^ 32 ->
  exists mem', paste_chars e n mem (val_string (text EUTF8 cs) EUTF8) = Ok mem' /\ holds_text e n mem' (text e (firstn (Z.to_nat (zlen cs / unit_size e)) cs)).
Proof.
  intros W F A L S32. pose proof (unit_pos e) as U. assert (SC : Forall scalar cs) by (eapply Forall_impl; [|exact F]; intros c C; left; cbn in C; lia).
  assert (ROOM : zlen (text e cs) <= (n - 1) * unit_size e) by (rewrite ascii_text by auto; nia). pose proof (ascii_len cs F) as AL. pose proof (zlen_nonneg cs) as P.
  assert (K : 0 <= zlen cs / unit_size e <= zlen cs). { split; [apply Z.div_pos; lia|]. apply Z.div_le_upper_bound; nia. }
  destruct (paste_wide_in e n mem cs W SC A ROOM) as (mem' & PA & AR & Z & O); [lia|rewrite AL; lia|]. rewrite AL in Z, O. exists mem'. split; [exact PA|]. split; [exact AR|]. exists (zlen cs / unit_size e).
  split; [lia|]. assert (SAME : forall i, 0 <= i < zlen cs / unit_size e -> char_at (unit_size e) mem' i = char_at (unit_size e) (text e cs) i).
  { intros i I. rewrite O by lia. apply char_app_l; [lia|]. rewrite ascii_text by auto. nia. }
  split.
  - split; [lia|]. split; [exact Z|]. intros j J. rewrite SAME by lia. apply ascii_char; auto. lia.
  - rewrite <- ascii_first by (auto; lia).
    assert (EXT : forall m (a b : bytes), (Z.of_nat m * unit_size e <= zlen a) -> (Z.of_nat m * unit_size e <= zlen b) -> (forall i, 0 <= i < Z.of_nat m -> char_at (unit_size e) a i = char_at (unit_size e) b i) ->
      firstn (Z.to_nat (Z.of_nat m * unit_size e)) a = firstn (Z.to_nat (Z.of_nat m * unit_size e)) b).
    { clear -U. induction m as [|m IH]; intros a b LA LB H; [reflexivity|].
      assert (X : forall l : bytes, firstn (Z.to_nat (Z.of_nat (S m) * unit_size e)) l = firstn (Z.to_nat (Z.of_nat m * unit_size e)) l ++ char_at (unit_size e) l (Z.of_nat m)).
      { intros l. unfold char_at. rewrite <- (firstn_skipn (Z.to_nat (Z.of_nat m * unit_size e)) l) at 1. rewrite firstn_app.
        rewrite firstn_firstn, Nat.min_r by nia. destruct (Nat.le_gt_cases (Z.to_nat (Z.of_nat m * unit_size e)) (length l)) as [LE|GT].
        - f_equal. rewrite firstn_length, Nat.min_l by exact LE. f_equal. nia.
        - rewrite (skipn_all2 l) by lia. now rewrite !firstn_nil. }
      rewrite !X. rewrite (IH a b) by (try nia; intros; apply H; lia). f_equal. apply H. lia. }
    specialize (EXT (Z.to_nat (zlen cs / unit_size e)) (text e cs) mem'). rewrite Z2Nat.id in EXT by lia. apply EXT.
    + rewrite ascii_text by auto. nia.
    + rewrite (proj2 AR). nia.
    + intros i I. symmetry. now apply SAME.
Qed.
