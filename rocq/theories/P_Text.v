(** Proofs about hex, hash and scalar text conversion of M_Conv.v *)
From Coq Require Import ZArith List Bool Lia ZifyBool ZifyNat.
From Verif Require Import Base Lemmas M_Types M_Conv S_Conv P_Conv.
Import ListNotations.
Open Scope Z_scope.

Ltac Zify.zify_post_hook ::= Z.div_mod_to_equations.

Lemma list_ind2 {A} (P : list A -> Prop) :
  P [] -> (forall a, P [a]) -> (forall a b l, P l -> P (a :: b :: l)) -> forall l, P l.
Proof.
  intros H0 H1 H2. fix IH 1. intros [|a [|b l]]; [exact H0|apply H1|apply H2, IH].
Qed.

(** * hex *)
Lemma hex_conv_ref c : hex_conv c = match hex_digit c with Some v => Ok v | None => Err end.
Proof.
  unfold hex_conv, hex_digit.
  destruct (_ && _); [reflexivity|]. destruct (_ && _); [f_equal; lia|]. destruct (_ && _); [f_equal; lia|reflexivity].
Qed.
Lemma hex_digit_range c v : hex_digit c = Some v -> 0 <= v < 16.
Proof.
  unfold hex_digit. intros H.
  repeat match type of H with context [if ?b then _ else _] => destruct b eqn:? end; inversion H; lia.
Qed.
Lemma hex_lor a b : 0 <= a < 16 -> 0 <= b < 16 -> u8 (Z.lor (Z.shiftl a 4) b) = 16 * a + b.
Proof.
  intros. apply Z.eqb_eq.
  apply (upto_spec2 16 16 (fun a b => u8 (Z.lor (Z.shiftl a 4) b) =? 16 * a + b)); [now vm_compute|lia|lia].
Qed.
Lemma hex_loop_ref s : (length s mod 2 = 0)%nat ->
  hex_loop s = match hex_ref s with Some d => Ok d | None => Err end.
Proof.
  induction s as [|a|a b s IH] using list_ind2; intros L; try reflexivity.
  - cbn in L. lia.
  - cbn [hex_loop hex_ref]. rewrite !hex_conv_ref.
    destruct (hex_digit a) as [va|] eqn:Ea; cbn [rbind]; [|reflexivity].
    destruct (hex_digit b) as [vb|] eqn:Eb; cbn [rbind]; [|reflexivity].
    rewrite IH by (cbn [length] in L; lia).
    destruct (hex_ref s); cbn [rbind]; [|reflexivity].
    rewrite hex_lor by (eapply hex_digit_range; eassumption). reflexivity.
Qed.
Lemma hex_ref_odd s : (length s mod 2 <> 0)%nat -> hex_ref s = None.
Proof.
  induction s as [|a|a b s IH] using list_ind2; intros L; cbn [length] in L; try (cbn in L; lia); try reflexivity.
  cbn [hex_ref]. rewrite IH by lia. destruct (hex_digit a), (hex_digit b); reflexivity.
Qed.
Lemma hex_to_bytes_dest_ref n s :
  hex_to_bytes_dest n s =
  match hex_ref s with
  | Some d => if Nat.leb (length s / 2) n then Ok d else Err
  | None => Err
  end.
Proof.
  unfold hex_to_bytes_dest.
  destruct (Nat.eqb_spec (length s mod 2) 0) as [L|L]; cbn [negb].
  - destruct (Nat.ltb_spec n (length s / 2)), (Nat.leb_spec (length s / 2) n); try lia.
    + destruct (hex_ref s); reflexivity.
    + now apply hex_loop_ref.
  - now rewrite hex_ref_odd.
Qed.
Lemma hex_to_bytes_ref s :
  hex_to_bytes s = match hex_ref s with Some d => Ok d | None => Err end.
Proof.
  unfold hex_to_bytes. rewrite hex_to_bytes_dest_ref. now rewrite Nat.leb_refl.
Qed.
Lemma hex_nth i : 0 <= i < 16 -> hex_digit (nth (Z.to_nat i) hex_lk 0) = Some i.
Proof.
  intros H.
  assert (E: (match hex_digit (nth (Z.to_nat i) hex_lk 0) with Some j => i =? j | None => false end) = true).
  { apply (upto_spec 16 (fun i => match hex_digit (nth (Z.to_nat i) hex_lk 0) with Some j => i =? j | None => false end)); [now vm_compute|lia]. }
  destruct (hex_digit _); [f_equal; lia|discriminate].
Qed.
Lemma hex_enc_ref bs : wf_bytes bs -> hex_ref (bytes_to_hex bs) = Some bs.
Proof.
  induction 1 as [|b bs Hb Hbs IH]; [reflexivity|].
  unfold is_byte in Hb. cbn [bytes_to_hex hex_ref].
  change 15 with (2 ^ 4 - 1). rewrite !land_ones_mod by lia.
  rewrite Z.shiftr_div_pow2 by lia. change (2 ^ 4) with 16.
  rewrite !hex_nth, IH by lia. f_equal. f_equal. lia.
Qed.
Lemma hex_roundtrip bs : wf_bytes bs -> hex_to_bytes (bytes_to_hex bs) = Ok bs.
Proof. intros. rewrite hex_to_bytes_ref. now rewrite hex_enc_ref. Qed.

(** * FNV-1a *)
Definition fnv_step (h b : Z) : Z := (Z.lxor h b * 1099511628211) mod 2 ^ 64.
Lemma fnv1a_unfold_ref n bs h : (n <= length bs)%nat ->
  fnv1a_unfold n bs h = Ok (fold_left fnv_step (firstn n bs) h).
Proof.
  revert bs h; induction n; intros bs h L; [reflexivity|].
  destruct bs as [|b bs]; cbn [length] in L; [lia|].
  cbn [fnv1a_unfold firstn fold_left]. rewrite IHn by lia. reflexivity.
Qed.
Lemma fnv1a_loop_ref u bs h : (8 * u <= length bs)%nat ->
  fnv1a_loop u bs h = Ok (skipn (8 * u) bs, fold_left fnv_step (firstn (8 * u) bs) h).
Proof.
  revert bs h; induction u; intros bs h L; [reflexivity|].
  cbn [fnv1a_loop]. rewrite fnv1a_unfold_ref by lia. cbn [rbind].
  rewrite IHu by (rewrite skipn_length; lia).
  rewrite skipn_skipn. replace (8 * S u)%nat with (8 + 8 * u)%nat by lia.
  f_equal. f_equal. rewrite <- fold_left_app. f_equal.
  rewrite <- (firstn_skipn 8 bs) at 3.
  rewrite firstn_app, firstn_firstn.
  replace (Init.Nat.min (8 + 8 * u) 8) with 8%nat by lia.
  f_equal. f_equal. rewrite firstn_length. lia.
Qed.
Lemma fnv1a_correct bs : fnv1a bs = Ok (fnv1a_ref bs).
Proof.
  unfold fnv1a. rewrite fnv1a_loop_ref by lia. cbn [rbind fst snd].
  rewrite fnv1a_unfold_ref by (rewrite skipn_length; lia).
  f_equal. rewrite <- fold_left_app. unfold fnv1a_ref. unfold fnv_step. f_equal.
  rewrite (firstn_all2 (n := length bs mod 8) (skipn _ bs)) by (rewrite skipn_length; lia).
  apply firstn_skipn.
Qed.

(** * parsing integers *)
Definition dec_from (v : Z) (s : bytes) : Z := fold_left (fun a c => a * 10 + (c - 48)) s v.
Lemma dec_from_mono s : Forall is_digit s -> forall v, 0 <= v -> v <= dec_from v s.
Proof.
  induction 1 as [|c s Hc Hs IH]; intros v Hv; [unfold dec_from; cbn; lia|].
  unfold is_digit in Hc. cbn [dec_from fold_left]. etransitivity; [|apply IH; lia]. lia.
Qed.
Lemma int_loop_exact s : Forall is_digit s -> forall v, 0 <= v -> dec_from v s < two64 ->
  str_to_int_loop s v = (dec_from v s, true).
Proof.
  induction 1 as [|c s Hc Hs IH]; intros v Hv B; [reflexivity|].
  cbn [dec_from fold_left] in B. fold (dec_from (v * 10 + (c - 48)) s) in B. unfold is_digit in Hc.
  pose proof (dec_from_mono s Hs (v * 10 + (c - 48)) ltac:(lia)) as M.
  cbn [str_to_int_loop]. unfold s8.
  replace (c <? 128) with true by lia.
  replace ((c <? 48) || (57 <? c)) with false by lia.
  replace (u64 (v * 10 + c - 48)) with (v * 10 + (c - 48)).
  2:{ unfold u64. unfold_words. rewrite Z.mod_small by lia. lia. }
  replace (v * 10 + (c - 48) <? v) with false by lia.
  rewrite IH by lia. reflexivity.
Qed.
Lemma int_loop_digits s v : snd (str_to_int_loop s v) = true -> wf_bytes s -> Forall is_digit s.
Proof.
  revert v; induction s as [|c s IH]; intros v H W; [constructor|].
  cbn [str_to_int_loop] in H. inversion W as [|? ? Hc Hs]; subst. unfold is_byte in Hc. unfold s8 in H.
  destruct (Z.ltb_spec c 128).
  - destruct ((c <? 48) || (57 <? c)) eqn:E; [discriminate|].
    destruct (_ <? v) eqn:E'; [discriminate|].
    constructor; [unfold is_digit; lia|]. eapply IH; eauto.
  - replace ((c - 256 <? 48) || (57 <? c - 256)) with true in H by lia. discriminate.
Qed.

Lemma is_space_white c : is_space c = true <-> white c.
Proof. unfold is_space, white. lia. Qed.
Lemma drop_space_app ws s : Forall white ws -> drop_space (ws ++ s) = drop_space s.
Proof.
  induction 1 as [|c ws Hc Hw IH]; [reflexivity|].
  cbn [app drop_space]. apply is_space_white in Hc. now rewrite Hc.
Qed.
Lemma drop_space_id s : (forall c, hd_error s = Some c -> ~ white c) -> drop_space s = s.
Proof.
  destruct s as [|c s]; intros H; [reflexivity|]. cbn [drop_space].
  destruct (is_space c) eqn:E; [|reflexivity].
  apply is_space_white in E. exfalso. now apply (H c).
Qed.
Lemma Forall_rev' {A} (P : A -> Prop) l : Forall P l -> Forall P (rev l).
Proof. rewrite !Forall_forall. intros H x Hx. apply H. now apply in_rev. Qed.
(** trimming removes exactly the surrounding white space *)
Lemma trim_space_exact ws s ws' : Forall white ws -> Forall white ws' ->
  s <> [] -> (forall c, hd_error s = Some c -> ~ white c) ->
  (forall c, hd_error (rev s) = Some c -> ~ white c) ->
  trim_space (ws ++ s ++ ws') = s.
Proof.
  intros Hw Hw' Hne Hh Hl. unfold trim_space.
  rewrite drop_space_app by auto.
  rewrite (drop_space_id (s ++ ws')).
  2:{ intros c Hc. apply Hh. destruct s; [congruence|exact Hc]. }
  rewrite rev_app_distr, drop_space_app by now apply Forall_rev'.
  rewrite (drop_space_id (rev s)) by auto. apply rev_involutive.
Qed.

Lemma digit_not_white c : is_digit c -> ~ white c.
Proof. unfold is_digit, white. lia. Qed.
Lemma Forall_hd {A} (P : A -> Prop) l c : Forall P l -> hd_error l = Some c -> P c.
Proof. destruct 1; cbn; intros E; inversion E; subst; auto. Qed.

Lemma trim_digits ws s ws' : Forall white ws -> Forall white ws' -> digits s ->
  trim_space (ws ++ s ++ ws') = s.
Proof.
  intros Hw Hw' [Hne Hd]. apply trim_space_exact; auto.
  - intros c Hc. apply digit_not_white. eapply Forall_hd; eauto.
  - intros c Hc. apply digit_not_white. eapply Forall_hd; [|exact Hc]. now apply Forall_rev'.
Qed.
Lemma trim_neg ws s ws' : Forall white ws -> Forall white ws' -> digits s ->
  trim_space (ws ++ (45 :: s) ++ ws') = 45 :: s.
Proof.
  intros Hw Hw' [Hne Hd]. apply trim_space_exact; auto; try discriminate.
  - intros c Hc. inversion Hc. unfold white. lia.
  - intros c Hc. apply digit_not_white. cbn [rev] in Hc.
    destruct (rev s) as [|r0 r] eqn:E.
    + apply (f_equal (@rev Z)) in E. rewrite rev_involutive in E. cbn in E. congruence.
    + cbn in Hc. inversion Hc; subst.
      assert (Forall is_digit (c :: r)) by (rewrite <- E; now apply Forall_rev'). now inversion H.
Qed.

Lemma str_to_int_digits s : digits s -> dec_value s < two64 -> str_to_int s = (dec_value s, false, true).
Proof.
  intros [Hne Hd] B. unfold str_to_int.
  assert (E: str_to_int_loop s 0 = (dec_value s, true)) by (apply int_loop_exact; auto; lia).
  destruct s as [|c s]; [congruence|].
  inversion Hd as [|? ? Hc Hs]; subst. unfold is_digit in Hc.
  destruct (Z.eq_dec c 45); [lia|].
  destruct c as [|p|p]; try lia.
  rewrite E.
  do 6 (destruct p as [p|p|]; try reflexivity; try lia).
Qed.
Lemma str_to_int_neg s : digits s -> dec_value s < two63 -> str_to_int (45 :: s) = (dec_value s, true, true).
Proof.
  intros [Hne Hd] B. unfold str_to_int. destruct s as [|c s]; [congruence|].
  rewrite (int_loop_exact (c :: s) Hd 0) by (try lia; unfold_words; unfold dec_value in *; unfold dec_from; lia).
  fold (dec_value (c :: s)). change (dec_from 0 (c :: s)) with (dec_value (c :: s)).
  cbn [andb]. replace (dec_value (c :: s) <=? two63 - 1) with true by lia. reflexivity.
Qed.

Lemma parse_nat x hint ws s ws' : is_fp hint = false -> Forall white ws -> Forall white ws' ->
  digits s -> dec_value s < two64 ->
  str_to_type x (ws ++ s ++ ws') hint = Some (val_int TUI64 (dec_value s)).
Proof.
  intros Hh Hw Hw' Hd B. unfold str_to_type. rewrite trim_digits by auto.
  rewrite (str_to_int_digits s Hd B), Hh.
  destruct Hd as [Hne Hd]. destruct s as [|c s]; [congruence|].
  inversion Hd as [|? ? Hc Hs]; subst. unfold is_digit in Hc.
  replace (102 <=? c) with false by lia. rewrite andb_false_r. reflexivity.
Qed.
Lemma parse_neg x hint ws s ws' : is_fp hint = false -> Forall white ws -> Forall white ws' ->
  digits s -> dec_value s < two63 ->
  str_to_type x (ws ++ (45 :: s) ++ ws') hint = Some (val_int TI64 (- dec_value s)).
Proof.
  intros Hh Hw Hw' Hd B. unfold str_to_type. rewrite trim_neg by auto.
  rewrite (str_to_int_neg s Hd B), Hh. change (102 <=? 45) with false. rewrite !andb_false_r. reflexivity.
Qed.

(** overflow: what the check [tmp < val] does catch *)
Lemma int_loop_app p q v : Forall is_digit p -> 0 <= v -> dec_from v p < two64 ->
  str_to_int_loop (p ++ q) v = str_to_int_loop q (dec_from v p).
Proof.
  intros Hp. revert v. induction Hp as [|c p Hc Hp IH]; intros v Hv B; [reflexivity|].
  cbn [dec_from fold_left app] in *. fold (dec_from (v * 10 + (c - 48)) p) in *. unfold is_digit in Hc.
  pose proof (dec_from_mono p Hp (v * 10 + (c - 48)) ltac:(lia)) as M.
  cbn [str_to_int_loop]. unfold s8.
  replace (c <? 128) with true by lia.
  replace ((c <? 48) || (57 <? c)) with false by lia.
  replace (u64 (v * 10 + c - 48)) with (v * 10 + (c - 48)).
  2:{ unfold u64. unfold_words. rewrite Z.mod_small by lia. lia. }
  replace (v * 10 + (c - 48) <? v) with false by lia.
  apply IH; lia.
Qed.
Lemma overflow_caught p c q : Forall is_digit p -> is_digit c ->
  dec_value p < two64 -> two64 <= dec_value (p ++ [c]) -> 9 * dec_value p + (c - 48) < two64 ->
  str_to_int (p ++ c :: q) = (dec_value p, false, false).
Proof.
  intros Hp Hc B1 B2 B3.
  assert (P: p <> []).
  { intros ->. unfold dec_value in B2. cbn in B2. unfold is_digit in Hc. unfold_words. lia. }
  assert (L: str_to_int_loop (p ++ c :: q) 0 = (dec_value p, false)).
  { rewrite int_loop_app by (auto; lia). change (dec_from 0 p) with (dec_value p).
    unfold is_digit in Hc. cbn [str_to_int_loop]. unfold s8.
    replace (c <? 128) with true by lia.
    replace ((c <? 48) || (57 <? c)) with false by lia.
    unfold dec_value in B2. rewrite fold_left_app in B2. cbn [fold_left] in B2. fold (dec_value p) in B2.
    replace (u64 (dec_value p * 10 + c - 48)) with (dec_value p * 10 + c - 48 - two64).
    2:{ unfold u64. unfold_words.
        rewrite <- (Z.mod_add _ (-1)) by lia. rewrite Z.mod_small; lia. }
    replace (dec_value p * 10 + c - 48 - two64 <? dec_value p) with true by lia. reflexivity. }
  unfold str_to_int. rewrite L.
  destruct p as [|a p]; [congruence|]. inversion Hp as [|? ? Ha Hp']; subst. unfold is_digit in Ha.
  cbn [app]. destruct a as [|a|a]; try lia.
  do 6 (destruct a as [a|a|]; try reflexivity; try lia).
Qed.

(** * printing integers *)
Lemma dec_from_add s : forall v, dec_from v s = v * 10 ^ zlen s + dec_from 0 s.
Proof.
  induction s as [|c s IH]; intros v; [unfold dec_from; cbn; lia|].
  cbn [dec_from fold_left]. fold (dec_from (v * 10 + (c - 48)) s). fold (dec_from (0 * 10 + (c - 48)) s).
  rewrite IH, (IH (0 * 10 + (c - 48))). rewrite zlen_cons, Z.pow_add_r by (pose proof (zlen_nonneg s); lia).
  lia.
Qed.
Lemma print_loop_spec room : forall val acc, 0 <= val < 10 ^ Z.of_nat room ->
  exists ds k, print_loop room val acc = Ok (ds ++ acc, (room - k)%nat) /\ length ds = k /\ (k <= room)%nat /\
    Forall is_digit ds /\ dec_value ds = val /\ (0 < val -> ds <> []) /\
    (forall k', val < 10 ^ Z.of_nat k' -> (k <= k')%nat).
Proof.
  induction room; intros val acc B.
  - change (10 ^ Z.of_nat 0) with 1 in B. assert (val = 0) by lia. subst.
    exists [], 0%nat. cbn. repeat split; auto; lia.
  - cbn [print_loop]. destruct (Z.eqb_spec val 0) as [->|N].
    + exists [], 0%nat. cbn. repeat split; auto; lia.
    + rewrite Nat2Z.inj_succ, Z.pow_succ_r in B by lia.
      destruct (IHroom (val / 10) (48 + val mod 10 :: acc)) as (ds & k & H & L & K & D & V & NE & MIN); [lia|].
      exists (ds ++ [48 + val mod 10]), (S k). rewrite H, <- app_assoc. cbn [app Nat.sub].
      repeat split; auto.
      * rewrite app_length; cbn; lia.
      * lia.
      * apply Forall_app; split; auto. constructor; [|constructor]. unfold is_digit. lia.
      * unfold dec_value in *. rewrite fold_left_app. cbn [fold_left]. rewrite V. lia.
      * intros _. destruct ds; discriminate.
      * intros k' Hk. destruct k' as [|k'].
        -- change (10 ^ Z.of_nat 0) with 1 in Hk. lia.
        -- apply le_n_S. apply MIN. rewrite Nat2Z.inj_succ, Z.pow_succ_r in Hk by lia. lia.
Qed.

(** decimal notation of an integer: optional sign, digits, value *)
Definition dec_text (n : Z) (s : bytes) : Prop :=
  (0 <= n /\ digits s /\ dec_value s = n) \/
  (n < 0 /\ exists s', s = 45 :: s' /\ digits s' /\ dec_value s' = - n).

Definition is_int_ty (t : ty) : bool := is_integral t && negb (ty_eqb t TBool).

Lemma ty_bounds t n : is_int_ty t = true -> in_range t n ->
  - 10 ^ Z.of_nat (digits10 t + 1) < n < 10 ^ Z.of_nat (digits10 t + 1) /\
  (is_signed t = false -> 0 <= n) /\ - two63 <= n < two64 /\ (is_signed t = true -> n < two63).
Proof.
  intros Ht Hr. unfold in_range in Hr.
  destruct t; try discriminate Ht; cbn -[Z.pow] in *; unfold_words;
    repeat split; intros; try discriminate; try lia.
Qed.

Lemma conv_type_int_spec t n : is_int_ty t = true -> in_range t n -> n <> - two63 ->
  exists s, conv_type_int t (u64 n) = Ok s /\ dec_text n s.
Proof.
  intros Ht Hr Hn. destruct (ty_bounds t n Ht Hr) as (B & U & R & SG).
  unfold conv_type_int.
  assert (E: is_signed t && (s64 (u64 n) <? 0) = (n <? 0)).
  { destruct (is_signed t) eqn:S.
    - rewrite s64_u64 by (specialize (SG eq_refl); lia). reflexivity.
    - specialize (U eq_refl). lia. }
  rewrite E. destruct (Z.ltb_spec n 0).
  - assert (S: is_signed t = true) by (destruct (is_signed t); auto; specialize (U eq_refl); lia).
    rewrite s64_u64 by (unfold_words; lia).
    replace (true && (n =? - two63)) with false by lia.
    replace (- n =? 0) with false by lia.
    rewrite S.
    destruct (print_loop_spec (digits10 t + 1 + 1) (- n) []) as (ds & k & H' & L & K & D & V & NE & MIN).
    { split; [lia|]. replace (Z.of_nat (digits10 t + 1 + 1)) with (Z.of_nat (digits10 t + 1) + 1) by lia.
      rewrite Z.pow_add_r by lia. lia. }
    rewrite H'. cbn [rbind]. rewrite app_nil_r.
    assert (k <= digits10 t + 1)%nat by (apply MIN; lia).
    destruct (digits10 t + 1 + 1 - k)%nat eqn:EE; [lia|].
    eexists; split; [reflexivity|]. right. split; auto. exists ds. repeat split; auto. apply NE; lia.
  - replace (false && (s64 (u64 n) =? - two63)) with false by reflexivity.
    replace (u64 n) with n by (unfold u64; rewrite Z.mod_small; lia).
    destruct (Z.eqb_spec n 0) as [->|N].
    + eexists; split; [reflexivity|]. left. repeat split; auto; try lia; try discriminate.
      repeat constructor; unfold is_digit; lia.
    + destruct (print_loop_spec (digits10 t + 1 + (if is_signed t then 1 else 0)) n []) as (ds & k & H' & L & K & D & V & NE & MIN).
      { split; [lia|]. destruct (is_signed t).
        - replace (Z.of_nat (digits10 t + 1 + 1)) with (Z.of_nat (digits10 t + 1) + 1) by lia.
          rewrite Z.pow_add_r by lia. lia.
        - rewrite Nat.add_0_r. lia. }
      rewrite H'. cbn [rbind]. rewrite app_nil_r. eexists; split; [reflexivity|].
      left. repeat split; auto; try lia. apply NE; lia.
Qed.

Lemma parse_dec_text x hint n s : is_fp hint = false -> dec_text n s -> - two63 < n < two64 ->
  str_to_type x s hint = Some (val_int (if n <? 0 then TI64 else TUI64) n).
Proof.
  intros Hh [[H0 [Hd Hv]]|[H0 [s' [-> [Hd Hv]]]]] B.
  - replace (n <? 0) with false by lia.
    rewrite <- (app_nil_l s), <- (app_nil_r s). rewrite parse_nat by (auto; lia). now rewrite Hv.
  - replace (n <? 0) with true by lia.
    rewrite <- (app_nil_l (45 :: s')). rewrite <- (app_nil_r (45 :: s')).
    rewrite parse_neg by (auto; lia). f_equal. f_equal. lia.
Qed.
