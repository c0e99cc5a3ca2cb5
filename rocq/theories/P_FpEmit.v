(** The text that the double printer makes of the digits stands for the same number. *)
From Coq Require Import ZArith List Bool QArith Qabs Qpower Lqa Lia ZifyBool ZifyNat.
From Verif Require Import Base S_Conv M_Fpconv S_Fpconv S_JsonText P_FpDigits P_FpScale P_FpNear.
Import ListNotations.
Open Scope Z_scope.

Lemma zlen_app {A} (a b : list A) : zlen (a ++ b) = zlen a + zlen b.
Proof. unfold zlen. rewrite app_length. lia. Qed.
Lemma zlen_nil : zlen (@nil Z) = 0.
Proof. reflexivity. Qed.
Lemma dec_rev l : dec_value l = rval (rev l).
Proof. rewrite rval_dec, rev_involutive. reflexivity. Qed.
Lemma rval_app a b : rval (a ++ b) = rval a + 10 ^ zlen a * rval b.
Proof.
  induction a as [|d r IH]; cbn [rval app]; [change (10 ^ zlen (@nil Z)) with 1; lia|].
  rewrite IH, zlen_cons, pow10_S by apply zlen_nonneg. ring.
Qed.
Lemma zlen_rev {A} (l : list A) : zlen (rev l) = zlen l.
Proof. unfold zlen. rewrite rev_length. reflexivity. Qed.
Lemma dec_app a b : dec_value (a ++ b) = dec_value a * 10 ^ zlen b + dec_value b.
Proof. rewrite !dec_rev, rev_app_distr, rval_app, zlen_rev. ring. Qed.
Lemma zeros_len n : 0 <= n -> zlen (zeros n) = n.
Proof. intros. unfold zeros, zlen. rewrite repeat_length. lia. Qed.
Lemma zeros_val n : dec_value (zeros n) = 0.
Proof. rewrite dec_rev. unfold zeros. generalize (Z.to_nat n) as k. intros k. assert (H : forall l, Forall (fun c => c = 48) l -> rval l = 0) by (induction 1 as [|d r E _ IH]; cbn [rval]; [reflexivity|lia]).
  apply H. apply Forall_rev. induction k; cbn; constructor; auto. Qed.
Lemma zeros_digits n : Forall is_digit (zeros n).
Proof. unfold zeros. generalize (Z.to_nat n) as k. induction k; cbn; constructor; auto. unfold is_digit. lia. Qed.
Lemma rval_lt l : Forall is_digit l -> rval l < 10 ^ zlen l.
Proof. induction 1 as [|d r D _ IH]; cbn [rval]; [reflexivity|]. rewrite zlen_cons, pow10_S by apply zlen_nonneg. unfold is_digit in D. lia. Qed.
Lemma dig_first ds : dig ds -> ds <> [] -> hd 48 (rev ds) <> 48.
Proof.
  intros [F [H|H]] N; [contradiction|]. destruct (rev ds) as [|d r] eqn:E; [apply (f_equal (@rev Z)) in E; rewrite rev_involutive in E; cbn in E; contradiction|].
  cbn [hd]. intros ->. assert (X : rval ds = rval (rev r)). { rewrite <- (rev_involutive ds), E. cbn [rev]. rewrite rval_app. cbn [rval]. lia. }
  assert (L : zlen ds = zlen r + 1). { rewrite <- (zlen_rev ds), E. apply zlen_cons. }
  assert (FR : Forall is_digit (rev r)). { apply Forall_rev. apply Forall_rev in F. rewrite E in F. now inversion F. }
  pose proof (rval_lt _ FR) as Y. rewrite zlen_rev in Y. rewrite X, L in H. replace (zlen r + 1 - 1) with (zlen r) in H by lia. lia.
Qed.

Definition exp_ok (e : Z) : bool := (dec_value (emit_exp e) =? e) && forallb (fun c => (48 <=? c) && (c <=? 57)) (emit_exp e) && (zlen (emit_exp e) <=? 3) && negb (zlen (emit_exp e) =? 0).
Lemma emit_exp_spec e : 0 <= e < 1000 -> dec_value (emit_exp e) = e /\ digits (emit_exp e) /\ zlen (emit_exp e) <= 3.
Proof.
  intros B. assert (A : forallb exp_ok (map Z.of_nat (seq 0 1000)) = true) by (vm_compute; reflexivity).
  rewrite forallb_forall in A. specialize (A e). destruct (exp_ok e) eqn:X.
  - unfold exp_ok in X. apply andb_prop in X. destruct X as [X X4]. apply andb_prop in X. destruct X as [X X3]. apply andb_prop in X. destruct X as [X1 X2].
    split; [lia|]. split; [|lia]. split; [intros Y; rewrite Y in X4; discriminate|]. rewrite forallb_forall in X2. apply Forall_forall. intros c Ic. specialize (X2 c Ic). unfold is_digit. lia.
  - exfalso. enough (false = true) by discriminate. apply A. replace e with (Z.of_nat (Z.to_nat e)) by lia. apply in_map. apply in_seq. lia.
Qed.

(** the parts of a number *)
Definition number_parts (t : bytes) (q : Q) (simple : bool) : Prop :=
  exists i p f x e, t = i ++ p ++ x /\ js_digits i /\ fraction p f /\ exponent x e /\ (q == inject_Z (dec_value (i ++ f)) * power 10 (e - zlen f))%Q /\ (simple = false -> p ++ x <> []).

Lemma emit_spec D K (neg : bool) : digits D -> hd 48 D <> 48 -> zlen D <= 17 -> -420 <= K <= 420 ->
  exists t, emit_digits D K neg = Ok t /\ zlen t <= (if neg then 23 else 24) /\ number_parts t (inject_Z (dec_value D) * power 10 K)%Q ((0 <=? K) && (K <=? 7)).
Proof.
  intros [ND FD] HD LD KB. assert (L1 : 1 <= zlen D) by (destruct D; [contradiction|]; rewrite zlen_cons; pose proof (zlen_nonneg D); lia). unfold emit_digits. set (n := zlen D) in *.
  assert (JD : js_digits D) by (split; [split; assumption|now right]).
  destruct ((0 <=? K) && (Z.abs (K + n - 1) <? n + (if neg then 6 else 7))) eqn:C1.
  { exists (D ++ zeros K). split; [reflexivity|]. rewrite zlen_app, zeros_len by lia. fold n. split; [destruct neg; lia|]. exists (D ++ zeros K), [], [], [], 0. split; [now rewrite !app_nil_r|].
    split; [split; [split; [destruct D; [contradiction|discriminate]|apply Forall_app; split; [exact FD|apply zeros_digits]]|right; destruct D; [contradiction|exact HD]]|].
    split; [now left|]. split; [now left|]. split; [|intros; destruct neg; lia]. rewrite app_nil_r, dec_app, zeros_val, zeros_len, Z.add_0_r by lia. change (0 - zlen (@nil Z)) with 0. rewrite iZ_mult, <- power_Z by lia. rewrite power_0. ring. }
  destruct ((K <? 0) && ((-7 <? K) || (Z.abs (K + n - 1) <? 4))) eqn:C2.
  { replace ((0 <=? K) && (K <=? 7)) with false by lia. destruct (Z.leb_spec (n - Z.abs K) 0) as [O|O].
    - exists ([48; 46] ++ zeros (- (n - Z.abs K)) ++ D). split; [reflexivity|]. rewrite !zlen_app, zeros_len by lia. fold n. change (zlen [48; 46]) with 2. split; [destruct neg; lia|].
      exists [48], (46 :: zeros (- (n - Z.abs K)) ++ D), (zeros (- (n - Z.abs K)) ++ D), [], 0. split; [cbn; rewrite app_nil_r; reflexivity|].
      split; [split; [split; [discriminate|constructor; [unfold is_digit; lia|constructor]]|now left]|].
      split; [right; split; [reflexivity|split; [destruct D; [contradiction|]; intros X; apply app_eq_nil in X; destruct X; discriminate|apply Forall_app; split; [apply zeros_digits|exact FD]]]|].
      split; [now left|]. split; [|discriminate]. rewrite !dec_app, zeros_val. rewrite !zlen_app, zeros_len by lia. fold n. change (dec_value [48]) with 0.
      replace (0 - (- (n - Z.abs K) + n)) with K by lia. rewrite !Z.mul_0_l, !Z.add_0_l. reflexivity.
    - set (o := Z.to_nat (n - Z.abs K)). exists (firstn o D ++ [46] ++ skipn o D). split; [reflexivity|].
      assert (LF : zlen (firstn o D) = n - Z.abs K) by (unfold zlen, n, o in *; rewrite firstn_length; unfold zlen in *; lia).
      assert (LS : zlen (skipn o D) = Z.abs K) by (unfold zlen, n, o in *; rewrite skipn_length; unfold zlen in *; lia).
      rewrite !zlen_app, LF, LS. change (zlen [46]) with 1. split; [destruct neg; lia|]. exists (firstn o D), ([46] ++ skipn o D), (skipn o D), [], 0. split; [now rewrite app_nil_r|].
      assert (NF : firstn o D <> []) by (intros X; rewrite X, zlen_nil in LF; lia).
      assert (FF : Forall is_digit (firstn o D ++ skipn o D)) by (rewrite firstn_skipn; exact FD). apply Forall_app in FF. destruct FF as [FF FS].
      split; [split; [split; assumption|right; destruct D as [|d r]; [contradiction|]; destruct o; [contradiction|exact HD]]|].
      split; [right; split; [reflexivity|split; [intros X; rewrite X, zlen_nil in LS; lia|exact FS]]|]. split; [now left|]. split; [|discriminate].
      rewrite firstn_skipn, LS. replace (0 - Z.abs K) with K by lia. reflexivity. }
  assert (MN : Z.min n (18 - (if neg then 1 else 0)) = n) by (destruct neg; lia). rewrite MN. destruct D as [|d r]; [contradiction|]. cbn [hd] in HD.
  assert (LR : zlen r = n - 1) by (unfold n; rewrite zlen_cons; lia). assert (FN : firstn (Z.to_nat (n - 1)) r = r) by (apply firstn_all2; unfold zlen in LR; lia). rewrite FN.
  destruct (emit_exp_spec (Z.abs (K + n - 1)) ltac:(lia)) as (EV & ED & EL). set (ex := emit_exp (Z.abs (K + n - 1))) in *. eexists. split; [reflexivity|]. inversion FD as [|? ? D1 D2]; subst.
  split. { rewrite !zlen_app. change (zlen [d]) with 1. change (zlen [101]) with 1. match goal with |- context[zlen [if ?c then 45 else 43]] => change (zlen [if c then 45 else 43]) with 1 end. destruct (1 <? n); rewrite ?zlen_app, ?LR, ?zlen_nil; change (zlen [46]) with 1; destruct neg; lia. }
  exists [d], (if 1 <? n then [46] ++ r else []), r, ([101] ++ [if K + n - 1 <? 0 then 45 else 43] ++ ex), (K + n - 1).
  split; [reflexivity|]. split; [split; [split; [discriminate|now constructor]|right; exact HD]|].
  split; [destruct (1 <? n) eqn:C3; [right; split; [reflexivity|split; [intros ->; rewrite zlen_nil in LR; lia|exact D2]]|left; split; [reflexivity|destruct r; [reflexivity|rewrite zlen_cons in LR; pose proof (zlen_nonneg r); lia]]]|].
  split; [right; exists [if K + n - 1 <? 0 then 45 else 43], ex; split; [reflexivity|]; split; [exact ED|]; rewrite EV; destruct (K + n - 1 <? 0) eqn:C4; [right|left]; split; try reflexivity; try lia; now right|].
  split; [|intros _; destruct (1 <? n); discriminate]. rewrite LR. replace (K + n - 1 - (n - 1)) with K by lia. reflexivity.
Qed.

Lemma parts_decimal t q b neg : number_parts t q b -> decimal_text ((if neg : bool then [45] else []) ++ t) neg q.
Proof. intros (i & p & f & x & e & -> & [J _] & F & X & Q & _). exists i, p, f, x, e. auto. Qed.
Lemma parts_js t q neg : number_parts t q false -> js_number ((if neg : bool then [45] else []) ++ t).
Proof.
  intros (i & p & f & x & e & -> & J & F & X & Q & N). exists ((if neg then [45] else []) ++ i), (if neg then - dec_value i else dec_value i), p, x.
  split; [now rewrite app_assoc|]. split; [exists i; split; [exact J|]; destruct neg; [right|left]; now split|]. split; [|split; [|apply N; reflexivity]].
  - destruct F as [[-> _]|[-> Ff]]; [now left|right; exists f; auto].
  - destruct X as [[-> _]|(s & ds & -> & Dd & Y)]; [now left|right]. exists 101, s, ds. split; [reflexivity|]. split; [now left|]. split; [|exact Dd]. destruct Y as [[[->| ->] _]|[-> _]]; auto.
Qed.

(** ** integers are doubles as far as 2^53 *)
Lemma int_double m : 0 < m <= 2 ^ 53 -> exists n, 0 < n < 2047 * 2 ^ 52 /\ (double_value n == inject_Z m)%Q.
Proof.
  intros B. destruct (Z.eq_dec m (2 ^ 53)) as [->|NE]; [exists (1076 * 2 ^ 52); split; [lia|reflexivity]|].
  set (l := Z.log2 m). pose proof (Z.log2_spec m ltac:(lia)) as [L1 L2]. fold l in L1, L2. rewrite Z.pow_succ_r in L2 by apply Z.log2_nonneg. assert (L0 : 0 <= l) by apply Z.log2_nonneg.
  assert (L3 : l <= 52). { destruct (Z_lt_le_dec 52 l) as [X|X]; [|exact X]. assert (2 ^ 53 <= 2 ^ l) by (apply Z.pow_le_mono_r; lia). lia. }
  exists ((l + 1022) * 2 ^ 52 + m * 2 ^ (52 - l)).
  assert (P : 2 ^ l * 2 ^ (52 - l) = 2 ^ 52) by (rewrite <- Z.pow_add_r by lia; f_equal; lia). assert (P0 : 0 < 2 ^ (52 - l)) by (apply Z.pow_pos_nonneg; lia).
  assert (Q1 : 2 ^ 52 <= m * 2 ^ (52 - l) < 2 * 2 ^ 52) by nia.
  set (y := m * 2 ^ (52 - l)) in *. split; [lia|]. unfold double_value.
  assert (D1 : ((l + 1022) * 2 ^ 52 + y) / 2 ^ 52 = l + 1023) by (symmetry; apply (Z.div_unique_pos _ (2 ^ 52) (l + 1023) (y - 2 ^ 52)); lia).
  assert (M1 : ((l + 1022) * 2 ^ 52 + y) mod 2 ^ 52 = y - 2 ^ 52) by (symmetry; apply (Z.mod_unique_pos _ (2 ^ 52) (l + 1023) (y - 2 ^ 52)); lia).
  rewrite D1, M1. replace (l + 1023 =? 0) with false by lia. replace (y - 2 ^ 52 + 2 ^ 52) with y by lia. unfold y. rewrite iZ_mult, <- power_Z by lia. rewrite <- Qmult_assoc, <- power_add by lia.
  replace (52 - l + (l + 1023 - 1075)) with 0 by lia. rewrite power_0. ring.
Qed.
Lemma nearest_int n q m : 0 < n < 2047 * 2 ^ 52 -> nearest n q -> (q == inject_Z m)%Q -> 0 < m -> (double_value n < power 2 53)%Q -> (double_value n == inject_Z m)%Q.
Proof.
  intros N NR QM M LT. destruct (Z_le_gt_dec m (2 ^ 53)) as [B|B].
  - destruct (int_double m ltac:(lia)) as (k & Kb & Ke). destruct (Z.eq_dec k n) as [->|NE]; [exact Ke|]. specialize (NR k ltac:(lia) NE). exfalso. rewrite Ke, QM in NR. revert NR. apply Qabs_case; intros X; apply Qabs_case; intros Y; lra.
  - exfalso. destruct (int_double (2 ^ 53) ltac:(lia)) as (k & Kb & Ke). rewrite <- power_Z in Ke by lia. assert (NE : k <> n) by (intros ->; rewrite Ke in LT; lra). specialize (NR k ltac:(lia) NE). rewrite Ke, QM in NR.
    assert (X : (power 2 53 < inject_Z m)%Q) by (rewrite power_Z by lia; apply iZ_lt; lia). revert NR. apply Qabs_case; intros X1; apply Qabs_case; intros Y1; lra.
Qed.
