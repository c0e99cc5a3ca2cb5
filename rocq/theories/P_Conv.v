(** Proofs about the conversions of M_Conv.v *)
From Coq Require Import ZArith List Bool Lia ZifyBool ZifyNat.
From Verif Require Import Base Lemmas M_Types M_Conv S_Conv.
Import ListNotations.
Open Scope Z_scope.

Ltac Zify.zify_post_hook ::= Z.div_mod_to_equations.

Ltac list_lia := try apply (f_equal Ok); try apply (f_equal Some); repeat (apply (f_equal2 cons); [lia|]); try reflexivity.

(** * finite checks *)
Definition upto (n : nat) : list Z := map Z.of_nat (seq 0 n).
Lemma upto_spec n f : forallb f (upto n) = true -> forall x, 0 <= x < Z.of_nat n -> f x = true.
Proof.
  intros H x Hx. rewrite forallb_forall in H. apply H. unfold upto.
  apply in_map_iff. exists (Z.to_nat x). split; [lia|]. apply in_seq. lia.
Qed.
Lemma upto_spec2 n m f :
  forallb (fun x => forallb (f x) (upto m)) (upto n) = true ->
  forall x y, 0 <= x < Z.of_nat n -> 0 <= y < Z.of_nat m -> f x y = true.
Proof.
  intros H x y Hx Hy. apply (upto_spec m); [|lia].
  apply (upto_spec n (fun x => forallb (f x) (upto m))); auto.
Qed.

(** * base64 *)
Lemma enc_val i : 0 <= i < 64 -> b64_val (b64_enc i) = Some i.
Proof.
  intros H.
  assert (E: (match b64_val (b64_enc i) with Some j => i =? j | None => false end) = true).
  { apply (upto_spec 64 (fun i => match b64_val (b64_enc i) with Some j => i =? j | None => false end)); [now vm_compute|lia]. }
  destruct (b64_val (b64_enc i)); [f_equal; lia|discriminate].
Qed.

Definition dec_ok (c : Z) : bool :=
  b64_dec c =? (match b64_val c with Some v => v | None => if c =? 61 then 254 else 255 end).
Lemma dec_val_ c : 0 <= c < 256 ->
  b64_dec c = match b64_val c with Some v => v | None => if c =? 61 then 254 else 255 end.
Proof.
  intros H. assert (E: dec_ok c = true) by (apply (upto_spec 256); [now vm_compute|lia]).
  unfold dec_ok in E. lia.
Qed.

Lemma b64_val_range c v : b64_val c = Some v -> 0 <= v < 64 /\ 43 <= c < 128 /\ c <> 61.
Proof.
  unfold b64_val. intros H.
  repeat match type of H with context [if ?b then _ else _] => destruct b eqn:? end;
    inversion H; lia.
Qed.

Lemma dec_val c v : b64_val c = Some v -> b64_dec c = v.
Proof.
  intros H. pose proof (b64_val_range _ _ H).
  rewrite dec_val_ by lia. now rewrite H.
Qed.

Lemma idx1 b0 b1 : is_byte b0 -> is_byte b1 ->
  Z.land (Z.lor (Z.shiftl b0 4) (Z.shiftr b1 4)) 63 = (b0 mod 4) * 16 + b1 / 16.
Proof.
  unfold is_byte; intros. apply Z.eqb_eq.
  apply (upto_spec2 256 256 (fun b0 b1 => Z.land (Z.lor (Z.shiftl b0 4) (Z.shiftr b1 4)) 63 =? (b0 mod 4) * 16 + b1 / 16)); [now vm_compute|lia|lia].
Qed.
Lemma idx2 b0 b1 : is_byte b0 -> is_byte b1 ->
  Z.land (Z.lor (Z.shiftl b0 2) (Z.shiftr b1 6)) 63 = (b0 mod 16) * 4 + b1 / 64.
Proof.
  unfold is_byte; intros. apply Z.eqb_eq.
  apply (upto_spec2 256 256 (fun b0 b1 => Z.land (Z.lor (Z.shiftl b0 2) (Z.shiftr b1 6)) 63 =? (b0 mod 16) * 4 + b1 / 64)); [now vm_compute|lia|lia].
Qed.
Lemma idx3 b : Z.land b 63 = b mod 64.
Proof. apply (land_ones_mod b 6). lia. Qed.
Lemma idx0 b : Z.shiftr b 2 = b / 4.
Proof. now rewrite Z.shiftr_div_pow2. Qed.

Definition dec_bytes (v0 v1 : Z) (k : Z) : Z := u8 (Z.lor (Z.shiftl v0 (2 * k)) (Z.shiftr v1 (6 - 2 * k))).
Lemma dec0 v0 v1 : 0 <= v0 < 64 -> 0 <= v1 < 64 ->
  u8 (Z.lor (Z.shiftl v0 2) (Z.shiftr v1 4)) = v0 * 4 + v1 / 16.
Proof.
  intros; apply Z.eqb_eq.
  apply (upto_spec2 64 64 (fun v0 v1 => u8 (Z.lor (Z.shiftl v0 2) (Z.shiftr v1 4)) =? v0 * 4 + v1 / 16)); [now vm_compute|lia|lia].
Qed.
Lemma dec1 v0 v1 : 0 <= v0 < 64 -> 0 <= v1 < 64 ->
  u8 (Z.lor (Z.shiftl v0 4) (Z.shiftr v1 2)) = (v0 mod 16) * 16 + v1 / 4.
Proof.
  intros; apply Z.eqb_eq.
  apply (upto_spec2 64 64 (fun v0 v1 => u8 (Z.lor (Z.shiftl v0 4) (Z.shiftr v1 2)) =? (v0 mod 16) * 16 + v1 / 4)); [now vm_compute|lia|lia].
Qed.
Lemma dec2 v0 v1 : 0 <= v0 < 64 -> 0 <= v1 < 64 ->
  u8 (Z.lor (Z.shiftl v0 6) v1) = (v0 mod 4) * 64 + v1.
Proof.
  intros; apply Z.eqb_eq.
  apply (upto_spec2 64 64 (fun v0 v1 => u8 (Z.lor (Z.shiftl v0 6) v1) =? (v0 mod 4) * 64 + v1)); [now vm_compute|lia|lia].
Qed.

(** induction by three / by four *)
Lemma list_ind3 {A} (P : list A -> Prop) :
  P [] -> (forall a, P [a]) -> (forall a b, P [a; b]) ->
  (forall a b c l, P l -> P (a :: b :: c :: l)) -> forall l, P l.
Proof.
  intros H0 H1 H2 H3.
  fix IH 1. intros [|a [|b [|c l]]]; [exact H0|apply H1|apply H2|apply H3, IH].
Qed.
Lemma list_ind4 {A} (P : list A -> Prop) :
  P [] -> (forall a, P [a]) -> (forall a b, P [a; b]) -> (forall a b c, P [a; b; c]) ->
  (forall a b c d l, P l -> P (a :: b :: c :: d :: l)) -> forall l, P l.
Proof.
  intros H0 H1 H2 H3 H4.
  fix IH 1. intros [|a [|b [|c [|d l]]]]; [exact H0|apply H1|apply H2|apply H3|apply H4, IH].
Qed.

Lemma set_nth_app l1 l2 i c : (length l1 <= i)%nat -> set_nth i c (l1 ++ l2) = l1 ++ set_nth (i - length l1) c l2.
Proof.
  revert i; induction l1; intros i H; cbn [app length] in *.
  - now rewrite Nat.sub_0_r.
  - destruct i; [lia|]. cbn [set_nth Nat.sub]. rewrite IHl1 by lia. auto.
Qed.

(** the encoder, with the padding folded into the recursion *)
Fixpoint b64_enc_ref (bs : bytes) : bytes :=
  match bs with
  | [] => []
  | [b0] => [b64_enc (b0 / 4); b64_enc ((b0 mod 4) * 16); 61; 61]
  | [b0; b1] => [b64_enc (b0 / 4); b64_enc ((b0 mod 4) * 16 + b1 / 16); b64_enc ((b1 mod 16) * 4); 61]
  | b0 :: b1 :: b2 :: bs' =>
      b64_enc (b0 / 4) :: b64_enc ((b0 mod 4) * 16 + b1 / 16)
      :: b64_enc ((b1 mod 16) * 4 + b2 / 64) :: b64_enc (b2 mod 64) :: b64_enc_ref bs'
  end.

Lemma b64_group_eq b0 b1 b2 : is_byte b0 -> is_byte b1 -> is_byte b2 ->
  b64_group b0 b1 b2 =
  [b64_enc (b0 / 4); b64_enc ((b0 mod 4) * 16 + b1 / 16); b64_enc ((b1 mod 16) * 4 + b2 / 64); b64_enc (b2 mod 64)].
Proof. intros. unfold b64_group. now rewrite idx0, idx1, idx2, idx3. Qed.

Lemma encode_loop_length bs : length (b64_encode_loop bs) = (4 * ((length bs + 2) / 3))%nat.
Proof.
  induction bs as [|a|a b|a b c bs IHbs] using list_ind3; try reflexivity.
  cbn [b64_encode_loop b64_group app length]. rewrite IHbs. lia.
Qed.

Lemma is_byte_0 : is_byte 0. Proof. unfold is_byte; lia. Qed.

Lemma bytes_to_base64_ref bs : wf_bytes bs -> bytes_to_base64 bs = b64_enc_ref bs.
Proof.
  induction bs as [|a|a b|a b c bs IHbs] using list_ind3; intros W.
  - reflexivity.
  - inversion W; subst. unfold bytes_to_base64. cbn [b64_encode_loop length].
    rewrite b64_group_eq by (auto using is_byte_0). cbn -[b64_enc].
    rewrite ?Z.add_0_r. reflexivity.
  - inversion W; subst. inversion H2; subst. unfold bytes_to_base64. cbn [b64_encode_loop length].
    rewrite b64_group_eq by (auto using is_byte_0). cbn -[b64_enc].
    rewrite ?Z.add_0_r. reflexivity.
  - inversion W; subst. inversion H2; subst. inversion H4; subst.
    specialize (IHbs H6).
    cbn [b64_enc_ref]. rewrite <- IHbs.
    unfold bytes_to_base64.
    cbn [b64_encode_loop]. rewrite b64_group_eq by auto.
    remember [b64_enc (a / 4); b64_enc (a mod 4 * 16 + b / 16);
   b64_enc (b mod 16 * 4 + c / 64); b64_enc (c mod 64)] as g.
    assert (Lg: length g = 4%nat) by (subst; reflexivity).
    change (b64_enc (a / 4) :: b64_enc (a mod 4 * 16 + b / 16)
      :: b64_enc (b mod 16 * 4 + c / 64) :: b64_enc (c mod 64) :: ?l) with
     ([b64_enc (a / 4); b64_enc (a mod 4 * 16 + b / 16);
   b64_enc (b mod 16 * 4 + c / 64); b64_enc (c mod 64)] ++ l).
    rewrite <- Heqg.
    cbn [length].
    replace (S (S (S (length bs))) mod 3)%nat with (length bs mod 3)%nat by lia.
    replace (4 * ((S (S (S (length bs))) + 2) / 3))%nat with (4 + 4 * ((length bs + 2) / 3))%nat by lia.
    destruct (Nat.ltb_spec 0 (length bs mod 3)).
    + assert (1 <= (length bs + 2) / 3)%nat by lia.
      rewrite set_nth_app by lia. rewrite Lg.
      replace (4 + 4 * ((length bs + 2) / 3) - 1 - 4)%nat with (4 * ((length bs + 2) / 3) - 1)%nat by lia.
      destruct (Nat.eqb_spec (length bs mod 3) 1); auto.
      rewrite set_nth_app by lia. rewrite Lg.
      replace (4 + 4 * ((length bs + 2) / 3) - 2 - 4)%nat with (4 * ((length bs + 2) / 3) - 2)%nat by lia.
      auto.
    + destruct (Nat.eqb_spec (length bs mod 3) 1); auto. lia.
Qed.

Lemma b64_val_61 : b64_val 61 = None. Proof. reflexivity. Qed.

(** the independent decoder inverts the encoder *)
Lemma enc_ref_decodes bs : wf_bytes bs -> b64_ref (b64_enc_ref bs) = Some bs.
Proof.
  induction bs as [|a|a b|a b c bs IHbs] using list_ind3; intros W.
  - reflexivity.
  - inversion W; subst. unfold is_byte in *. cbn [b64_enc_ref b64_ref].
    rewrite !enc_val, b64_val_61 by lia. cbn [Z.eqb Pos.eqb andb]. unfold b64_quad. f_equal. f_equal. lia.
  - inversion W; subst. inversion H2; subst. unfold is_byte in *. cbn [b64_enc_ref b64_ref].
    rewrite !enc_val, b64_val_61 by lia. cbn [Z.eqb Pos.eqb andb]. unfold b64_quad. f_equal. f_equal; [lia|f_equal; lia].
  - inversion W; subst. inversion H2; subst. inversion H4; subst. unfold is_byte in *.
    cbn [b64_enc_ref b64_ref].
    rewrite !enc_val by lia. rewrite IHbs by auto. unfold b64_quad. f_equal. f_equal; [lia|f_equal; [lia|f_equal; lia]].
Qed.

(** ** the decoder on 7 bit texts *)
(** group-wise view of the decoder: consume the text four by four *)
Definition b64_sym (c : Z) : Prop := b64_val c <> None \/ c = 61.
Definition b64_grp (c0 c1 c2 c3 : Z) (todo : nat) : bytes :=
  let b0 := b64_dec c0 in let b1 := b64_dec c1 in let b2 := b64_dec c2 in let b3 := b64_dec c3 in
  u8 (Z.lor (Z.shiftl b0 2) (Z.shiftr b1 4)) ::
   (if Nat.ltb 1 todo then u8 (Z.lor (Z.shiftl b1 4) (Z.shiftr b2 2)) ::
      (if Nat.ltb 2 todo then [u8 (Z.lor (Z.shiftl b2 6) b3)] else []) else []).

Fixpoint dec_groups (fuel : nat) (s : bytes) (todo : nat) : res bytes :=
  match fuel with
  | O => Ok []
  | S f =>
    if Nat.eqb todo 0 then Ok []
    else match s with
    | c0 :: c1 :: c2 :: c3 :: s' =>
       if (c0 <? 128) && (c1 <? 128) && (c2 <? 128) && (c3 <? 128) then
         if (b64_dec c0 =? 255) || (b64_dec c1 =? 255) || (b64_dec c2 =? 255) || (b64_dec c3 =? 255) then Err
         else let* rest := dec_groups f s' (todo - 3) in Ok (b64_grp c0 c1 c2 c3 todo ++ rest)
       else UB UbOob
    | _ => UB UbOob
    end
  end.

Lemma nth_error_skipn {A} (l : list A) n k : nth_error l (n + k) = nth_error (skipn n l) k.
Proof.
  revert l; induction n; intros; cbn [Nat.add skipn]; auto.
  destruct l; cbn [nth_error]; auto. destruct k; auto.
Qed.

Lemma decode_loop_groups fuel str i todo :
  b64_decode_loop fuel str i todo = dec_groups fuel (skipn i str) todo.
Proof.
  revert i todo; induction fuel; intros i todo; cbn [b64_decode_loop dec_groups]; auto.
  destruct (Nat.eqb todo 0); auto.
  unfold b64_lookup.
  rewrite <- (Nat.add_0_r i) at 1. rewrite !nth_error_skipn.
  assert (Hs: skipn (i + 4) str = skipn 4 (skipn i str)).
  { now rewrite skipn_skipn. }
  rewrite IHfuel, Hs.
  destruct (skipn i str) as [|c0 [|c1 [|c2 [|c3 s']]]]; cbn [nth_error rbind skipn]; auto;
    repeat (match goal with |- context [?c <? 128] => destruct (c <? 128); cbn [rbind andb]; auto end).
Qed.

Lemma dec_groups_ascii s : Forall (fun c => 0 <= c < 128) s -> (length s mod 4 = 0)%nat ->
  forall fuel todo, (todo <= fuel)%nat -> (todo <= 3 * (length s / 4))%nat -> (3 * (length s / 4) <= todo + 2)%nat ->
  (Forall b64_sym s /\ exists d, dec_groups fuel s todo = Ok d /\ length d = todo) \/
  (~ Forall b64_sym s /\ dec_groups fuel s todo = Err).
Proof.
  induction s as [|a|a b|a b c|a b c d s IHs] using list_ind4; intros W L fuel todo Hf Ht1 Ht2; try (cbn in L; lia).
  - left. split; [constructor|]. exists []. cbn in Ht1. destruct fuel; cbn; auto.
    + split; auto; lia.
    + replace todo with 0%nat by lia. auto.
  - inversion W as [|? ? A0 W1]; subst. inversion W1 as [|? ? A1 W2]; subst.
    inversion W2 as [|? ? A2 W3]; subst. inversion W3 as [|? ? A3 W4]; subst.
    cbn [length] in L, Ht1, Ht2.
    assert (L': (length s mod 4 = 0)%nat) by lia.
    destruct fuel as [|fuel]; [lia|].
    cbn [dec_groups].
    destruct (Nat.eqb_spec todo 0); [lia|].
    replace ((a <? 128) && (b <? 128) && (c <? 128) && (d <? 128)) with true by lia.
    assert (SYM: forall x, 0 <= x < 128 -> (b64_dec x =? 255) = true <-> ~ b64_sym x).
    { intros x Hx. rewrite dec_val_ by lia. unfold b64_sym. destruct (b64_val x) eqn:E.
      - pose proof (b64_val_range _ _ E). split; intros H0; [lia|]. exfalso; apply H0. left; congruence.
      - destruct (Z.eqb_spec x 61); split; intros H; auto; try lia.
        + intros [?|?]; congruence. }
    destruct ((b64_dec a =? 255) || (b64_dec b =? 255) || (b64_dec c =? 255) || (b64_dec d =? 255)) eqn:E.
    + right. split; auto. intros F. inversion F as [|? ? F0 F1]; subst. inversion F1 as [|? ? F2 F3]; subst.
      inversion F3 as [|? ? F4 F5]; subst. inversion F5 as [|? ? F6 F7]; subst.
      rewrite !orb_true_iff in E. rewrite !SYM in E by auto. tauto.
    + assert (S4: b64_sym a /\ b64_sym b /\ b64_sym c /\ b64_sym d).
      { rewrite !orb_false_iff in E. destruct E as [[[E0 E1] E2] E3].
        assert (D: forall x, 0 <= x < 128 -> (b64_dec x =? 255) = false -> b64_sym x).
        { intros x Hx Hd. unfold b64_sym. rewrite dec_val_ in Hd by lia.
          destruct (b64_val x); [left; congruence|]. destruct (Z.eqb_spec x 61); auto. lia. }
        auto. }
      destruct (Nat.le_gt_cases todo 3) as [T|T].
      * (* last group *)
        assert (length s / 4 = 0)%nat by lia. assert (length s = 0)%nat by lia. destruct s; [|discriminate].
        left. split; [repeat (apply Forall_cons; [tauto|]); apply Forall_nil|].
        replace (todo - 3)%nat with 0%nat by lia.
        assert (DG: dec_groups fuel [] 0 = Ok []) by (destruct fuel; reflexivity). rewrite DG. cbn [rbind].
        eexists. split; [reflexivity|]. rewrite app_nil_r. unfold b64_grp.
        destruct todo as [|[|[|[|]]]]; cbn; lia.
      * specialize (IHs W4 L' fuel (todo - 3)%nat). destruct IHs as [[F [r [Hr Lr]]]|[F Hr]]; try lia.
        -- left. split; [repeat (apply Forall_cons; [tauto|]); exact F|]. rewrite Hr. cbn [rbind]. eexists; split; [reflexivity|].
           rewrite app_length, Lr. unfold b64_grp.
           destruct (Nat.ltb_spec 1 todo), (Nat.ltb_spec 2 todo); cbn; lia.
        -- right. split; [|rewrite Hr; reflexivity]. intros F'. apply F.
           do 4 (inversion F' as [|? ? ? F'']; subst; clear F'; rename F'' into F'). auto.
Qed.

Lemma decoded_size_bounds s : (length s mod 4 = 0)%nat ->
  (get_base64_decoded_size s <= 3 * (length s / 4))%nat /\ (3 * (length s / 4) <= get_base64_decoded_size s + 2)%nat.
Proof.
  intros L. unfold get_base64_decoded_size.
  destruct (Nat.ltb_spec (length s) 4); [lia|].
  destruct (_ =? 61), (_ =? 61); lia.
Qed.

(** complete description on 7 bit text *)
Lemma base64_ascii s : Forall (fun c => 0 <= c < 128) s ->
  ((length s mod 4 = 0)%nat /\ Forall b64_sym s /\ exists d, base64_to_bytes s = Ok d) \/
  (~ ((length s mod 4 = 0)%nat /\ Forall b64_sym s) /\ base64_to_bytes s = Err).
Proof.
  intros W. unfold base64_to_bytes, base64_to_bytes_dest.
  destruct (Nat.eqb_spec (length s mod 4) 0) as [L|L].
  - rewrite andb_false_r, decode_loop_groups. cbn [skipn].
    pose proof (decoded_size_bounds s L).
    destruct (dec_groups_ascii s W L (get_base64_decoded_size s) (get_base64_decoded_size s)) as [[F [d [Hd _]]]|[F Hd]]; try lia.
    + left. eauto.
    + right. tauto.
  - right. destruct s; [exfalso; apply L; reflexivity|]. cbn [length Nat.ltb Nat.leb andb negb]. tauto.
Qed.

(** ** on well-formed texts the decoder agrees with the reference *)
Lemma decoded_size_app c0 c1 c2 c3 s : s <> [] -> (length s mod 4 = 0)%nat ->
  get_base64_decoded_size (c0 :: c1 :: c2 :: c3 :: s) = (3 + get_base64_decoded_size s)%nat.
Proof.
  intros Hs L. unfold get_base64_decoded_size. cbn [length].
  assert (4 <= length s)%nat by (destruct s; [congruence|cbn [length] in *; lia]).
  destruct (Nat.ltb_spec (S (S (S (S (length s))))) 4); [lia|].
  destruct (Nat.ltb_spec (length s) 4); [lia|].
  replace (S (S (S (S (length s)))) - 1)%nat with (S (S (S (S (length s - 1))))) by lia.
  replace (S (S (S (S (length s)))) - 2)%nat with (S (S (S (S (length s - 2))))) by lia.
  cbn [nth].
  destruct (_ =? 61), (_ =? 61); lia.
Qed.

Lemma b64_ref_length s d : b64_ref s = Some d -> (length s mod 4 = 0)%nat.
Proof.
  revert d; induction s as [|a|a b|a b c|a b c d s IHs] using list_ind4; intros r H; try discriminate; auto.
  cbn [b64_ref] in H.
  assert (length s mod 4 = 0)%nat; [|cbn [length]; lia].
  destruct (b64_val a), (b64_val b), (b64_val c), (b64_val d); try discriminate;
    try (destruct (b64_ref s) eqn:E; [eauto|discriminate]);
    destruct s; auto; rewrite ?andb_false_r in H; discriminate.
Qed.

Lemma b64_ref_dec s d : b64_ref s = Some d ->
  forall fuel, (get_base64_decoded_size s <= fuel)%nat ->
  dec_groups fuel s (get_base64_decoded_size s) = Ok d.
Proof.
  revert d; induction s as [|a|a b|a b c|a b c d s IHs] using list_ind4; intros r H fuel Hf; try discriminate.
  - inversion H; subst. destruct fuel; reflexivity.
  - pose proof (b64_ref_length _ _ H) as L. cbn [length] in L.
    assert (L': (length s mod 4 = 0)%nat) by lia.
    cbn [b64_ref] in H.
    destruct (b64_val a) as [v0|] eqn:E0; [|discriminate].
    destruct (b64_val b) as [v1|] eqn:E1; [|discriminate].
    pose proof (b64_val_range _ _ E0) as R0. pose proof (b64_val_range _ _ E1) as R1.
    pose proof (dec_val _ _ E0) as D0. pose proof (dec_val _ _ E1) as D1.
    destruct (b64_val c) as [v2|] eqn:E2.
    + pose proof (b64_val_range _ _ E2) as R2. pose proof (dec_val _ _ E2) as D2.
      destruct (b64_val d) as [v3|] eqn:E3.
      * pose proof (b64_val_range _ _ E3) as R3. pose proof (dec_val _ _ E3) as D3.
        destruct (b64_ref s) as [rest|] eqn:ES; [|discriminate]. inversion H; subst r.
        assert (G: forall todo, (3 <= todo)%nat -> b64_grp a b c d todo = [b64_quad v0 v1 v2 v3 / 65536; (b64_quad v0 v1 v2 v3 / 256) mod 256; b64_quad v0 v1 v2 v3 mod 256]).
        { intros todo T. unfold b64_grp. rewrite D0, D1, D2, D3.
          destruct (Nat.ltb_spec 1 todo), (Nat.ltb_spec 2 todo); try lia.
          rewrite dec0, dec1, dec2 by lia. unfold b64_quad. list_lia. }
        destruct s as [|s0 s'] eqn:Es.
        -- cbn in ES. inversion ES; subst rest.
           assert (GS: get_base64_decoded_size [a; b; c; d] = 3%nat).
           { unfold get_base64_decoded_size. cbn [length Nat.ltb Nat.leb Nat.sub nth].
             replace (d =? 61) with false by lia. replace (c =? 61) with false by lia. reflexivity. }
           rewrite GS in *. destruct fuel; [lia|]. cbn [dec_groups Nat.eqb].
           rewrite D0, D1, D2, D3. replace ((a <? 128) && (b <? 128) && (c <? 128) && (d <? 128)) with true by lia.
           replace ((v0 =? 255) || (v1 =? 255) || (v2 =? 255) || (v3 =? 255)) with false by lia.
           rewrite G by lia. cbn [Nat.sub]. assert (DG: dec_groups fuel [] 0 = Ok []) by (destruct fuel; reflexivity).
           rewrite DG. reflexivity.
        -- rewrite <- Es in *.
           rewrite decoded_size_app in * by (auto; rewrite Es; discriminate).
           destruct fuel; [lia|]. cbn [dec_groups].
           destruct (Nat.eqb_spec (3 + get_base64_decoded_size s) 0); [lia|].
           rewrite D0, D1, D2, D3. replace ((a <? 128) && (b <? 128) && (c <? 128) && (d <? 128)) with true by lia.
           replace ((v0 =? 255) || (v1 =? 255) || (v2 =? 255) || (v3 =? 255)) with false by lia.
           rewrite G by lia. replace (3 + get_base64_decoded_size s - 3)%nat with (get_base64_decoded_size s) by lia.
           rewrite (IHs rest) by (auto; lia). reflexivity.
      * destruct (Z.eqb_spec d 61); [|discriminate]. destruct s; [|discriminate].
        cbn [andb] in H. inversion H; subst r d.
        assert (GS: get_base64_decoded_size [a; b; c; 61] = 2%nat).
        { unfold get_base64_decoded_size. cbn [length Nat.ltb Nat.leb Nat.sub nth].
          replace (c =? 61) with false by lia. reflexivity. }
        rewrite GS in *. destruct fuel; [lia|]. cbn [dec_groups Nat.eqb].
        change (b64_dec 61) with 254.
        rewrite D0, D1, D2. replace ((a <? 128) && (b <? 128) && (c <? 128) && (61 <? 128)) with true by lia.
        replace ((v0 =? 255) || (v1 =? 255) || (v2 =? 255) || (254 =? 255)) with false by lia.
        cbn [Nat.sub]. assert (DG: dec_groups fuel [] 0 = Ok []) by (destruct fuel; reflexivity).
        rewrite DG. unfold b64_grp. rewrite D0, D1, D2. cbn [Nat.ltb Nat.leb rbind app].
        rewrite dec0, dec1 by lia. unfold b64_quad. list_lia.
    + destruct (b64_val d) as [v3|] eqn:E3; [discriminate|].
      destruct (Z.eqb_spec c 61); [|discriminate]. destruct (Z.eqb_spec d 61); [|discriminate].
      destruct s; [|discriminate].
      cbn [andb] in H. inversion H; subst r c d.
      change (get_base64_decoded_size [a; b; 61; 61]) with 1%nat in *.
      destruct fuel; [lia|]. cbn [dec_groups Nat.eqb].
      change (b64_dec 61) with 254.
      rewrite D0, D1. replace ((a <? 128) && (b <? 128) && (61 <? 128) && (61 <? 128)) with true by lia.
      replace ((v0 =? 255) || (v1 =? 255) || (254 =? 255) || (254 =? 255)) with false by lia.
      cbn [Nat.sub]. assert (DG: dec_groups fuel [] 0 = Ok []) by (destruct fuel; reflexivity).
      rewrite DG. unfold b64_grp. rewrite D0, D1. cbn [Nat.ltb Nat.leb rbind app].
      rewrite dec0 by lia. unfold b64_quad. list_lia.
Qed.

Lemma base64_wellformed s d : b64_ref s = Some d -> base64_to_bytes s = Ok d.
Proof.
  intros H. unfold base64_to_bytes, base64_to_bytes_dest.
  rewrite (b64_ref_length _ _ H). cbn [Nat.eqb negb]. rewrite andb_false_r, decode_loop_groups.
  now apply b64_ref_dec.
Qed.

Lemma base64_encode_wellformed bs : wf_bytes bs -> b64_ref (bytes_to_base64 bs) = Some bs.
Proof. intros. rewrite bytes_to_base64_ref by auto. now apply enc_ref_decodes. Qed.

Lemma base64_roundtrip bs : wf_bytes bs -> base64_to_bytes (bytes_to_base64 bs) = Ok bs.
Proof. intros. apply base64_wellformed. now apply base64_encode_wellformed. Qed.

Lemma set_nth_length i c l : length (set_nth i c l) = length l.
Proof. revert i; induction l; destruct i; cbn; auto. Qed.

Lemma base64_length bs : length (bytes_to_base64 bs) = (4 * ((length bs + 2) / 3))%nat.
Proof.
  unfold bytes_to_base64.
  destruct (Nat.ltb _ _), (Nat.eqb _ _); rewrite ?set_nth_length; apply encode_loop_length.
Qed.
