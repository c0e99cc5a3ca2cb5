(** Proofs about conv_charset. *)
From Coq Require Import ZArith List Bool Lia ZifyBool ZifyNat.
From Verif Require Import Base Lemmas M_Types S_Charset M_Charset.
Import ListNotations.
Open Scope Z_scope.
Ltac Zify.zify_post_hook ::= Z.to_euclidean_division_equations.

Lemma scalarb_spec c : scalarb c = true <-> scalar c.
Proof. unfold scalarb, scalar. lia. Qed.

Lemma cont_spec b : cont b = true <-> 128 <= b < 192.
Proof. unfold cont. lia. Qed.

Definition known (e : enc) : Prop := e <> EUnknown.

Lemma if_scalar_ok lo c n : lo <= c -> scalar c -> if_scalar lo c n = DChar c n.
Proof. intros. unfold if_scalar. apply scalarb_spec in H0. rewrite H0. replace (lo <=? c) with true by lia. reflexivity. Qed.

Lemma DChar_inj a n b m : DChar a n = DChar b m -> b = a /\ m = n.
Proof. intros H. injection H as -> ->. split; reflexivity. Qed.

Lemma if_scalar_inv lo c n c' n' : if_scalar lo c n = DChar c' n' -> lo <= c /\ scalar c /\ c' = c /\ n' = n.
Proof.
  unfold if_scalar. destruct ((lo <=? c) && scalarb c) eqn:E; [|discriminate].
  intros H. injection H as <- <-. apply andb_true_iff in E. destruct E as [E1 E2]. apply scalarb_spec in E2.
  split; [lia|]. split; [exact E2|]. split; reflexivity.
Qed.

Lemma utf8_dec_enc c r : scalar c -> utf8_dec (utf8 c ++ r) = DChar c (length (utf8 c)).
Proof.
  intros Hs. pose proof Hs as Hb. unfold scalar in Hb. unfold utf8.
  destruct (c <? 128) eqn:E1.
  { cbn [app utf8_dec length]. rewrite E1. reflexivity. }
  destruct (c <? 2048) eqn:E2.
  { cbn [app utf8_dec length].
    replace (192 + c / 64 <? 128) with false by lia. replace (192 + c / 64 <? 194) with false by lia.
    replace (192 + c / 64 <? 224) with true by lia. replace (cont (128 + c mod 64)) with true by (unfold cont; lia).
    f_equal. lia. }
  destruct (c <? 65536) eqn:E3.
  { cbn [app utf8_dec length].
    replace (224 + c / 4096 <? 128) with false by lia. replace (224 + c / 4096 <? 194) with false by lia.
    replace (224 + c / 4096 <? 224) with false by lia. replace (224 + c / 4096 <? 240) with true by lia.
    replace (cont (128 + c / 64 mod 64)) with true by (unfold cont; lia).
    replace (cont (128 + c mod 64)) with true by (unfold cont; lia). cbn [andb].
    replace ((224 + c / 4096 - 224) * 4096 + (128 + c / 64 mod 64 - 128) * 64 + (128 + c mod 64 - 128)) with c by lia.
    apply if_scalar_ok; [lia|exact Hs]. }
  cbn [app utf8_dec length].
  replace (240 + c / 262144 <? 128) with false by lia. replace (240 + c / 262144 <? 194) with false by lia.
  replace (240 + c / 262144 <? 224) with false by lia. replace (240 + c / 262144 <? 240) with false by lia.
  replace (240 + c / 262144 <? 245) with true by lia.
  replace (cont (128 + c / 4096 mod 64)) with true by (unfold cont; lia).
  replace (cont (128 + c / 64 mod 64)) with true by (unfold cont; lia).
  replace (cont (128 + c mod 64)) with true by (unfold cont; lia). cbn [andb].
  replace ((240 + c / 262144 - 240) * 262144 + (128 + c / 4096 mod 64 - 128) * 4096 + (128 + c / 64 mod 64 - 128) * 64 + (128 + c mod 64 - 128)) with c by lia.
  apply if_scalar_ok; [lia|exact Hs].
Qed.

Lemma le2 x : le 2 x = [x mod 256; x / 256 mod 256].
Proof. reflexivity. Qed.
Lemma le4 x : le 4 x = [x mod 256; x / 256 mod 256; x / 256 / 256 mod 256; x / 256 / 256 / 256 mod 256].
Proof. reflexivity. Qed.

Lemma utf16_dec_enc c r : scalar c -> utf16_dec (utf16le c ++ r) = DChar c (length (utf16le c)).
Proof.
  intros Hs. unfold scalar in Hs. unfold utf16le. destruct (c <? 65536) eqn:E.
  - rewrite le2. cbn [app utf16_dec length]. replace (c mod 256 + 256 * (c / 256 mod 256)) with c by lia.
    replace ((55296 <=? c) && (c <? 56320)) with false by lia. replace ((56320 <=? c) && (c <? 57344)) with false by lia.
    reflexivity.
  - set (u := 55296 + (c - 65536) / 1024). set (w := 56320 + (c - 65536) mod 1024).
    assert (Hu : 55296 <= u < 56320) by (unfold u; lia). assert (Hw : 56320 <= w < 57344) by (unfold w; lia).
    assert (Hc : 65536 + (u - 55296) * 1024 + (w - 56320) = c) by (unfold u, w; lia).
    clearbody u w. rewrite !le2. cbn [app utf16_dec length].
    replace (u mod 256 + 256 * (u / 256 mod 256)) with u by lia.
    replace (w mod 256 + 256 * (w / 256 mod 256)) with w by lia.
    replace ((55296 <=? u) && (u <? 56320)) with true by lia. replace ((56320 <=? w) && (w <? 57344)) with true by lia.
    rewrite Hc. reflexivity.
Qed.

Lemma utf32_dec_enc c r : scalar c -> utf32_dec (utf32le c ++ r) = DChar c (length (utf32le c)).
Proof.
  intros Hs. pose proof Hs as Hb. unfold scalar in Hb. unfold utf32le. rewrite le4. cbn [app utf32_dec length].
  replace (c mod 256 + 256 * (c / 256 mod 256 + 256 * (c / 256 / 256 mod 256 + 256 * (c / 256 / 256 / 256 mod 256)))) with c by lia.
  apply if_scalar_ok; [lia|exact Hs].
Qed.

Lemma decode_encode e c r : known e -> scalar c -> decode e (encode e c ++ r) = DChar c (length (encode e c)).
Proof.
  intros K H. destruct e; cbn [decode encode];
    [destruct (K eq_refl)|apply utf8_dec_enc|apply utf16_dec_enc|apply utf32_dec_enc]; exact H.
Qed.

Lemma wf_cons b r : wf_bytes (b :: r) -> 0 <= b < 256 /\ wf_bytes r.
Proof. intros H. inversion H; subst. split; assumption. Qed.

Lemma utf8_dec_sound s c n : wf_bytes s -> utf8_dec s = DChar c n ->
  scalar c /\ exists r, s = utf8 c ++ r /\ n = length (utf8 c).
Proof.
  intros W. destruct s as [|b r]; [discriminate|]. apply wf_cons in W. destruct W as [Wb W]. cbn [utf8_dec].
  destruct (b <? 128) eqn:E1.
  { intros H. apply DChar_inj in H. destruct H as [-> ->]. split; [unfold scalar; lia|]. exists r. unfold utf8. rewrite E1. split; reflexivity. }
  destruct (b <? 194) eqn:E2; [discriminate|].
  destruct (b <? 224) eqn:E3.
  { destruct r as [|c1 r]; [discriminate|]. destruct (cont c1) eqn:C1; [|discriminate]. apply cont_spec in C1.
    intros H. apply DChar_inj in H. destruct H as [-> ->]. split; [unfold scalar; lia|]. exists r. unfold utf8.
    set (c := (b - 192) * 64 + (c1 - 128)). assert (Hc : 128 <= c < 2048) by (unfold c; lia).
    replace (c <? 128) with false by lia. replace (c <? 2048) with true by lia. cbn [app length].
    replace (192 + c / 64) with b by (unfold c; lia). replace (128 + c mod 64) with c1 by (unfold c; lia). split; reflexivity. }
  destruct (b <? 240) eqn:E4.
  { destruct r as [|c1 [|c2 r]]; [discriminate|destruct (cont c1); discriminate|].
    destruct (cont c1) eqn:C1; [|discriminate]. destruct (cont c2) eqn:C2; [|discriminate]. apply cont_spec in C1. apply cont_spec in C2.
    cbn [andb]. intros H. apply if_scalar_inv in H. destruct H as (Hlo & Hs & Ec & ->).
    assert (Hc : 2048 <= c < 65536) by lia. rewrite <- Ec in Hs. split; [exact Hs|]. exists r. unfold utf8.
    replace (c <? 128) with false by lia. replace (c <? 2048) with false by lia. replace (c <? 65536) with true by lia. cbn [app length].
    replace (224 + c / 4096) with b by lia. replace (128 + c / 64 mod 64) with c1 by lia. replace (128 + c mod 64) with c2 by lia.
    split; reflexivity. }
  destruct (b <? 245) eqn:E5; [|discriminate].
  destruct r as [|c1 [|c2 [|c3 r]]]; [discriminate|destruct (cont c1); discriminate|destruct (cont c1 && cont c2); discriminate|].
  destruct (cont c1) eqn:C1; [|discriminate]. destruct (cont c2) eqn:C2; [|discriminate]. destruct (cont c3) eqn:C3; [|discriminate].
  apply cont_spec in C1. apply cont_spec in C2. apply cont_spec in C3.
  cbn [andb]. intros H. apply if_scalar_inv in H. destruct H as (Hlo & Hs & Ec & ->).
  rewrite <- Ec in Hs. split; [exact Hs|]. exists r. unfold utf8.
  replace (c <? 128) with false by lia. replace (c <? 2048) with false by lia. replace (c <? 65536) with false by lia. cbn [app length].
  replace (240 + c / 262144) with b by lia. replace (128 + c / 4096 mod 64) with c1 by lia.
  replace (128 + c / 64 mod 64) with c2 by lia. replace (128 + c mod 64) with c3 by lia.
  split; reflexivity.
Qed.

Lemma utf16_dec_sound s c n : wf_bytes s -> utf16_dec s = DChar c n ->
  scalar c /\ exists r, s = utf16le c ++ r /\ n = length (utf16le c).
Proof.
  intros W. destruct s as [|b0 [|b1 r]]; try discriminate. apply wf_cons in W. destruct W as [W0 W]. apply wf_cons in W. destruct W as [W1 W].
  cbn [utf16_dec].
  set (u := b0 + 256 * b1). assert (U0 : b0 = u mod 256) by (unfold u; lia). assert (U1 : b1 = u / 256 mod 256) by (unfold u; lia).
  assert (Ub : 0 <= u < 65536) by (unfold u; lia). clearbody u. subst b0 b1.
  destruct ((55296 <=? u) && (u <? 56320)) eqn:E1.
  { destruct r as [|b2 [|b3 r]]; try discriminate. apply wf_cons in W. destruct W as [W2 W]. apply wf_cons in W. destruct W as [W3 W].
    set (w := b2 + 256 * b3). assert (V0 : b2 = w mod 256) by (unfold w; lia). assert (V1 : b3 = w / 256 mod 256) by (unfold w; lia).
    clearbody w. subst b2 b3.
    destruct ((56320 <=? w) && (w <? 57344)) eqn:E2; [|discriminate].
    intros H. apply DChar_inj in H. destruct H as [-> ->]. split; [unfold scalar; clear - E1 E2; lia|]. exists r. unfold utf16le. clear W0 W1 W2 W3.
    apply andb_true_iff in E1. apply andb_true_iff in E2. destruct E1 as [E1 E1']. destruct E2 as [E2 E2'].
    set (c := 65536 + (u - 55296) * 1024 + (w - 56320)). replace (c <? 65536) with false by (unfold c; lia).
    assert (Hq : c - 65536 = (w - 56320) + (u - 55296) * 1024) by (unfold c; lia).
    replace (55296 + (c - 65536) / 1024) with u by (rewrite Hq, Z.div_add, (Z.div_small (w - 56320)); lia).
    replace (56320 + (c - 65536) mod 1024) with w by (rewrite Hq, Z.mod_add, (Z.mod_small (w - 56320)); lia). split; reflexivity. }
  destruct ((56320 <=? u) && (u <? 57344)) eqn:E2; [discriminate|].
  intros H. apply DChar_inj in H. destruct H as [-> ->]. split; [unfold scalar; lia|]. exists r. unfold utf16le.
  replace (u <? 65536) with true by lia. split; reflexivity.
Qed.

Lemma utf32_dec_sound s c n : wf_bytes s -> utf32_dec s = DChar c n ->
  scalar c /\ exists r, s = utf32le c ++ r /\ n = length (utf32le c).
Proof.
  intros W. destruct s as [|b0 [|b1 [|b2 [|b3 r]]]]; try discriminate.
  apply wf_cons in W. destruct W as [W0 W]. apply wf_cons in W. destruct W as [W1 W].
  apply wf_cons in W. destruct W as [W2 W]. apply wf_cons in W. destruct W as [W3 W].
  cbn [utf32_dec]. intros H. apply if_scalar_inv in H. destruct H as (Hlo & Hs & Ec & ->).
  rewrite <- Ec in Hs. split; [exact Hs|]. exists r. unfold utf32le. rewrite le4. cbn [app].
  replace (c mod 256) with b0 by lia. replace (c / 256 mod 256) with b1 by lia.
  replace (c / 256 / 256 mod 256) with b2 by lia. replace (c / 256 / 256 / 256 mod 256) with b3 by lia.
  split; reflexivity.
Qed.

Lemma decode_sound e s c n : wf_bytes s -> decode e s = DChar c n ->
  scalar c /\ exists r, s = encode e c ++ r /\ n = length (encode e c).
Proof.
  intros W. destruct e; cbn [decode encode]; [discriminate|apply utf8_dec_sound|apply utf16_dec_sound|apply utf32_dec_sound]; exact W.
Qed.

Lemma encode_len e c : known e -> (1 <= length (encode e c) <= 4)%nat.
Proof.
  intros K. destruct e; cbn [encode]; [destruct (K eq_refl)| | |cbn; lia].
  - unfold utf8. destruct (c <? 128), (c <? 2048), (c <? 65536); cbn; lia.
  - unfold utf16le. destruct (c <? 65536); cbn; lia.
Qed.

Lemma wf_encode e c : scalar c -> wf_bytes (encode e c).
Proof.
  intros H. destruct e; cbn [encode]; [constructor| | |apply le_wf].
  - unfold scalar in H. unfold utf8. destruct (c <? 128) eqn:E1; [|destruct (c <? 2048) eqn:E2; [|destruct (c <? 65536) eqn:E3]];
      repeat (constructor; [unfold is_byte; lia|]); constructor.
  - unfold utf16le. destruct (c <? 65536); [apply le_wf|]. apply wf_bytes_app. split; apply le_wf.
Qed.

Lemma wf_text e cs : Forall scalar cs -> wf_bytes (text e cs).
Proof. induction 1 as [|c cs Hc _ IH]; [constructor|]. apply wf_bytes_app. split; [apply wf_encode, Hc|exact IH]. Qed.

(** nothing can be decoded from here *)
Definition stuck (e : enc) (s : bytes) : Prop := s = [] \/ forall c n, decode e s <> DChar c n.

Lemma split_text e s : known e -> wf_bytes s ->
  exists cs r, s = text e cs ++ r /\ Forall scalar cs /\ stuck e r /\ wf_bytes r.
Proof.
  intros K. remember (length s) as n eqn:En. revert s En. induction n as [n IH] using (well_founded_induction lt_wf). intros s En W.
  destruct (decode e s) as [c k| |] eqn:Ed.
  - destruct (decode_sound e s c k W Ed) as (Hs & r & Er & _).
    assert (Wr : wf_bytes r). { rewrite Er in W. apply wf_bytes_app in W. apply W. }
    destruct (IH (length r)) with (s := r) as (cs & r' & E & F & St & W'); [|reflexivity|exact Wr|].
    + rewrite En, Er, app_length. pose proof (encode_len e c K). lia.
    + exists (c :: cs), r'. split; [|split; [constructor; assumption|split; assumption]].
      rewrite Er, E. cbn [text flat_map]. rewrite app_assoc. reflexivity.
  - exists [], s. split; [reflexivity|]. split; [constructor|]. split; [right; intros; rewrite Ed; discriminate|exact W].
  - exists [], s. split; [reflexivity|]. split; [constructor|]. split; [right; intros; rewrite Ed; discriminate|exact W].
Qed.

Lemma text_stuck e : known e -> forall cs cs' r, Forall scalar cs -> Forall scalar cs' -> stuck e r ->
  text e cs ++ r = text e cs' -> r = [] /\ cs = cs'.
Proof.
  intros K. induction cs as [|c cs IH]; intros cs' r F F' St E.
  - cbn in E. destruct cs' as [|c' cs']; [split; [exact E|reflexivity]|]. exfalso. cbn in E.
    apply Forall_inv in F'. pose proof (encode_len e c' K). destruct St as [->|St].
    + apply (f_equal (@length Z)) in E. rewrite app_length in E. cbn in E. lia.
    + apply (St c' (length (encode e c'))). rewrite E. apply decode_encode; assumption.
  - pose proof (encode_len e c K). destruct cs' as [|c' cs'].
    + apply (f_equal (@length Z)) in E. cbn in E. rewrite !app_length in E. lia.
    + pose proof (Forall_inv F) as Hc. pose proof (Forall_inv F') as Hc'.
      cbn [text flat_map] in E. rewrite <- app_assoc in E.
      pose proof (decode_encode e c (text e cs ++ r) K Hc) as D1.
      pose proof (decode_encode e c' (text e cs') K Hc') as D2.
      assert (ED : DChar c (length (encode e c)) = DChar c' (length (encode e c'))).
      { rewrite <- D1, <- D2. f_equal. exact E. }
      injection ED as Ec _. subst c'. apply app_inv_head in E.
      destruct (IH cs' r (Forall_inv_tail F) (Forall_inv_tail F') St E) as [-> ->]. split; reflexivity.
Qed.

(** what iconv does with a text followed by something it cannot read *)
Lemma iconv_spec to from : known to -> known from -> forall cs r lo fuel,
  Forall scalar cs -> stuck from r -> 0 <= lo -> (length (text from cs ++ r) <= fuel)%nat ->
  (zlen (text to cs) <= lo /\
   exists e, iconv fuel to from (text from cs ++ r) lo = (text to cs, r, lo - zlen (text to cs), e)
             /\ (r = [] -> e = IcDone) /\ (r <> [] -> e = IcIncomplete \/ e = IcInvalid))
  \/ (lo < zlen (text to cs) /\
      exists a b, cs = a ++ b /\ b <> [] /\ zlen (text to a) <= lo
      /\ iconv fuel to from (text from cs ++ r) lo = (text to a, text from b ++ r, lo - zlen (text to a), IcTooBig)).
Proof.
  intros Kt Kf. induction cs as [|c cs IH]; intros r lo fuel F St Hlo Hf.
  - left. cbn [text flat_map app]. cbn [text flat_map app] in Hf. split; [rewrite zlen_nil; lia|].
    rewrite zlen_nil. replace (lo - 0) with lo by lia.
    destruct r as [|x r].
    + exists IcDone. split; [destruct fuel; reflexivity|]. split; [auto|]. intros N; destruct (N eq_refl).
    + destruct fuel as [|fuel]; [cbn in Hf; lia|]. cbn [iconv]. destruct St as [St|St]; [discriminate|].
      destruct (decode from (x :: r)) as [c n| |] eqn:Ed; [destruct (St c n); reflexivity| |].
      * exists IcIncomplete. split; [reflexivity|]. split; [discriminate|auto].
      * exists IcInvalid. split; [reflexivity|]. split; [discriminate|auto].
  - pose proof (Forall_inv F) as Hc. pose proof (encode_len from c Kf) as Lf.
    cbn [text flat_map] in Hf |- *. change (flat_map (encode from) cs) with (text from cs) in *.
    change (flat_map (encode to) cs) with (text to cs). rewrite <- app_assoc in Hf |- *.
    rewrite app_length in Hf.
    destruct fuel as [|fuel]; [lia|].
    assert (Hstep : forall lo', iconv (S fuel) to from (encode from c ++ text from cs ++ r) lo' =
      if zlen (encode to c) <=? lo' then
        let '(out, r', l, e) := iconv fuel to from (text from cs ++ r) (lo' - zlen (encode to c)) in (encode to c ++ out, r', l, e)
      else ([], encode from c ++ text from cs ++ r, lo', IcTooBig)).
    { intros lo'. remember (encode from c ++ text from cs ++ r) as src eqn:Es.
      cbn [iconv]. destruct src as [|x src].
      { apply (f_equal (@length Z)) in Es. rewrite app_length in Es. cbn in Es. lia. }
      rewrite Es. rewrite (decode_encode from c (text from cs ++ r) Kf Hc).
      rewrite (skipn_app_exact (encode from c)) by reflexivity. reflexivity. }
    rewrite Hstep. rewrite zlen_app.
    destruct (zlen (encode to c) <=? lo) eqn:Efit.
    + destruct (IH r (lo - zlen (encode to c)) fuel (Forall_inv_tail F) St ltac:(lia) ltac:(lia)) as
        [(Hl & e & He & H1 & H2)|(Hl & a & b & -> & Hb & Ha & He)]; rewrite He.
      * left. split; [lia|]. exists e. split; [|split; assumption]. do 2 f_equal. lia.
      * right. split; [lia|]. exists (c :: a), b. cbn [text flat_map app]. change (flat_map (encode to) a) with (text to a).
        rewrite zlen_app. split; [reflexivity|]. split; [exact Hb|]. split; [lia|]. do 2 f_equal. lia.
    + right. split; [pose proof (zlen_nonneg (text to cs)); lia|]. exists [], (c :: cs). cbn [text flat_map app]. rewrite zlen_nil.
      split; [reflexivity|]. split; [discriminate|]. split; [lia|]. rewrite <- app_assoc. do 2 f_equal. lia.
Qed.

Lemma text_app e a b : text e (a ++ b) = text e a ++ text e b.
Proof. apply flat_map_app. Qed.

Lemma text_len_bound to from cs : known to -> known from -> zlen (text to cs) <= 4 * zlen (text from cs).
Proof.
  intros Kt Kf. induction cs as [|c cs IH]; [cbn; lia|].
  cbn [text flat_map]. rewrite !zlen_app. change (flat_map (encode to) cs) with (text to cs). change (flat_map (encode from) cs) with (text from cs).
  pose proof (encode_len to c Kt). pose proof (encode_len from c Kf). unfold zlen in *. lia.
Qed.

Lemma zlen_text_pos e cs : known e -> cs <> [] -> 0 < zlen (text e cs).
Proof.
  intros K N. destruct cs as [|c cs]; [destruct (N eq_refl)|]. cbn [text flat_map]. rewrite zlen_app.
  pose proof (encode_len e c K). pose proof (zlen_nonneg (flat_map (encode e) cs)). unfold zlen in *. lia.
Qed.

Lemma resize_len buf n : 0 <= n -> zlen (resize buf n) = n.
Proof.
  intros H. unfold resize, zlen. rewrite app_length, firstn_length, repeat_length. lia.
Qed.
Lemma resize_firstn buf n k : (Z.of_nat k <= n) -> (k <= length buf)%nat -> firstn k (resize buf n) = firstn k buf.
Proof.
  intros H H2. unfold resize. rewrite firstn_app, firstn_firstn, firstn_length.
  replace (k - Nat.min (Z.to_nat n) (length buf))%nat with O by lia. cbn [firstn]. rewrite app_nil_r. f_equal. lia.
Qed.

Lemma store_ok buf i b : 0 <= i -> i + zlen b <= zlen buf ->
  exists buf', store buf i b = Ok buf' /\ zlen buf' = zlen buf
    /\ firstn (Z.to_nat i + length b) buf' = firstn (Z.to_nat i) buf ++ b
    /\ skipn (Z.to_nat i + length b) buf' = skipn (Z.to_nat i + length b) buf.
Proof.
  intros Hi Hl. unfold store. destruct b as [|x b].
  - exists buf. split; [reflexivity|]. split; [reflexivity|]. rewrite app_nil_r. cbn [length]. rewrite Nat.add_0_r. split; reflexivity.
  - set (B := x :: b) in *. replace (i + zlen B <=? zlen buf) with true by lia. eexists. split; [reflexivity|].
    assert (L1 : length (firstn (Z.to_nat i) buf) = Z.to_nat i) by (rewrite firstn_length; unfold zlen in *; lia).
    split; [|split].
    + unfold zlen in *. rewrite !app_length, L1, skipn_length. lia.
    + rewrite app_assoc. apply firstn_app_exact. rewrite app_length, L1. lia.
    + rewrite app_assoc. apply skipn_app_exact. rewrite app_length, L1. lia.
Qed.

(** the room suffices: the loop ends in its first round, at any index *)
Lemma conv_loop_fits to from throw cs buf idx d lo fuel :
  known to -> known from -> Forall scalar cs -> 0 <= idx -> 0 <= d ->
  idx + d + zlen (text to cs) <= zlen buf -> zlen (text to cs) <= lo ->
  exists buf', conv_loop (S fuel) to from throw idx d buf (text from cs) lo = Ok (zlen buf - idx - (lo - zlen (text to cs)), buf')
    /\ zlen buf' = zlen buf
    /\ firstn (Z.to_nat (idx + d) + length (text to cs)) buf' = firstn (Z.to_nat (idx + d)) buf ++ text to cs.
Proof.
  intros Kt Kf F Hi Hd Hl Hlo. cbn [conv_loop].
  pose proof (zlen_nonneg (text to cs)) as Hp.
  destruct (iconv_spec to from Kt Kf cs [] lo (length (text from cs)) F (or_introl eq_refl) ltac:(lia)) as
    [(_ & e & He & H1 & _)|(Hc & _)]; [rewrite app_nil_r; lia| |lia].
  rewrite app_nil_r in He. rewrite He.
  destruct (store_ok buf (idx + d) (text to cs) ltac:(lia) ltac:(lia)) as (buf' & Es & El & Ef & _).
  rewrite Es. cbn [rbind]. rewrite (H1 eq_refl). exists buf'. rewrite El. split; [reflexivity|]. split; [reflexivity|exact Ef].
Qed.

(** the outcome of converting a text that is followed by [rest] *)
Definition outcome (r : res (Z * bytes)) (throw : bool) (want rest : bytes) : Prop :=
  match rest with
  | [] => exists buf', r = Ok (zlen want, buf') /\ firstn (length want) buf' = want
  | _ => if throw then r = Err else exists buf', r = Ok (0, buf')
  end.

Lemma conv_loop_zero to from throw cs rest buf done_ lo fuel :
  known to -> known from -> Forall scalar cs -> stuck from rest ->
  zlen buf = zlen done_ + lo -> 0 <= lo -> firstn (length done_) buf = done_ ->
  outcome (conv_loop (S (S fuel)) to from throw 0 (zlen done_) buf (text from cs ++ rest) lo) throw (done_ ++ text to cs) rest.
Proof.
  intros Kt Kf F St Hb Hlo Hd.
  assert (Once : forall fuel cs buf done_ lo, Forall scalar cs -> zlen buf = zlen done_ + lo -> firstn (length done_) buf = done_ ->
     zlen (text to cs) <= lo ->
     outcome (conv_loop (S fuel) to from throw 0 (zlen done_) buf (text from cs ++ rest) lo) throw (done_ ++ text to cs) rest).
  { clear fuel cs buf done_ lo F Hb Hlo Hd. intros fuel cs buf d lo F Hb Hd Hfit. cbn [conv_loop].
    pose proof (zlen_nonneg (text to cs)) as Hp. pose proof (zlen_nonneg d) as Hp2.
    destruct (iconv_spec to from Kt Kf cs rest lo (length (text from cs ++ rest)) F St ltac:(lia) ltac:(lia)) as
      [(_ & e & He & H1 & H2)|(Hc & _)]; [|lia].
    rewrite He.
    destruct (store_ok buf (0 + zlen d) (text to cs) ltac:(lia) ltac:(lia)) as (buf' & Es & El & Ef & _).
    rewrite Es. cbn [rbind].
    destruct rest as [|x rest'] eqn:Er.
    - rewrite (H1 eq_refl). unfold outcome. exists buf'. rewrite zlen_app. split; [do 2 f_equal; lia|].
      rewrite app_length. replace (length d) with (Z.to_nat (0 + zlen d)) by (unfold zlen; lia). rewrite Ef.
      f_equal. replace (Z.to_nat (0 + zlen d)) with (length d) by (unfold zlen; lia). exact Hd.
    - unfold outcome. destruct (H2 ltac:(discriminate)) as [->| ->]; destruct throw; eauto. }
  destruct (Z_le_gt_dec (zlen (text to cs)) lo) as [Hfit|Hbig]; [apply Once; assumption|].
  cbn [conv_loop].
  destruct (iconv_spec to from Kt Kf cs rest lo (length (text from cs ++ rest)) F St ltac:(lia) ltac:(lia)) as
    [(Hc & _)|(_ & a & b & -> & Hbn & Ha & He)]; [lia|].
  rewrite He. pose proof (zlen_nonneg (text to a)) as Hp. pose proof (zlen_nonneg done_) as Hp2.
  destruct (store_ok buf (0 + zlen done_) (text to a) ltac:(lia) ltac:(lia)) as (buf' & Es & El & Ef & _).
  rewrite Es. cbn [rbind].
  replace (Z.to_nat (0 + zlen done_)) with (length done_) in Ef by (unfold zlen; lia). rewrite Hd in Ef.
  assert (Ec : zlen buf' - (lo - zlen (text to a)) = zlen (done_ ++ text to a)) by (rewrite zlen_app; lia).
  rewrite Ec. rewrite text_app, app_assoc.
  pose proof (text_len_bound to from b Kt Kf) as Hbd. pose proof (zlen_nonneg rest) as Hrn. pose proof (zlen_nonneg (text from b)) as Hbn2.
  set (new := zlen buf' + zlen (text from b ++ rest) * 4). assert (En : new = zlen buf' + (zlen (text from b) + zlen rest) * 4) by (unfold new; rewrite zlen_app; lia).
  clearbody new. rewrite zlen_app in Ec.
  apply Once.
  - apply Forall_app in F. apply F.
  - rewrite resize_len by lia. rewrite zlen_app. lia.
  - rewrite resize_firstn; [rewrite app_length; exact Ef| |]; rewrite app_length; unfold zlen in *; lia.
  - rewrite zlen_app. lia.
Qed.

Lemma enc_eqb_spec a b : enc_eqb a b = true <-> a = b.
Proof. destruct a, b; cbn; split; intros H; try reflexivity; discriminate. Qed.

(** index 0: converts every text, rejects everything else *)
Lemma conv_charset_zero to from cs rest buf throw :
  known to -> known from -> to <> from -> Forall scalar cs -> stuck from rest ->
  outcome (conv_charset to from (text from cs ++ rest) buf throw 0) throw (text to cs) rest.
Proof.
  intros Kt Kf N F St. unfold conv_charset.
  destruct (text from cs ++ rest) as [|x s] eqn:Es.
  { apply app_eq_nil in Es. destruct Es as [Ec ->]. unfold outcome. exists buf.
    assert (cs = []) as ->. { destruct cs; [reflexivity|]. pose proof (zlen_text_pos from (z :: cs) Kf ltac:(discriminate)). rewrite Ec in H. cbn in H. lia. }
    split; reflexivity. }
  rewrite <- Es. replace (enc_eqb to from) with false by (destruct (enc_eqb to from) eqn:E; [apply enc_eqb_spec in E; destruct (N E)|reflexivity]).
  replace (enc_eqb to EUnknown) with false by (destruct to; try reflexivity; destruct (Kt eq_refl)).
  replace (enc_eqb from EUnknown) with false by (destruct from; try reflexivity; destruct (Kf eq_refl)).
  cbn [orb].
  set (res := zlen (text from cs ++ rest) * (if enc_num to <? enc_num from then 1 else if enc_eqb from EUTF16 then 2 else 4)). 
  assert (Hr : 0 <= res). { unfold res. pose proof (zlen_nonneg (text from cs ++ rest)). destruct (enc_num to <? enc_num from); [|destruct (enc_eqb from EUTF16)]; lia. }
  clearbody res. set (buf1 := (if zlen buf <? 0 + res then resize buf (0 + res) else buf)). clearbody buf1.
  replace (S (length (text from cs ++ rest))) with (S (S (length s))) by (rewrite Es; reflexivity).
  replace (zlen buf1 - 0) with (zlen buf1) by lia.
  pose proof (conv_loop_zero to from throw cs rest buf1 [] (zlen buf1) (length s) Kt Kf F St) as H.
  rewrite zlen_nil in H. cbn [length firstn app] in H. apply H; [lia|apply zlen_nonneg|reflexivity].
Qed.

Theorem convert_text to from cs buf throw :
  known to -> known from -> Forall scalar cs ->
  exists buf', conv_charset to from (text from cs) buf throw 0 = Ok (zlen (text to cs), buf')
            /\ firstn (length (text to cs)) buf' = text to cs.
Proof.
  intros Kt Kf F. destruct (enc_eqb to from) eqn:E.
  - assert (Ee := E). apply enc_eqb_spec in Ee. subst from. unfold conv_charset. destruct (text to cs) as [|x s] eqn:Es.
    { exists buf. split; reflexivity. }
    rewrite E. set (d := x :: s) in *. set (buf1 := (if zlen buf <? zlen d + 0 then resize buf (zlen d + 0) else buf)).
    assert (Hl : zlen d <= zlen buf1).
    { unfold buf1. pose proof (zlen_nonneg d). destruct (zlen buf <? zlen d + 0) eqn:E2; [rewrite resize_len; lia|lia]. }
    destruct (store_ok buf1 0 d ltac:(lia) ltac:(lia)) as (buf' & Es' & _ & Ef & _). rewrite Es'. cbn [rbind]. exists buf'.
    split; [reflexivity|exact Ef].
  - assert (N : to <> from) by (intros ->; rewrite (proj2 (enc_eqb_spec from from) eq_refl) in E; discriminate).
    pose proof (conv_charset_zero to from cs [] buf throw Kt Kf N F (or_introl eq_refl)) as H. rewrite app_nil_r in H. exact H.
Qed.

Theorem convert_rejects to from data buf (throw : bool) :
  known to -> known from -> to <> from -> wf_bytes data ->
  (forall cs, Forall scalar cs -> data <> text from cs) ->
  if throw then conv_charset to from data buf throw 0 = Err else exists buf', conv_charset to from data buf throw 0 = Ok (0, buf').
Proof.
  intros Kt Kf N W Hn. destruct (split_text from data Kf W) as (cs & r & E & F & St & Wr).
  pose proof (conv_charset_zero to from cs r buf throw Kt Kf N F St) as H. rewrite <- E in H.
  destruct r as [|x r]; [destruct (Hn cs F); rewrite E, app_nil_r; reflexivity|]. exact H.
Qed.

Theorem text_dec e data : known e -> wf_bytes data -> (exists cs, Forall scalar cs /\ data = text e cs) \/ (forall cs, Forall scalar cs -> data <> text e cs).
Proof.
  intros K W. destruct (split_text e data K W) as (cs & r & E & F & St & Wr).
  destruct r as [|x r]; [left; exists cs; split; [exact F|rewrite E, app_nil_r; reflexivity]|].
  right. intros cs' F' E'. rewrite E in E'. destruct (text_stuck e K cs cs' (x :: r) F F' St E') as [A _]. discriminate.
Qed.

Theorem convert_never_ub to from data buf throw u : wf_bytes data -> conv_charset to from data buf throw 0 <> UB u.
Proof.
  intros W. destruct (enc_eqb to from) eqn:E.
  - unfold conv_charset. destruct data as [|x s]; [discriminate|]. rewrite E. set (d := x :: s) in *.
    set (buf1 := (if zlen buf <? zlen d + 0 then resize buf (zlen d + 0) else buf)).
    assert (Hl : zlen d <= zlen buf1).
    { unfold buf1. pose proof (zlen_nonneg d). destruct (zlen buf <? zlen d + 0) eqn:E2; [rewrite resize_len; lia|lia]. }
    destruct (store_ok buf1 0 d ltac:(lia) ltac:(lia)) as (buf' & Es' & _). rewrite Es'. discriminate.
  - assert (N : to <> from) by (intros ->; rewrite (proj2 (enc_eqb_spec from from) eq_refl) in E; discriminate).
    destruct (enc_eqb to EUnknown || enc_eqb from EUnknown) eqn:Ek.
    + unfold conv_charset. destruct data; [discriminate|]. rewrite E, Ek. destruct throw; discriminate.
    + assert (Kt : known to) by (intros ->; discriminate).
      assert (Kf : known from) by (intros ->; rewrite orb_comm in Ek; discriminate).
      destruct (text_dec from data Kf W) as [(cs & F & ->)|Hn].
      * destruct (convert_text to from cs buf throw Kt Kf F) as (b & -> & _). discriminate.
      * pose proof (convert_rejects to from data buf throw Kt Kf N W Hn) as H. destruct throw; [rewrite H; discriminate|].
        destruct H as (b & ->). discriminate.
Qed.

Theorem convert_vec to from cs throw : known to -> known from -> Forall scalar cs ->
  conv_charset_vec to from (text from cs) throw = Ok (text to cs).
Proof.
  intros Kt Kf F. unfold conv_charset_vec. destruct (convert_text to from cs [] throw Kt Kf F) as (b & -> & Hb). cbn [rbind].
  f_equal. unfold resize. replace (Z.to_nat (zlen (text to cs))) with (length (text to cs)) by (unfold zlen; lia). rewrite Hb.
  assert (Hl : (length (text to cs) <= length b)%nat). { apply (f_equal (@length Z)) in Hb. rewrite firstn_length in Hb. lia. }
  replace (length (text to cs) - length b)%nat with O by lia. cbn. apply app_nil_r.
Qed.

(** any index, if the room that is reserved suffices *)
Theorem convert_at to from cs buf throw idx :
  known to -> known from -> to <> from -> cs <> [] -> Forall scalar cs -> 0 <= idx -> idx <= zlen buf ->
  (zlen (text to cs) <= zlen buf - idx \/ zlen (text to cs) <= zlen (text from cs)
   \/ enc_num from < enc_num to /\ from <> EUTF16 \/ from = EUTF16 /\ to = EUTF32) ->
  exists buf', conv_charset to from (text from cs) buf throw idx = Ok (zlen (text to cs), buf')
     /\ zlen buf <= zlen buf'
     /\ firstn (Z.to_nat idx + length (text to cs)) buf' = firstn (Z.to_nat idx) buf ++ text to cs.
Proof.
  intros Kt Kf N Nc F Hi Hib Hroom. unfold conv_charset.
  destruct (text from cs) as [|x s] eqn:Es.
  { pose proof (zlen_text_pos from cs Kf Nc). rewrite Es in H. cbn in H. lia. }
  rewrite <- Es in *. replace (enc_eqb to from) with false by (destruct (enc_eqb to from) eqn:E; [apply enc_eqb_spec in E; destruct (N E)|reflexivity]).
  replace (enc_eqb to EUnknown) with false by (destruct to; try reflexivity; destruct (Kt eq_refl)).
  replace (enc_eqb from EUnknown) with false by (destruct from; try reflexivity; destruct (Kf eq_refl)).
  cbn [orb].
  set (res := zlen (text from cs) * (if enc_num to <? enc_num from then 1 else if enc_eqb from EUTF16 then 2 else 4)).
  assert (Hr : 0 <= res /\ (zlen (text to cs) <= zlen buf - idx \/ zlen (text to cs) <= res)).
  { unfold res. pose proof (zlen_nonneg (text from cs)) as Hp. pose proof (text_len_bound to from cs Kt Kf) as Hbd.
    destruct Hroom as [H|[H|[[H H2]|[-> ->]]]].
    - split; [destruct (enc_num to <? enc_num from); [|destruct (enc_eqb from EUTF16)]; lia|left; exact H].
    - split; [|right]; (destruct (enc_num to <? enc_num from); [|destruct (enc_eqb from EUTF16)]; lia).
    - replace (enc_num to <? enc_num from) with false by lia.
      replace (enc_eqb from EUTF16) with false by (destruct from; try reflexivity; destruct (H2 eq_refl)). lia.
    - change (enc_num EUTF32 <? enc_num EUTF16) with false. change (enc_eqb EUTF16 EUTF16) with true. cbv iota. split; [lia|]. right.
      clear - F. induction cs as [|c cs IH]; [cbn; lia|]. cbn [text flat_map]. rewrite !zlen_app. apply Forall_inv_tail in F.
      specialize (IH F). unfold text in IH. assert (zlen (encode EUTF32 c) <= 2 * zlen (encode EUTF16 c)); [|lia].
      cbn [encode]. unfold utf16le, utf32le. destruct (c <? 65536); cbn; lia. }
  clearbody res. destruct Hr as [Hr Hfit].
  set (buf1 := (if zlen buf <? idx + res then resize buf (idx + res) else buf)).
  assert (Hb : zlen buf <= zlen buf1 /\ idx + zlen (text to cs) <= zlen buf1 /\ firstn (Z.to_nat idx) buf1 = firstn (Z.to_nat idx) buf).
  { unfold buf1. destruct (zlen buf <? idx + res) eqn:E; [|split; [lia|split; [lia|reflexivity]]].
    rewrite resize_len by lia. split; [lia|]. split; [lia|]. apply resize_firstn; unfold zlen in *; lia. }
  clearbody buf1. destruct Hb as (Hb1 & Hb2 & Hb3).
  destruct (conv_loop_fits to from throw cs buf1 idx 0 (zlen buf1 - idx) (length (text from cs)) Kt Kf F Hi ltac:(lia) ltac:(lia) ltac:(lia)) as (b & E & El & Ef).
  exists b. rewrite E. replace (idx + 0) with idx in Ef by lia. rewrite Ef, Hb3. split; [do 2 f_equal; lia|]. split; [lia|reflexivity].
Qed.
