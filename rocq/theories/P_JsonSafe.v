(** Reading arbitrary bytes as JSON: termination, and which undefined behaviours are possible. *)
From Coq Require Import ZArith List Bool Lia ZifyBool ZifyNat.
From Verif Require Import Base Lemmas M_Types M_Conv M_Charset M_In S_Conv S_Doc S_Json S_JsonText S_Charset M_OutOps M_Event M_Env M_Json
  P_In P_Safe P_Text P_Charset.
Import ListNotations.
Open Scope Z_scope.

Section Safe.
Variable U : ub -> Prop.

Lemma triple_deref {A} off (k : Z -> prog A) b Q :
  (forall c, nth_error (b_rest b) off = Some c -> triple U (k c) b Q) ->
  (nth_error (b_rest b) off = None -> U (if Nat.eqb off (length (b_rest b)) then UbEnd else UbOob)) -> triple U (Deref off k) b Q.
Proof. intros H1 H2. unfold triple in *. cbn [run_block]. destruct (nth_error (b_rest b) off) eqn:E; [now apply H1|now apply H2]. Qed.
Lemma triple_deref0 {A} (k : Z -> prog A) b Q : U UbEnd ->
  (forall c r, b_rest b = c :: r -> triple U (k c) b Q) -> triple U (Deref 0 k) b Q.
Proof.
  intros HU H. apply triple_deref; destruct (b_rest b) as [|c r] eqn:E; cbn; intros; try discriminate; try exact HU.
  match goal with X : Some _ = Some _ |- _ => injection X as <- end. now apply (H c r).
Qed.
Lemma triple_move1 {A} (k : prog A) b Q :
  (forall c r, b_rest b = c :: r -> triple U k (mkBlk (c :: b_done b) r) Q) -> triple U (Move 1 k) b Q.
Proof.
  intros H. unfold triple in *. cbn [run_block]. change (two63 <=? 1) with false. cbv iota. destruct (b_rest b) as [|c r] eqn:E.
  - reflexivity.
  - replace (1 <=? zlen (c :: r)) with true by (rewrite zlen_cons; pose proof (zlen_nonneg r); lia). change (Z.to_nat 1) with 1%nat. cbn [firstn skipn rev_append]. now apply H.
Qed.
Lemma triple_trypeek {A} n (k : bool -> prog A) b Q : triple U (k (n <=? zlen (b_rest b))) b Q -> triple U (TryPeek n k) b Q.
Proof. auto. Qed.

Hypothesis UE : U UbEnd.

Definition has_char (ts : list token) : Prop := match ts with TkChar _ :: _ => True | _ => False end.
Lemma triple_is_at ts : forall note b, triple U (is_at_token ts note) b
  (fun r b' => b' = b /\ (fst r = true -> b_rest b <> []) /\ (has_char ts -> b_rest b <> [])).
Proof.
  induction ts as [|t ts IH]; intros note b; [cbn; split; [reflexivity|split; [discriminate|contradiction]]|].
  destruct t as [c|a c|c]; cbn [is_at_token].
  - apply triple_deref0; [exact UE|]. intros x r E. destruct (x =? c).
    + apply triple_ret. rewrite E. repeat split; discriminate.
    + eapply triple_conseq; [apply IH|]. cbv beta. intros q b' (-> & H & _). split; [reflexivity|]. rewrite E. split; intros; discriminate.
  - apply triple_trypeek. destruct (Z.leb_spec 2 (zlen (b_rest b))) as [L|L].
    + destruct (b_rest b) as [|x [|y r]] eqn:E; try (cbn in L; lia).
      apply triple_deref; rewrite E; cbn [nth_error]; [|discriminate]. intros x0 H. injection H as <-.
      destruct (x =? a); [|eapply triple_conseq; [apply IH|]; cbv beta; intros q b' (-> & H & _); split; [reflexivity|]; split; [intros; discriminate|contradiction]].
      apply triple_deref; rewrite E; cbn [nth_error]; [|discriminate]. intros x0 H. injection H as <-.
      destruct (y =? c); [apply triple_ret; repeat split; [discriminate|contradiction]|].
      eapply triple_conseq; [apply IH|]; cbv beta; intros q b' (-> & H & _); split; [reflexivity|]; split; [intros; discriminate|contradiction].
    + eapply triple_conseq; [apply IH|]. cbv beta. intros q b' (-> & H & _). split; [reflexivity|]. split; [exact H|contradiction].
  - apply triple_deref0; [exact UE|]. intros x r E. eapply triple_conseq; [apply IH|]. cbv beta. intros q b' (-> & H & _). split; [reflexivity|]. split; [exact H|contradiction].
Qed.

Definition moved (steps : Z) (b : blk) (n : Z) (b' : blk) : Prop := exists bs, consumed bs b b' /\ n = steps + zlen bs /\ b_rest b' <> [].
Lemma triple_move_loop neg ts : (neg = true -> has_char ts) -> forall fuel steps note b, (length (b_rest b) < fuel)%nat ->
  triple U (move_loop fuel neg ts steps note) b (fun r b' => moved steps b (fst r) b').
Proof.
  intros Hn. induction fuel as [|f IH]; intros steps note b L; [lia|]. cbn [move_loop]. apply triple_bind.
  eapply triple_conseq; [apply triple_is_at|]. cbv beta. intros [at_tok note'] b' (-> & H1 & H2). cbn [fst] in H1.
  destruct (Bool.eqb neg at_tok) eqn:E.
  - apply triple_move1. intros c r Er. rewrite Er in L. cbn [length] in L. eapply triple_conseq; [apply IH; cbn; lia|].
    intros [n nt] b' (bs & C & N & Ne). cbn [fst] in *. exists (c :: bs). split; [|split; [rewrite zlen_cons; lia|exact Ne]].
    apply (consumed_trans [c] bs b (mkBlk (c :: b_done b) r)); [split; [exact Er|reflexivity]|exact C].
  - apply triple_ret. exists []. split; [apply consumed_nil|]. split; [cbn; lia|]. destruct neg, at_tok; try discriminate E; auto.
Qed.
Lemma triple_move_gen fuel neg ts b : (neg = true -> has_char ts) -> (length (b_rest b) < fuel)%nat ->
  triple U (move_until_gen fuel neg ts) b (fun r b' => moved 0 b (fst r) b').
Proof.
  intros Hn L. unfold move_until_gen. pose proof (triple_move_loop neg ts Hn fuel 0 false b L) as T. unfold triple in *. cbn [run_block].
  destruct (b_done b), (b_rest b); auto.
Qed.

Lemma triple_read_until fuel ts b : (length (b_rest b) < fuel)%nat ->
  triple U (read_block_until fuel ts) b (fun r b' => consumed (fst r) b b' /\ b_rest b' <> []).
Proof.
  intros L. unfold read_block_until. assert (T : triple U (let! (steps, note) := move_until fuel ts in Anchor false (Back steps (fun bs => Ret (bs, note)))) b
    (fun r b' => consumed (fst r) b b' /\ b_rest b' <> [])).
  { apply triple_bind. eapply triple_conseq; [apply triple_move_gen; [discriminate|exact L]|]. intros [n note] b' (bs & C & N & Ne). cbn [fst] in N.
    unfold triple. cbn [run_block]. pose proof C as [C1 C2]. rewrite C2. rewrite zlen_app. subst n. cbn [Z.add].
    replace (zlen bs <=? zlen (rev bs) + zlen (b_done b)) with true by (unfold zlen; rewrite rev_length; lia).
    cbn [fst]. rewrite firstn_app_exact by (rewrite rev_length; unfold zlen; lia). rewrite rev_involutive. auto. }
  exact T.
Qed.

(** * Strings *)
Definition shorter (b b' : blk) : Prop := (length (b_rest b') < length (b_rest b))%nat.
(** behind a [\u] the conversion may write over the end of the buffer *)
Definition escape_u (l : bytes) : Prop := exists p q, l = p ++ 92 :: 117 :: q.
Definition no_uc (l : bytes) : Prop := escape_u l -> U UbHeap.
Lemma no_uc_app a l : no_uc (a ++ l) -> no_uc l.
Proof. intros H (p & q & ->). apply H. exists (a ++ p), q. now rewrite <- app_assoc. Qed.
Lemma no_uc_cons a l : no_uc (a :: l) -> no_uc l.
Proof. apply (no_uc_app [a]). Qed.


Lemma hex_loop4 a b c d : hex_loop [a; b; c; d] = Err \/ exists x y, hex_loop [a; b; c; d] = Ok [x; y].
Proof.
  assert (H : forall z, hex_conv z = Err \/ exists n, hex_conv z = Ok n).
  { intros z. unfold hex_conv. repeat (match goal with |- context [if ?t then _ else _] => destruct t end); eauto. }
  cbn [hex_loop]. destruct (H a) as [->|[? ->]]; cbn [rbind]; auto. destruct (H b) as [->|[? ->]]; cbn [rbind]; auto.
  destruct (H c) as [->|[? ->]]; cbn [rbind]; auto. destruct (H d) as [->|[? ->]]; cbn [rbind]; auto. right. eauto.
Qed.

Lemma store_zlen buf i b : 0 <= i -> (exists buf', store buf i b = Ok buf' /\ zlen buf' = zlen buf) \/ store buf i b = UB UbHeap.
Proof.
  intros Hi. destruct (Z.leb_spec (i + zlen b) (zlen buf)) as [L|L].
  - left. destruct (store_ok buf i b Hi L) as (b' & E & Z & _). eauto.
  - unfold store. destruct b; [left; eauto|]. right. destruct (Z.leb_spec (i + zlen (z :: b)) (zlen buf)); [lia|reflexivity].
Qed.

(** converting one code unit into the buffer at [idx] *)
Lemma conv_unit x y buf idx : 0 <= idx <= zlen buf ->
  let r := conv_charset EUTF8 EUTF16 [x; y] buf true idx in
  r = Err \/ r = UB UbHeap \/ exists n buf', r = Ok (n, buf') /\ 1 <= n /\ zlen buf <= zlen buf' /\ idx + n <= zlen buf' /\ n <= 4.
Proof.
  intros [Hi Hb]. cbv zeta. unfold conv_charset. cbn [enc_eqb orb enc_num].
  change (1 <? 2) with true. cbv iota. change (zlen [x; y] * 1) with 2.
  set (buf1 := if zlen buf <? idx + 2 then resize buf (idx + 2) else buf).
  assert (L1 : zlen buf <= zlen buf1 /\ idx + 2 <= zlen buf1).
  { unfold buf1. destruct (Z.ltb_spec (zlen buf) (idx + 2)); [rewrite resize_len by lia|]; lia. }
  clearbody buf1. destruct L1 as [L1 L2]. cbn [length conv_loop iconv decode].
  destruct (utf16_dec [x; y]) as [c n| |] eqn:D; [|cbn [store rbind]; auto|cbn [store rbind]; auto].
  assert (n = 2%nat). { cbn [utf16_dec] in D. destruct (_ && _) in D; [discriminate|]. destruct (_ && _) in D; [discriminate|]. now injection D. } subst n.
  pose proof (encode_len EUTF8 c ltac:(discriminate)) as [E1 E2]. cbn [skipn]. change (encode EUTF8 c) with (utf8 c) in *. set (o := utf8 c) in *.
  destruct (Z.leb_spec (zlen o) (zlen buf1 - idx)) as [LE|LE].
  - cbn [fst snd]. rewrite app_nil_r. destruct (store_zlen buf1 (idx + 0) o ltac:(lia)) as [(b2 & -> & Z2)| ->]; cbn [rbind]; [|auto].
    right. right. do 2 eexists. split; [reflexivity|]. unfold zlen in *. lia.
  - cbn [store rbind length iconv decode]. rewrite D. cbn [skipn]. change (encode EUTF8 c) with o.
    set (buf2 := resize buf1 (zlen buf1 + zlen [x; y] * 4)). set (nl := zlen buf1 + zlen [x; y] * 4 - (zlen buf1 - (zlen buf1 - idx))).
    assert (Z2 : zlen buf2 = zlen buf1 + 8). { unfold buf2. rewrite resize_len; unfold zlen in *; cbn [length]; lia. }
    assert (N : nl = zlen buf1 + 8 - idx). { unfold nl, zlen. cbn [length]. lia. }
    clearbody buf2 nl. destruct (Z.leb_spec (zlen o) nl) as [LL|LL]; [|unfold zlen in *; lia].
    rewrite app_nil_r. destruct (store_zlen buf2 (idx + (zlen buf1 - (zlen buf1 - idx))) o ltac:(lia)) as [(b2 & -> & Z3)| ->]; cbn [rbind]; [|auto].
    right. right. do 2 eexists. split; [reflexivity|]. unfold zlen in *. lia.
Qed.

Lemma triple_put buf idx c n b : 0 <= idx < zlen buf -> (n <= length (b_rest b))%nat ->
  triple U (put buf idx c n) b (fun r b' => fst r = 1 /\ zlen (snd r) = zlen buf /\ consumed (firstn n (b_rest b)) b b').
Proof.
  intros Hi Hn. unfold put. destruct (store_ok buf idx [c] ltac:(lia) ltac:(cbn; lia)) as (b2 & -> & Z2 & _). cbn [lift pbind].
  unfold triple. cbn [run_block]. destruct (Nat.leb_spec n (length (b_rest b))); [|lia].
  split; [reflexivity|]. split; [exact Z2|]. unfold consumed. cbn [b_rest b_done]. rewrite firstn_skipn, rev_append_rev. auto.
Qed.

Lemma triple_substitute buf idx left b : 0 <= idx < zlen buf -> b_rest b <> [] -> no_uc (b_rest b) ->
  (2 <= left -> 2 <= zlen (b_rest b)) ->
  triple U (substitute_token buf idx left) b
    (fun r b' => 0 <= fst r /\ zlen buf <= zlen (snd r) /\ idx + fst r <= zlen (snd r)
      /\ exists bs, consumed bs b b' /\ bs <> [] /\ fst r <= zlen bs).
Proof.
  intros Hi Hn Hu Hl. unfold substitute_token.
  assert (P : forall c n, (0 < n <= length (b_rest b))%nat -> triple U (put buf idx c n) b
    (fun r b' => 0 <= fst r /\ zlen buf <= zlen (snd r) /\ idx + fst r <= zlen (snd r) /\ exists bs, consumed bs b b' /\ bs <> [] /\ fst r <= zlen bs)).
  { intros c n L. eapply triple_conseq; [apply triple_put; lia|]. cbv beta. intros r b' (-> & -> & C). repeat split; try lia.
    eexists. split; [exact C|]. destruct (b_rest b), n; cbn [firstn length] in *; try lia. split; [discriminate|]. rewrite zlen_cons. pose proof (zlen_nonneg (firstn n b0)). lia. }
  destruct (b_rest b) as [|x0 r0] eqn:Eb; [destruct (Hn eq_refl)|]. rewrite <- Eb in *.
  destruct (Z.leb_spec 2 left) as [L|L].
  - specialize (Hl L). destruct r0 as [|y0 r0]; [rewrite Eb in Hl; cbn in Hl; lia|].
    apply triple_deref; rewrite Eb; cbn [nth_error]; [|discriminate]. intros x1 [= <-].
    apply triple_deref; rewrite Eb; cbn [nth_error]; [|discriminate]. intros y1 [= <-].
    destruct (Z.eqb_spec x0 92) as [->|_]; [|apply P; rewrite Eb; cbn; lia].
    destruct (substitute_of y0); [apply P; rewrite Eb; cbn; lia|].
    destruct (Z.eqb_spec y0 117) as [->|_]; [|apply P; rewrite Eb; cbn; lia].
    unfold uc_literal. apply triple_bind. apply triple_read_block; [unfold two63; lia|lia|]. intros bs b' Lb C.
    destruct bs as [|b1 [|b2 [|b3 [|b4 [|b5 [|b6 [|]]]]]]]; try (cbn in Lb; lia).
    change (hex_to_bytes_dest 2 (skipn 2 [b1; b2; b3; b4; b5; b6])) with (hex_loop [b3; b4; b5; b6]).
    destruct (hex_loop4 b3 b4 b5 b6) as [->|(h1 & h2 & ->)]; cbn [lift pbind]; [apply triple_throw|].
    destruct (conv_unit h1 h2 buf idx ltac:(lia)) as [->|[->|(n & buf' & -> & N1 & N2 & N3 & N4)]]; cbn [lift].
    + apply triple_throw.
    + unfold triple. cbn [run_block]. apply Hu. exists [], r0. exact Eb.
    + apply triple_ret. cbn [fst snd]. repeat split; try lia. eexists. split; [exact C|]. split; [discriminate|]. cbn. lia.
  - apply triple_deref; rewrite Eb; cbn [nth_error]; [|discriminate]. intros x1 [= <-]. apply P. rewrite Eb. cbn. lia.
Qed.

Lemma triple_read_substitute delim : forall fuel buf bufsz steps b, (length (b_rest b) < fuel)%nat -> no_uc (b_rest b) ->
  0 <= steps <= zlen buf -> 0 <= bufsz <= zlen buf ->
  triple U (read_substitute fuel delim buf bufsz steps) b
    (fun r b' => 0 <= fst r <= zlen (snd r) /\ exists bs, consumed bs b b' /\ b_rest b' <> [] /\ fst r <= steps + zlen bs).
Proof.
  induction fuel as [|f IH]; intros buf bufsz steps b L Hu Hs Hb; [lia|]. cbn [read_substitute].
  assert (T : triple U (Deref 0 (fun c => if c =? delim then Ret (steps, buf) else
    let grow := bufsz <? steps + 1 in let bufsz := if grow then bufsz + (steps + 10) else bufsz in
    let buf := if grow then resize buf bufsz else buf in
    let go left := let! (n, buf') := substitute_token buf steps left in read_substitute f delim buf' bufsz (steps + n) in
    TryPeek 2 (fun ok => if ok then go 2 else LeftM1 go))) b
    (fun r b' => 0 <= fst r <= zlen (snd r) /\ exists bs, consumed bs b b' /\ b_rest b' <> [] /\ fst r <= steps + zlen bs)).
  2: { unfold triple in *. cbn [run_block]. replace (0 <=? zlen (b_rest b)) with true by (pose proof (zlen_nonneg (b_rest b)); lia). exact T. }
  apply triple_deref0; [exact UE|]. intros c r Er. destruct (c =? delim).
  { apply triple_ret. cbn [fst snd]. split; [lia|]. exists []. split; [apply consumed_nil|]. split; [rewrite Er; discriminate|cbn; lia]. }
  cbv zeta. set (bz := if bufsz <? steps + 1 then bufsz + (steps + 10) else bufsz). set (bf := if bufsz <? steps + 1 then resize buf bz else buf).
  assert (B : bz <= zlen bf /\ steps < zlen bf /\ 0 <= bz).
  { unfold bf, bz. destruct (Z.ltb_spec bufsz (steps + 1)); [rewrite resize_len by lia|]; lia. }
  clearbody bz bf. destruct B as (B1 & B2 & B3).
  assert (G : forall left, (2 <= left -> 2 <= zlen (b_rest b)) ->
    triple U (let! (n, buf') := substitute_token bf steps left in read_substitute f delim buf' bz (steps + n)) b
      (fun r b' => 0 <= fst r <= zlen (snd r) /\ exists bs, consumed bs b b' /\ b_rest b' <> [] /\ fst r <= steps + zlen bs)).
  { intros left Hl. apply triple_bind. eapply triple_conseq; [apply triple_substitute; [lia|rewrite Er; discriminate|exact Hu|exact Hl]|].
    cbv beta. intros [n buf'] b' (N0 & N1 & N2 & bs & C & Ne & Le). cbn [fst snd] in *. pose proof C as [C1 C2].
    eapply triple_conseq; [apply IH; [|rewrite C1 in Hu; eapply no_uc_app; eauto|lia|lia]|].
    - rewrite C1, app_length in L. destruct bs; [destruct (Ne eq_refl)|cbn in L; lia].
    - cbv beta. intros q b'' (Q1 & bs' & C' & Ne' & Le'). split; [exact Q1|]. eexists. split; [eapply consumed_trans; eauto|]. split; [exact Ne'|]. rewrite zlen_app. lia. }
  apply triple_trypeek. destruct (Z.leb_spec 2 (zlen (b_rest b))) as [L2|L2]; [apply G; lia|].
  unfold triple in *. cbn [run_block]. apply G. lia.
Qed.

(** * Items *)
Definition stays (b b' : blk) : Prop := exists bs, consumed bs b b'.
Lemma stays_refl b : stays b b.
Proof. exists []. apply consumed_nil. Qed.
Lemma stays_trans b b' b'' : stays b b' -> stays b' b'' -> stays b b''.
Proof. intros [x X] [y Y]. eexists. eapply consumed_trans; eauto. Qed.
Lemma stays_le b b' : stays b b' -> (length (b_rest b') <= length (b_rest b))%nat.
Proof. intros [bs [-> _]]. rewrite app_length. lia. Qed.
Lemma stays_uc b b' : stays b b' -> no_uc (b_rest b) -> no_uc (b_rest b').
Proof. intros [bs [-> _]]. apply no_uc_app. Qed.

Lemma triple_read_unescape fuel buf b : (length (b_rest b) < fuel)%nat -> no_uc (b_rest b) ->
  triple U (read_unescape fuel buf) b (fun r b' => stays b b' /\ b_rest b' <> [] /\ zlen (fst r) <= zlen (b_rest b)).
Proof.
  intros L Hu. unfold read_unescape. apply triple_bind. pose proof (zlen_nonneg buf).
  eapply triple_conseq; [apply triple_read_substitute; [exact L|exact Hu|lia|lia]|].
  cbv beta. intros [n buf'] b' (Hn & bs & C & Ne & Le). apply triple_ret. split; [exists bs; exact C|]. split; [exact Ne|]. cbn [fst snd] in *. destruct C as [C _]. rewrite C, zlen_app.
  pose proof (zlen_nonneg (b_rest b')). unfold zlen in *. rewrite firstn_length. lia.
Qed.

(** [M]: a bound for the length of names *)
Definition fits (M : Z) (s : jstate) : Prop := zlen (s_name s) <= M.
Lemma triple_quote M fuel st s b : (length (b_rest b) < fuel)%nat -> no_uc (b_rest b) -> zlen (b_rest b) <= M -> fits M s ->
  triple U (process_quote fuel st s) b (fun r b' => stays b b' /\ b_rest b' <> [] /\ fits M (snd r)).
Proof.
  intros L Hu HM HN. unfold process_quote. destruct (ty_eqb (j_type st) TNull); [apply triple_throw|].
  apply triple_move1. intros c r Er. apply triple_bind. rewrite Er in *. cbn [length] in L.
  eapply triple_conseq; [apply triple_read_unescape; cbn [b_rest]; [lia|eapply no_uc_cons; eauto]|].
  cbv beta. intros [content buf] b' (S1 & Ne & Le). cbn [fst b_rest] in Le. cbv zeta. rewrite zlen_cons in HM.
  set (st' := if s_named s then _ else _). clearbody st'.
  assert (S2 : stays b b'). { eapply stays_trans; [|exact S1]. exists [c]. split; [exact Er|reflexivity]. }
  unfold process_string. destruct (s_reading s || ty_eqb (j_type st') TArray); [cbn [pbind]; apply triple_ret; auto|].
  destruct (s_named s); cbn [pbind]; [apply triple_throw|apply triple_ret]. repeat split; auto. unfold fits. cbn [snd s_name]. lia.
Qed.

Lemma triple_char x fuel s b : (length (b_rest b) < fuel)%nat ->
  triple U (process_char x fuel s) b (fun r b' => stays b b' /\ b_rest b' <> [] /\ s_name (fst r) = s_name s
    /\ (snd r = false -> s_complete (fst r) = true /\ shorter b b')).
Proof.
  intros L. unfold process_char. apply triple_deref0; [exact UE|]. intros c r Er.
  destruct (is_literal c) eqn:Lit.
  2: { apply triple_ret. cbn [fst snd]. split; [apply stays_refl|]. split; [rewrite Er; discriminate|]. split; [reflexivity|discriminate]. }
  apply triple_bind. eapply triple_conseq; [apply triple_read_until; exact L|].
  cbv beta. intros [block fp] b' (C & Ne). cbn [fst] in C.
  destruct (str_to_type x block (if fp then TFP64 else TNull)) eqn:Es; [|apply triple_throw].
  apply triple_deref0; [exact UE|]. intros d r' Er'. apply triple_ret. cbn [fst snd].
  split; [exists block; exact C|]. split; [exact Ne|]. split; [reflexivity|]. intros _. split; [reflexivity|].
  destruct C as [C _]. unfold shorter. rewrite C, app_length.
  destruct block; [discriminate Es|cbn; lia].
Qed.

Lemma triple_skip fuel b : (length (b_rest b) < fuel)%nat -> b_rest b <> [] ->
  triple U (skip_comment fuel) b (fun _ b' => stays b b' /\ b_rest b' <> []).
Proof.
  intros L Ne. unfold skip_comment. apply triple_trypeek. destruct (1 <=? zlen (b_rest b)); [|apply triple_ret; split; [apply stays_refl|exact Ne]].
  apply triple_deref.
  - intros c _.
    assert (M : forall ts, triple U (let! _ := move_until fuel ts in Ret tt) b (fun _ b' => stays b b' /\ b_rest b' <> [])).
    { intros ts. apply triple_bind. eapply triple_conseq; [apply triple_move_gen; [discriminate|exact L]|].
      cbv beta. intros r b' (bs & C & _ & N). apply triple_ret. split; [exists bs; exact C|exact N]. }
    destruct (c =? 42); [apply M|]. destruct (c =? 47); [apply M|]. apply triple_ret. split; [apply stays_refl|exact Ne].
  - destruct (b_rest b) as [|a [|a' r]]; [destruct (Ne eq_refl)| |discriminate]. intros _. exact UE.
Qed.

Lemma triple_item M x fuel st s b : (length (b_rest b) < fuel)%nat -> no_uc (b_rest b) -> zlen (b_rest b) <= M -> fits M s ->
  triple U (process_item x fuel st s) b (fun r b' => let '(_, s', move) := r in stays b b' /\ b_rest b' <> [] /\ fits M s'
    /\ (move = false -> s_complete s' = true /\ shorter b b')).
Proof.
  intros L Hu HM HN. unfold process_item. apply triple_deref0; [exact UE|]. intros c r Er.
  assert (Ne : b_rest b <> []) by (rewrite Er; discriminate).
  destruct (c =? 34).
  { apply triple_bind. eapply triple_conseq; [apply (triple_quote M); eauto|]. cbv beta. intros [st' s'] b' (S1 & N1 & N2).
    apply triple_ret. repeat split; auto; discriminate. }
  destruct (c =? 58).
  { destruct (s_reading s); [apply triple_throw|]. apply triple_ret. repeat split; [apply stays_refl|exact Ne|exact HN|discriminate|discriminate]. }
  destruct (existsb (Z.eqb c) [123; 125; 91; 93]).
  { unfold process_bracket. destruct (ty_eqb _ TScopeEnd); [destruct (j_stack st); [apply triple_throw|]|];
      cbn [pbind]; apply triple_ret; repeat split; try apply stays_refl; try exact Ne; try exact HN; discriminate. }
  destruct (c =? 47).
  { apply triple_bind. eapply triple_conseq; [apply triple_skip; eauto|]. cbv beta. intros _ b' [S1 N1].
    apply triple_ret. repeat split; auto; discriminate. }
  apply triple_bind. eapply triple_conseq; [apply triple_char; exact L|]. cbv beta. intros [s' mv] b' (S1 & N1 & N2 & H).
  apply triple_ret. cbn [fst snd] in *. repeat split; auto; [unfold fits; now rewrite N2|now apply H|now apply H].
Qed.

Lemma triple_seek fuel st s b : (length (b_rest b) < fuel)%nat ->
  triple U (seek_item fuel st s) b (fun _ b' => stays b b' /\ b_rest b' <> []).
Proof.
  intros L. unfold seek_item. destruct (_ && _); (eapply triple_conseq; [apply triple_move_gen; [cbn; auto|exact L]|]);
    cbv beta; intros r b' (bs & C & _ & N); split; auto; exists bs; exact C.
Qed.

Lemma triple_json_loop M x fuel : forall n st s b, (length (b_rest b) < fuel)%nat -> (length (b_rest b) < n)%nat -> no_uc (b_rest b) -> zlen (b_rest b) <= M -> fits M s ->
  triple U (json_loop x fuel n st s) b (fun r b' => (stays b b' /\ shorter b b') /\ zlen (fst (snd r)) <= M).
Proof.
  induction n as [|n IH]; intros st s b L Ln Hu HM HN; [lia|]. cbn [json_loop]. apply triple_bind.
  eapply triple_conseq; [apply triple_seek; exact L|]. cbv beta. intros _ b1 [S1 N1]. pose proof (stays_le _ _ S1).
  apply triple_bind. eapply triple_conseq; [apply (triple_item M); [lia|eapply stays_uc; eauto|unfold zlen in *; lia|exact HN]|]. cbv beta. intros [[st' s'] mv] b2 (S2 & N2 & M2 & F2).
  pose proof (stays_le _ _ S2). pose proof (stays_trans _ _ _ S1 S2) as S12.
  cbv zeta. destruct mv.
  - apply triple_move1. intros c r Er. rewrite Er in *. cbn [length] in *.
    assert (S3 : stays b (mkBlk (c :: b_done b2) r)). { eapply stays_trans; [exact S12|]. exists [c]. split; [exact Er|reflexivity]. }
    assert (H3 : shorter b (mkBlk (c :: b_done b2) r)) by (unfold shorter; cbn [b_rest]; lia).
    destruct (s_complete s'); [apply triple_ret; auto|].
    eapply triple_conseq; [apply IH; cbn [b_rest]; [lia|lia|exact (stays_uc _ _ S3 Hu)|unfold zlen in *; lia|exact M2]|].
    cbv beta. intros r' b' [[S4 H4] K4]. split; [|exact K4]. split; [eapply stays_trans; eauto|]. unfold shorter in *. cbn [b_rest] in *. lia.
  - destruct (F2 eq_refl) as [-> F]. apply triple_ret. split; [|exact M2]. split; [exact S12|]. unfold shorter in *. lia.
Qed.
End Safe.

(** every call of read_source on any bytes ends; it can only fail by running past the end of the source, or
    behind a unicode escape by writing over the end of the string buffer *)
Lemma json_read_safe x F st b : (length (b_rest b) < F)%nat ->
  triple (fun u => u = UbEnd \/ u = UbHeap /\ escape_u (b_rest b)) (json_read x F st) b
    (fun r b' => zlen (fst (snd r)) <= zlen (b_rest b) /\ exists bs, bs <> [] /\ consumed bs b b').
Proof.
  intros L. eapply triple_conseq; [apply (triple_json_loop _ (or_introl eq_refl) (zlen (b_rest b))); auto; [intros H; right; auto|lia|unfold fits; cbn; apply zlen_nonneg]|].
  cbv beta. intros r b' [[[bs C] H] K]. split; [exact K|]. exists bs. split; [|exact C]. intros ->. destruct C as [C _]. cbn [app] in C. unfold shorter in H. rewrite C in H. lia.
Qed.

(** the same for whole documents *)
Lemma json_events_safe x F : forall n st b, (length (b_rest b) < F)%nat ->
  triple (fun u => u = UbEnd \/ u = UbHeap /\ escape_u (b_rest b)) (read_events (json_read x F) n st) b
    (fun _ b' => (n + length (b_rest b') <= length (b_rest b))%nat).
Proof.
  induction n as [|n IH]; intros st b L; [cbn [read_events]; apply triple_ret; lia|].
  cbn [read_events]. apply triple_bind. eapply triple_conseq; [apply json_read_safe; exact L|].
  cbv beta. intros [st1 e] b1 (_ & bs & Ne & C). pose proof C as [C1 _].
  assert (L1 : (length (b_rest b1) < length (b_rest b))%nat).
  { rewrite C1, app_length. destruct bs; [destruct (Ne eq_refl)|cbn; lia]. }
  apply triple_bind. eapply triple_weaken; [| |apply IH; lia].
  - intros u [->|[-> (p & q & H)]]; [auto|]. right. split; [reflexivity|]. exists (bs ++ p), q. rewrite C1, H. now rewrite app_assoc.
  - cbv beta. intros [st2 es] b2 H. apply triple_ret. lia.
Qed.

Lemma json_total x F n st b : (length (b_rest b) < F)%nat -> run_block (read_events (json_read x F) n st) b <> Fuel.
Proof. intros L. pose proof (json_events_safe x F n st b L) as T. unfold triple in T. now destruct run_block. Qed.
Lemma json_bounded x F n st b r b' : (length (b_rest b) < F)%nat -> run_block (read_events (json_read x F) n st) b = Ok (r, b') ->
  (n + length (b_rest b') <= length (b_rest b))%nat.
Proof. intros L E. pose proof (json_events_safe x F n st b L) as T. unfold triple in T. now rewrite E in T. Qed.
Lemma json_undefined x F n st b u : (length (b_rest b) < F)%nat -> run_block (read_events (json_read x F) n st) b = UB u ->
  u = UbEnd \/ u = UbHeap /\ escape_u (b_rest b).
Proof. intros L E. pose proof (json_events_safe x F n st b L) as T. unfold triple in T. now rewrite E in T. Qed.
