(** Proofs about JSON strings with escapes of any kind but \u. *)
From Coq Require Import ZArith List Bool Lia ZifyBool ZifyNat.
From Verif Require Import Base Lemmas M_Types M_Conv M_Charset M_In S_Doc M_OutOps S_Out M_Env M_Json S_JsonQuoted P_In P_Scan P_Charset P_Doc P_JsonStr.
Import ListNotations.
Open Scope Z_scope.

Lemma escape_same k : substitute_of k = escape_of k.
Proof.
  unfold substitute_of, escape_of, read_escapes. cbn [find fst]. rewrite !(Z.eqb_sym k).
  repeat match goal with |- context[?a =? k] => destruct (a =? k); [reflexivity|] end. reflexivity.
Qed.
Inductive lit : bytes -> bytes -> Prop :=
| l_nil : lit [] []
| l_unit u c t s : unit_of u c -> lit t s -> lit (u ++ t) (c :: s)
| l_back k t s : substitute_of k = None -> k <> 117 -> lit (k :: t) s -> lit (92 :: k :: t) (92 :: s).
Lemma unquote_lit : forall n t s r, (length t <= n)%nat -> unquote t = Text s r -> exists t1 r1, r = 34 :: r1 /\ t = t1 ++ 34 :: r1 /\ lit t1 s.
Proof.
  induction n as [|n IH]; intros t s r L H; (destruct t as [|c t]; [discriminate|]); [cbn in L; lia|]. cbn [unquote] in H. cbn [length] in L.
  destruct (c =? 34) eqn:Q; [injection H as <- <-; assert (c = 34) as -> by lia; exists [], t; repeat split; constructor|].
  destruct (c =? 92) eqn:B.
  - assert (c = 92) as -> by lia. destruct t as [|k t]; [discriminate|]. cbn [length] in L. rewrite <- escape_same in H. destruct (substitute_of k) as [x|] eqn:E.
    + destruct (unquote t) as [s1 r1| |] eqn:U; try discriminate H. cbn [qcons] in H. injection H as <- <-. destruct (IH t s1 r1 ltac:(lia) U) as (t1 & r2 & -> & -> & Li). exists (92 :: k :: t1), r2.
      split; [reflexivity|]. split; [reflexivity|]. apply (l_unit [92; k] x t1 s1); [|exact Li]. right. eauto.
    + destruct (k =? 117) eqn:KU; [discriminate|]. destruct (unquote (k :: t)) as [s1 r1| |] eqn:U; try discriminate H. cbn [qcons] in H. injection H as <- <-.
      destruct (IH (k :: t) s1 r1 ltac:(cbn; lia) U) as (t1 & r2 & -> & E1 & Li). destruct t1 as [|k1 t1].
      * injection E1 as -> ->. discriminate E.
      * injection E1 as <- ->. exists (92 :: k :: t1), r2. split; [reflexivity|]. split; [reflexivity|]. apply l_back; auto. lia.
  - destruct (unquote t) as [s1 r1| |] eqn:U; try discriminate H. cbn [qcons] in H. injection H as <- <-. destruct (IH t s1 r1 ltac:(lia) U) as (t1 & r2 & -> & -> & Li). exists (c :: t1), r2.
    split; [reflexivity|]. split; [reflexivity|]. apply (l_unit [c] c t1 s1); [|exact Li]. left. split; [reflexivity|lia].
Qed.

Lemma gl_back lim buf idx buf' d k r : substitute_of k = None -> k <> 117 -> store buf idx [92] = Ok buf' ->
  exists g', run_gl lim (substitute_token buf idx 2) (mkBlk d (92 :: k :: r)) (mkGhost (vis_after_peek 2 (length (92 :: k :: r))) 0 None)
    = Some ((1, buf'), mkBlk (92 :: d) (k :: r), g') /\ ready g' (k :: r).
Proof.
  intros N K E. unfold substitute_token. change (2 <=? 2) with true. cbv iota. cbn [run_gl b_rest g_vis].
  unfold vis_after_peek. change (2 <? 1024) with true. change (Z.to_nat 2) with 2%nat. cbv iota. change (2 + 1)%nat with 3%nat.
  cbn [app nth_error length]. replace (0 <? Nat.min 3 (S (S (length r))))%nat with true by lia. replace (1 <? Nat.min 3 (S (S (length r))))%nat with true by lia.
  change (92 =? 92) with true. cbv iota. rewrite N. replace (k =? 117) with false by lia.
  apply (rd_put lim buf idx 92 1 [92] (k :: r) buf' d); [exact E|reflexivity|left; lia].
Qed.

Lemma rd_lit lim t s : lit t s -> forall fuel buf bufsz steps rest,
  (length s < fuel)%nat -> 0 <= steps <= zlen buf -> 0 <= bufsz <= zlen buf ->
  exists buf', rd lim (read_substitute fuel 34 buf bufsz steps) t (34 :: rest) (steps + zlen s, buf')
    /\ firstn (Z.to_nat (steps + zlen s)) buf' = firstn (Z.to_nat steps) buf ++ s /\ steps + zlen s <= zlen buf'.
Proof.
  intros Li. induction Li as [|u c t s U Us IH|k t s N K Us IH]; intros fuel buf bufsz steps rest F Hs Hb; (destruct fuel as [|fuel]; [cbn in F; lia|]).
  - destruct (rd_substitute lim [] [] (Forall2_nil _) (S fuel) buf bufsz steps rest) as (buf' & R); auto. now exists buf'.
  - set (grow := bufsz <? steps + 1). set (bufsz1 := if grow then bufsz + (steps + 10) else bufsz).
    set (buf1 := if grow then resize buf bufsz1 else buf).
    assert (B : 0 <= bufsz1 <= zlen buf1 /\ steps + 1 <= zlen buf1 /\ firstn (Z.to_nat steps) buf1 = firstn (Z.to_nat steps) buf).
    { unfold buf1, bufsz1, grow. destruct (bufsz <? steps + 1) eqn:G.
      - rewrite resize_len by lia. split; [lia|]. split; [lia|]. apply resize_firstn; unfold zlen in *; lia.
      - split; [lia|]. split; [lia|reflexivity]. }
    destruct B as (B1 & B2 & B3).
    destruct (store_ok buf1 steps [c] ltac:(lia) ltac:(cbn; lia)) as (buf2 & Es & El & Ef & _).
    assert (F2 : (length s < fuel)%nat) by (cbn in F; lia).
    assert (Hs2 : 0 <= steps + 1 <= zlen buf2) by lia. assert (Hb2 : 0 <= bufsz1 <= zlen buf2) by lia.
    destruct (IH fuel buf2 bufsz1 (steps + 1) rest F2 Hs2 Hb2) as (buf' & IH1 & IH2 & IH3).
    exists buf'. rewrite zlen_cons. replace (steps + (1 + zlen s)) with (steps + 1 + zlen s) by lia.
    split; [|split; [|exact IH3]].
    2:{ rewrite IH2. replace (Z.to_nat (steps + 1)) with (Z.to_nat steps + length [c])%nat by (cbn; lia). rewrite Ef, B3, <- app_assoc. reflexivity. }
    intros d g R. rewrite <- app_assoc in *. cbn [read_substitute].
    destruct u as [|c0 u'] eqn:Eu; [destruct U as [(? & _)|(? & ? & _)]; discriminate|].
    assert (N34 : c0 <> 34). { destruct U as [(X & N & _)|(k & X & _)]; injection X as -> _; lia. }
    rewrite <- Eu in *. remember (t ++ 34 :: rest) as R' eqn:ER.
    assert (HR' : exists x r, R' = x :: r). { subst R'. destruct t as [|x r]; cbn; eauto. }
    destruct HR' as (x & r & HR').
    assert (Hl : 2 <= zlen (u ++ R')). { rewrite zlen_app, Eu, HR', !zlen_cons. pose proof (zlen_nonneg u'). pose proof (zlen_nonneg r). lia. }
    cbn [run_gl b_rest]. replace ((0 <=? 0) && (0 <? two63) && (0 <=? zlen (u ++ R'))) with true by (unfold two63; lia).
    destruct R as [Rl Rv]. rewrite Rl. cbn [g_vis].
    unfold vis_after_peek at 1. change (0 <? 1024) with true. change (Z.to_nat 0) with 0%nat. cbv iota. cbn [Nat.add].
    replace (0 <? Nat.min 1 (length (u ++ R')))%nat with true by (unfold zlen in Hl; lia).
    assert (Hn : nth_error (u ++ R') 0 = Some c0) by (rewrite Eu; reflexivity). rewrite Hn.
    replace (c0 =? 34) with false by lia. fold grow. fold bufsz1. fold buf1. cbn [run_gl b_rest g_lit].
    replace ((0 <=? 2) && (2 <=? zlen (u ++ R'))) with true by lia.
    rewrite run_gl_bind.
    destruct (gl_substitute_token lim u c buf1 steps buf2 d R' x r U HR' Es) as (g1 & G1 & G2). rewrite G1.
    subst R'. destruct (IH1 (rev u ++ d) g1 G2) as (g2 & G3 & G4). exists g2. rewrite G3. split; [|exact G4].
    rewrite rev_app_distr, <- app_assoc. reflexivity.
  - set (grow := bufsz <? steps + 1). set (bufsz1 := if grow then bufsz + (steps + 10) else bufsz).
    set (buf1 := if grow then resize buf bufsz1 else buf).
    assert (B : 0 <= bufsz1 <= zlen buf1 /\ steps + 1 <= zlen buf1 /\ firstn (Z.to_nat steps) buf1 = firstn (Z.to_nat steps) buf).
    { unfold buf1, bufsz1, grow. destruct (bufsz <? steps + 1) eqn:G.
      - rewrite resize_len by lia. split; [lia|]. split; [lia|]. apply resize_firstn; unfold zlen in *; lia.
      - split; [lia|]. split; [lia|reflexivity]. }
    destruct B as (B1 & B2 & B3).
    destruct (store_ok buf1 steps [92] ltac:(lia) ltac:(cbn; lia)) as (buf2 & Es & El & Ef & _).
    assert (F2 : (length s < fuel)%nat) by (cbn in F; lia).
    assert (Hs2 : 0 <= steps + 1 <= zlen buf2) by lia. assert (Hb2 : 0 <= bufsz1 <= zlen buf2) by lia.
    destruct (IH fuel buf2 bufsz1 (steps + 1) rest F2 Hs2 Hb2) as (buf' & IH1 & IH2 & IH3).
    exists buf'. rewrite zlen_cons. replace (steps + (1 + zlen s)) with (steps + 1 + zlen s) by lia.
    split; [|split; [|exact IH3]].
    2:{ rewrite IH2. replace (Z.to_nat (steps + 1)) with (Z.to_nat steps + length [92%Z])%nat by (cbn; lia). rewrite Ef, B3, <- app_assoc. reflexivity. }
    intros d g R. cbn [app read_substitute].
    assert (Hl : 2 <= zlen (92 :: k :: t ++ 34 :: rest)). { rewrite !zlen_cons. pose proof (zlen_nonneg (t ++ 34 :: rest)). lia. }
    cbn [run_gl b_rest]. replace ((0 <=? 0) && (0 <? two63) && (0 <=? zlen (92 :: k :: t ++ 34 :: rest))) with true by (unfold two63; lia).
    destruct R as [Rl Rv]. rewrite Rl. cbn [g_vis].
    unfold vis_after_peek at 1. change (0 <? 1024) with true. change (Z.to_nat 0) with 0%nat. cbv iota. cbn [Nat.add nth_error].
    replace (0 <? Nat.min 1 (length (92 :: k :: t ++ 34 :: rest)%Z))%nat with true by (cbn [length]; lia).
    change (92 =? 34) with false. fold grow. fold bufsz1. fold buf1. cbn [run_gl b_rest g_lit].
    replace ((0 <=? 2) && (2 <=? zlen (92 :: k :: t ++ 34 :: rest))) with true by lia.
    rewrite run_gl_bind.
    destruct (gl_back lim buf1 steps buf2 d k (t ++ 34 :: rest) N K Es) as (g1 & G1 & G2). rewrite G1.
    destruct (IH1 (92 :: d) g1 G2) as (g2 & G3 & G4). exists g2. cbn [app] in G3 |- *. rewrite G3. split; [|exact G4].
    cbn [rev app]. rewrite <- !app_assoc. reflexivity.
Qed.
Lemma rd_literal lim t s fuel buf rest : lit t s -> (length s < fuel)%nat ->
  exists buf', rd lim (read_unescape fuel buf) t (34 :: rest) (s, buf').
Proof.
  intros U F. destruct (rd_lit lim t s U fuel buf (zlen buf) 0 rest F) as (buf' & R & E & _).
  - pose proof (zlen_nonneg buf). lia.
  - pose proof (zlen_nonneg buf). lia.
  - exists buf'. unfold read_unescape. eapply rd_bind0; [exact R|]. cbn [fst snd]. rewrite E. cbn [Z.to_nat firstn app]. apply rd_ret.
Qed.
Lemma lit_len t s : lit t s -> (length s <= length t)%nat.
Proof.
  induction 1 as [|u c t s U Li IH|k t s N K Li IH]; cbn [length] in *; [lia| |lia]. rewrite app_length. destruct U as [(-> & _)|(k & -> & _)]; cbn [length]; lia.
Qed.
Lemma string_read t s r buf fuel before : unquote t = Text s r -> (length t < fuel)%nat ->
  exists t1 buf', t = t1 ++ r /\ run_block (read_unescape fuel buf) (mkBlk before t) = Ok ((s, buf'), mkBlk (rev t1 ++ before) r) /\
    exists str, run_stream (read_unescape fuel buf) (set_stream t) = Ok ((s, buf'), str).
Proof.
  intros U F. destruct (unquote_lit _ t s r (le_n _) U) as (t1 & r1 & -> & -> & Li). pose proof (lit_len _ _ Li) as L. rewrite app_length in F.
  destruct (rd_literal true t1 s fuel buf r1 Li ltac:(lia)) as (buf' & R). exists t1, buf'. split; [reflexivity|]. split.
  - exact (rd_block _ _ _ _ _ R before).
  - exact (rd_stream _ _ _ _ R).
Qed.

(** no closing quote *)
Lemma put_run buf idx c n before t : 0 <= idx -> idx + 1 <= zlen buf -> (n <= length t)%nat -> exists buf', run_block (put buf idx c n) (mkBlk before t) = Ok ((1, buf'), mkBlk (rev (firstn n t) ++ before) (skipn n t)) /\ zlen buf' = zlen buf.
Proof.
  intros I L N. destruct (store_ok buf idx [c] ltac:(lia) ltac:(cbn; lia)) as (buf' & Es & El & _). exists buf'. split; [|lia]. unfold put. rewrite Es. cbn [lift pbind run_block b_rest b_done].
  replace (n <=? length t)%nat with true by lia. now rewrite rev_append_app.
Qed.
Lemma no_end_run : forall n t, (length t <= n)%nat -> unquote t = NoEnd -> forall fuel buf bufsz steps before, (length t < fuel)%nat -> 0 <= steps <= zlen buf -> 0 <= bufsz <= zlen buf ->
  run_block (read_substitute fuel 34 buf bufsz steps) (mkBlk before t) = UB UbEnd.
Proof.
  induction n as [|n IH]; intros t L H fuel buf bufsz steps before F Hs Hb; (destruct fuel as [|fuel]; [lia|]); cbn [read_substitute run_block b_rest]; change (two63 <=? 0) with false; cbv iota;
    (replace (0 <=? zlen t) with true by (pose proof (zlen_nonneg t); lia)).
  { destruct t; [reflexivity|cbn in L; lia]. }
  destruct t as [|c t]; [reflexivity|]. cbn [nth_error length] in *. cbn [unquote] in H. destruct (c =? 34) eqn:Q; [discriminate|].
  set (grow := bufsz <? steps + 1). set (bufsz1 := if grow then bufsz + (steps + 10) else bufsz). set (buf1 := if grow then resize buf bufsz1 else buf).
  assert (B : 0 <= bufsz1 <= zlen buf1 /\ steps + 1 <= zlen buf1).
  { unfold buf1, bufsz1, grow. destruct (bufsz <? steps + 1) eqn:G; [rewrite resize_len by lia; lia|lia]. }
  destruct B as (B1 & B2).
  assert (PUT : forall x m t', t' = c :: t -> (1 <= m <= length t')%nat -> unquote (skipn m t') = NoEnd ->
    run_block (let! (n, buf') := put buf1 steps x m in read_substitute fuel 34 buf' bufsz1 (steps + n)) (mkBlk before t') = UB UbEnd).
  { intros x m t' -> M U. rewrite run_block_bind. destruct (put_run buf1 steps x m before (c :: t) ltac:(lia) ltac:(lia) ltac:(lia)) as (buf' & R & Z). rewrite R. cbn [rbind].
    assert (SL : (length (skipn m (c :: t)) <= length t)%nat) by (rewrite skipn_length; cbn [length]; lia). apply IH; try lia. exact U. }
  cbn [run_block b_rest]. destruct t as [|k t].
  - change (2 <=? zlen [c]) with false. cbv iota. cbn [run_block b_rest]. unfold substitute_token. change (2 <=? zlen [c]) with false. cbv iota. cbn [pbind run_block b_rest nth_error].
    apply PUT; [reflexivity|cbn; lia|reflexivity].
  - replace (2 <=? zlen (c :: k :: t)) with true by (rewrite !zlen_cons; pose proof (zlen_nonneg t); lia). unfold substitute_token. change (2 <=? 2) with true. cbv iota. cbn [pbind run_block b_rest nth_error].
    destruct (c =? 92) eqn:B; cbv iota.
    + rewrite <- escape_same in H. destruct (substitute_of k) as [x|].
      * apply PUT; [reflexivity|cbn; lia|]. cbn [skipn]. destruct (unquote t); try discriminate H. reflexivity.
      * destruct (k =? 117); [discriminate|]. apply PUT; [reflexivity|cbn; lia|]. cbn [skipn]. destruct (unquote (k :: t)); try discriminate H. reflexivity.
    + apply PUT; [reflexivity|cbn; lia|]. cbn [skipn]. destruct (unquote (k :: t)); try discriminate H. reflexivity.
Qed.
Lemma no_end t buf fuel before : unquote t = NoEnd -> (length t < fuel)%nat -> run_block (read_unescape fuel buf) (mkBlk before t) = UB UbEnd.
Proof.
  intros U F. unfold read_unescape. rewrite run_block_bind. pose proof (zlen_nonneg buf). rewrite (no_end_run _ t (le_n _) U) by (auto; lia). reflexivity.
Qed.
