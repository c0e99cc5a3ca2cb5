(** JSON strings: escaping and scanning. *)
From Coq Require Import ZArith List Bool Lia ZifyBool ZifyNat.
From Verif Require Import Base Lemmas M_Types M_Conv M_Charset M_In S_Doc M_OutOps S_Out M_Env M_Json P_In P_Scan P_Charset P_Doc.
Import ListNotations.
Open Scope Z_scope.

(** what stands for the byte [c] inside quotes *)
Definition unit_of (u : bytes) (c : Z) : Prop :=
  (u = [c] /\ c <> 34 /\ c <> 92) \/ (exists k, u = [92; k] /\ substitute_of k = Some c).

Lemma unit_escape c : unit_of (escape_char c) c.
Proof.
  unfold escape_char, unit_of.
  destruct (c =? 34) eqn:E1; [right; exists 34; assert (c = 34) by lia; subst; split; reflexivity|].
  destruct (c =? 92) eqn:E2; [right; exists 92; assert (c = 92) by lia; subst; split; reflexivity|].
  destruct (c =? 47) eqn:E3; [right; exists 47; assert (c = 47) by lia; subst; split; reflexivity|].
  destruct (c =? 10) eqn:E4; [right; exists 110; assert (c = 10) by lia; subst; split; reflexivity|].
  destruct (c =? 9) eqn:E5; [right; exists 116; assert (c = 9) by lia; subst; split; reflexivity|].
  destruct (c =? 13) eqn:E6; [right; exists 114; assert (c = 13) by lia; subst; split; reflexivity|].
  destruct (c =? 8) eqn:E7; [right; exists 98; assert (c = 8) by lia; subst; split; reflexivity|].
  destruct (c =? 12) eqn:E8; [right; exists 102; assert (c = 12) by lia; subst; split; reflexivity|].
  left. split; [reflexivity|lia].
Qed.

Lemma rd_put lim buf idx c n u rest buf' d vis : store buf idx [c] = Ok buf' -> length u = n -> (n + 1 <= vis \/ rest = [] /\ n <= vis)%nat ->
  exists g', run_gl lim (put buf idx c n) (mkBlk d (u ++ rest)) (mkGhost vis 0 None) = Some ((1, buf'), mkBlk (rev u ++ d) rest, g') /\ ready g' rest.
Proof.
  intros E L V. unfold put. rewrite E. cbn [lift pbind run_gl b_rest b_done g_vis g_lit].
  rewrite app_length. replace ((n <=? vis)%nat && (n <=? length u + length rest)%nat) with true by lia.
  rewrite firstn_app_exact, skipn_app_exact by lia. rewrite rev_append_app.
  eexists. split; [reflexivity|]. split; [reflexivity|]. cbn [g_vis]. destruct V as [V|[V _]]; [left; lia|right; exact V].
Qed.

Lemma gl_substitute_token lim u c buf idx buf' d rest x r : unit_of u c -> rest = x :: r -> store buf idx [c] = Ok buf' ->
  exists g', run_gl lim (substitute_token buf idx 2) (mkBlk d (u ++ rest)) (mkGhost (vis_after_peek 2 (length (u ++ rest))) 0 None)
    = Some ((1, buf'), mkBlk (rev u ++ d) rest, g') /\ ready g' rest.
Proof.
  intros U -> E. unfold substitute_token. change (2 <=? 2) with true. cbv iota. cbn [run_gl b_rest g_vis].
  unfold vis_after_peek. change (2 <? 1024) with true. change (Z.to_nat 2) with 2%nat. cbv iota. change (2 + 1)%nat with 3%nat.
  destruct U as [(-> & N1 & N2)|(k & -> & Hk)].
  - cbn [app nth_error length].
    replace (0 <? Nat.min 3 (S (S (length r))))%nat with true by lia. replace (1 <? Nat.min 3 (S (S (length r))))%nat with true by lia.
    replace (c =? 92) with false by lia.
    apply (rd_put lim buf idx c 1 [c] (x :: r) buf' d); [exact E|reflexivity|left; lia].
  - cbn [app nth_error length].
    replace (0 <? Nat.min 3 (S (S (S (length r)))))%nat with true by lia. replace (1 <? Nat.min 3 (S (S (S (length r)))))%nat with true by lia.
    change (92 =? 92) with true. cbv iota. rewrite Hk.
    apply (rd_put lim buf idx c 2 [92; k] (x :: r) buf' d); [exact E|reflexivity|left; lia].
Qed.

Lemma rd_substitute lim us s : Forall2 unit_of us s -> forall fuel buf bufsz steps rest,
  (length s < fuel)%nat -> 0 <= steps <= zlen buf -> 0 <= bufsz <= zlen buf ->
  exists buf', rd lim (read_substitute fuel 34 buf bufsz steps) (concat us) (34 :: rest) (steps + zlen s, buf')
    /\ firstn (Z.to_nat (steps + zlen s)) buf' = firstn (Z.to_nat steps) buf ++ s /\ steps + zlen s <= zlen buf'.
Proof.
  induction 1 as [|u c us s U Us IH]; intros fuel buf bufsz steps rest F Hs Hb; (destruct fuel as [|fuel]; [cbn in F; lia|]).
  - exists buf. cbn [concat]. replace (steps + zlen (@nil Z)) with steps by (cbn; lia). rewrite app_nil_r. split; [|split; [reflexivity|lia]].
    intros d g R. cbn [app read_substitute run_gl b_rest] in *.
    replace ((0 <=? 0) && (0 <? two63) && (0 <=? zlen (34 :: rest))) with true by (pose proof (zlen_nonneg (34 :: rest)); unfold two63; lia).
    destruct R as [Rl Rv]. rewrite Rl. cbn [g_vis nth_error].
    unfold vis_after_peek. change (0 <? 1024) with true. change (Z.to_nat 0) with 0%nat. cbv iota. cbn [Nat.add length].
    replace (0 <? Nat.min 1 (S (length rest)))%nat with true by lia. change (34 =? 34) with true. cbv iota.
    eexists. split; [reflexivity|]. split; [reflexivity|]. left. cbn [g_vis]. lia.
  - set (grow := bufsz <? steps + 1). set (bufsz1 := if grow then bufsz + (steps + 10) else bufsz).
    set (buf1 := if grow then resize buf bufsz1 else buf).
    assert (B : 0 <= bufsz1 <= zlen buf1 /\ steps + 1 <= zlen buf1 /\ firstn (Z.to_nat steps) buf1 = firstn (Z.to_nat steps) buf).
    { unfold buf1, bufsz1, grow. destruct (bufsz <? steps + 1) eqn:G.
      - rewrite resize_len by lia. split; [lia|]. split; [lia|]. apply resize_firstn; unfold zlen in *; lia.
      - split; [lia|]. split; [lia|reflexivity]. }
    destruct B as (B1 & B2 & B3).
    destruct (store_ok buf1 steps [c] ltac:(lia) ltac:(cbn; lia)) as (buf2 & Es & El & Ef & _).
    assert (F2 : (length s < fuel)%nat) by (cbn in F; lia).
    assert (Hs2 : 0 <= steps + 1 <= zlen buf2) by lia. assert (Hb2 : 0 <= bufsz1 <= zlen buf2) by lia.
    destruct (IH fuel buf2 bufsz1 (steps + 1) rest F2 Hs2 Hb2) as (buf' & IH1 & IH2 & IH3).
    exists buf'. rewrite zlen_cons. replace (steps + (1 + zlen s)) with (steps + 1 + zlen s) by lia.
    split; [|split; [|exact IH3]].
    2:{ rewrite IH2. replace (Z.to_nat (steps + 1)) with (Z.to_nat steps + length [c])%nat by (cbn; lia). rewrite Ef, B3, <- app_assoc. reflexivity. }
    intros d g R. cbn [concat] in *. rewrite <- app_assoc in *. cbn [read_substitute].
    destruct u as [|c0 u'] eqn:Eu; [destruct U as [(? & _)|(? & ? & _)]; discriminate|].
    assert (N34 : c0 <> 34). { destruct U as [(X & N & _)|(k & X & _)]; injection X as -> _; lia. }
    rewrite <- Eu in *. remember (concat us ++ 34 :: rest) as R' eqn:ER.
    assert (HR' : exists x r, R' = x :: r). { subst R'. destruct (concat us) as [|x r]; cbn; eauto. }
    destruct HR' as (x & r & HR').
    assert (Hl : 2 <= zlen (u ++ R')). { rewrite zlen_app, Eu, HR', !zlen_cons. pose proof (zlen_nonneg u'). pose proof (zlen_nonneg r). lia. }
    cbn [run_gl b_rest]. replace ((0 <=? 0) && (0 <? two63) && (0 <=? zlen (u ++ R'))) with true by (unfold two63; lia).
    destruct R as [Rl Rv]. rewrite Rl. cbn [g_vis].
    unfold vis_after_peek at 1. change (0 <? 1024) with true. change (Z.to_nat 0) with 0%nat. cbv iota. cbn [Nat.add].
    replace (0 <? Nat.min 1 (length (u ++ R')))%nat with true by (unfold zlen in Hl; lia).
    assert (Hn : nth_error (u ++ R') 0 = Some c0) by (rewrite Eu; reflexivity). rewrite Hn.
    replace (c0 =? 34) with false by lia. fold grow. fold bufsz1. fold buf1. cbn [run_gl b_rest g_lit].
    replace ((0 <=? 2) && (2 <=? zlen (u ++ R'))) with true by lia.
    rewrite run_gl_bind.
    destruct (gl_substitute_token lim u c buf1 steps buf2 d R' x r U HR' Es) as (g1 & G1 & G2). rewrite G1.
    subst R'. destruct (IH1 (rev u ++ d) g1 G2) as (g2 & G3 & G4). exists g2. rewrite G3. split; [|exact G4].
    rewrite rev_app_distr, <- app_assoc. reflexivity.
Qed.

Lemma rd_unescape lim us s fuel buf rest : Forall2 unit_of us s -> (length s < fuel)%nat ->
  exists buf', rd lim (read_unescape fuel buf) (concat us) (34 :: rest) (s, buf').
Proof.
  intros U F. destruct (rd_substitute lim us s U fuel buf (zlen buf) 0 rest F) as (buf' & R & E & _).
  - pose proof (zlen_nonneg buf). lia.
  - pose proof (zlen_nonneg buf). lia.
  - exists buf'. unfold read_unescape. eapply rd_bind0; [exact R|]. cbn [fst snd]. rewrite E. cbn [Z.to_nat firstn app]. apply rd_ret.
Qed.

(** the escaped form of a string, as written *)
Definition escaped (s : bytes) : bytes := flat_map escape_char s.
Lemma escaped_units s : Forall2 unit_of (map escape_char s) s.
Proof. induction s; constructor; auto using unit_escape. Qed.
Lemma escaped_concat s : concat (map escape_char s) = escaped s.
Proof. unfold escaped. rewrite flat_map_concat_map. reflexivity. Qed.
Lemma flat_write_escape s : flat (write_escape s) = escaped s.
Proof. unfold flat, write_escape, escaped. induction s; cbn [map flat_map]; [reflexivity|]. rewrite IHs. reflexivity. Qed.
Lemma writes_only_escape s : writes_only (write_escape s).
Proof. unfold writes_only, write_escape. apply Forall_forall. intros o H. apply in_map_iff in H. destruct H as (c & <- & _). eauto. Qed.

Lemma rd_escaped lim s fuel buf rest : (length s < fuel)%nat ->
  exists buf', rd lim (read_unescape fuel buf) (escaped s) (34 :: rest) (s, buf').
Proof. intros F. rewrite <- escaped_concat. apply rd_unescape; auto using escaped_units. Qed.

(** text without quotes and backslashes stands for itself *)
Definition plain_char (c : Z) : Prop := c <> 34 /\ c <> 92.
Lemma plain_units s : Forall plain_char s -> Forall2 unit_of (map (fun c => [c]) s) s.
Proof. induction 1; constructor; auto. left. unfold plain_char in *. tauto. Qed.
Lemma plain_concat (s : bytes) : concat (map (fun c => [c]) s) = s.
Proof. induction s; cbn; [auto|]. now rewrite IHs. Qed.
Lemma rd_plain lim s fuel buf rest : Forall plain_char s -> (length s < fuel)%nat ->
  exists buf', rd lim (read_unescape fuel buf) s (34 :: rest) (s, buf').
Proof. intros P F. pose proof (rd_unescape lim _ s fuel buf rest (plain_units s P) F) as H. rewrite plain_concat in H. exact H. Qed.
