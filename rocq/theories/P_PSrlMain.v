(** Top level lemmas about PSrl. *)
From Coq Require Import ZArith List Bool Lia ZifyBool ZifyNat.
From Verif Require Import Base Lemmas M_Types M_Conv M_In S_Doc M_OutOps S_Out M_Event S_PSrl M_PSrl P_In P_Reads P_Safe P_Float P_Doc P_PSrl P_PSrlDoc P_PSrlSafe P_PSrlLayout.
Import ListNotations.
Open Scope Z_scope.

Lemma varint_roundtrip n : 0 <= n < 2 ^ 64 ->
  encode_integer n = Ok (varint n) /\ (1 <= length (varint n) <= 10)%nat /\
  forall d rest, run_block decode_integer (mkBlk d (varint n ++ rest)) = Ok (n, mkBlk (rev (varint n) ++ d) rest).
Proof.
  intros H. assert (H' : 0 <= n < two64) by (unfold_words; lia).
  pose proof (encode_varint n H') as E. split; [exact E|]. split; [|apply reads_integer; auto].
  destruct (encode_integer_spec n H') as (k & Hk & E2 & _). rewrite E in E2. injection E2 as ->. rewrite vlq_length. exact Hk.
Qed.

Lemma psrl_memory_roundtrip d : wf_doc d -> all_vals (fun _ v => meaning_of v <> MeInt (- 2 ^ 63)) d ->
  Z.of_nat (length (events d)) < 2 ^ 63 ->
  exists w' ops, write_events psrl_write psrl_init (events d) = Ok (w', ops) /\ valid_ops [] ops /\
  exists r' d', mdoc_of d' = denote false d /\
    forall before rest, run_block (read_events psrl_read (length (events d)) psrl_init) (mkBlk before (spec_out ops ++ rest)) =
      Ok ((r', events d'), mkBlk (rev (spec_out ops) ++ before) rest).
Proof.
  intros W A L. destruct (psrl_roundtrip d W A L) as (w' & ops & X1 & X2 & r' & d' & X3 & _ & X4).
  exists w', ops. split; [exact X1|]. split; [exact X2|]. exists r', d'. split; [exact X3|exact X4].
Qed.

Lemma psrl_written_layout d : wf_doc d -> all_vals (fun _ v => meaning_of v <> MeInt (- 2 ^ 63)) d ->
  Z.of_nat (length (events d)) < 2 ^ 63 ->
  exists w' ops, write_events psrl_write psrl_init (events d) = Ok (w', ops) /\ spec_out ops = layout [] [] (events d).
Proof.
  intros W A L.
  destruct (psrl_doc d W A ltac:(lia) [] psrl_init psrl_init psrl_rel_init eq_refl) as (w' & ops & r' & X1 & X2 & _ & _).
  exists w', ops. split; [exact X1|]. rewrite writes_only_out by auto.
  apply (psrl_layout (events d) psrl_init [] [] w' ops); auto.
  - apply evs_ok_doc; auto.
Qed.

Lemma psrl_truncated d w' ops : wf_doc d -> all_vals (fun _ v => meaning_of v <> MeInt (- 2 ^ 63)) d ->
  Z.of_nat (length (events d)) < 2 ^ 63 ->
  write_events psrl_write psrl_init (events d) = Ok (w', ops) ->
  forall pre x, spec_out ops = pre ++ x -> x <> [] ->
  forall res, run_block (read_events psrl_read (length (events d)) psrl_init) (set_block pre) <> Ok res.
Proof.
  intros W A L E pre x S N. destruct (psrl_roundtrip d W A L) as (w2 & ops2 & X1 & _ & r' & d' & _ & _ & X4).
  rewrite E in X1. injection X1 as <- <-.
  eapply plain_truncated; [|exact X4|exact S|exact N]. apply plain_read_events, plain_psrl_read.
Qed.

Lemma psrl_total n st b : run_block (read_events psrl_read n st) b <> Fuel.
Proof. intros H. pose proof (psrl_events_triple n st b) as T. unfold triple in T. now rewrite H in T. Qed.

Lemma psrl_progress st b r b' : run_block (psrl_read st) b = Ok (r, b') -> (length (b_rest b') < length (b_rest b))%nat.
Proof.
  intros H. pose proof (psrl_read_triple st b) as T. unfold triple in T. rewrite H in T. destruct T as (bs & N & C).
  apply consumed_len in C. destruct bs; [congruence|]. cbn [length] in C. lia.
Qed.
Lemma psrl_bounded : forall n st b r b', run_block (read_events psrl_read n st) b = Ok (r, b') ->
  (n + length (b_rest b') <= length (b_rest b))%nat.
Proof.
  induction n as [|n IH]; intros st b r b' E; cbn [read_events run_block] in E; [injection E as _ <-; lia|].
  rewrite run_block_bind in E. destruct (run_block (psrl_read st) b) as [[[st1 e] b1]| | |] eqn:E1; try discriminate E.
  apply psrl_progress in E1. cbn [rbind] in E. rewrite run_block_bind in E.
  destruct (run_block (read_events psrl_read n st1) b1) as [[[st2 es] b2]| | |] eqn:E2; try discriminate E.
  apply IH in E2. cbn [rbind run_block] in E. injection E as _ <-. lia.
Qed.

Lemma psrl_undefined n st b u : run_block (read_events psrl_read n st) b = UB u -> In u [UbEnd; UbShift; UbPtr; UbSigned].
Proof. intros H. pose proof (psrl_events_triple n st b) as T. unfold triple in T. rewrite H in T. exact T. Qed.

(** a string or binary value whose announced size exceeds what is left *)
Lemma psrl_size_checked st k n rest before : (k = 32 \/ k = 16) -> zlen rest < n < 2 ^ 63 ->
  run_block (psrl_read st) (mkBlk before (k :: varint n ++ rest)) = Err.
Proof.
  intros K N. pose proof (zlen_nonneg rest). unfold psrl_read. rewrite run_block_bind.
  assert (E : run_block (psrl_read_head st) (mkBlk before (k :: varint n ++ rest)) = Ok ((st, (k, [])), mkBlk (k :: before) (varint n ++ rest))).
  { unfold psrl_read_head. rewrite run_block_bind. pose proof (reads_byte k before (varint n ++ rest)) as R. cbn [app] in R. rewrite R. cbn [rbind].
    replace (negb (has k FNamed)) with true by (destruct K; subst; reflexivity). reflexivity. }
  rewrite E. cbn [rbind]. replace (k =? 0) with false by lia.
  replace (flag_is_scope k) with false by (destruct K; subst; reflexivity).
  replace (has k FNum) with false by (destruct K; subst; reflexivity).
  replace (has k (Z.lor FBinary FString)) with true by (destruct K; subst; reflexivity).
  rewrite run_block_bind. assert (H' : 0 <= n < two64) by (unfold_words; lia).
  rewrite (reads_integer n H' _ (encode_varint n H')). cbn [rbind].
  rewrite run_block_bind, run_read_block. cbn [b_rest].
  replace (two63 <=? n) with false by (unfold_words; lia). replace (n <=? zlen rest) with false by lia. reflexivity.
Qed.

Lemma psrl_stream d w' ops : wf_doc d -> all_vals (fun _ v => meaning_of v <> MeInt (- 2 ^ 63)) d ->
  Z.of_nat (length (events d)) < 2 ^ 63 -> Forall (fun e => zlen (fst e) < 1024) (events d) ->
  write_events psrl_write psrl_init (events d) = Ok (w', ops) ->
  exists r' d' s, mdoc_of d' = denote false d /\
    run_stream (read_events psrl_read (length (events d)) psrl_init) (set_stream (spec_out ops)) = Ok ((r', events d'), s).
Proof.
  intros W A L F E.
  destruct (psrl_doc d W A ltac:(lia) [] psrl_init psrl_init psrl_rel_init eq_refl) as (w2 & ops2 & r' & X1 & X2 & X3 & _).
  rewrite E in X1. injection X1 as <- <-.
  specialize (X3 [] []). rewrite app_nil_r, <- writes_only_out in X3 by auto.
  apply psrl_stream_eq_block in X3.
  - destruct X3 as [s X3]. exists r', (doc_norm psrl_norm_v false d), s. split; [|exact X3].
    apply doc_norm_denote; auto using psrl_norm_meaning.
  - cbn [snd]. change (ty_eqb (top []) TObject) with false. clear - F. revert F.
    assert (G : forall nm, Forall (fun e : event => zlen (fst e) < 1024) (events d) ->
             Forall (fun e : event => zlen (fst e) < 1024) (events (doc_norm psrl_norm_v nm d))); [|apply G].
    induction d as [n v|n t its IH] using doc_ind2; intros nm F.
    + inversion F; subst. constructor; [|constructor]. cbn [fst] in *. destruct nm; [auto|reflexivity].
    + cbn [events doc_norm] in *. inversion F as [|? ? F1 F2]; subst. apply Forall_app in F2. destruct F2 as [F2 F3].
      constructor; [cbn [fst] in *; destruct nm; [auto|reflexivity]|]. apply Forall_app. split; [|exact F3].
      clear F F1 F3. induction IH as [|x l Hx Hl IHl]; cbn [map flat_map] in *; [constructor|].
      apply Forall_app in F2. destruct F2. apply Forall_app. auto.
Qed.

Lemma psrl_concat d1 d2 : wf_doc d1 -> wf_doc d2 ->
  all_vals (fun _ v => meaning_of v <> MeInt (- 2 ^ 63)) d1 -> all_vals (fun _ v => meaning_of v <> MeInt (- 2 ^ 63)) d2 ->
  Z.of_nat (length (events d1)) < 2 ^ 63 -> Z.of_nat (length (events d2)) < 2 ^ 63 ->
  exists w1 o1 w2 o2 d1' d2' s1 s2 b1 b2,
    write_events psrl_write psrl_init (events d1) = Ok (w1, o1) /\ write_events psrl_write psrl_init (events d2) = Ok (w2, o2) /\
    run_block (read_events psrl_read (length (events d1)) psrl_init) (set_block (spec_out o1 ++ spec_out o2)) = Ok ((s1, events d1'), b1) /\
    run_block (read_events psrl_read (length (events d2)) (psrl_clear s1)) b1 = Ok ((s2, events d2'), b2) /\
    mdoc_of d1' = denote false d1 /\ mdoc_of d2' = denote false d2 /\ b_rest b2 = [].
Proof.
  intros W1 W2 A1 A2 L1 L2.
  destruct (psrl_memory_roundtrip d1 W1 A1 L1) as (w1 & o1 & X1 & _ & s1 & d1' & M1 & R1).
  destruct (psrl_memory_roundtrip d2 W2 A2 L2) as (w2 & o2 & X2 & _ & s2 & d2' & M2 & R2).
  exists w1, o1, w2, o2, d1', d2', s1, s2, (mkBlk (rev (spec_out o1) ++ []) (spec_out o2)),
    (mkBlk (rev (spec_out o2) ++ rev (spec_out o1) ++ []) []).
  split; [exact X1|]. split; [exact X2|]. split; [apply R1|]. split.
  - specialize (R2 (rev (spec_out o1) ++ []) []). rewrite (app_nil_r (spec_out o2)) in R2. exact R2.
  - auto.
Qed.
