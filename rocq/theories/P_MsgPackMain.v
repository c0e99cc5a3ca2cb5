(** Top level lemmas about MessagePack. *)
From Coq Require Import ZArith List Bool Lia ZifyBool ZifyNat.
From Verif Require Import Base Lemmas M_Types M_Conv M_In S_Doc M_OutOps S_Out M_Event S_MsgPack M_MsgPack P_In P_Reads P_Safe P_Exact P_Float P_Doc P_PSrlDoc P_PSrlSafe P_MsgPack P_MsgPackDoc P_MsgPackSafe P_MsgPackConf.
Import ListNotations.
Open Scope Z_scope.

Lemma msgp_roundtrip d : wf_doc d -> small_scopes d ->
  exists w' ops, write_events msgp_write msgp_init (events d) = Ok (w', ops) /\ valid_ops [] ops /\
  exists r' d', mdoc_of d' = denote false d /\
    forall before rest, run_block (read_events msgp_read (length (events d)) msgp_init) (mkBlk before (spec_out ops ++ rest)) =
      Ok ((r', events d'), mkBlk (rev (spec_out ops) ++ before) rest).
Proof.
  intros W S. destruct (msgp_doc d W S) as (w' & ops & E & V & _ & R). exists w', ops. split; [exact E|]. split; [exact V|].
  exists msgp_init, (doc_norm mp_norm_v false d). split; [|exact R]. apply doc_norm_denote; auto using mp_norm_meaning.
Qed.

Lemma msgp_conforms d : wf_doc d -> small_scopes d -> short_doc d ->
  exists w' ops, write_events msgp_write msgp_init (events d) = Ok (w', ops) /\ mp_doc true (denote false d) (spec_out ops).
Proof.
  intros W S H. destruct (msgp_doc d W S) as (w' & ops & E & V & O & R). exists w', ops. split; [exact E|]. rewrite O.
  pose proof (enc_conf d W S H false) as C. clear - C.
  assert (ST : forall s b, mp_str false s b -> mp_str true s b) by (destruct 1; constructor; auto).
  induction C using mp_doc_ind2 with (P0 := fun t its bs _ => mp_items true t its bs).
  - constructor. match goal with H : mp_value _ _ _ |- _ => destruct H end; constructor; auto.
  - constructor; auto.
  - constructor.
  - constructor; auto.
  - constructor; auto.
Qed.

Lemma msgp_truncated d w' ops : wf_doc d -> small_scopes d -> write_events msgp_write msgp_init (events d) = Ok (w', ops) ->
  forall pre x, spec_out ops = pre ++ x -> x <> [] ->
  run_block (read_events msgp_read (length (events d)) msgp_init) (set_block pre) = Err.
Proof.
  intros W S E pre x P X. destruct (msgp_doc d W S) as (w2 & ops2 & E2 & V & O & R). rewrite E in E2. injection E2 as <- <-.
  assert (B : wf_bytes pre). { pose proof (enc_wf d W false) as B. rewrite <- O, P in B. now apply wf_bytes_app in B. }
  destruct (msgp_outcome (length (events d)) msgp_init pre [] B) as [|(r & b & Q)]; [auto|]. exfalso. revert Q.
  eapply plain_truncated; [|exact R|exact P|exact X]. apply plain_read_events, plain_msgp_read.
Qed.

Lemma msgp_concat d1 d2 : wf_doc d1 -> wf_doc d2 -> small_scopes d1 -> small_scopes d2 ->
  exists w1 o1 w2 o2 d1' d2' s1 s2 b1 b2,
    write_events msgp_write msgp_init (events d1) = Ok (w1, o1) /\ write_events msgp_write msgp_init (events d2) = Ok (w2, o2) /\
    run_block (read_events msgp_read (length (events d1)) msgp_init) (set_block (spec_out o1 ++ spec_out o2)) = Ok ((s1, events d1'), b1) /\
    run_block (read_events msgp_read (length (events d2)) (msgp_clear s1)) b1 = Ok ((s2, events d2'), b2) /\
    mdoc_of d1' = denote false d1 /\ mdoc_of d2' = denote false d2 /\ b_rest b2 = [].
Proof.
  intros W1 W2 A1 A2.
  destruct (msgp_roundtrip d1 W1 A1) as (w1 & o1 & X1 & _ & s1 & d1' & M1 & R1).
  destruct (msgp_roundtrip d2 W2 A2) as (w2 & o2 & X2 & _ & s2 & d2' & M2 & R2).
  exists w1, o1, w2, o2, d1', d2', s1, s2, (mkBlk (rev (spec_out o1) ++ []) (spec_out o2)),
    (mkBlk (rev (spec_out o2) ++ rev (spec_out o1) ++ []) []).
  split; [exact X1|]. split; [exact X2|]. split; [apply R1|]. split.
  - specialize (R2 (rev (spec_out o1) ++ []) []). rewrite (app_nil_r (spec_out o2)) in R2. exact R2.
  - auto.
Qed.

Lemma msgp_any_outcome n st src : wf_bytes src ->
  run_block (read_events msgp_read n st) (set_block src) = Err \/ exists r b, run_block (read_events msgp_read n st) (set_block src) = Ok (r, b).
Proof. apply msgp_outcome. Qed.

(** the states in which a value without a name is expected *)
Definition no_name (st : msgp) : Prop :=
  match mp_stack st with [] => True | s :: _ => ms_type s = TArray /\ 1 <= ms_elems s end.

(** reserved and extension prefixes *)
Lemma msgp_rejects st p before rest : no_name st -> In p [199; 200; 201; 212; 213; 214; 215; 216] ->
  run_block (msgp_read st) (mkBlk before (p :: rest)) = Err.
Proof.
  intros N H. assert (V : forall st0 name b, run_block (mp_read_value st0 name p) b = Err).
  { intros st0 name b. unfold mp_read_value. cbn in H. repeat (destruct H as [<-|H]; [reflexivity|]). contradiction. }
  pose proof (reads_byte p before rest) as R. cbn [app] in R. unfold msgp_read, no_name in *. destruct (mp_stack st) as [|s r].
  - rewrite run_block_bind, R. apply V.
  - destruct N as [T K]. replace (ms_elems s <? 1) with false by lia. rewrite run_block_bind, R. cbn [rbind]. rewrite T. apply V.
Qed.

(** announced sizes *)
Lemma msgp_size_checked st k w n before rest : no_name st ->
  In (k, w) [(217, 1); (218, 2); (219, 4); (196, 1); (197, 2); (198, 4)] -> zlen rest < n < 256 ^ w ->
  run_block (msgp_read st) (mkBlk before (k :: le (Z.to_nat w) n ++ rest)) = Err.
Proof.
  intros N H L. pose proof (zlen_nonneg rest).
  assert (Hw : w = 1 \/ w = 2 \/ w = 4) by (cbn in H; repeat (destruct H as [H|H]; [injection H as <- <-; lia|]); contradiction).
  assert (V : forall st0 name d, run_block (mp_read_value st0 name k) (mkBlk d (le (Z.to_nat w) n ++ rest)) = Err).
  { intros st0 name d. assert (RB : forall d, run_block (read_block n) (mkBlk d rest) = Err).
    { intros d0. rewrite run_read_block. cbn [b_rest].
      replace (two63 <=? n) with false; [replace (n <=? zlen rest) with false by lia; reflexivity|].
      assert (256 ^ w <= 256 ^ 4) by (apply Z.pow_le_mono_r; [lia|lia]).
      change (256 ^ 4) with 4294967296 in *. unfold_words. lia. }
    assert (RL : run_block (read_move w) (mkBlk d (le (Z.to_nat w) n ++ rest)) = Ok (n, mkBlk (rev (le (Z.to_nat w) n) ++ d) rest)).
    { apply reads_le; [lia|lia|unfold_words; lia]. }
    assert (P : forall (f : bytes -> value) (g : value -> msgp * event), run_block (let! v := (let! size := read_move w in let! block := read_block size in Ret (f block)) in Ret (g v)) (mkBlk d (le (Z.to_nat w) n ++ rest)) = Err).
    { intros f g. rewrite !run_block_bind, RL. cbn [rbind]. rewrite run_block_bind, RB. reflexivity. }
    unfold mp_read_value. cbn in H.
    repeat (destruct H as [H|H]; [injection H as <- <-; first
      [ exact (P (fun b => val_block_enc b TString EUTF8) (fun v => (st0, (name, v))))
      | exact (P (fun b => val_block b TBinary) (fun v => (st0, (name, v)))) ]|]). contradiction. }
  pose proof (reads_byte k before (le (Z.to_nat w) n ++ rest)) as R. cbn [app] in R. unfold msgp_read, no_name in *. destruct (mp_stack st) as [|s r].
  - rewrite run_block_bind, R. apply V.
  - destruct N as [T K]. replace (ms_elems s <? 1) with false by lia. rewrite run_block_bind, R. cbn [rbind]. rewrite T. apply V.
Qed.

(** every MessagePack document (with keys that are strings, and no 16/32 bit string lengths) is read *)
Lemma msgp_reads_spec m b : mp_doc false m b -> mname m = [] ->
  exists d', mdoc_of d' = m /\ forall before rest,
    run_block (read_events msgp_read (length (events d')) msgp_init) (mkBlk before (b ++ rest)) =
    Ok ((msgp_init, events d'), mkBlk (rev b ++ before) rest).
Proof.
  intros H N. destruct (conf_reads m b H) as (d & M & R & _). exists d. split; [exact M|].
  rewrite <- M, mname_mdoc in N. exact (R N 0%nat).
Qed.

(** a string with a 16 bit length *)
Lemma msgp_wide_refuted : exists d w' ops, wf_doc d /\ small_scopes d /\ write_events msgp_write msgp_init (events d) = Ok (w', ops) /\
  ~ mp_doc true (denote false d) (spec_out ops).
Proof.
  set (s := repeat 97 300). set (d := DVal [] (val_string s EUTF8)).
  exists d, msgp_init, (mp_write_str s). split; [apply (doc_check_spec (fun _ _ => true)); vm_compute; reflexivity|].
  split; [exact I|]. split; [vm_compute; reflexivity|].
  assert (E : spec_out (mp_write_str s) = 218 :: [44; 1] ++ s) by (vm_compute; reflexivity). rewrite E.
  assert (D : denote false d = MVal [] (MeStr s)) by (vm_compute; reflexivity). rewrite D. clear E D d. intros H.
  inversion H as [? ? ? Hv|]; subst. inversion Hv as [| | | | | | | | | | | | | | |? ? Hs| | |]; subst.
  apply mp_str_218 in Hs. apply (f_equal (hd 0)) in Hs. vm_compute in Hs. discriminate.
Qed.
