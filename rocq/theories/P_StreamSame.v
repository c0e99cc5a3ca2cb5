(** What memory yields, a stream yields as well, for any reading and any parser. *)
From Coq Require Import ZArith List Bool Lia ZifyBool ZifyNat.
From Verif Require Import Base Lemmas M_Types M_Conv M_Charset S_Conv S_Doc M_OutOps M_Event M_Env M_Json M_PSrl M_MsgPack M_Tree M_TreeIO M_Object M_ObjIO S_ObjIO S_JsonStream S_Stream
  P_Reads P_Safe P_PSrlSafe P_MsgPackSafe P_Exact P_TreeSafe P_JsonStream P_StreamOnly.
From Verif Require Import M_In P_In.
Import ListNotations.
Open Scope Z_scope.

Lemma agrees_ecomp_json {R} x F : forall (p : eprog R) st b g, free b g -> short_literals (b_rest b) ->
  agrees (ecomp (json_read x F) p st) b g (fun _ b' g' => tail b b' /\ free b' g').
Proof.
  induction p as [r| |u| |k IH]; intros st b g Fr Sh; cbn [ecomp]; [apply agrees_ret; split; [apply tail_refl|auto]|apply agrees_fail; discriminate..|].
  apply agrees_bind. eapply agrees_conseq; [now apply agrees_loop|]. intros [st1 e] b1 g1 [T1 F1].
  eapply agrees_conseq; [apply IH; [auto|eapply short_tail; eauto]|]. intros ? b2 g2 [T2 F2]. split; [eapply tail_trans; eauto|auto].
Qed.
Definition short_items (st : psrl) (b : blk) : Prop :=
  forall n r b', run_block (read_events psrl_read n st) b = Ok (r, b') -> Forall (fun e => zlen (fst e) < 1024) (snd r).
Lemma short_items_next st b st1 e b1 : short_items st b -> run_block (psrl_read st) b = Ok ((st1, e), b1) -> zlen (fst e) < 1024 /\ short_items st1 b1.
Proof.
  intros H E. split.
  - specialize (H 1%nat (st1, [e]) b1). cbn [read_events] in H. rewrite run_block_bind, E in H. cbn [rbind] in H. specialize (H eq_refl). now inversion H.
  - intros n [st2 es] b2 E2. specialize (H (S n) (st2, e :: es) b2). cbn [read_events] in H. rewrite run_block_bind, E in H. cbn [rbind] in H.
    rewrite run_block_bind, E2 in H. cbn [rbind] in H. specialize (H eq_refl). now inversion H.
Qed.
Lemma psrl_ecomp_ghost {R} : forall (p : eprog R) st b g r b', g_lit g = None -> short_items st b -> run_block (ecomp psrl_read p st) b = Ok (r, b') ->
  exists g', run_ghost (ecomp psrl_read p st) b g = Some (r, b', g') /\ g_lit g' = None.
Proof.
  induction p as [v| |u| |k IH]; intros st b g r b' L Sh E; cbn [ecomp] in *; try discriminate.
  - injection E as <- <-. exists g. auto.
  - apply run_bind_inv in E. destruct E as ([st1 e] & b1 & E1 & E2). destruct (short_items_next _ _ _ _ _ Sh E1) as [N1 Sh1].
    destruct (psrl_read_ghost st b g _ _ L E1 N1) as (g1 & G1 & L1). destruct (IH e st1 b1 g1 _ _ L1 Sh1 E2) as (g2 & G2 & L2).
    exists g2. split; [|exact L2]. rewrite run_ghost_bind, G1. exact G2.
Qed.
Lemma memory_then_stream {R} x F q (p : eprog R) src r b : streamable x F q src ->
  run_block (with_parser x F q p) (set_block src) = Ok (r, b) -> exists s, run_stream (with_parser x F q p) (set_stream src) = Ok (r, s).
Proof.
  intros St E. unfold with_parser in *. destruct q as [st|st|st]; cbn [parser_clear streamable] in *.
  - apply run_bind_inv in E. destruct E as ([st1 v] & b1 & E1 & E2). injection E2 as <- <-.
    assert (Sh : short_items (psrl_clear st) (set_block src)).
    { intros n [st2 es] b2 E2. apply (St n (PsrlP st2) es b2). unfold parse_items. cbn [parser_clear]. rewrite run_block_bind, E2. reflexivity. }
    destruct (psrl_ecomp_ghost p (psrl_clear st) (set_block src) ghost0 _ _ eq_refl Sh E1) as (g & G & _).
    destruct (stream_eq_block _ _ _ _ _ _ G) as (_ & s & Es). exists s. rewrite run_stream_bind, Es. reflexivity.
  - pose proof (exact_final _ _ src (ecomp_exact msgp_read e_read p (msgp_clear st)) St) as X.
    apply run_bind_inv in E. destruct E as ([st1 v] & b1 & E1 & E2). injection E2 as <- <-. unfold set_block in *. rewrite E1 in X. destruct X as (s & Es).
    exists s. rewrite run_stream_bind, Es. reflexivity.
  - apply run_bind_inv in E. destruct E as ([st1 v] & b1 & E1 & E2). injection E2 as <- <-.
    destruct (agrees_ecomp_json x F p (json_clear st) (set_block src) (mkGhost (Nat.min 1 (length src)) 0 None)) with (3 := E1) as (g & G & _); auto.
    { split; [reflexivity|]. unfold ready. cbn [set_block b_rest g_vis]. lia. }
    destruct (ghost_stream _ _ _ _ _ _ _ _ (rel_start src) G) as (s & Es & _). exists s. rewrite run_stream_bind, Es. reflexivity.
Qed.
