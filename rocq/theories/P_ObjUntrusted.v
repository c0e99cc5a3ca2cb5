(** Restoring objects from arbitrary bytes. *)
From Coq Require Import ZArith List Bool Lia ZifyBool ZifyNat.
From Verif Require Import Base Lemmas M_Types M_Conv M_Charset M_In S_Doc M_Event M_PSrl M_MsgPack M_Json M_Tree M_TreeIO M_Object M_ObjIO S_ObjIO S_ObjSafe
  P_In P_Safe P_PSrlSafe P_MsgPackSafe P_MsgPackMain P_JsonSafe P_TreeSafe P_ObjSafe P_Deliver.
Import ListNotations.
Open Scope Z_scope.

Lemma restore_items w t old F es u : well_made w t old -> Forall sound_event es ->
  erun (restore_prog F w t old) es = Some (UB u) -> mishap w t (map snd es) u.
Proof.
  intros (A & B & C & D & G & H) HE R.
  eapply (eok_run (fun e => sound_event e /\ In (snd e) (map snd es)) (mishap w t (map snd es))); [|idtac|exact R].
  - apply (restore_ok w t (map snd es)); auto.
  - apply Forall_forall. intros e He. split; [rewrite Forall_forall in HE; auto|now apply in_map].
Qed.

Lemma with_parser_ub {R} x F q (p : eprog R) b u : (forall s d, x_strtod x s = Some d -> 0 <= d < 2 ^ 64) -> parser_ok q -> wf_blk b ->
  run_block (with_parser x F q p) b = UB u ->
  (exists n, run_block (parse_items x F q n) b = UB u) \/
  (exists n q' es b', run_block (parse_items x F q n) b = Ok ((q', es), b') /\ Forall sound_event es /\ erun p es = Some (UB u)).
Proof.
  intros X OK W. unfold with_parser, parse_items. destruct q as [st|st|st]; cbn [parser_clear]; intros H; rewrite run_block_bind in H.
  all: destruct (run_block (ecomp _ p _) b) as [[[? ?] ?]| |v|] eqn:E; cbn [rbind run_block] in H; try discriminate H; injection H as <-.
  - apply (ecomp_ub psrl_read (fun _ => True)) in E; auto; [|intros; eapply gok_weaken; [apply g_psrl|]; auto].
    destruct E as [(n & E)|(n & st' & es & b' & E & S & Y)]; [left; exists n|right; exists n, (PsrlP st'), es, b'; split; [|auto]]; rewrite run_block_bind, E; reflexivity.
  - apply (ecomp_ub msgp_read (fun _ => True)) in E; auto; [|intros; eapply gok_weaken; [apply g_msgp|]; auto].
    destruct E as [(n & E)|(n & st' & es & b' & E & S & Y)]; [left; exists n|right; exists n, (MsgpP st'), es, b'; split; [|auto]]; rewrite run_block_bind, E; reflexivity.
  - apply (ecomp_ub (json_read x F) wf_bufs) in E; auto; [|intros; now apply g_json_read].
    destruct E as [(n & E)|(n & st' & es & b' & E & S & Y)]; [left; exists n|right; exists n, (JsonP st'), es, b'; split; [|auto]]; rewrite run_block_bind, E; reflexivity.
Qed.
Lemma with_parser_stream_ub {R} x F q (p : eprog R) b u : (forall s d, x_strtod x s = Some d -> 0 <= d < 2 ^ 64) -> parser_ok q -> wf_strm b ->
  run_stream (with_parser x F q p) b = UB u ->
  (exists n, run_stream (parse_items x F q n) b = UB u) \/
  (exists n q' es b', run_stream (parse_items x F q n) b = Ok ((q', es), b') /\ Forall sound_event es /\ erun p es = Some (UB u)).
Proof.
  intros X OK W. unfold with_parser, parse_items. destruct q as [st|st|st]; cbn [parser_clear]; intros H; rewrite run_stream_bind in H.
  all: destruct (run_stream (ecomp _ p _) b) as [[[? ?] ?]| |v|] eqn:E; cbn [rbind run_stream] in H; try discriminate H; injection H as <-.
  - apply (ecomp_stream_ub psrl_read (fun _ => True)) in E; auto; [|intros; eapply gok_weaken; [apply g_psrl|]; auto].
    destruct E as [(n & E)|(n & st' & es & b' & E & S & Y)]; [left; exists n|right; exists n, (PsrlP st'), es, b'; split; [|auto]]; rewrite run_stream_bind, E; reflexivity.
  - apply (ecomp_stream_ub msgp_read (fun _ => True)) in E; auto; [|intros; eapply gok_weaken; [apply g_msgp|]; auto].
    destruct E as [(n & E)|(n & st' & es & b' & E & S & Y)]; [left; exists n|right; exists n, (MsgpP st'), es, b'; split; [|auto]]; rewrite run_stream_bind, E; reflexivity.
  - apply (ecomp_stream_ub (json_read x F) wf_bufs) in E; auto; [|intros; now apply g_json_read].
    destruct E as [(n & E)|(n & st' & es & b' & E & S & Y)]; [left; exists n|right; exists n, (JsonP st'), es, b'; split; [|auto]]; rewrite run_stream_bind, E; reflexivity.
Qed.

(** what the parsers themselves run into *)
Lemma items_ub x F q n src u : wf_bytes src -> (length src < F)%nat -> run_block (parse_items x F q n) (set_block src) = UB u -> load_ub q src u.
Proof.
  intros W L. unfold parse_items. destruct q as [st|st|st]; cbn [parser_clear load_ub]; rewrite run_block_bind; intros H.
  all: destruct (run_block (read_events _ n _) (set_block src)) as [[[? ?] ?]| |v|] eqn:E; cbn [rbind run_block] in H; try discriminate H; injection H as <-.
  - pose proof (psrl_events_triple n (psrl_clear st) (set_block src)) as T. unfold triple in T. rewrite E in T. exact T.
  - destruct (msgp_outcome n (msgp_clear st) src [] W) as [X|(r & b & X)]; unfold set_block in E; rewrite X in E; discriminate E.
  - apply json_undefined in E; [|exact L]. destruct E as [-> |[-> (p & q & E)]]; [now left|]. right. split; [reflexivity|]. exists p, q. exact E.
Qed.

Lemma restore_untrusted w t old F q src u : well_made w t old -> parser_ok q -> wf_bytes src -> (length src < F)%nat ->
  run_block (restore_object (w_fp w) F w q t old) (set_block src) = UB u ->
  load_ub q src u \/
  (exists n q' es b, run_block (parse_items (w_fp w) F q n) (set_block src) = Ok ((q', es), b) /\ mishap w t (map snd es) u).
Proof.
  intros WM OK W L H. pose proof WM as (A & _). apply with_parser_ub in H; auto; [|split; [constructor|exact W]].
  destruct H as [(n & E)|(n & q' & es & b & E & S & R)]; [left; eapply items_ub; eauto|]. right. exists n, q', es, b. split; [exact E|]. eapply restore_items; eauto.
Qed.
Lemma restore_untrusted_stream w t old F q src u : well_made w t old -> parser_ok q -> wf_bytes src ->
  run_stream (restore_object (w_fp w) F w q t old) (set_stream src) = UB u ->
  (exists n, run_stream (parse_items (w_fp w) F q n) (set_stream src) = UB u) \/
  (exists n q' es b, run_stream (parse_items (w_fp w) F q n) (set_stream src) = Ok ((q', es), b) /\ mishap w t (map snd es) u).
Proof.
  intros WM OK W H. pose proof WM as (A & _). apply with_parser_stream_ub in H; auto; [|now apply wf_set_stream].
  destruct H as [(n & E)|(n & q' & es & b & E & S & R)]; [left; eauto|]. right. exists n, q', es, b. split; [exact E|]. eapply restore_items; eauto.
Qed.

Lemma harmless_mishap w t vs u : harmless w t -> ~ mishap w t vs u.
Proof.
  intros H [(p & v & P & _ & D)|[(_ & a & b & _ & [P|P] & _)|(b & v & P & _)]]; specialize (H _ P); cbn in H; try contradiction.
  destruct D; try contradiction H.
  - cbn in *. intuition congruence.
  - cbn in *. intuition congruence.
Qed.
Lemma restore_no_mishap w t old F st src u : well_made w t old -> (forall vs, ~ mishap w t vs u) -> wf_bytes src ->
  run_block (restore_object (w_fp w) F w (MsgpP st) t old) (set_block src) <> UB u /\
  run_stream (restore_object (w_fp w) F w (MsgpP st) t old) (set_stream src) <> UB u.
Proof.
  intros WM HM W. split; intros H.
  - pose proof WM as (A & _). apply with_parser_ub in H; auto; [|exact I|split; [constructor|exact W]].
    destruct H as [(n & E)|(n & q' & es & b & E & S & R)].
    + unfold parse_items in E. cbn [parser_clear] in E. rewrite run_block_bind in E. destruct (msgp_outcome n (msgp_clear st) src [] W) as [X|([? ?] & b & X)]; unfold set_block in E; rewrite X in E; discriminate E.
    + eapply HM, restore_items; eauto.
  - apply restore_untrusted_stream in H; auto; [|exact I]. destruct H as [(n & E)|(n & q' & es & b & E & M)]; [|now apply HM in M].
    unfold parse_items in E. cbn [parser_clear] in E. rewrite run_stream_bind in E. pose proof (msgp_stream_same n (msgp_clear st) src W) as SM.
    destruct (msgp_outcome n (msgp_clear st) src [] W) as [X|([? ?] & b & X)]; unfold set_block in SM; rewrite X in SM; [rewrite SM in E; discriminate E|].
    destruct SM as (s & SM). rewrite SM in E. discriminate E.
Qed.
Lemma restore_harmless w t old F st src u : well_made w t old -> harmless w t -> wf_bytes src ->
  run_block (restore_object (w_fp w) F w (MsgpP st) t old) (set_block src) <> UB u /\
  run_stream (restore_object (w_fp w) F w (MsgpP st) t old) (set_stream src) <> UB u.
Proof. intros WM HM W. apply restore_no_mishap; auto. intros vs. now apply harmless_mishap. Qed.

(** * Trees *)
Lemma from_values (V : value -> Prop) : forall n, Forall V (values_of n) -> from V n.
Proof.
  fix IH 1. intros [t vs ns] H. cbn [values_of] in H. apply Forall_app in H. destruct H as [A B]. constructor.
  - now rewrite Forall_map in A.
  - induction ns as [|q ns IHn]; constructor; apply Forall_app in B; [apply IH, B|apply IHn, B].
Qed.
Lemma unwrap_tree w t old F n u : well_made w t old -> Forall wf_value (values_of n) ->
  unwrap_prog F w t old n rs_new = EUndef u -> mishap w t (values_of n) u.
Proof.
  intros (A & B & C & D & G & H) HV R.
  refine (eok_run (fun e => sound_event e /\ In (snd e) (values_of n)) (mishap w t (values_of n)) (unwrap_prog F w t old n rs_new) (fun _ => True) _ [] u (Forall_nil _) _); [|rewrite R; reflexivity].
  apply (unwrap_ok w t (values_of n)); auto; [|apply rinv_new]. apply from_values. apply Forall_forall. intros v Hv. split; [exact Hv|]. rewrite Forall_forall in HV. auto.
Qed.
