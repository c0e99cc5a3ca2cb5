(** Loading and restoring from arbitrary bytes, in memory or in a stream, comes to an end. *)
From Coq Require Import ZArith List Bool Lia ZifyBool ZifyNat.
From Verif Require Import Base Lemmas M_Types M_Conv M_Charset M_In S_Doc M_Event M_PSrl M_MsgPack M_Json M_Tree M_TreeIO M_Object M_ObjIO S_ObjIO S_ObjSafe S_ObjEnd
  P_In P_TreeSafe P_ObjSafe P_Deliver P_ObjUntrusted P_ObjEnd P_Steps P_Fuel.
Import ListNotations.
Open Scope nat_scope.

Lemma ecomp_pend {St R} (rd : St -> prog (St * event)) (J : St -> Prop) (mu : nat -> St -> nat) B :
  (forall st N, J st -> N <= B -> pend N (rd st) (fun m r => mu m (fst r) < mu N st /\ J (fst r) /\ good r)) ->
  forall (p : eprog R) st N K, J st -> N <= B -> mu N st <= K -> eend K p (fun _ _ => True) -> pend N (ecomp rd p st) (fun _ _ => True).
Proof.
  intros T. induction p as [r| |u| |k IH]; intros st N K HJ HB L E; cbn [ecomp pend eend] in *; auto.
  apply pend_bind. eapply pend_weaken; [apply T; auto|]. cbv beta. intros m [st1 e] Lm (L1 & J1 & G). cbn [fst] in L1, J1. destruct K as [|K]; [lia|].
  eapply IH; [exact J1|lia| |apply E; exact G]. lia.
Qed.
Lemma with_parser_pend {R} x F q (p : eprog R) N : (forall s d, x_strtod x s = Some d -> (0 <= d < 2 ^ 64)%Z) -> parser_ok q -> N < F ->
  eend (2 * N) p (fun _ _ => True) -> pend N (with_parser x F q p) (fun _ _ => True).
Proof.
  intros X OK L E. unfold with_parser. destruct q as [st|st|st]; cbn [parser_clear]; apply pend_bind; (eapply pend_weaken; [|intros m [s r] _ _; exact I]).
  - apply (ecomp_pend psrl_read (fun _ => True) (fun N _ => N) N) with (K := 2 * N); auto; [|lia]. intros s M _ _. eapply pend_weaken; [apply pend_gok; [apply p_psrl|apply g_psrl]|]. cbv beta. tauto.
  - apply (ecomp_pend msgp_read (fun _ => True) deep N) with (K := 2 * N); auto; [|unfold deep; cbn; lia]. intros s M _ _. eapply pend_weaken; [apply pend_gok; [apply p_msgp|apply g_msgp]|]. cbv beta. tauto.
  - apply (ecomp_pend (json_read x F) wf_bufs (fun N _ => N) N) with (K := 2 * N); auto; [|lia]. intros s M J LM. eapply pend_weaken; [apply pend_gok; [apply p_json; lia|now apply g_json_read]|]. cbv beta. tauto.
Qed.
Lemma sleft_set src : wf_bytes src -> sleft (set_stream src) = length src.
Proof.
  intros W. unfold set_stream. destruct (fetch 0 1 (mkStrm [] 0 None src false)) as [ok s'] eqn:E. apply fetch_left in E; [exact E|].
  split; [constructor|]. split; [exact W|]. split; [apply Nat.le_refl|exact I].
Qed.
Lemma settles_both {R} x q (p : nat -> eprog R) src b : (forall s d, x_strtod x s = Some d -> (0 <= d < 2 ^ 64)%Z) -> parser_ok q -> wf_bytes src -> length src < b ->
  (forall F F', F <= F' -> emore (p F) (p F')) -> (forall F, b <= F -> eend (2 * length src) (p F) (fun _ _ => True)) ->
  settles (fun F => run_block (with_parser x F q (p F)) (set_block src)) b /\ settles (fun F => run_stream (with_parser x F q (p F)) (set_stream src)) b.
Proof.
  intros X OK W L M E. assert (P : forall F, b <= F -> pend (length src) (with_parser x F q (p F)) (fun _ _ => True)) by (intros F LF; apply with_parser_pend; auto; lia).
  assert (WB : wf_blk (set_block src)) by (split; [constructor|exact W]).
  pose proof (P b (Nat.le_refl b)) as PB.
  assert (NB : run_block (with_parser x b q (p b)) (set_block src) <> Fuel) by (intros N; pose proof (pend_block _ _ _ _ PB WB (Nat.le_refl _)) as T; now rewrite N in T).
  assert (NS : run_stream (with_parser x b q (p b)) (set_stream src) <> Fuel) by (intros N; pose proof (pend_stream _ _ _ _ PB (wf_set_stream src W) ltac:(rewrite sleft_set; auto)) as T; now rewrite N in T).
  split; [exists (run_block (with_parser x b q (p b)) (set_block src))|exists (run_stream (with_parser x b q (p b)) (set_stream src))]; (split; [assumption|]); intros F LF.
  - apply pm_block; [apply m_parser; auto|exact NB].
  - apply pm_stream; [apply m_parser; auto|exact NS].
Qed.

Lemma load_end F N : N < F -> eend N (load_prog F) (fun _ _ => True).
Proof.
  intros L. unfold load_prog. cbn [eend]. destruct N as [|N]; [exact I|]. intros [name v] _. destruct (negb _); [exact I|]. apply eend_bind. eapply eend_weaken; [apply read_source_end; [lia|apply from_none]|]. intros; exact I.
Qed.
Lemma load_settles x q src : (forall s d, x_strtod x s = Some d -> (0 <= d < 2 ^ 64)%Z) -> parser_ok q -> wf_bytes src ->
  settles (fun F => run_block (load_tree x F q) (set_block src)) (2 * length src + 1) /\ settles (fun F => run_stream (load_tree x F q) (set_stream src)) (2 * length src + 1).
Proof.
  intros X OK W. apply (settles_both x q load_prog src); auto; [lia|apply m_load|]. intros F LF. apply load_end. lia.
Qed.
Lemma restore_settles w t h old q src : bounded w t h -> (forall s d, x_strtod (w_fp w) s = Some d -> (0 <= d < 2 ^ 64)%Z) -> parser_ok q -> wf_bytes src ->
  settles (fun F => run_block (restore_object (w_fp w) F w q t old) (set_block src)) ((2 * length src + 2) * (h + 2)) /\
  settles (fun F => run_stream (restore_object (w_fp w) F w q t old) (set_stream src)) ((2 * length src + 2) * (h + 2)).
Proof.
  intros (A & B & C) X OK W. apply (settles_both (w_fp w) q (fun F => restore_prog F w t old) src); auto; [lia|intros; now apply m_restore|].
  intros F LF. apply (restore_end w t h); auto.
Qed.

(** * Taking an object out of a tree reads nothing *)
Definition quiet {A} (p : eprog A) (Q : A -> Prop) : Prop := match p with ERet a => Q a | ERead _ => False | _ => True end.
Lemma q_bind {A B} (p : eprog A) (f : A -> eprog B) (Q : A -> Prop) R : quiet p Q -> (forall a, Q a -> quiet (f a) R) -> quiet (ebind p f) R.
Proof. destruct p; cbn; auto; contradiction. Qed.
Lemma q_lift {A} (r : res A) (Q : A -> Prop) : (forall a, r = Ok a -> Q a) -> quiet (elift r) Q.
Proof. destruct r; cbn; auto. Qed.
Definition kept3 {A} (r : A * lnode * rstate) : Prop := l_parsed (snd (fst r)) = true.
Section Quiet.
Variable w : world.
Variable pn : ct -> cv -> lnode -> rstate -> eprog (cv * lnode * rstate).
Hypothesis PN : forall t old n s, l_parsed n = true -> quiet (pn t old n s) kept3.
Variable F : nat.
Lemma q_value id n : l_parsed n = true -> quiet (field_value F id n) (fun r => l_parsed (snd r) = true).
Proof. intros H. unfold field_value. rewrite H. eapply q_bind; [apply (q_lift _ (fun _ => True)); auto|]. intros c _. exact H. Qed.
Lemma q_field t id old n s : l_parsed n = true -> quiet (paste_field w pn F t id old n s) kept3.
Proof.
  intros H. unfold paste_field. destruct (scoped t).
  - unfold field_node. rewrite H. eapply (q_bind _ _ (fun r => l_parsed (fst r) = true /\ l_parsed (snd r) = true)); [eapply q_bind; [apply (q_lift _ (fun _ => True)); auto|]; cbn; auto|].
    intros [c n'] [A B]. eapply q_bind; [apply PN, A|]. intros [[v c'] s'] _. exact B.
  - unfold field_value. rewrite H. eapply (q_bind _ _ (fun r => l_parsed (snd r) = true)); [eapply q_bind; [apply (q_lift _ (fun _ => True)); auto|]; cbn; auto|].
    intros [[v b] n'] A. eapply q_bind; [apply (q_lift _ (fun _ => True)); auto|]. intros x _. exact A.
Qed.
Lemma q_fields : forall fs olds n s vi ni, l_parsed n = true -> quiet (paste_fields w pn F fs olds n s vi ni) kept3.
Proof.
  induction fs as [|f fs IH]; intros [|old olds] n s vi ni H; try exact I; try exact H. cbn [paste_fields].
  eapply (q_bind _ _ (fun r => l_parsed (snd r) = true)).
  - destruct (f_opt f); [|exact H]. unfold has_field. rewrite H. eapply q_bind; [apply (q_lift _ (fun _ => True)); auto|]. intros b _. exact H.
  - intros [b n'] A. cbn [fst snd] in *. destruct (negb b).
    + eapply q_bind; [apply IH, A|]. intros [[vs n2] s2] B. exact B.
    + eapply q_bind; [apply q_field, A|]. intros [[v n1] s1] B. eapply q_bind; [apply IH, B|]. intros [[vs n2] s2] C. exact C.
Qed.
Lemma q_each {A B} (f : bytes * A -> B -> rstate -> eprog (B * rstate)) : (forall a acc s, quiet (f a acc s) (fun _ => True)) -> forall l acc s, quiet (each_stored f l acc s) (fun _ => True).
Proof. intros H. induction l as [|a l IH]; intros acc s; [exact I|]. cbn [each_stored]. eapply q_bind; [apply H|]. intros; apply IH. Qed.
Lemma q_item {B} sc (fv : bytes * value -> B -> rstate -> eprog (B * rstate)) (fn : bytes * lnode -> B -> rstate -> eprog (B * lnode * rstate)) acc n s :
  (forall a acc s, quiet (fv a acc s) (fun _ => True)) -> (forall a acc s, l_parsed (snd a) = true -> quiet (fn a acc s) kept3) -> l_parsed n = true -> quiet (each_item F sc fv fn acc n s) kept3.
Proof.
  intros HV HN H. unfold each_item. rewrite H. eapply q_bind; [|intros r _; exact H]. destruct sc; apply q_each; [|exact HV].
  intros a b t. eapply q_bind; [apply HN; reflexivity|]. intros; exact I.
Qed.
Lemma q_array {A} (f : cv -> bytes * A -> rstate -> eprog (cv * rstate)) : (forall o a s, quiet (f o a s) (fun _ => True)) -> forall olds l s, quiet (array_stored f olds l s) (fun _ => True).
Proof. intros H. induction olds as [|o olds IH]; intros [|a l] s; try exact I. cbn [array_stored]. eapply q_bind; [apply H|]. intros [v s'] _. eapply q_bind; [apply IH|]. intros; exact I. Qed.
Lemma q_step t old n s : l_parsed n = true -> quiet (paste_step w pn F t old n s) kept3.
Proof.
  intros H.
  assert (M : forall fs old n s vi mk, l_parsed n = true -> quiet (match old with VList olds => ebind (paste_fields w pn F fs olds n s vi 0) (fun r => let '(vs, n', s') := r in ERet (mk vs, n', s')) | _ => @EThrow (cv * lnode * rstate) end) kept3).
  { intros fs o n1 s1 vi mk A. destruct o; try exact I. eapply q_bind; [apply q_fields, A|]. intros [[ys n'] s'] B. exact B. }
  assert (EV : forall B (add : cv -> B -> B) e a acc s, quiet (elem_value w add e a acc s) (fun _ => True)).
  { intros. unfold elem_value. eapply q_bind; [apply (q_lift _ (fun _ => True)); auto|]. intros; exact I. }
  assert (EN : forall B (add : cv -> B -> B) e (a : bytes * lnode) acc s, l_parsed (snd a) = true -> quiet (elem_node w pn add e a acc s) kept3).
  { intros B add e a acc s1 A. unfold elem_node. eapply q_bind; [apply PN, A|]. intros [[v c] s2] C. exact C. }
  assert (SH : forall e, quiet (paste_step w pn F (CShared e) old n s) kept3).
  { intros e. cbn [paste_step]. eapply q_bind; [apply q_field, H|]. intros [[k n1] s1] A. destruct k; try exact I. destruct (find_key _ _) as [a|]; [destruct (nth_error _ _) as [[u q]|]; [destruct (ct_eqb u e)|]; try exact I; exact A|].
    eapply q_bind; [apply q_field, A|]. intros [[x n2] s2] B. exact B. }
  destruct t; try exact I; try exact (SH _); cbn [paste_step].
  all: try (destruct (negb _); [exact I|]).
  all: try exact (M _ _ _ _ _ _ H).
  all: try (eapply q_bind; [apply PN, H|]; intros [[x n1] s1] A; exact A).
  - eapply q_bind; [apply q_item; [apply EV|apply EN|exact H]|]. intros [[vs n1] s1] A. exact A.
  - eapply q_bind; [apply q_item; [apply EV|apply EN|exact H]|]. intros [[vs n1] s1] A. exact A.
  - eapply q_bind; [apply q_item; [intros; exact I| |exact H]|].
    + intros a acc s1 A. unfold elem_entry. eapply q_bind; [apply q_field, A|]. intros [[key c1] s2] B. eapply q_bind; [apply q_field, B|]. intros [[val c2] s3] C. exact C.
    + intros [[vs n1] s1] A. exact A.
  - eapply q_bind; [apply q_item; [| |exact H]|].
    + intros a acc s1. unfold entry_value. eapply q_bind; [apply (q_lift _ (fun _ => True)); auto|]. intros; exact I.
    + intros a acc s1 A. unfold entry_node. eapply q_bind; [apply PN, A|]. intros [[v c] s2] C. exact C.
    + intros [[vs n1] s1] A. exact A.
  - destruct old as [| |olds| | | | | |]; try exact I. destruct (negb _); [exact I|]. rewrite H. destruct (scoped t); (destruct (negb _); [exact I|]); (eapply q_bind; [apply q_array|intros r _; exact H]); intros o a s1.
    + eapply q_bind; [apply PN; reflexivity|]. intros; exact I.
    + eapply q_bind; [apply (q_lift _ (fun _ => True)); auto|]. intros; exact I.
  - destruct old as [| |[|oa [|ob [|]]]| | | | | |]; try exact I. eapply q_bind; [apply q_field, H|]. intros [[x n1] s1] A. eapply q_bind; [apply q_field, A|]. intros [[y n2] s2] B. exact B.
  - eapply q_bind; [apply q_value, H|]. intros [[v copied] n1] A. cbn [snd] in A. destruct (_ && _); [exact I|]. destruct (_ && _); [exact I|]. eapply q_bind; [apply (q_lift _ (fun _ => True)); auto|].
    intros [c|] _; [|exact I]. exact (M _ _ _ _ _ _ A).
Qed.
End Quiet.
Lemma q_node w : forall F t old n s, l_parsed n = true -> quiet (paste_node F w t old n s) kept3.
Proof. induction F as [|f IH]; intros t old n s H; [exact I|]. cbn [paste_node]. apply q_step; auto. Qed.
Lemma unwrap_quiet w F t old n s : quiet (unwrap_prog F w t old n s) (fun _ => True).
Proof.
  unfold unwrap_prog. eapply (q_bind _ _ kept3); [|intros r _; exact I]. destruct (scoped t); [now apply q_node|]. apply q_field; [|reflexivity]. intros. now apply q_node.
Qed.
Lemma unwrap_settles w t h old n : bounded w t h -> Forall wf_value (values_of n) ->
  exists r, r <> Fuel /\ forall F, (tree_size n + 3) * (h + 2) <= F -> unwrap_prog F w t old n rs_new = elift r.
Proof.
  intros (A & B & C) V. set (b := (tree_size n + 3) * (h + 2)). pose proof (unwrap_quiet w b t old n rs_new) as Q.
  pose proof (unwrap_end w t h A B C b old n rs_new (from_values _ _ V) (Nat.le_refl _)) as E.
  exists (match unwrap_prog b w t old n rs_new with ERet a => Ok a | EThrow => Err | EUndef u => UB u | _ => Fuel end). split.
  - destruct (unwrap_prog b w t old n rs_new); cbn in E, Q; try discriminate; contradiction.
  - intros F L. pose proof (m_unwrap w b F t old n rs_new L) as M. destruct M; cbn in E, Q; try contradiction; reflexivity.
Qed.
