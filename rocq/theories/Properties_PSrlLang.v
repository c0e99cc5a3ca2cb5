(** C80: the byte sequences PSrl takes for documents, exactly. *)
From Coq Require Import ZArith List Bool Lia.
From Verif Require Import Base M_Types M_Conv M_In S_Doc M_Event S_MsgPack S_PSrl M_PSrl S_MsgPackLang S_PSrlLang M_Tree S_Tree M_TreeIO P_PSrlLang Properties_Charset.
Import ListNotations.
Open Scope Z_scope.

(** Full statement: what loads is what PSrl writes for some document, and numbers load as what their digits say.  False:
    the number 1 written with a superfluous digit loads, *)
Theorem C80_unwritten_refuted : exists src p n, (forall x, run_block (load_tree x 10 (PsrlP psrl_init)) (set_block src) = Ok ((p, ([], n)), mkBlk (rev src) [])) /\
  mdoc_of (tree_doc [] n) = MScope [] TArray [MVal [] (MeInt 1)] /\
  forall d, wf_doc d -> all_vals (fun _ v => meaning_of v <> MeInt (- 2 ^ 63)) d -> Z.of_nat (length (events d)) < 2 ^ 63 -> layout [] [] (events d) <> src.
Proof. exists [128; 1; 129; 0; 0]. eexists _, _. split; [intros x; vm_compute; reflexivity|]. split; [reflexivity|]. exact overlong_unwritten. Qed.
(** a number of more than 64 bits loads as another one, *)
Theorem C80_overflow_refuted : exists m bs p n, 2 ^ 64 < m /\ digits m bs /\
  (forall x, run_block (load_tree x 10 (PsrlP psrl_init)) (set_block ([128; 1] ++ bs ++ [0])) = Ok ((p, ([], n)), mkBlk (rev ([128; 1] ++ bs ++ [0])) [])) /\
  mdoc_of (tree_doc [] n) = MScope [] TArray [MVal [] (MeInt 5)].
Proof.
  exists (2 ^ 64 + 5), [133; 128; 128; 128; 128; 128; 128; 128; 128; 2]. eexists _, _. split; [lia|].
  split; [|split; [intros x; vm_compute; reflexivity|reflexivity]].
  assert (Z : forall n bs, digits n bs -> digits (128 * n) (128 :: bs)). { intros n bs H. pose proof (DMore 128 n bs ltac:(lia) H) as X. now replace (128 - 128 + 128 * n) with (128 * n) in X by lia. }
  replace (2 ^ 64 + 5) with (133 - 128 + 128 * (128 * (128 * (128 * (128 * (128 * (128 * (128 * (128 * 2))))))))) by reflexivity.
  apply DMore; [lia|]. do 8 apply Z. apply DLast. lia.
Qed.
(** and a number marked as negative is positive. *)
Theorem C80_sign_refuted : exists m bs p n, 0 < m < 2 ^ 64 /\ digits m bs /\
  (forall x, run_block (load_tree x 10 (PsrlP psrl_init)) (set_block ([128; 9] ++ bs ++ [0])) = Ok ((p, ([], n)), mkBlk (rev ([128; 9] ++ bs ++ [0])) [])) /\
  mdoc_of (tree_doc [] n) = MScope [] TArray [MVal [] (MeInt 1)].
Proof.
  exists (2 ^ 64 - 1), [255; 255; 255; 255; 255; 255; 255; 255; 255; 1]. eexists _, _. split; [lia|].
  split; [|split; [intros x; vm_compute; reflexivity|reflexivity]].
  replace (2 ^ 64 - 1) with (255 - 128 + 128 * (255 - 128 + 128 * (255 - 128 + 128 * (255 - 128 + 128 * (255 - 128 + 128 * (255 - 128 + 128 * (255 - 128 + 128 * (255 - 128 + 128 * (255 - 128 + 128 * 1))))))))) by reflexivity.
  do 9 (apply DMore; [lia|]). apply DLast. lia.
Qed.
Print Assumptions C80_unwritten_refuted.
Print Assumptions C80_overflow_refuted.
Print Assumptions C80_sign_refuted.

(** What loads is in the language of [ps_doc], loads as what that says, and nothing behind it is looked at. *)
Theorem C80_loaded : forall x F st src r b, wf_bytes src -> run_block (load_tree x F (PsrlP st)) (set_block src) = Ok (r, b) ->
  exists d tab bs, is_root (mdoc_of d) /\ r = (PsrlP (mkPsrl TNull [] tab []), ([], doc_node d)) /\ src = bs ++ b_rest b /\
    ps_doc TNull [] (mdoc_of d) tab bs /\ (depth d <= 129)%nat.
Proof.
  intros x F st src r b W E. destruct (ps_sound x F st src r b W E) as (t & its & tab & bs & R & S & P & _ & D).
  exists (DScope [] t its), tab, bs. split; [exact I|]. auto.
Qed.
(** Everything in the language loads, unless it is nested too deeply; what follows is left. *)
Theorem C80_read : forall x st m tab bs, ps_doc TNull [] m tab bs -> is_root m ->
  exists d, mdoc_of d = m /\ forall F rest, (length (events d) <= F)%nat ->
    run_block (load_tree x F (PsrlP st)) (set_block (bs ++ rest)) =
      if Nat.leb (depth d) 129 then Ok ((PsrlP (mkPsrl TNull [] tab []), ([], doc_node d)), mkBlk (rev bs) rest) else Err.
Proof. exact ps_complete. Qed.
(** Bytes have one reading at most, and no document is the beginning of another. *)
Theorem C80_one_reading : forall m m' tab tab' bs bs' rest rest', ps_doc TNull [] m tab bs -> ps_doc TNull [] m' tab' bs' ->
  bs ++ rest = bs' ++ rest' -> m = m' /\ bs = bs' /\ tab = tab'.
Proof. exact ps_one_reading. Qed.
(** Everything else is rejected with an exception or is undefined behaviour of one of four kinds (C20). *)
Theorem C80_rejected : forall x F st src, wf_bytes src -> (2 * length src < F)%nat ->
  (forall m tab bs rest, src = bs ++ rest -> ps_doc TNull [] m tab bs -> ~ is_root m) ->
  run_block (load_tree x F (PsrlP st)) (set_block src) = Err \/
  exists u, run_block (load_tree x F (PsrlP st)) (set_block src) = UB u /\ In u [UbEnd; UbShift; UbPtr; UbSigned].
Proof. exact ps_reject. Qed.
(** What PSrl writes is in the language. *)
Theorem C80_written : forall d, wf_doc d -> all_vals (fun _ v => meaning_of v <> MeInt (- 2 ^ 63)) d -> Z.of_nat (length (events d)) < 2 ^ 63 ->
  exists tab, ps_doc TNull [] (denote false d) tab (layout [] [] (events d)).
Proof. exact written_lang. Qed.
Print Assumptions C80_loaded.
Print Assumptions C80_read.
Print Assumptions C80_one_reading.
Print Assumptions C80_rejected.
Print Assumptions C80_written.
(** {"a": [null, "x"], "a": 7}: the second "a" is a reference; the null in the Array has superfluous bits; the length of the text has a superfluous digit; a byte is left *)
Example C80_ex : forall x, exists d p, mdoc_of d = MScope [] TObject [MScope ($"a") TArray [MVal [] MeNull; MVal [] (MeStr ($"x"))]; MVal ($"a") (MeInt 7)] /\
  run_block (load_tree x 10 (PsrlP psrl_init)) (set_block [64; 130; 1; 97; 14; 32; 129; 0; 120; 0; 7; 0; 7; 0; 99]) =
  Ok ((p, ([], doc_node d)), mkBlk (rev [64; 130; 1; 97; 14; 32; 129; 0; 120; 0; 7; 0; 7; 0]) [99]).
Proof.
  intros x. exists (DScope [] TObject [DScope ($"a") TArray [DVal [] (val_type TNull); DVal [] (val_block_enc ($"x") TString EUTF8)]; DVal ($"a") (val_int TUI64 7)]). eexists. split; vm_compute; reflexivity.
Qed.
Example C80_ex_in : ps_doc TNull [] (MScope [] TObject [MScope ($"a") TArray [MVal [] MeNull; MVal [] (MeStr ($"x"))]; MVal ($"a") (MeInt 7)]) [$"a"]
  [64; 130; 1; 97; 14; 32; 129; 0; 120; 0; 7; 0; 7; 0].
Proof.
  assert (D : forall n, 0 <= n < 128 -> ps_num n [n]). { intros n N. exists n. split; [now apply DLast|]. split; [cbn; lia|]. now rewrite Z.mod_small by lia. }
  apply (PSscope TNull [] 64 [] _ [] [$"a"] [] [130; 1; 97; 14; 32; 129; 0; 120; 0; 7; 0; 7]); [lia|reflexivity|reflexivity|apply PSnone; now left|].
  apply (PSitem TObject [] _ _ [$"a"] [$"a"] [130; 1; 97; 14; 32; 129; 0; 120; 0] [7; 0; 7]).
  - apply (PSscope TObject [] 130 ($"a") _ [$"a"] [$"a"] [1; 97] [14; 32; 129; 0; 120]); [lia|reflexivity|reflexivity| |].
    + apply (PSnew TObject [] 130 ($"a") [1; 97]); try reflexivity. exists [1]. split; [apply D; lia|]. split; reflexivity.
    + apply (PSitem TArray _ _ _ [$"a"] _ [14] [32; 129; 0; 120]).
      * apply (PSval TArray [$"a"] 14 [] MeNull [$"a"] [] []); [lia|apply PSnone; now left|now apply PSnull].
      * apply (PSitem TArray _ _ _ [$"a"] _ [32; 129; 0; 120] []); [|apply PSend].
        apply (PSval TArray [$"a"] 32 [] (MeStr ($"x")) [$"a"] [] [129; 0; 120]); [lia|apply PSnone; now left|].
        apply (PSstr 32 ($"x")); try reflexivity. exists [129; 0]. split; [|split; reflexivity]. exists 1. split; [apply (DMore 129 0); [lia|apply DLast; lia]|]. split; [cbn; lia|reflexivity].
  - apply (PSitem TObject _ _ _ [$"a"] _ [7; 0; 7] []); [|apply PSend].
    apply (PSval TObject [$"a"] 7 ($"a") (MeInt 7) [$"a"] [0] [7]); [lia| |apply PSnat; try reflexivity; apply D; lia].
    apply (PSindex TObject [$"a"] 7 0); try reflexivity. apply D. lia.
Qed.
(** refused: a name that was not seen before, no kind at all, a scalar as root *)
Example C80_ex_rejected : forall x, Forall (fun src => run_block (load_tree x 40 (PsrlP psrl_init)) (set_block src) = Err) [[64; 7; 0; 7; 0]; [128; 4; 0]; [1; 7]; []].
Proof. intros x. repeat constructor. Qed.
