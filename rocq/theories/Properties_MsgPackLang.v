(** C79: the byte sequences PMsgPack takes for documents, exactly. *)
From Coq Require Import ZArith List Bool Lia.
From Verif Require Import Base M_Types M_Conv M_In S_Doc M_Event S_MsgPack M_MsgPack S_MsgPackLang M_Tree S_Tree M_TreeIO P_MsgPackLang Properties_Charset.
Import ListNotations.
Open Scope Z_scope.

(** Full statement: what loads is MessagePack, and loads as what it says.  False:
    an unused byte is a number, *)
Theorem C79_unused_byte_refuted : exists src p n b, (forall x, run_block (load_tree x 10 (MsgpP msgp_init)) (set_block src) = Ok ((p, ([], n)), b)) /\
  mdoc_of (tree_doc [] n) = MScope [] TArray [MVal [] (MeInt (-31))] /\ forall m bs rest, src = bs ++ rest -> ~ mp_doc true m bs.
Proof. exists [145; 193]. eexists _, _, _. split; [intros x; vm_compute; reflexivity|]. split; [reflexivity|]. intros m bs rest. apply not_msgpack_193. Qed.
(** {300: 2} is no document, for its key is no string; it loads as {"": 1}, *)
Theorem C79_other_key_refuted : exists src p n b, (forall x, run_block (load_tree x 10 (MsgpP msgp_init)) (set_block src) = Ok ((p, ([], n)), b)) /\
  mdoc_of (tree_doc [] n) = MScope [] TObject [MVal [] (MeInt 1)] /\ forall m bs rest, src = bs ++ rest -> ~ mp_doc true m bs.
Proof. exists [129; 205; 1; 44; 2]. eexists _, _, _. split; [intros x; vm_compute; reflexivity|]. split; [reflexivity|]. intros m bs rest. apply not_msgpack_key. Qed.
(** and the same bytes are one document in MessagePack and another, just as long, for PMsgPack. *)
Theorem C79_two_readings_refuted : exists src m p n, mp_doc true m src /\
  (forall x, run_block (load_tree x 10 (MsgpP msgp_init)) (set_block src) = Ok ((p, ([], n)), mkBlk (rev src) [])) /\ mdoc_of (tree_doc [] n) <> m.
Proof.
  set (s := 97 :: 196 :: 254 :: repeat 120 253). exists (146 :: 218 :: 1 :: 0 :: s ++ [192]), (MScope [] TArray [MVal [] (MeStr s); MVal [] MeNull]).
  eexists _, _. split; [|split; [intros x; vm_compute; reflexivity|discriminate]].
  change (146 :: 218 :: 1 :: 0 :: s ++ [192]) with ([146] ++ (218 :: be 2 (zlen s) ++ s) ++ [192] ++ []).
  apply MPscope; [apply (MPfixarray 2); lia|]. apply MPitem; [reflexivity| |].
  - apply MPval, MPstr. apply MPstr16; [reflexivity|vm_compute; reflexivity].
  - apply MPitem; [reflexivity|apply MPval, MPnil|apply MPnone].
Qed.
Print Assumptions C79_unused_byte_refuted.
Print Assumptions C79_other_key_refuted.
Print Assumptions C79_two_readings_refuted.

(** What loads is in the language of [pk_doc], loads as what that says, and nothing behind it is looked at. *)
Theorem C79_loaded : forall x F st src r b, wf_bytes src -> run_block (load_tree x F (MsgpP st)) (set_block src) = Ok (r, b) ->
  exists d bs, is_root (mdoc_of d) /\ r = (MsgpP msgp_init, ([], doc_node d)) /\ src = bs ++ b_rest b /\ pk_doc (mdoc_of d) bs /\ (depth d <= 129)%nat.
Proof.
  intros x F st src r b W E. destruct (lang_sound x F st src r b W E) as (t & its & bs & R & S & P & _ & D).
  exists (DScope [] t its), bs. split; [exact I|]. auto.
Qed.
(** Everything in the language loads, unless it is nested too deeply; what follows is left. *)
Theorem C79_read : forall x st m bs, pk_doc m bs -> is_root m ->
  exists d, mdoc_of d = m /\ forall F rest, (length (events d) <= F)%nat ->
    run_block (load_tree x F (MsgpP st)) (set_block (bs ++ rest)) =
      if Nat.leb (depth d) 129 then Ok ((MsgpP msgp_init, ([], doc_node d)), mkBlk (rev bs) rest) else Err.
Proof. exact lang_complete. Qed.
(** Bytes have one reading at most, and no document is the beginning of another. *)
Theorem C79_one_reading : forall m m' bs bs' rest rest', pk_doc m bs -> pk_doc m' bs' -> mname m = [] -> mname m' = [] ->
  bs ++ rest = bs' ++ rest' -> m = m' /\ bs = bs'.
Proof. exact one_reading. Qed.
(** Everything else is rejected with an exception. *)
Theorem C79_rejected : forall x F st src, wf_bytes src -> (2 * length src < F)%nat ->
  (forall m bs rest, src = bs ++ rest -> pk_doc m bs -> ~ is_root m) -> run_block (load_tree x F (MsgpP st)) (set_block src) = Err.
Proof. exact lang_reject. Qed.
(** What loads without the bytes behind which the deviations are, and in which every member of an Object has a name, is MessagePack.
    Missing: inputs with these bytes or nameless members; false for them as above. *)
Theorem C79_only_msgpack_partial : forall x F st src r b, wf_bytes src -> Forall (fun p => ~ deviant p) src ->
  run_block (load_tree x F (MsgpP st)) (set_block src) = Ok (r, b) ->
  exists d bs, r = (MsgpP msgp_init, ([], doc_node d)) /\ src = bs ++ b_rest b /\ (all_named (mdoc_of d) -> mp_doc false (mdoc_of d) bs).
Proof.
  intros x F st src r b W N E. destruct (lang_sound x F st src r b W E) as (t & its & bs & R & S & P & _ & D).
  exists (DScope [] t its), bs. split; [exact R|]. split; [exact S|]. intros A. apply pk_narrow; auto. rewrite S in N. apply Forall_app in N. tauto.
Qed.
Print Assumptions C79_loaded.
Print Assumptions C79_read.
Print Assumptions C79_one_reading.
Print Assumptions C79_rejected.
Print Assumptions C79_only_msgpack_partial.
(** {"a": [1, "x"]} with a map of 16 bits and a string whose length is written backwards, then a byte that is left *)
Example C79_ex : forall x, exists d, mdoc_of d = MScope [] TObject [MScope ($"a") TArray [MVal [] (MeInt 1); MVal [] (MeStr ($"x"))]] /\
  run_block (load_tree x 10 (MsgpP msgp_init)) (set_block [222; 0; 1; 161; 97; 146; 1; 218; 1; 0; 120; 7]) =
  Ok ((MsgpP msgp_init, ([], doc_node d)), mkBlk (rev [222; 0; 1; 161; 97; 146; 1; 218; 1; 0; 120]) [7]).
Proof.
  intros x. exists (DScope [] TObject [DScope ($"a") TArray [DVal [] (val_int TI32 1); DVal [] (val_block_enc ($"x") TString EUTF8)]]). split; vm_compute; reflexivity.
Qed.
Example C79_ex_in : pk_doc (MScope [] TObject [MScope ($"a") TArray [MVal [] (MeInt 1); MVal [] (MeStr ($"x"))]]) [222; 0; 1; 161; 97; 146; 1; 218; 1; 0; 120].
Proof.
  apply (PKscope [] TObject _ [222; 0; 1] [161; 97; 146; 1; 218; 1; 0; 120]); [apply (MPmap16 1); lia|].
  apply (PKfield _ [] [161; 97] [146; 1; 218; 1; 0; 120] []); [apply PKname, (PKfixstr [97]); reflexivity| |apply PKnone].
  apply (PKscope _ TArray _ [146] [1; 218; 1; 0; 120]); [apply (MPfixarray 2); lia|].
  apply (PKitem _ _ [1] [218; 1; 0; 120]); [reflexivity|apply PKval, PKspec, MPpfix; lia|].
  apply (PKitem _ _ [218; 1; 0; 120] []); [reflexivity|apply PKval, PKstr, (PKstr16 [120]); reflexivity|apply PKnone].
Qed.
(** every one of these is refused: extension types, a scalar as root, a string that ends too early *)
Example C79_ex_rejected : forall x, Forall (fun src => run_block (load_tree x 40 (MsgpP msgp_init)) (set_block src) = Err) [[145; 212; 1; 2]; [7]; [145; 163; 97; 98]; []].
Proof. intros x. repeat constructor. Qed.
