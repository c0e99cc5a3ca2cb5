(** C81: what was loaded can be saved, in the same format and in another one. *)
From Coq Require Import ZArith List Bool Lia ZifyBool ZifyNat.
From Verif Require Import Base Lemmas M_Types M_Conv M_In S_Doc M_Env M_Event M_Tree S_Tree M_TreeIO S_TreeIO M_PSrl M_MsgPack M_Json S_Json M_Heap M_Out S_ObjIO S_Relay P_Relay Properties_Object.
Import ListNotations.
Open Scope Z_scope.

(** * Full statement: whatever bytes load with one parser, the tree can be saved with any parser, and what is saved loads as the same document.  Not true:
    MessagePack has the least integer, and PSrl negates what it writes; the quotes in a name are not escaped in JSON. *)
Definition re_load (p : parser) (src : bytes) : res (bytes * node) := let* (r, _) := run_block (load_tree ex_fp 400 p) (set_block src) in Ok (snd r).
Definition re_save (q : parser) (r : bytes * node) : res bytes := let* (_, bs, _) := save_tree ex_fp q (heap_init no_mem) (fst r) (snd r) in Ok bs.
Theorem C81_least_refuted : exists src r, re_load (MsgpP msgp_init) src = Ok r /\ re_save (PsrlP psrl_init) r = UB UbSigned /\ re_save (MsgpP msgp_init) r = Ok src.
Proof. exists [221; 0; 0; 0; 1; 211; 128; 0; 0; 0; 0; 0; 0; 0]. eexists. split; [vm_compute; reflexivity|]. split; vm_compute; reflexivity. Qed.
Theorem C81_name_refuted : exists src r bs, re_load (MsgpP msgp_init) src = Ok r /\ re_save (MsgpP msgp_init) r = Ok src /\ re_save json_p r = Ok bs /\ re_load json_p bs <> Ok r.
Proof. exists [223; 0; 0; 0; 1; 161; 34; 1]. do 2 eexists. split; [vm_compute; reflexivity|]. split; [vm_compute; reflexivity|]. split; [vm_compute; reflexivity|]. vm_compute. discriminate. Qed.

(** True without these ([fits_in]: nothing is required for saving with MessagePack, nor for saving with PSrl what PSrl has loaded); any bytes, any tree they load as. *)
Theorem C81_saved_partial : forall x p q F src p' k n b, sound_parser x p -> wf_bytes src -> zlen src < 2 ^ 31 -> (length src < F)%nat ->
  run_block (load_tree x F p) (set_block src) = Ok ((p', (k, n)), b) -> fits_in x p q (tree_doc k n) ->
  exists bs k2 n2, saves_as x q k n bs /\ loads_as x q bs k2 n2 /\ mdoc_of (tree_doc k2 n2) = delivered q (tree_doc k n).
Proof. exact relayed. Qed.
(** between the binary formats nothing is lost, not even names *)
Theorem C81_binary_partial : forall x p q F src p' k n b, match p, q with JsonP _, _ | _, JsonP _ => False | _, _ => True end -> wf_bytes src -> zlen src < 2 ^ 31 -> (length src < F)%nat ->
  run_block (load_tree x F p) (set_block src) = Ok ((p', (k, n)), b) -> fits_in x p q (tree_doc k n) ->
  exists bs k2 n2, saves_as x q k n bs /\ loads_as x q bs k2 n2 /\ mdoc_of (tree_doc k2 n2) = mdoc_of (tree_doc k n).
Proof. exact binary_relayed. Qed.
(** the two cases without a condition *)
Theorem C81_to_msgpack : forall x p st F src p' k n b, match p with JsonP _ => False | _ => True end -> wf_bytes src -> zlen src < 2 ^ 31 -> (length src < F)%nat ->
  run_block (load_tree x F p) (set_block src) = Ok ((p', (k, n)), b) ->
  exists bs k2 n2, saves_as x (MsgpP st) k n bs /\ loads_as x (MsgpP st) bs k2 n2 /\ mdoc_of (tree_doc k2 n2) = mdoc_of (tree_doc k n).
Proof. intros x p st F src p' k n b P W L LF E. refine (binary_relayed x p (MsgpP st) F src p' k n b _ W L LF E I). destruct p; auto. Qed.
Theorem C81_psrl_again : forall x st st' F src p' k n b, wf_bytes src -> zlen src < 2 ^ 31 -> (length src < F)%nat ->
  run_block (load_tree x F (PsrlP st)) (set_block src) = Ok ((p', (k, n)), b) ->
  exists bs k2 n2, saves_as x (PsrlP st') k n bs /\ loads_as x (PsrlP st') bs k2 n2 /\ mdoc_of (tree_doc k2 n2) = mdoc_of (tree_doc k n).
Proof. intros x st st' F src p' k n b W L LF E. exact (binary_relayed x (PsrlP st) (PsrlP st') F src p' k n b I W L LF E I). Qed.
Print Assumptions C81_least_refuted.
Print Assumptions C81_name_refuted.
Print Assumptions C81_saved_partial.
Print Assumptions C81_binary_partial.
Print Assumptions C81_to_msgpack.
Print Assumptions C81_psrl_again.

(** * Examples: JSON with comments and blanks; MessagePack with numbers longer than they must be *)
Definition re_src : bytes := js ($"{ 'a' : [1, -2, true] , /* c */ 'b':{'c':'x','d':null} }").
Example C81_ex : exists r, re_load json_p re_src = Ok r /\ re_save json_p r = Ok (js ($"{'a':[1,-2,true],'b':{'c':'x','d':null}}")) /\
  (let* bs := re_save (MsgpP msgp_init) r in let* r2 := re_load (MsgpP msgp_init) bs in let* bs2 := re_save (PsrlP psrl_init) r2 in let* r3 := re_load (PsrlP psrl_init) bs2 in re_save json_p r3) =
    Ok (js ($"{'a':[1,-2,true],'b':{'c':'x','d':null}}")).
Proof. eexists. split; [vm_compute; reflexivity|]. split; vm_compute; reflexivity. Qed.
Example C81_ex_long : exists r, re_load (MsgpP msgp_init) [146; 205; 0; 7; 217; 1; 97] = Ok r /\ re_save (MsgpP msgp_init) r = Ok [221; 0; 0; 0; 2; 7; 161; 97] /\ re_save json_p r = Ok (js ($"[7,'a']")).
Proof. eexists. split; [vm_compute; reflexivity|]. split; vm_compute; reflexivity. Qed.
