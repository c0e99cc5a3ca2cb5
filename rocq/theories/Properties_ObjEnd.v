(** Property C64: loading and restoring come to an end, whatever the bytes are. *)
From Coq Require Import ZArith List Bool Lia ZifyBool ZifyNat.
From Verif Require Import Base Lemmas M_Types M_Conv M_Charset M_In S_Doc M_Event M_PSrl M_MsgPack M_Json M_Tree M_TreeIO M_Object M_ObjIO S_ObjIO S_ObjSafe S_ObjEnd
  P_TreeSafe P_Deliver P_ObjFinish Properties_Object Properties_ObjSafe.
Import ListNotations.
Open Scope nat_scope.

(** * C64: the loops and recursions of the model take fuel, which bounds the depth of recursion and the rounds of each loop;
    [settles run n]: [n] is enough, and the answer does not depend on how much more there is.  Tree::read_source, from memory and from a stream *)
Theorem C64_load : forall x q src, (forall s d, x_strtod x s = Some d -> (0 <= d < 2 ^ 64)%Z) -> parser_ok q -> wf_bytes src ->
  settles (fun F => run_block (load_tree x F q) (set_block src)) (2 * length src + 1) /\
  settles (fun F => run_stream (load_tree x F q) (set_stream src)) (2 * length src + 1).
Proof. exact load_settles. Qed.
(** Tree::restore of any type in which at most [h] pointers follow one another *)
Theorem C64_restore : forall w t h old q src, bounded w t h -> (forall s d, x_strtod (w_fp w) s = Some d -> (0 <= d < 2 ^ 64)%Z) -> parser_ok q -> wf_bytes src ->
  settles (fun F => run_block (restore_object (w_fp w) F w q t old) (set_block src)) ((2 * length src + 2) * (h + 2)) /\
  settles (fun F => run_stream (restore_object (w_fp w) F w q t old) (set_stream src)) ((2 * length src + 2) * (h + 2)).
Proof. exact restore_settles. Qed.
(** Node::unwrap on a tree that is there: it ends, and nothing is asked of any parser ([elift r] is not [ERead]) *)
Theorem C64_unwrap : forall w t h old n, bounded w t h -> Forall wf_value (values_of n) ->
  exists r, r <> Fuel /\ forall F, (tree_size n + 3) * (h + 2) <= F -> unwrap_prog F w t old n rs_new = elift r.
Proof. exact unwrap_settles. Qed.
Print Assumptions C64_load.
Print Assumptions C64_restore.
Print Assumptions C64_unwrap.

(** members in another order, and an unknown member with nested scopes; truncated, MessagePack and JSON *)
Definition en_json : bytes := $"{ ""x"":{ ""p"":{""q"":[[1,[]],[2]],""b"":true,""f"":3 },""b"":false ,""f"":4 },""f"":7 ,""b"":true }".
Definition en_run (F : nat) (src : bytes) : res (cv * rstate) :=
  outcome (let* (r, _) := run_stream (restore_object ex_fp F sf_world (JsonP (json_init true)) (CCls 0) (sf_new (CCls 0))) (set_stream src) in Ok r).
Definition en_tree : node := mkNode TObject [($"b", val_bool true); ($"f", val_f64 4609434218613702656)] [($"x", mkNode TArray [] [])].
Example C64_ex : bounded sf_world (CCls 0) 1 /\ parser_ok (JsonP (json_init true)) /\ wf_bytes en_json /\ Forall wf_value (values_of en_tree) /\
  en_run 3 en_json = Fuel /\ en_run 504 en_json = Ok (VList [VNum 4619567317775286272; VNum 1; VList []; VNone], rs_new)%Z /\
  en_run 504 ($"{""x"":{") = UB UbOob /\
  outcome (let* (r, _) := run_block (restore_object ex_fp 24 sf_world (MsgpP msgp_init) (CCls 0) (sf_new (CCls 0))) (set_block [132; 145; 145]%Z) in Ok r) = Err /\
  unwrap_prog 18 sf_world (CCls 0) (sf_new (CCls 0)) en_tree rs_new = ERet (VList [VNum 4609434218613702656; VNum 1; VList []; VNone], rs_new)%Z.
Proof.
  split.
  { split; [intros d; constructor|]. split; [intros id; discriminate|]. intros p P. apply sf_parts in P. cbn [In] in P. repeat (destruct P as [<-|P]; [cbn; lia|]). destruct P. }
  split; [split; constructor|]. split; [apply wf_bytesb_spec; reflexivity|]. split.
  { constructor; [|constructor; [|constructor]]; vm_compute; repeat split; try discriminate; auto. }
  vm_compute. repeat split; reflexivity.
Qed.
