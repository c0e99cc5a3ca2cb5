(** C84: trees as objects: moved, swapped, destroyed. *)
From Coq Require Import ZArith List Bool Arith.
From Verif Require Import Base M_Types M_Conv M_Tree M_TreeLife S_TreeLife P_TreeLife Properties_Charset.
Import ListNotations.
Open Scope nat_scope.

(** Full statement: as [C84_values_partial] without the condition in [allowed] that nothing is moved to itself.  False: such a tree has lost
    its root but not its environment, and whatever is done with it next, other than destroying it or assigning to it,
    dereferences null. *)
Theorem C84_self_move_refuted : exists st, do_deeds tstate0 [DNewType 0 TObject; DMove 0 0] = Ok st /\
  do_deeds st [DUse 0 (fun n => Ok n)] = UB UbNull /\ do_deeds st [DClear 0] = UB UbNull /\ do_deeds st [DLoad 0 (fun t => empty_node t)] = UB UbNull.
Proof. eexists. split; [reflexivity|]. repeat split; reflexivity. Qed.
(** Trees are values: in any program that makes, moves, swaps, uses, clears, loads and destroys trees, every tree shows what a variable of the same
    name would hold, a tree that was moved from is like a new one, and nothing is undefined but what the functions used do. *)
Theorem C84_values_partial : forall ds, proper (fun _ => None) ds ->
  match value_deeds (fun _ => None) ds with
  | Ok v => exists st, do_deeds tstate0 ds = Ok st /\ forall a, shows st a = v a
  | Err => do_deeds tstate0 ds = Err
  | UB u => do_deeds tstate0 ds = UB u
  | Fuel => do_deeds tstate0 ds = Fuel
  end.
Proof.
  intros ds P. pose proof (deeds_ok ds _ _ sound0 P) as H. destruct (value_deeds (fun _ => None) ds) as [v| |u|]; cbn [agree] in H; try exact H.
  destruct H as (st & E & S). exists st. split; [exact E|]. intros a. exact (sound_shows st v a S).
Qed.
Print Assumptions C84_self_move_refuted.
Print Assumptions C84_values_partial.
Definition add_value (k : bytes) (x : Z) (n : node) : res node := Ok (mkNode (n_type n) (n_values n ++ [(k, val_int TI32 x)]) (n_nodes n)).
(** two trees are swapped, one is moved into a third and then used again *)
Definition C84_deeds : list deed :=
  [DNewType 0 TArray; DUse 0 (add_value ($"a") 1); DNew 1; DUse 1 (add_value ($"b") 2); DSwap 0 1 7; DCtor 2 1; DUse 1 (add_value ($"c") 3); DMove 0 2; DEnd 2].
Example C84_ex_proper : proper (fun _ => None) C84_deeds.
Proof. cbn. repeat split; discriminate. Qed.
Example C84_ex : exists st, do_deeds tstate0 C84_deeds = Ok st /\
  shows st 0 = Some (Some (mkNode TArray [($"a", val_int TI32 1)] [])) /\ shows st 1 = Some (Some (mkNode TObject [($"c", val_int TI32 3)] [])) /\ shows st 2 = None.
Proof. eexists. split; [reflexivity|]. repeat split; reflexivity. Qed.
