(** C72: blocks of bytes restored into vectors. *)
From Coq Require Import ZArith List Bool Lia.
From Verif Require Import Base M_Types M_Conv M_In S_Doc M_Env M_Event M_Tree M_TreeIO M_PSrl M_MsgPack M_Json M_Object M_ObjIO S_Conv S_Json M_Bits S_Bits P_Bits Properties_Object.
Import ListNotations.
Open Scope Z_scope.

(** * C72.  A vector of elements of [u] bytes that is stored as a block of bytes comes back; whatever the vector held before *)
Theorem C72_round_trip : forall grow u x bs v, grows grow -> 1 <= u -> zlen bs mod u = 0 -> brings bs v ->
  exists m, vecwrap_paste grow u x v = (mkVec bs m, Ok tt) /\ zlen bs <= m.
Proof. exact vec_back. Qed.
Theorem C72_insert : forall bs m, zlen bs <= m -> vecwrap_insert (mkVec bs m) = Ok (val_block bs TBinary).
Proof. exact insert_back. Qed.
(** Full statement: nothing is written behind the memory of the vector, from any input.  Not true: the vector is resized to the
    whole elements, and all bytes are copied. *)
Definition bt_value (q : parser) (bs : bytes) : res value :=
  let* (r, _) := run_block (load_tree ex_fp 400 q) (mkBlk [] bs) in match n_values (snd (snd r)) with [(_, v)] => Ok v | _ => Err end.
Definition bt_msgp : parser := MsgpP msgp_init.
Theorem C72_overflow_refuted : exists bs v, bt_value json_p bs = Ok v /\ v_data v = $"AAECAwQ=" /\ snd (vecwrap_paste exact_grow 4 vec_new v) = UB UbOob.
Proof. exists (js ($"{'d':'AAECAwQ='}")), (val_string ($"AAECAwQ=") EUTF8). repeat split; vm_compute; reflexivity. Qed.
(** every block whose size is not a multiple of the size of an element *)
Theorem C72_overflow : forall u bs v, 1 < u -> zlen bs mod u <> 0 -> brings bs v ->
  snd (vecwrap_paste exact_grow u vec_new v) = if zlen bs <? u then Err else UB UbOob.
Proof. exact vec_beyond. Qed.
(** the others do not; text of 7 bit characters *)
Theorem C72_inside_partial : forall grow u x v, grows grow -> 1 <= u -> Z.of_nat (bits_size v) mod u = 0 -> ascii_text v -> defined (snd (vecwrap_paste grow u x v)).
Proof. exact vec_defined. Qed.
(** BitWrap with a function that allocates at least what it is asked for: no more bytes are written *)
Theorem C72_bitwrap_partial : forall f v, (forall n m, f n = Some m -> n <= m) -> ascii_text v ->
  defined (snd (bitwrap_paste (Some f) v)) /\ (length (fst (bitwrap_paste (Some f) v)) <= bits_size v)%nat.
Proof. exact bitwrap_defined. Qed.
(** Full statement: only base64 is accepted as text.  Not true of texts shorter than 4 characters *)
Theorem C72_short_text_refuted : exists bs v, bt_value json_p bs = Ok v /\ ~ Forall b64_letter (v_data v) /\ bytes_paste exact_grow vec_new v = (vec_new, Ok tt).
Proof.
  exists (js ($"{'d':'?!'}")), (val_string ($"?!") EUTF8). split; [vm_compute; reflexivity|]. split; [|vm_compute; reflexivity].
  intros H. vm_compute in H. inversion H as [|? ? A _]; subst. destruct A as [A|A]; [apply A; vm_compute; reflexivity|discriminate A].
Qed.
Theorem C72_text : forall grow x v, grows grow -> v_type v = TString -> Forall (fun c => 0 <= c < 128) (v_data v) ->
  (snd (bytes_paste grow x v) = Ok tt <-> (length (v_data v) < 4)%nat \/ ((length (v_data v) mod 4 = 0)%nat /\ Forall b64_letter (v_data v))) /\
  ((length (v_data v) < 4)%nat -> x_data (fst (bytes_paste grow x v)) = []).
Proof. exact bytes_text. Qed.
(** Full statement: if restoring fails the vector is unchanged.  Not true: it is resized first, and overwritten up to the error *)
Theorem C72_unchanged_refuted : exists bs v x y, bt_value json_p bs = Ok v /\ bytes_paste exact_grow x v = (y, Err) /\ x_data x = [1; 2; 3; 4; 5; 6; 7] /\ x_data y = [0; 1; 2; 4; 5; 6].
Proof. exists (js ($"{'d':'AAEC????'}")), (val_string ($"AAEC????") EUTF8), (mkVec [1; 2; 3; 4; 5; 6; 7] 8), (mkVec [0; 1; 2; 4; 5; 6] 8). repeat split; vm_compute; reflexivity. Qed.
(** its size afterwards, whatever the outcome *)
Theorem C72_size : forall grow u x v, 1 <= u -> (v_type v = TString \/ v_type v = TBinary) ->
  length (x_data (fst (vecwrap_paste grow u x v))) = Z.to_nat (Z.of_nat (bits_size v) / u * u).
Proof. exact vec_failed. Qed.
(** members of type Srl::Bytes (C24-C71) *)
Theorem C72_object : forall grow x w old v, grows grow ->
  match paste_value w CBits old v with
  | Ok r => exists d m, r = VStr d /\ bytes_paste grow x v = (mkVec d m, Ok tt)
  | Err => snd (bytes_paste grow x v) = Err
  | UB u => snd (bytes_paste grow x v) = UB u
  | Fuel => False
  end.
Proof. exact bytes_object. Qed.
Print Assumptions C72_round_trip.
Print Assumptions C72_insert.
Print Assumptions C72_overflow_refuted.
Print Assumptions C72_overflow.
Print Assumptions C72_inside_partial.
Print Assumptions C72_bitwrap_partial.
Print Assumptions C72_short_text_refuted.
Print Assumptions C72_text.
Print Assumptions C72_unchanged_refuted.
Print Assumptions C72_size.
Print Assumptions C72_object.

(** two elements of four bytes from JSON and from MsgPack; one more byte; no memory at all *)
Definition bt_8 : bytes := [0; 1; 2; 3; 4; 5; 6; 7].
Example C72_ex : bt_value json_p (js ($"{'d':'AAECAwQFBgc='}")) = Ok (val_string (b64_text bt_8) EUTF8) /\
  bt_value bt_msgp ([129; 161; 100; 196; 8] ++ bt_8) = Ok (val_block bt_8 TBinary) /\
  vecwrap_paste exact_grow 4 (mkVec [9; 9; 9; 9] 4) (val_string (b64_text bt_8) EUTF8) = (mkVec bt_8 8, Ok tt) /\
  vecwrap_paste exact_grow 4 vec_new (val_block bt_8 TBinary) = (mkVec bt_8 8, Ok tt) /\
  snd (vecwrap_paste exact_grow 4 vec_new (val_block (bt_8 ++ [8]) TBinary)) = UB UbOob /\
  snd (vecwrap_paste exact_grow 4 vec_new (val_block [1; 2; 3] TBinary)) = Err /\
  snd (vecwrap_paste exact_grow 4 (mkVec [] 16) (val_block [1; 2; 3] TBinary)) = Ok tt.
Proof. repeat split; vm_compute; reflexivity. Qed.
Example C72_premises_ex : grows exact_grow /\ brings bt_8 (val_string (b64_text bt_8) EUTF8) /\ brings bt_8 (val_block bt_8 TBinary) /\ zlen bt_8 mod 4 = 0 /\ zlen bt_8 mod 3 <> 0 /\
  ascii_text (val_string (b64_text bt_8) EUTF8) /\ Forall b64_letter (b64_text bt_8).
Proof.
  assert (W : wf_bytes bt_8) by (apply Forall_forall; intros c H; unfold is_byte; repeat (destruct H as [<-|H]; [lia|]); destruct H).
  split; [intros mem need H; unfold exact_grow; lia|]. split; [split; [exact W|split; [reflexivity|now right]]|]. split; [split; [exact W|split; [reflexivity|now left]]|].
  split; [reflexivity|]. split; [discriminate|]. split; [intros _; apply Forall_forall; intros c H; vm_compute in H; repeat (destruct H as [<-|H]; [lia|]); destruct H|].
  apply Forall_forall. intros c H. vm_compute in H. repeat (destruct H as [<-|H]; [first [left; vm_compute; discriminate|right; reflexivity]|]). destruct H.
Qed.
