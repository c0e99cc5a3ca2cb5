(** Pointers to constant characters, Resolve.hpp:215-245 (is_cstr_pointer, Resolve.h:187-192).  Proof-free. *)
From Coq Require Import ZArith List Bool.
From Verif Require Import Base M_Types S_Doc M_Tree M_Object.
Import ListNotations.
Open Scope Z_scope.

(** A [const TChar*], Resolve.h:187-192: null, or the number of characters from where it points to the end of the array, with their bytes *)
Definition cptr : Type := option (Z * bytes).

(** Resolve.hpp:230-233 [while(pointer[size]) size++] *)
Fixpoint cstr_loop (fuel : nat) (u n i : Z) (bs : bytes) : res Z :=
  match fuel with
  | O => Fuel
  | S f =>
      if n <=? i then UB UbOob
      else if forallb (fun b => b =? 0) (firstn (Z.to_nat u) (skipn (Z.to_nat (i * u)) bs)) then Ok i
      else cstr_loop f u n (i + 1) bs
  end.
(** Resolve.hpp:229-239 Wrap; a null pointer is not looked for *)
Definition wrap_cstr (e : enc) (p : cptr) : res bytes :=
  match p with
  | None => UB UbNull
  | Some (n, bs) => let* i := cstr_loop (S (Z.to_nat n)) (unit_size e) n 0 bs in Ok (firstn (Z.to_nat (i * unit_size e)) bs)
  end.
(** Resolve.hpp:223-227 Insert *)
Definition insert_cstr (e : enc) (p : cptr) (name : bytes) : res doc := let* s := wrap_cstr e p in Ok (DVal name (val_string s e)).
(** Resolve.hpp:242 Paste: nothing *)
Definition paste_cstr (p : cptr) (v : value) : res cptr := Ok p.
(** Node.hpp:119-130 paste_field for a [const TChar*] *)
Definition paste_cstr_field (F : nat) (id : fid) (p : cptr) (n : lnode) : eprog (cptr * lnode) :=
  ebind (field_value F id n) (fun r => ebind (elift (paste_cstr p (fst (fst r)))) (fun p' => ERet (p', snd r))).

(** A class whose members are [const TChar*] (Context.hpp:36-53): name, encoding, pointer *)
Record cmember : Type := mkC { c_name : bytes; c_enc : enc; c_ptr : cptr }.
(** Context.hpp:55-59, Node.hpp:139-154: its members are inserted one after the other *)
Fixpoint insert_cstrs (ms : list cmember) : res (list doc) :=
  match ms with
  | [] => Ok []
  | m :: ms' => let* d := insert_cstr (c_enc m) (c_ptr m) (c_name m) in let* ds := insert_cstrs ms' in Ok (d :: ds)
  end.
(** Resolve.hpp:391-397, Node.hpp:139-154: the object *)
Definition insert_cclass (ms : list cmember) (name : bytes) : res doc := let* its := insert_cstrs ms in Ok (DScope name TObject its).
(** Context.hpp:61-86: the members are restored one after the other, by their names; all are required and named; the check that the item is a scope (Resolve.hpp:402) is left out *)
Fixpoint paste_cstrs (F : nat) (ms : list cmember) (n : lnode) : eprog (list cmember * lnode) :=
  match ms with
  | [] => ERet ([], n)
  | m :: ms' =>
      ebind (paste_cstr_field F (IdName (c_name m)) (c_ptr m) n) (fun r =>
      ebind (paste_cstrs F ms' (snd r)) (fun q => ERet (mkC (c_name m) (c_enc m) (fst r) :: fst q, snd q)))
  end.
