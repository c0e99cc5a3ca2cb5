(** What an object holds when restoring it fails: [Switch<T>::Paste] (include/Srl/Resolve.hpp) as a program that writes to the
    object.  Definitions only. *)
From Coq Require Import ZArith List Bool.
From Verif Require Import Base M_Types M_Conv M_TpTools M_Charset M_In S_Doc M_Env M_Event M_PSrl M_MsgPack M_Json M_Tree M_TreeIO M_Object M_ObjIO M_Bits.
Import ListNotations.
Open Scope Z_scope.

(** an object: the value it holds; a pointer that held [v] and was deleted; members or elements *)
(** the objects that Resolve.hpp:82-967 writes to *)
Inductive obj : Type := OVal (v : cv) | ODead (v : cv) | OMem (l : list obj).
(** the members that Context.hpp:61-86 and the elements that Resolve.hpp:589-613 write to *)
Definition members (o : obj) : list obj := match o with OMem l => l | OVal (VList vs) => map OVal vs | _ => [] end.
(** its value, if nothing is deleted *)
(** the object of Tree.hpp:23-41 *)
Fixpoint whole (o : obj) : option cv :=
  match o with
  | OVal v => Some v
  | ODead _ => None
  | OMem l =>
      match (fix go (l : list obj) : option (list cv) :=
               match l with [] => Some [] | x :: l' => match whole x, go l' with Some v, Some vs => Some (v :: vs) | _, _ => None end end) l with
      | Some vs => Some (VList vs)
      | None => None
      end
  end.

(** the same with the addresses that deleted pointers still hold *)
(** Resolve.hpp:707-709: after delete p the pointer is unchanged *)
Fixpoint held (o : obj) : cv := match o with OVal v | ODead v => v | OMem l => VList (map held l) end.

(** programs that read items and write to the object; a path selects a member of a member of ... the object *)
(** Context.hpp:61-86, Resolve.hpp:599, 607 *)
Definition path : Type := list nat.
(** Resolve.hpp:82-967 *)
Inductive oprog (R : Type) : Type :=
| ORet (r : R) | OThrow | OUndef (u : ub) | OFuel | ORead (k : event -> oprog R)
| OSet (p : path) (v : cv) (q : oprog R)
| ODel (p : path) (q : oprog R).    (* delete the object a pointer points to *)
Arguments ORet {R} _. Arguments OThrow {R}. Arguments OUndef {R} _. Arguments OFuel {R}. Arguments ORead {R} _. Arguments OSet {R} _ _ _. Arguments ODel {R} _ _.
(** sequencing of statements, Resolve.hpp:82-967 *)
Fixpoint obind {A B} (p : oprog A) (f : A -> oprog B) : oprog B :=
  match p with
  | ORet r => f r | OThrow => OThrow | OUndef u => OUndef u | OFuel => OFuel
  | ORead k => ORead (fun e => obind (k e) f)
  | OSet p v q => OSet p v (obind q f)
  | ODel p q => ODel p (obind q f)
  end.
(** a program that does not write to the object *)
(** Node.cpp:279-494 do not write to the object *)
Fixpoint olift {R} (p : eprog R) : oprog R :=
  match p with ERet r => ORet r | EThrow => OThrow | EUndef u => OUndef u | EFuel => OFuel | ERead k => ORead (fun e => olift (k e)) end.
(** a program for the member [i] *)
(** Context.hpp:61-86: the member a call refers to *)
Fixpoint oat {R} (i : nat) (p : oprog R) : oprog R :=
  match p with
  | ORet r => ORet r | OThrow => OThrow | OUndef u => OUndef u | OFuel => OFuel
  | ORead k => ORead (fun e => oat i (k e))
  | OSet p v q => OSet (i :: p) v (oat i q)
  | ODel p q => ODel (i :: p) (oat i q)
  end.
(** Resolve.hpp:599, 607: ar[count] *)
Fixpoint set_at {A} (i : nat) (f : A -> A) (l : list A) : list A :=
  match l, i with [], _ => [] | a :: l', O => f a :: l' | a :: l', S j => a :: set_at j f l' end.
(** Context.hpp:61-86, Resolve.hpp:599, 607 *)
Fixpoint change (p : path) (f : obj -> obj) (o : obj) : obj :=
  match p with [] => f o | i :: p' => OMem (set_at i (change p' f) (members o)) end.
(** Context.hpp:61-86, Resolve.hpp:599, 607 *)
Fixpoint select_part (p : path) (o : obj) : option obj :=
  match p with [] => Some o | i :: p' => match nth_error (members o) i with Some x => select_part p' x | None => None end end.
(** Resolve.hpp:707-709, 458-460 *)
Definition deleted (o : obj) : obj := ODead (held o).
(** Resolve.hpp:707-709, 458-460: deleting again is undefined *)
Definition is_dead (o : option obj) : bool := match o with Some (ODead _) => true | _ => false end.
(** [step]: the next item of the source.  The outcome and the object afterwards, whatever the outcome *)
(** Tree.cpp:77-83 *)
Fixpoint orun {S R} (step : S -> res (event * S)) (p : oprog R) (s : S) (o : obj) : res (R * S) * obj :=
  match p with
  | ORet r => (Ok (r, s), o) | OThrow => (Err, o) | OUndef u => (UB u, o) | OFuel => (Fuel, o)
  | ORead k => match step s with Ok (e, s') => orun step (k e) s' o | Err => (Err, o) | UB u => (UB u, o) | Fuel => (Fuel, o) end
  | OSet p v q => orun step q s (change p (fun _ => OVal v) o)
  | ODel p q => if is_dead (select_part p o) then (UB UbHeap, o) else orun step q s (change p deleted o)
  end.

(** a pointer that is not null is deleted (Resolve.hpp:458-460, 707-709) *)
Definition odelete {R} (old : cv) (q : oprog R) : oprog R := match old with VNone => q | _ => ODel [] q end.
(** Switch<T>::Paste(object, value) *)
Definition ovalue (w : world) (t : ct) (old : cv) (v : value) : oprog cv :=
  match t with
  | CPtr _ => odelete old (obind (olift (elift (paste_value w t old v))) (fun x => OSet [] x (ORet x)))       (* 703-721 *)
  | CBits =>                                                                       (* 854-883, 911-916, BitWrap.h:40-50 *)
      match old with
      | VStr s =>
          if negb (bits_type v) then OThrow
          else let (x, r) := bytes_paste (fun _ need => need) (mkVec s (zlen s)) v in
               OSet [] (VStr (x_data x)) (obind (olift (elift r)) (fun _ => ORet (VStr (x_data x))))
      | _ => OThrow
      end
  | _ => obind (olift (elift (paste_value w t old v))) (fun x => OSet [] x (ORet x))
  end.

Section Write.
  Variable w : world.
  (** [Switch<T>::Paste] of the types inside, for objects written in place and for new ones *)
  Variable op : ct -> cv -> lnode -> rstate -> oprog (cv * lnode * rstate).
  Variable pn : ct -> cv -> lnode -> rstate -> eprog (cv * lnode * rstate).
  Variable F : nat.

  (** Node.hpp:105-130 *)
  Definition ofield (t : ct) (id : fid) (old : cv) (n : lnode) (s : rstate) : oprog (cv * lnode * rstate) :=
    if scoped t then
      obind (olift (field_node F id n)) (fun r =>
      obind (op t old (fst r) s) (fun q =>
        let '(v, c', s') := q in
        if l_parsed n then ORet (v, snd r, s') else obind (olift (consume_scope F c')) (fun _ => ORet (v, snd r, s'))))
    else
      obind (olift (field_value F id n)) (fun r =>
      obind (ovalue w t old (fst (fst r))) (fun v => ORet (v, snd r, s))).

  (** Context.hpp:61-86; [i]: number of members written before *)
  Fixpoint ofields (i : nat) (fs : list field) (olds : list cv) (n : lnode) (s : rstate) (vi ni : Z) : oprog (list cv * lnode * rstate) :=
    match fs, olds with
    | [], _ => ORet ([], n, s)
    | _ :: _, [] => OThrow
    | f :: fs', old :: olds' =>
        let sc := scoped (f_type f) in
        obind (olift (if f_opt f then has_field F sc (f_name f) n else ERet (true, n))) (fun h =>
          if negb (fst h) then
            obind (ofields (S i) fs' olds' (snd h) s vi ni) (fun r => let '(vs, n', s') := r in ORet (old :: vs, n', s'))
          else
            obind (oat i (ofield (f_type f) (if 0 <? zlen (f_name f) then IdName (f_name f) else IdPos (if sc then ni else vi)) old (snd h) s)) (fun r =>
              let '(v, n1, s1) := r in
              obind (ofields (S i) fs' olds' n1 s1 (if sc then vi else vi + 1) (if sc then ni + 1 else ni)) (fun r =>
                let '(vs, n', s') := r in ORet (v :: vs, n', s'))))
    end.

  (** arrays, Resolve.hpp:589-613 *)
  Fixpoint oarray_stored {A} (f : cv -> bytes * A -> rstate -> oprog (cv * rstate)) (i : nat) (olds : list cv) (l : list (bytes * A)) (s : rstate) : oprog (list cv * rstate) :=
    match olds, l with
    | old :: olds', a :: l' =>
        obind (oat i (f old a s)) (fun r => obind (oarray_stored f (S i) olds' l' (snd r)) (fun q => ORet (fst r :: fst q, snd q)))
    | _, _ => ORet ([], s)
    end.
  Fixpoint oarray_read (e : ct) (i : nat) (count : Z) (olds : list cv) (n : lnode) (s : rstate) : oprog (list cv * lnode * rstate) :=
    match olds with
    | [] => ORet ([], n, s)
    | old :: olds' =>
        if l_parsed n then OThrow
        else
        obind (oat i (ofield e (IdPos count) old n s)) (fun r =>
          let '(v, n1, s1) := r in
          obind (oarray_read e (S i) (count + 1) olds' n1 s1) (fun q => let '(vs, n', s') := q in ORet (v :: vs, n', s')))
    end.

  (** HTable, Resolve.hpp:942-962: the table after every entry *)
  Fixpoint oeach_stored {A B} (mk : B -> cv) (f : bytes * A -> B -> rstate -> eprog (B * rstate)) (l : list (bytes * A)) (acc : B) (s : rstate) : oprog (B * rstate) :=
    match l with
    | [] => ORet (acc, s)
    | a :: l' => obind (olift (f a acc s)) (fun r => OSet [] (mk (fst r)) (oeach_stored mk f l' (fst r) (snd r)))
    end.
  Fixpoint oeach_value {B} (mk : B -> cv) (f : bytes * value -> B -> rstate -> eprog (B * rstate)) (fuel : nat) (acc : B) (n : lnode) (s : rstate) : oprog (B * lnode * rstate) :=
    match fuel with
    | O => OFuel
    | S k =>
        obind (olift (consume_value F (IdPos 0) n)) (fun r =>
          match fst r with
          | Some (name, v, _) => if l_parsed (snd r) then ORet (acc, snd r, s)
                                 else obind (olift (f (name, v) acc s)) (fun q => OSet [] (mk (fst q)) (oeach_value mk f k (fst q) (snd r) (snd q)))
          | None => ORet (acc, snd r, s)
          end)
    end.
  Fixpoint oeach_node {B} (mk : B -> cv) (f : bytes * lnode -> B -> rstate -> eprog (B * lnode * rstate)) (fuel : nat) (acc : B) (n : lnode) (s : rstate) : oprog (B * lnode * rstate) :=
    match fuel with
    | O => OFuel
    | S k =>
        obind (olift (consume_node F (IdPos 0) n)) (fun r =>
          match fst r with
          | Some c => if l_parsed (snd r) then ORet (acc, snd r, s)
                      else obind (olift (f c acc s)) (fun q =>
                           let '(acc', c', s') := q in
                           OSet [] (mk acc') (obind (olift (consume_scope F c')) (fun _ => oeach_node mk f k acc' (snd r) s')))
          | None => ORet (acc, snd r, s)
          end)
    end.
  Definition oeach {B} (mk : B -> cv) (sc : bool) (fv : bytes * value -> B -> rstate -> eprog (B * rstate))
      (fn : bytes * lnode -> B -> rstate -> eprog (B * lnode * rstate)) (acc : B) (n : lnode) (s : rstate) : oprog (B * lnode * rstate) :=
    if l_parsed n then
      obind (if sc
             then oeach_stored mk (fun a acc s => ebind (fn (fst a, mkL true (snd a)) acc s) (fun q => ERet (fst (fst q), snd q))) (n_nodes (l_node n)) acc s
             else oeach_stored mk fv (n_values (l_node n)) acc s) (fun r => ORet (fst r, n, snd r))
    else if sc then oeach_node mk fn F acc n s else oeach_value mk fv F acc n s.

  (** one step of [Switch<T>::Paste(object, node)]; types not mentioned restore a new object and assign it at the end (containers
      499-518, unique_ptr 738-740, shared_ptr 792-797, weak_ptr 832-834) *)
  (** Resolve.hpp:399-835 *)
  Definition opaste_step (t : ct) (old : cv) (n : lnode) (s : rstate) : oprog (cv * lnode * rstate) :=
    let in_place := fun (fs : list field) (vi : Z) =>
      match old with
      | VList olds => obind (ofields 0 fs olds n s vi 0) (fun r => let '(vs, n', s') := r in ORet (VList vs, n', s'))
      | _ => OThrow
      end in
    let ntype := n_type (l_node n) in
    let anew := obind (olift (paste_step w pn F t old n s)) (fun r => OSet [] (fst (fst r)) (ORet r)) in
    match t with
    | CCls c => if negb (is_scope ntype) then OThrow else in_place (w_cls w c) 0                       (* 399-421 *)
    | CTup c => if negb (is_scope ntype) then OThrow else in_place (map (fun f => mkField [] false (f_type f)) (w_cls w c)) 0    (* 664-681 *)
    | CArr len e =>                                                                                 (* 589-613 *)
        if negb (is_scope ntype) then OThrow
        else match old with
             | VList olds =>
                 if negb (Nat.eqb (length olds) len) then OThrow
                 else if l_parsed n then
                   if scoped e then
                     if negb (Nat.eqb (length (n_nodes (l_node n))) len) then OThrow
                     else obind (oarray_stored (fun old a s => obind (op e old (mkL true (snd a)) s) (fun q => ORet (fst (fst q), snd q))) 0 olds (n_nodes (l_node n)) s)
                                (fun r => ORet (VList (fst r), n, snd r))
                   else
                     if negb (Nat.eqb (length (n_values (l_node n))) len) then OThrow
                     else obind (oarray_stored (fun old a s => obind (ovalue w e old (snd a)) (fun v => ORet (v, s))) 0 olds (n_values (l_node n)) s)
                                (fun r => ORet (VList (fst r), n, snd r))
                 else obind (oarray_read e 0 0 olds n s) (fun r => let '(vs, n', s') := r in ORet (VList vs, n', s'))
             | _ => OThrow
             end
    | CPair a b =>                                                                                  (* 637-644 *)
        if negb (ty_eqb ntype TObject) then OThrow
        else match old with
             | VList [oa; ob] =>
                 obind (oat 0 (ofield a (IdName str_first) oa n s)) (fun r =>
                   let '(x, n1, s1) := r in
                   obind (oat 1 (ofield b (IdName str_second) ob n1 s1)) (fun r => let '(y, n2, s2) := r in ORet (VList [x; y], n2, s2)))
             | _ => OThrow
             end
    | CTab e =>                                                                                     (* 935-963 *)
        if negb (ty_eqb ntype TObject) then OThrow
        else OSet [] (VTab []) (obind (oeach VTab (scoped e) (entry_value w e) (entry_node w pn e) [] n s) (fun r => let '(l, n', s') := r in ORet (VTab l, n', s')))
    | CPtr e => odelete old anew                                                                    (* 703-721 *)
    | CPoly u =>                                                                                      (* 447-465 *)
        if negb (is_scope ntype) then OThrow
        else obind (olift (field_value F (IdName str_type_id) n)) (fun r =>
          let '(v, copied, n1) := r in
          if negb (ty_eqb (v_type v) TString) && negb (ty_eqb (v_type v) TBinary) then OThrow
          else odelete old (
            if copied && (zlen (v_data v) <=? 8) && (0 <? zlen (v_data v)) then OUndef UbDangling
            else obind (olift (elift (w_reg w u (v_data v, v_enc v)))) (fun o =>
              match o with
              | None => OThrow
              | Some c =>
                  match w_new w (CCls c) with
                  | VList olds => obind (olift (paste_fields w pn F (w_cls w c) olds n1 s 1 0)) (fun r => let '(vs, n', s') := r in OSet [] (VPoly c vs) (ORet (VPoly c vs, n', s')))
                  | _ => OThrow
                  end
              end)))
    | _ => anew
    end.
End Write.

(** Resolve.hpp:399-835, the recursion *)
Fixpoint opaste (F : nat) (w : world) (t : ct) (old : cv) (n : lnode) (s : rstate) : oprog (cv * lnode * rstate) :=
  match F with O => OFuel | S f => opaste_step w (opaste f w) (paste_node f w) f t old n s end.

(** Tree::restore (Tree.cpp:30-50, 77-83, Tree.hpp:23-41) *)
Definition orestore (F : nat) (w : world) (t : ct) (old : cv) : oprog (cv * rstate) :=
  ORead (fun e =>
    let (name, v) := e in
    if negb (is_scope (v_type v)) then OThrow
    else
      let root := mkL false (empty_node (v_type v)) in
      obind (if scoped t then opaste F w t old root rs_new
             else ofield w (opaste F w) F t (IdPos 0) old root rs_new) (fun r => ORet (fst (fst r), snd r))).
(** Node::paste(object) on a tree (Node.hpp:83-87) *)
Definition opaste_tree (F : nat) (w : world) (t : ct) (old : cv) (n : node) (s : rstate) : oprog (cv * rstate) :=
  obind (if scoped t then opaste F w t old (mkL true n) s
         else ofield w (opaste F w) F t (IdPos 0) old (mkL true n) s) (fun r => ORet (fst (fst r), snd r)).

(** the object after Tree::restore, and the outcome; from memory or a stream *)
(** Tree.cpp:77-83 with Parser::read (Parser.h:19) *)
Definition rd_step {St I} (run : forall A, prog A -> I -> res (A * I)) (rd : St -> prog (St * event)) (si : St * I) : res (event * (St * I)) :=
  let* (r, i') := run _ (rd (fst si)) (snd si) in Ok (snd r, (fst r, i')).
(** Environment.cpp:150-155, Tree.cpp:77-83 *)
Definition with_parser_o {I R} (run : forall A, prog A -> I -> res (A * I)) (x : fp_text) (fuel : nat) (q : parser) (p : oprog R) (i : I) (o : obj) : res R * obj :=
  let out {St} (r : res (R * (St * I)) * obj) : res R * obj := (let* (a, _) := fst r in Ok a, snd r) in
  match parser_clear q with
  | PsrlP st => out (orun (rd_step run psrl_read) p (st, i) o)
  | MsgpP st => out (orun (rd_step run msgp_read) p (st, i) o)
  | JsonP st => out (orun (rd_step run (json_read x fuel)) p (st, i) o)
  end.
(** Tree.hpp:23-41 *)
Definition restore_over {I} (run : forall A, prog A -> I -> res (A * I)) (x : fp_text) (F : nat) (w : world) (q : parser) (t : ct) (o : obj) (i : I) : res (cv * rstate) * obj :=
  with_parser_o run x F q (orestore F w t (held o)) i o.
(** the object after Node::paste, and the outcome *)
(** Node.hpp:74-87 *)
Definition paste_over (F : nat) (w : world) (t : ct) (o : obj) (n : node) (s : rstate) : res (cv * rstate) * obj :=
  let (r, o') := orun (fun _ : unit => Err) (opaste_tree F w t (held o) n s) tt o in (let* (a, _) := r in Ok a, o').
