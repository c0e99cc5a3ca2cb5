(** Model of making an object from a tree with the table of shared objects also after an exception: Switch<T>::Paste on parsed nodes
    (include/Srl/Resolve.hpp:399-963, include/Srl/Node.hpp:105-130, include/Srl/Context.hpp:61-86, src/lib/Node.cpp:547-559), and
    Union::unwrap_if (include/Srl/Union.hpp:157-187).  M_Object.v has the same functions for nodes that are read from an input,
    without the table after an exception.  Definitions only. *)
From Coq Require Import ZArith List Bool.
From Verif Require Import Base M_Types M_Conv M_TpTools M_In M_Event M_Tree M_Object M_Access.
Import ListNotations.
Open Scope Z_scope.

(** an outcome, and the table and the shared objects afterwards *)
(** Union.hpp:98-132, Environment.h:52 *)
Definition tres (A : Type) : Type := (res A * rstate)%type.
(** Union.hpp:98-132: statements one after the other *)
Definition tbind {A B} (m : tres A) (f : A -> rstate -> tres B) : tres B :=
  match m with (Ok a, s) => f a s | (Err, s) => (Err, s) | (UB u, s) => (UB u, s) | (Fuel, s) => (Fuel, s) end.

Section Paste.
  Variable w : world.
  (** [Switch<T>::Paste(object, node)] for the types inside *)
  Variable tn : ct -> cv -> node -> rstate -> tres cv.

  (** Node.hpp:105-130 *)
  Definition tfield (t : ct) (id : fid) (old : cv) (n : node) (s : rstate) : tres cv :=
    if scoped t then tbind (match id with IdName k => node_named n (k, EUTF8) | IdPos i => node_at n i end, s) (fun c s => tn t old (snd c) s)
    else tbind (match id with IdName k => value_named n (k, EUTF8) | IdPos i => value_at n i end, s) (fun c s => (paste_value w t old (snd c), s)).
  (** Context.hpp:61-86 *)
  Fixpoint tfields (fs : list field) (olds : list cv) (n : node) (s : rstate) (vi ni : Z) : tres (list cv) :=
    match fs, olds with
    | [], _ => (Ok [], s)
    | _ :: _, [] => (Err, s)
    | f :: fs', old :: olds' =>
        let sc := scoped (f_type f) in
        tbind (if f_opt f then if sc then has_node n (f_name f, EUTF8) else has_value n (f_name f, EUTF8) else Ok true, s) (fun h s =>
          if negb h then tbind (tfields fs' olds' n s vi ni) (fun vs s => (Ok (old :: vs), s))
          else
            tbind (tfield (f_type f) (if 0 <? zlen (f_name f) then IdName (f_name f) else IdPos (if sc then ni else vi)) old n s) (fun v s =>
            tbind (tfields fs' olds' n s (if sc then vi else vi + 1) (if sc then ni + 1 else ni)) (fun vs s => (Ok (v :: vs), s))))
    end.
  (** the elements of a scope, one after the other *)
  (** Resolve.hpp:502-504, 945-948 *)
  Fixpoint teach {A B} (f : bytes * A -> B -> rstate -> tres B) (l : list (bytes * A)) (acc : B) (s : rstate) : tres B :=
    match l with [] => (Ok acc, s) | a :: l' => tbind (f a acc s) (fun acc s => teach f l' acc s) end.
  (** an element made with [mk] from [Ctor<E>::Create()] (Resolve.hpp:526-546, 944-948) *)
  Definition telem {B} (mk : bytes -> cv -> B -> B) (e : ct) (n : node) (acc : B) (s : rstate) : tres B :=
    if scoped e then teach (fun a acc s => tbind (tn e (w_new w e) (snd a) s) (fun v s => (Ok (mk (fst a) v acc), s))) (n_nodes n) acc s
    else teach (fun a acc s => tbind (paste_value w e (w_new w e) (snd a), s) (fun v s => (Ok (mk (fst a) v acc), s))) (n_values n) acc s.
  (** Resolve.hpp:557-566 *)
  Definition tentry (k e : ct) (a : bytes * node) (acc : list (cv * cv)) (s : rstate) : tres (list (cv * cv)) :=
    tbind (tfield k (IdName str_key) (w_new w k) (snd a) s) (fun key s =>
    tbind (tfield e (IdName str_value) (w_new w e) (snd a) s) (fun val s => (Ok (emplace (w_lt w) fst (key, val) acc), s))).
  (** arrays, Resolve.hpp:589-613 *)
  Fixpoint tarray {A} (f : cv -> bytes * A -> rstate -> tres cv) (olds : list cv) (l : list (bytes * A)) (s : rstate) : tres (list cv) :=
    match olds, l with
    | old :: olds', a :: l' => tbind (f old a s) (fun v s => tbind (tarray f olds' l' s) (fun vs s => (Ok (v :: vs), s)))
    | _, _ => (Ok [], s)
    end.
  (** one step of [Switch<T>::Paste(object, node)]; line numbers of Resolve.hpp *)
  Definition tstep (t : ct) (old : cv) (n : node) (s : rstate) : tres cv :=
    let members := fun (fs : list field) (old : cv) (s : rstate) (vi : Z) (mk : list cv -> cv) =>
      match old with VList olds => tbind (tfields fs olds n s vi 0) (fun vs s => (Ok (mk vs), s)) | _ => (Err, s) end in
    match t with
    | CCls c => if negb (is_scope (n_type n)) then (Err, s) else members (w_cls w c) old s 0 VList                                    (* 399-421 *)
    | CSeq e => if negb (is_scope (n_type n)) then (Err, s) else tbind (telem (fun _ v acc => acc ++ [v]) e n [] s) (fun vs s => (Ok (VList vs), s))          (* 494-530 *)
    | CSet e => if negb (is_scope (n_type n)) then (Err, s) else tbind (telem (fun _ => emplace (w_lt w) (fun v => v)) e n [] s) (fun vs s => (Ok (VList vs), s))   (* 533-547 *)
    | CMap k e => if negb (is_scope (n_type n)) then (Err, s) else tbind (teach (tentry k e) (n_nodes n) [] s) (fun l s => (Ok (VMap l), s))     (* 550-567 *)
    | CTab e => if negb (ty_eqb (n_type n) TObject) then (Err, s) else tbind (telem tab_insert e n [] s) (fun l s => (Ok (VTab l), s))          (* 935-963 *)
    | CArr len e =>                                                                                                                    (* 589-613 *)
        if negb (is_scope (n_type n)) then (Err, s)
        else match old with
             | VList olds =>
                 if negb (Nat.eqb (length olds) len) then (Err, s)
                 else if scoped e then
                   if negb (Nat.eqb (length (n_nodes n)) len) then (Err, s)
                   else tbind (tarray (fun old a s => tn e old (snd a) s) olds (n_nodes n) s) (fun vs s => (Ok (VList vs), s))
                 else
                   if negb (Nat.eqb (length (n_values n)) len) then (Err, s)
                   else tbind (tarray (fun old a s => (paste_value w e old (snd a), s)) olds (n_values n) s) (fun vs s => (Ok (VList vs), s))
             | _ => (Err, s)
             end
    | CPair a b =>                                                                                                                     (* 637-644 *)
        if negb (ty_eqb (n_type n) TObject) then (Err, s)
        else match old with
             | VList [oa; ob] => tbind (tfield a (IdName str_first) oa n s) (fun x s => tbind (tfield b (IdName str_second) ob n s) (fun y s => (Ok (VList [x; y]), s)))
             | _ => (Err, s)
             end
    | CTup c => if negb (is_scope (n_type n)) then (Err, s) else members (map (fun f => mkField [] false (f_type f)) (w_cls w c)) old s 0 VList       (* 664-681 *)
    | CPtr e | CUniq e => tbind (tn e (w_new w e) n s) (fun x s => (Ok (VSome x), s))                                                   (* 703-721, 735-757 *)
    | CShared e | CWeak e =>                                                                                                           (* 783-835, Node.cpp:547-559 *)
        tbind (tfield (CNum TUI64) (IdName str_shared_key) (VNum 0) n s) (fun k s =>
          match k with
          | VNum key =>
              match find_key key (r_tab s) with
              | Some a => match nth_error (r_heap s) a with Some (u, _) => if ct_eqb u e then (Ok (VRef a), s) else (UB UbCast, s) | None => (UB UbDangling, s) end
              | None =>
                  tbind (tfield e (IdName str_shared_value) (w_new w e) n s) (fun x s =>
                    let a := length (r_heap s) in
                    (Ok (VRef a), mkRs (r_heap s ++ [(e, x)]) (match find_key key (r_tab s) with Some _ => r_tab s | None => (key, a) :: r_tab s end)))
              end
          | _ => (Err, s)
          end)
    | CPoly u =>                                                                                                                         (* 447-465 *)
        if negb (is_scope (n_type n)) then (Err, s)
        else tbind (value_named n (str_type_id, EUTF8), s) (fun c s =>
          let v := snd c in
          if negb (ty_eqb (v_type v) TString) && negb (ty_eqb (v_type v) TBinary) then (Err, s)
          else tbind (w_reg w u (v_data v, v_enc v), s) (fun o s =>
            match o with None => (Err, s) | Some c => members (w_cls w c) (w_new w (CCls c)) s 1 (VPoly c) end))
    | _ => (Err, s)
    end.
End Paste.
(** Resolve.hpp:399-835, the recursion *)
Fixpoint tpaste (F : nat) (w : world) (t : ct) (old : cv) (n : node) (s : rstate) : tres cv :=
  match F with O => (Fuel, s) | S f => tstep w (tpaste f w) t old n s end.

(** Union.hpp:98-132 *)
Definition union_unwrap (F : nat) (w : world) (t : ct) (u : handle) (s : rstate) : tres cv :=
  if scoped t then match u with Some (UnNode _ n) => tpaste F w t (w_new w t) n s | _ => (Err, s) end
  else match u with Some (UnValue _ v) => (value_unwrap w t v, s) | _ => (Err, s) end.
(** Union.hpp:157-187: exceptions become "nothing", undefined behaviour does not *)
Definition unwrap_if (F : nat) (w : world) (t : ct) (u : handle) (s : rstate) : tres (option cv) :=
  let (r, s') := union_unwrap F w t u s in (attempt r, s').
(** the usual way to find out what a part of a tree is: one type after the other; the position of the type, and the object *)
(** Union.hpp:98-132 *)
Fixpoint unwrap_first (F : nat) (w : world) (ts : list ct) (u : handle) (s : rstate) : tres (option (nat * cv)) :=
  match ts with
  | [] => (Ok None, s)
  | t :: ts' => tbind (unwrap_if F w t u s) (fun o s =>
      match o with
      | Some v => (Ok (Some (O, v)), s)
      | None => tbind (unwrap_first F w ts' u s) (fun r s => (Ok (match r with Some (i, v) => Some (S i, v) | None => None end), s))
      end)
  end.
