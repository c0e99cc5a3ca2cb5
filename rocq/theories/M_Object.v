(** Model of storing and restoring C++ objects: Lib::Switch<T> (include/Srl/Resolve.hpp), Context
    (include/Srl/Context.hpp), the consume functions of Node (src/lib/Node.cpp:279-494, 514-559, 663-684), paste_field
    and open_scope (include/Srl/Node.hpp:105-182) and Tree::store / restore (include/Srl/Tree.hpp, src/lib/Tree.cpp:30-83).
    Definitions only.

    Simplifications.  A C++ type is a code [ct], an object is a tree of values [cv]; classes are looked up in a table, so
    that types may be recursive.  Objects owned by shared pointers live in a heap (a list), a pointer to one is its
    position.  What an object holds after an exception is not represented.  std::set and std::map are lists sorted by a
    parameter [w_lt]; unordered containers are not modelled.  A HTable is the list of its entries in the order in which
    they are written / inserted (its own behaviour: M_HTable).  Not modelled here: Srl::String members (M_StrRef),
    Unions (M_Union), BitWrap with a null pointer (M_Bits), long double, unique_ptr to a polymorphic class (the same as a plain pointer to one). *)
From Coq Require Import ZArith List Bool.
From Verif Require Import Base M_Types M_Conv M_TpTools M_Charset M_In S_Doc M_Env M_Tree.
Import ListNotations.
Open Scope Z_scope.

(** * Types and values *)

(** Resolve.hpp:82-967: the types for which there is a Switch *)
Inductive ct : Type :=
| CNum (t : ty)          (* bool, integers, float, double *)
| CStr (e : enc)         (* std::basic_string *)
| CChar (e : enc)        (* a character *)
| CChars (e : enc) (n : Z)   (* TChar[n] *)
| CBits                  (* Srl::Bytes, VecWrap<uint8_t>, BitWrap with an alloc function *)
| CCls (c : nat)         (* class with srl_resolve or srl_store / srl_restore *)
| CSeq (e : ct)          (* vector, list, deque *)
| CSet (e : ct)          (* std::set *)
| CMap (k v : ct)        (* std::map *)
| CTab (v : ct)          (* HTable<std::string, V> *)
| CArr (n : nat) (e : ct)    (* E[n] *)
| CPair (a b : ct)
| CTup (c : nat)         (* std::tuple; the element types are those of the fields of entry c of the class table *)
| CPtr (e : ct)          (* E*, E not polymorphic *)
| CUniq (e : ct)         (* unique_ptr<E> *)
| CShared (e : ct) | CWeak (e : ct)
| CPoly (u : nat).       (* pointer to a polymorphic class u with srl_type_id *)

(** one call [ctx("name", member, flags)] of a resolve method; without a name the name is empty (Context.hpp:36-53) *)
Record field : Type := mkField { f_name : bytes; f_opt : bool; f_type : ct }.

(** Resolve.hpp:82-967 *)
Inductive cv : Type :=
| VNum (n : Z)           (* the integer, or the bit pattern of a float / double *)
| VStr (bs : bytes)      (* the bytes of a string, character, character array or binary block *)
| VList (vs : list cv)   (* members of a class, elements of a container, array, pair, tuple *)
| VMap (l : list (cv * cv))
| VTab (l : list (bytes * cv))
| VNone | VSome (v : cv) (* pointers *)
| VRef (a : nat)         (* shared and weak pointers: position in the heap *)
| VPoly (c : nat) (vs : list cv).

(** the program around the library *)
(** Registration.h:19-45, Resolve.h:10-30 *)
Record world : Type := mkWorld {
  w_fp   : fp_text;
  w_cls  : nat -> list field;          (* what the resolve method of a class does *)
  w_id   : nat -> bytes;               (* srl_type_id().name() of a polymorphic class *)
  w_reg  : nat -> sstr -> res (option nat);   (* Registrations::create<U> (Registration.h:30-41): the class of the object made for an id;
                                  undefined if that object cannot be used through the U* the cast yields (M_Cast) *)
  w_new  : ct -> cv;                   (* Ctor<T>::Create() / T() *)
  w_lt   : cv -> cv -> bool            (* order of the keys of sets and maps *)
}.

(** Resolve.hpp: [Switch<T>::type] *)
(** Resolve.hpp:86, 128, 156, 288, 371, 427, 472, 573, 617, 648, 689, 727, 763, 821, 839, 888, 903, 920 *)
Fixpoint type_of (t : ct) : ty :=
  match t with
  | CNum t => t
  | CStr _ | CChar _ | CChars _ _ => TString
  | CBits => TBinary
  | CCls _ | CTab _ | CPair _ _ | CShared _ | CWeak _ | CPoly _ => TObject
  | CSeq _ | CSet _ | CMap _ _ | CArr _ _ | CTup _ => TArray
  | CPtr e | CUniq e => type_of e
  end.
(** Node.hpp:106, 120: is_scope(Switch<T>::type) *)
Definition scoped (t : ct) : bool := is_scope (type_of t).

(** Resolve.hpp:797: the type a shared pointer is cast to *)
Fixpoint ct_eqb (a b : ct) : bool :=
  match a, b with
  | CNum t, CNum u => ty_eqb t u
  | CStr e, CStr f | CChar e, CChar f => enc_eqb e f
  | CChars e n, CChars f m => enc_eqb e f && (n =? m)
  | CBits, CBits => true
  | CPoly u, CPoly v => Nat.eqb u v
  | CCls c, CCls d | CTup c, CTup d => Nat.eqb c d
  | CSeq x, CSeq y | CSet x, CSet y | CTab x, CTab y | CPtr x, CPtr y | CUniq x, CUniq y
  | CShared x, CShared y | CWeak x, CWeak y => ct_eqb x y
  | CMap k v, CMap l w | CPair k v, CPair l w => ct_eqb k l && ct_eqb v w
  | CArr n x, CArr m y => Nat.eqb n m && ct_eqb x y
  | _, _ => false
  end.

(** objects owned by shared pointers *)
(** Resolve.hpp:760-816: the objects that p.get() points to *)
Definition heap_t : Type := list (ct * cv).

(** Resolve.hpp:19-22 *)
Definition str_key : bytes := $"key".
Definition str_value : bytes := $"value".
Definition str_first : bytes := $"first".
Definition str_second : bytes := $"second".
Definition str_shared_key : bytes := $"srl_shared_key".
Definition str_shared_value : bytes := $"srl_shared_value".
Definition str_type_id : bytes := $"srl_type_id".

(** sizeof of the character type of an encoding, Resolve.hpp:72-81 *)
Definition unit_size (e : enc) : Z := match e with EUTF16 => 2 | EUTF32 => 4 | _ => 1 end.

(** * Storing *)

(** Value.hpp:12-40 *)
Definition num_value (t : ty) (n : Z) : value :=
  match t with TFP64 => val_f64 n | TFP32 => val_f32 n | _ => val_int t n end.

(** Resolve.hpp:173-188 WrapArray of a TChar[n] whose memory is [bs]: the index of the first zero character is searched up to
    [str_size], which is a number of bytes, while the index counts characters *)
Fixpoint wrap_loop (fuel : nat) (u n i : Z) (bs : bytes) : res Z :=
  match fuel with
  | O => Fuel
  | S f =>
      if negb (i <? (n - 1) * u) then Ok i
      else if n <=? i then UB UbOob
      else if forallb (fun b => b =? 0) (firstn (Z.to_nat u) (skipn (Z.to_nat (i * u)) bs)) then Ok i
      else wrap_loop f u n (i + 1) bs
  end.
Definition wrap_array (e : enc) (n : Z) (bs : bytes) : res bytes :=
  let u := unit_size e in
  if n - 1 =? 0 then Ok []
  else let* i := wrap_loop (S (Z.to_nat n)) u n 0 bs in Ok (firstn (Z.to_nat (i * u)) bs).

(** Node.cpp:537-545 insert_shared: key, and whether the object was there already; [tab] is shared_table_store *)
Definition shared_tab : Type := list (nat * Z).
Fixpoint tab_key (a : nat) (tab : shared_tab) : option Z :=
  match tab with [] => None | (b, k) :: tab' => if Nat.eqb a b then Some k else tab_key a tab' end.
Definition insert_shared (a : nat) (tab : shared_tab) : bool * Z * shared_tab :=
  match tab_key a tab with
  | Some k => (true, k, tab)
  | None => (false, zlen tab, tab ++ [(a, zlen tab)])
  end.

(** items produced one after the other *)
(** Resolve.hpp:482, 585, 932: the loops over the elements *)
Fixpoint emits {A} (f : A -> shared_tab -> res (doc * shared_tab)) (l : list A) (tab : shared_tab) : res (list doc * shared_tab) :=
  match l with
  | [] => Ok ([], tab)
  | a :: l' => let* (d, tab1) := f a tab in let* (ds, tab2) := emits f l' tab1 in Ok (d :: ds, tab2)
  end.

(** [Switch<T>::Insert(object, node, name)]: the call of insert_value, or the call of open_scope with the calls made inside it
    (Node.hpp:139-154, Node.cpp:146-154), as a document.  What becomes of the calls is decided by [stored_doc] and
    [insert_doc].  An object that is not of the type is answered with [Err].  Numbers in the margin: lines of Resolve.hpp. *)
Fixpoint emit (F : nat) (w : world) (hp : heap_t) (t : ct) (v : cv) (name : bytes) (tab : shared_tab) : res (doc * shared_tab) :=
  match F with
  | O => Fuel
  | S f =>
      let fields := fun (fs : list field) (vs : list cv) tab =>
        emits (fun fv => emit f w hp (f_type (fst fv)) (snd fv) (f_name (fst fv))) (combine fs vs) tab in
      match t, v with
      | CNum t, VNum n => Ok (DVal name (num_value t n), tab)                       (* 293-297 *)
      | CStr e, VStr s => Ok (DVal name (val_string s e), tab)                      (* 88-100 *)
      | CChar e, VStr s => Ok (DVal name (val_string s e), tab)                     (* 130-141 *)
      | CChars e n, VStr s => let* d := wrap_array e n s in Ok (DVal name (val_string d e), tab)   (* 159-188 *)
      | CBits, VStr s => Ok (DVal name (val_block s TBinary), tab)                  (* 842-852, 905-909 *)
      | CCls c, VList vs =>                                                         (* 373-397, Context.hpp:55-59 *)
          if Nat.eqb (length vs) (length (w_cls w c)) then
            let* (its, tab1) := fields (w_cls w c) vs tab in Ok (DScope name TObject its, tab1)
          else Err
      | CSeq e, VList vs | CSet e, VList vs =>                                      (* 474-484, 521-547 *)
          let* (its, tab1) := emits (fun x => emit f w hp e x []) vs tab in Ok (DScope name TArray its, tab1)
      | CMap k e, VMap l =>                                                         (* 550-555, 624-635 *)
          let* (its, tab1) := emits (fun p tab =>
            let* (d1, tab1) := emit f w hp k (fst p) str_key tab in
            let* (d2, tab2) := emit f w hp e (snd p) str_value tab1 in
            Ok (DScope [] TObject [d1; d2], tab2)) l tab in
          Ok (DScope name TArray its, tab1)
      | CTab e, VTab l =>                                                           (* 922-933 *)
          let* (its, tab1) := emits (fun p => emit f w hp e (snd p) (fst p)) l tab in Ok (DScope name TObject its, tab1)
      | CArr n e, VList vs =>                                                       (* 577-587 *)
          if Nat.eqb (length vs) n then
            let* (its, tab1) := emits (fun x => emit f w hp e x []) vs tab in Ok (DScope name TArray its, tab1)
          else Err
      | CPair a b, VList [x; y] =>                                                  (* 619-635 *)
          let* (d1, tab1) := emit f w hp a x str_first tab in
          let* (d2, tab2) := emit f w hp b y str_second tab1 in
          Ok (DScope name TObject [d1; d2], tab2)
      | CTup c, VList vs =>                                                         (* 652-662, Node.hpp:36-40 *)
          if Nat.eqb (length vs) (length (w_cls w c)) then
            let* (its, tab1) := emits (fun fv => emit f w hp (f_type (fst fv)) (snd fv) []) (combine (w_cls w c) vs) tab in
            Ok (DScope name TArray its, tab1)
          else Err
      | CPtr e, VNone | CUniq e, VNone => Ok (DVal name (val_type TNull), tab)      (* 694-701, 729-733, 1071-1081 *)
      | CPtr e, VSome x | CUniq e, VSome x => emit f w hp e x name tab
      | CShared e, VNone | CWeak e, VNone => Ok (DVal name (val_type TNull), tab)   (* 765-770, 823-827 *)
      | CShared e, VRef a | CWeak e, VRef a =>                                      (* 771-781 *)
          match nth_error hp a with
          | None => UB UbDangling
          | Some (_, x) =>
              let '(exists_, key, tab1) := insert_shared a tab in
              let k := DVal str_shared_key (val_int TUI64 key) in
              if exists_ then Ok (DScope name TObject [k], tab1)
              else let* (d, tab2) := emit f w hp e x str_shared_value tab1 in Ok (DScope name TObject [k; d], tab2)
          end
      | CPoly _, VNone => Err                                                       (* 431-433 *)
      | CPoly _, VPoly c vs =>                                                      (* 438-445 *)
          if Nat.eqb (length vs) (length (w_cls w c)) then
            let* (its, tab1) := fields (w_cls w c) vs tab in
            Ok (DScope name TObject (DVal str_type_id (val_string (w_id w c) EUTF8) :: its), tab1)
          else Err
      | _, _ => Err
      end
  end.

(** Tree.hpp:15-42: what is written for the root.  [Switch<T>::Insert(node, object)] exists for the scope types below only *)
Definition root_type (t : ct) : bool :=
  match t with
  | CCls _ | CSeq _ | CSet _ | CMap _ _ | CTab _ | CArr _ _ | CPoly _ => true
  | _ => negb (scoped t)
  end.
(** Tree.hpp:33-39 calls the function of Resolve.hpp:438-445 directly, without the check in 431-433 *)
Definition null_root (t : ct) (v : cv) : bool := match t, v with CPoly _, VNone => true | _, _ => false end.
Definition stored_doc (F : nat) (w : world) (hp : heap_t) (t : ct) (v : cv) (name : bytes) (tab : shared_tab) : res (doc * shared_tab) :=
  if null_root t v then UB UbNull
  else if scoped t then emit F w hp t v name tab
  else let* (d, tab1) := emit F w hp t v str_value tab in Ok (DScope name TObject [d], tab1).
(** the calls of Environment::write while storing (Node.hpp:143-148, Node.cpp:148-149, Tree.cpp:60-65): the end of a scope is
    written with the name of the scope *)
Fixpoint stored_events (d : doc) : list event :=
  match d with
  | DVal k v => [(k, v)]
  | DScope k t its => (k, val_type t) :: flat_map stored_events its ++ [(k, val_type TScopeEnd)]
  end.
(** the same calls while nothing is being stored: they add to the tree (Node.hpp:150-153, Node.cpp:151-152) *)
Fixpoint insert_doc (d : doc) (n : node) : res node :=
  match d with
  | DVal k v => store_value n v (k, EUTF8)
  | DScope k t its =>
      let* c := (fix go (l : list doc) (c : node) : res node :=
                   match l with [] => Ok c | x :: l' => let* c' := insert_doc x c in go l' c' end) its (empty_node t) in
      store_node n c (k, EUTF8)
  end.
(** Node::insert(name, object) (Node.hpp:12-17) on a tree *)
Definition insert_object (F : nat) (w : world) (hp : heap_t) (t : ct) (v : cv) (name : bytes) (tab : shared_tab) (n : node)
  : res (node * shared_tab) :=
  let* (d, tab1) := emit F w hp t v name tab in let* n' := insert_doc d n in Ok (n', tab1).

(** What Tree::store leaves behind in the environment (Environment.h:40-60): [parsing] and shared_table_store *)
Record tenv : Type := mkTenv { e_parsing : bool; e_shared : shared_tab }.
Definition tenv_new : tenv := mkTenv false [].
(** Tree.cpp:52-69: outcome (the document written) and what is left; after an exception [parsing] stays set.
    Simplification: after an exception the table is taken to be as before. *)
Definition tree_store (F : nat) (w : world) (hp : heap_t) (t : ct) (v : cv) (name : bytes) (e : tenv) : res doc * tenv :=
  match stored_doc F w hp t v name (e_shared e) with
  | Ok (d, tab) => (Ok d, mkTenv false tab)
  | Err => (Err, mkTenv true (e_shared e))
  | UB u => (UB u, e)
  | Fuel => (Fuel, e)
  end.
(** Node.cpp:146-154 insert_value: the node, and what is handed to the parser *)
Definition tree_insert_value (e : tenv) (n : node) (v : value) (name : bytes) : res (node * list event) :=
  if e_parsing e then Ok (n, [(name, v)])
  else let* n' := store_value n v (name, EUTF8) in Ok (n', []).

(** * Restoring *)

(** A node with its flag [parsed] (Node.h:123): an unparsed node is one whose remaining items are still in the input; its
    values and nodes are the items that were read while looking for others. *)
Record lnode : Type := mkL { l_parsed : bool; l_node : node }.
(** shared_table_restore and the objects created so far *)
(** Environment.h:52 *)
Record rstate : Type := mkRs { r_heap : heap_t; r_tab : list (Z * nat) }.
(** Tree.cpp:30-50: a new tree *)
Definition rs_new : rstate := mkRs [] [].

(** paste of a value, Resolve.hpp: [Switch<T>::Paste(object, value)] *)

(** ToolsStrConv.cpp:232-244 and Resolve.hpp:299-328 *)
Definition paste_number (x : fp_text) (t : ty) (v : value) : res Z :=
  if ty_eqb (v_type v) TString && negb (enc_eqb (v_enc v) EUTF8) then
    let* d := conv_charset_vec EUTF8 (v_enc v) (v_data v) false in
    if zlen d <? 1 then Err else paste_num x t (val_string d EUTF8)
  else paste_num x t v.
(** Tools.hpp:10-30 [String(...).unwrap<TChar>()] *)
Definition unwrap_text (to from : enc) (d : bytes) : res bytes :=
  let u := unit_size to in
  let* c := if enc_eqb from to then Ok d else conv_charset_vec to from d true in
  Ok (firstn (Z.to_nat (zlen c / u * u)) c).
(** memory written at an offset, Resolve.hpp:199-200 *)
Definition poke (mem : bytes) (off : Z) (bs : bytes) : res bytes :=
  if zlen mem <? off + zlen bs then UB UbOob
  else Ok (firstn (Z.to_nat off) mem ++ bs ++ skipn (Z.to_nat (off + zlen bs)) mem).
(** Resolve.hpp:190-212; [mem]: the bytes of the array *)
Definition paste_chars (e : enc) (n : Z) (mem : bytes) (v : value) : res bytes :=
  let u := unit_size e in
  if negb (ty_eqb (v_type v) TString) && negb (ty_eqb (v_type v) TBinary) then Err
  else
    let* c := if enc_eqb (v_enc v) e then Ok (v_data v) else conv_charset_vec e (v_enc v) (v_data v) true in
    if (n - 1) * u <? zlen c then Err
    else
      let* mem1 := poke mem 0 c in
      poke mem1 (zlen (v_data v) / u * u) (repeat 0 (Z.to_nat u)).
(** Resolve.hpp:976-996 *)
Definition paste_char (e : enc) (v : value) : res bytes :=
  if negb (ty_eqb (v_type v) TString) && negb (ty_eqb (v_type v) TBinary) then Err
  else
    let* c := if enc_eqb (v_enc v) e then Ok (v_data v) else conv_charset_vec e (v_enc v) (v_data v) true in
    if zlen c =? unit_size e then Ok c else Err.

(** Resolve.hpp:102-122, 143-147, 190-215, 299-345, 703-721, 735-757, 854-883, 894-916 *)
Fixpoint paste_value (w : world) (t : ct) (old : cv) (v : value) : res cv :=
  match t with
  | CNum t => let* n := paste_number (w_fp w) t v in Ok (VNum n)
  | CStr e =>                                                                       (* 102-122 *)
      if ty_eqb (v_type v) TNull then Ok old
      else if ty_eqb (v_type v) TString then let* s := unwrap_text e (v_enc v) (v_data v) in Ok (VStr s)
      else if negb (is_scalar (v_type v)) then Err
      else let* d := type_to_str (w_fp w) v in let* s := unwrap_text e EUTF8 d in Ok (VStr s)
  | CChar e => let* s := paste_char e v in Ok (VStr s)
  | CChars e n =>
      match old with VStr mem => let* s := paste_chars e n mem v in Ok (VStr s) | _ => Err end
  | CBits =>                                                                        (* 854-883, 911-916 *)
      match v_type v with
      | TString =>                                                                  (* 870: nothing is decoded if the size is 0 *)
          if Nat.eqb (get_base64_decoded_size (v_data v)) 0 then Ok (VStr []) else let* s := base64_to_bytes (v_data v) in Ok (VStr s)
      | TBinary => Ok (VStr (v_data v))
      | _ => Err
      end
  | CPtr e =>                                                                       (* 703-721 *)
      if ty_eqb (v_type v) TNull then Ok VNone else let* x := paste_value w e (w_new w e) v in Ok (VSome x)
  | CUniq e => let* x := paste_value w e (w_new w e) v in Ok (VSome x)              (* 735-757 *)
  | _ => Err
  end.

(** the name or position of a field *)
(** Node.hpp:105-130: the template parameter ID *)
Inductive fid : Type := IdName (k : bytes) | IdPos (i : Z).

(** an item of a scope that was read while looking for another one is stored in the node, scopes with all they contain
    (Node.cpp:358-363, 402-407, 447, 484-486); the depth of the nested read starts again at 0 *)
Definition keep_item (F : nat) (n : lnode) (name : bytes) (v : value) : eprog lnode :=
  if is_scope (v_type v) then
    ebind (read_source F 0 (empty_node (v_type v))) (fun c =>
    ebind (elift (store_node (l_node n) c (name, EUTF8))) (fun n' => ERet (mkL (l_parsed n) n')))
  else ebind (elift (store_value (l_node n) v (name, EUTF8))) (fun n' => ERet (mkL (l_parsed n) n')).

(** the reading loops of consume_node and consume_value (Node.cpp:341-364, 385-408, 429-449, 468-487): the next scope
    ([want] = true) or value whose name satisfies [p], and the node; nothing if the scope ended *)
Fixpoint scan (F : nat) (want : bool) (p : bytes -> bool) (n : lnode) : eprog (option (bytes * value) * lnode) :=
  match F with
  | O => EFuel
  | S f =>
      if l_parsed n then ERet (None, n)
      else ERead (fun e =>
        let (name, v) := e in
        if ty_eqb (v_type v) TScopeEnd then ERet (None, mkL true (l_node n))
        else if Bool.eqb (is_scope (v_type v)) want && p name then ERet (Some (name, v), n)
        else ebind (keep_item f n name v) (scan f want p))
  end.

(** Node.cpp:125-138 *)
Definition find_stored {A} (k : bytes) (l : list (bytes * A)) : res (option nat) :=
  let* h := hash_string (k, EUTF8) in find_loop (cmp_hash_name h (k, EUTF8)) 0 l.
Definition stored_at {A} (id : fid) (l : list (bytes * A)) : res (option nat) :=
  match id with
  | IdName k => find_stored k l
  | IdPos _ => Ok (match l with [] => None | _ => Some O end)
  end.
Definition id_matches (id : fid) : bytes -> bool := match id with IdName k => fun name => bytes_eqb k name | IdPos _ => fun _ => true end.

(** consume_node (Node.cpp:329-371, 418-456): name and node, or nothing *)
Definition consume_node (F : nat) (id : fid) (n : lnode) : eprog (option (bytes * lnode) * lnode) :=
  let (t, vs, ns) := l_node n in
  ebind (elift (stored_at id ns)) (fun i =>
    match pick ns i with
    | Some (k, c) => ERet (Some (k, mkL true c), mkL (l_parsed n) (mkNode t vs (erase (match i with Some i => i | None => O end) ns)))
    | None =>
        ebind (scan F true (id_matches id) n) (fun r =>
          let (o, n') := r in
          ERet (match o with Some (k, v) => Some (k, mkL false (empty_node (v_type v))) | None => None end, n'))
    end).
(** consume_value (Node.cpp:373-415, 458-494); the flag tells that the value came from the node (Value is then a copy that
    holds up to eight bytes of data itself, Environment.cpp:138) *)
Definition consume_value (F : nat) (id : fid) (n : lnode) : eprog (option (bytes * value * bool) * lnode) :=
  let (t, vs, ns) := l_node n in
  ebind (elift (stored_at id vs)) (fun i =>
    match pick vs i with
    | Some (k, v) => ERet (Some (k, v, true), mkL (l_parsed n) (mkNode t (erase (match i with Some i => i | None => O end) vs) ns))
    | None =>
        ebind (scan F false (id_matches id) n) (fun r =>
          let (o, n') := r in
          ERet (match o with Some (k, v) => Some (k, v, false) | None => None end, n'))
    end).

(** consume_item(id, false) (Node.cpp:279-327): is there such an item and is it a node; all items read are stored *)
Fixpoint scan_item (F : nat) (h : Z) (k : bytes) (n : lnode) : eprog (option bool * lnode) :=
  match F with
  | O => EFuel
  | S f =>
      if l_parsed n then ERet (None, n)
      else ERead (fun e =>
        let (name, v) := e in
        if ty_eqb (v_type v) TScopeEnd then ERet (None, mkL true (l_node n))
        else ebind (keep_item f n name v) (fun n' =>
             ebind (elift (cmp_hash_name h (k, EUTF8) (name, v))) (fun b =>
               if (b : bool) then ERet (Some (is_scope (v_type v)), n') else scan_item f h k n')))
  end.
Definition consume_item (F : nat) (k : bytes) (n : lnode) : eprog (option bool * lnode) :=
  ebind (elift (find_link false (cmp_name (k, EUTF8)) (n_nodes (l_node n)))) (fun i =>
  match i with
  | Some _ => ERet (Some true, n)
  | None =>
      ebind (elift (find_link false (cmp_name (k, EUTF8)) (n_values (l_node n)))) (fun j =>
      match j with
      | Some _ => ERet (Some false, n)
      | None => ebind (elift (hash_string (k, EUTF8))) (fun h => scan_item F h k n)
      end)
  end).
(** has_node, has_value (Node.cpp:663-684) *)
Definition has_field (F : nat) (want_node : bool) (k : bytes) (n : lnode) : eprog (bool * lnode) :=
  if l_parsed n then
    ebind (elift (if want_node then has_node (l_node n) (k, EUTF8) else has_value (l_node n) (k, EUTF8))) (fun b => ERet (b, n))
  else
    ebind (consume_item F k n) (fun r =>
      let (o, n') := r in
      ERet (match o with Some is_node => Bool.eqb is_node want_node | None => false end, n')).

(** consume_scope (Node.cpp:514-535) *)
Fixpoint consume_scope_loop (F : nat) (depth : Z) : eprog unit :=
  match F with
  | O => EFuel
  | S f =>
      ERead (fun e =>
        let t := v_type (snd e) in
        if is_scope t then consume_scope_loop f (depth + 1)
        else if ty_eqb t TScopeEnd then (if depth - 1 <=? 0 then ERet tt else consume_scope_loop f (depth - 1))
        else consume_scope_loop f depth)
  end.
Definition consume_scope (F : nat) (n : lnode) : eprog unit := if l_parsed n then ERet tt else consume_scope_loop F 0.

(** node(id) / value(id) of a parsed node, consume_node / consume_value of one that is not (Node.hpp:105-130) *)
Definition need {A} (o : option A) : eprog A := match o with Some a => ERet a | None => EThrow end.
Definition field_node (F : nat) (id : fid) (n : lnode) : eprog (lnode * lnode) :=
  if l_parsed n then
    ebind (elift (match id with IdName k => node_named (l_node n) (k, EUTF8) | IdPos i => node_at (l_node n) i end)) (fun c =>
    ERet (mkL true (snd c), n))
  else ebind (consume_node F id n) (fun r => ebind (need (fst r)) (fun c => ERet (snd c, snd r))).
Definition field_value (F : nat) (id : fid) (n : lnode) : eprog (value * bool * lnode) :=
  if l_parsed n then
    ebind (elift (match id with IdName k => value_named (l_node n) (k, EUTF8) | IdPos i => value_at (l_node n) i end)) (fun c =>
    ERet (snd c, false, n))
  else ebind (consume_value F id n) (fun r => ebind (need (fst r)) (fun c => ERet (snd (fst c), snd c, snd r))).

(** std::map::emplace / std::set::insert *)
(** Resolve.hpp:546, 566 *)
Fixpoint emplace {A} (lt : cv -> cv -> bool) (key : A -> cv) (a : A) (l : list A) : list A :=
  match l with
  | [] => [a]
  | b :: l' => if lt (key a) (key b) then a :: l else if lt (key b) (key a) then b :: emplace lt key a l' else l
  end.
(** HTable::insert keeps the entry that is there *)
(** Resolve.hpp:947, 960, Hash.hpp:190-208 *)
Definition tab_insert (k : bytes) (v : cv) (l : list (bytes * cv)) : list (bytes * cv) :=
  if existsb (fun q => bytes_eqb (fst q) k) l then l else l ++ [(k, v)].

Section Paste.
  Variable w : world.
  (** [Switch<T>::Paste(object, node)] for the types inside *)
  Variable pn : ct -> cv -> lnode -> rstate -> eprog (cv * lnode * rstate).
  Variable F : nat.

  (** Node.hpp:105-130 *)
  Definition paste_field (t : ct) (id : fid) (old : cv) (n : lnode) (s : rstate) : eprog (cv * lnode * rstate) :=
    if scoped t then
      ebind (field_node F id n) (fun r =>
      ebind (pn t old (fst r) s) (fun q =>
        let '(v, c', s') := q in
        if l_parsed n then ERet (v, snd r, s') else ebind (consume_scope F c') (fun _ => ERet (v, snd r, s'))))
    else
      ebind (field_value F id n) (fun r =>
      ebind (elift (paste_value w t old (fst (fst r)))) (fun v => ERet (v, snd r, s))).

  (** the calls of [ctx(...)] in a resolve method (Context.hpp:61-86); [vi] = values_index, [ni] = nodes_index *)
  Fixpoint paste_fields (fs : list field) (olds : list cv) (n : lnode) (s : rstate) (vi ni : Z) : eprog (list cv * lnode * rstate) :=
    match fs, olds with
    | [], _ => ERet ([], n, s)
    | _ :: _, [] => EThrow
    | f :: fs', old :: olds' =>
        let sc := scoped (f_type f) in
        ebind (if f_opt f then has_field F sc (f_name f) n else ERet (true, n)) (fun h =>
          if negb (fst h) then
            ebind (paste_fields fs' olds' (snd h) s vi ni) (fun r => let '(vs, n', s') := r in ERet (old :: vs, n', s'))
          else
            ebind (paste_field (f_type f) (if 0 <? zlen (f_name f) then IdName (f_name f) else IdPos (if sc then ni else vi)) old (snd h) s) (fun r =>
              let '(v, n1, s1) := r in
              ebind (paste_fields fs' olds' n1 s1 (if sc then vi else vi + 1) (if sc then ni + 1 else ni)) (fun r =>
                let '(vs, n', s') := r in ERet (v :: vs, n', s'))))
    end.

  (** the elements of a parsed scope, one after the other; [acc]: what was made of the elements so far *)
  (** Resolve.hpp:502-504, 945-948 *)
  Fixpoint each_stored {A B} (f : bytes * A -> B -> rstate -> eprog (B * rstate)) (l : list (bytes * A)) (acc : B) (s : rstate) : eprog (B * rstate) :=
    match l with
    | [] => ERet (acc, s)
    | a :: l' => ebind (f a acc s) (fun r => each_stored f l' (fst r) (snd r))
    end.
  (** the elements of a scope that is being read (Resolve.hpp:508-515, 952-962): until the scope ends; afterwards
      consume_scope on an element that is a node.  [fuel]: number of elements *)
  Fixpoint each_value_read {B} (f : bytes * value -> B -> rstate -> eprog (B * rstate)) (fuel : nat) (acc : B) (n : lnode) (s : rstate) : eprog (B * lnode * rstate) :=
    match fuel with
    | O => EFuel
    | S k =>
        ebind (consume_value F (IdPos 0) n) (fun r =>
          match fst r with
          | Some (name, v, _) => if l_parsed (snd r) then ERet (acc, snd r, s)
                                 else ebind (f (name, v) acc s) (fun q => each_value_read f k (fst q) (snd r) (snd q))
          | None => ERet (acc, snd r, s)
          end)
    end.
  Fixpoint each_node_read {B} (f : bytes * lnode -> B -> rstate -> eprog (B * lnode * rstate)) (fuel : nat) (acc : B) (n : lnode) (s : rstate) : eprog (B * lnode * rstate) :=
    match fuel with
    | O => EFuel
    | S k =>
        ebind (consume_node F (IdPos 0) n) (fun r =>
          match fst r with
          | Some c => if l_parsed (snd r) then ERet (acc, snd r, s)
                      else ebind (f c acc s) (fun q =>
                           let '(acc', c', s') := q in
                           ebind (consume_scope F c') (fun _ => each_node_read f k acc' (snd r) s'))
          | None => ERet (acc, snd r, s)
          end)
    end.
  (** both: [fv] / [fn] make something of an element that is a value / a node *)
  (** Resolve.hpp:499-518, 943-963 *)
  Definition each_item {B} (sc : bool) (fv : bytes * value -> B -> rstate -> eprog (B * rstate))
      (fn : bytes * lnode -> B -> rstate -> eprog (B * lnode * rstate)) (acc : B) (n : lnode) (s : rstate) : eprog (B * lnode * rstate) :=
    if l_parsed n then
      ebind (if sc
             then each_stored (fun a acc s => ebind (fn (fst a, mkL true (snd a)) acc s) (fun q => ERet (fst (fst q), snd q))) (n_nodes (l_node n)) acc s
             else each_stored fv (n_values (l_node n)) acc s) (fun r => ERet (fst r, n, snd r))
    else if sc then each_node_read fn F acc n s else each_value_read fv F acc n s.

  (** an element that is appended to the sequence / inserted into a set: made from Ctor<E>::Create() (Resolve.hpp:526-546) *)
  Definition elem_value {B} (add : cv -> B -> B) (e : ct) (a : bytes * value) (acc : B) (s : rstate) : eprog (B * rstate) :=
    ebind (elift (paste_value w e (w_new w e) (snd a))) (fun v => ERet (add v acc, s)).
  Definition elem_node {B} (add : cv -> B -> B) (e : ct) (a : bytes * lnode) (acc : B) (s : rstate) : eprog (B * lnode * rstate) :=
    ebind (pn e (w_new w e) (snd a) s) (fun r => let '(v, c', s') := r in ERet (add v acc, c', s')).
  (** Resolve.hpp:557-566 *)
  Definition elem_entry (k e : ct) (a : bytes * lnode) (acc : list (cv * cv)) (s : rstate) : eprog (list (cv * cv) * lnode * rstate) :=
    ebind (paste_field k (IdName str_key) (w_new w k) (snd a) s) (fun r =>
      let '(key, c1, s1) := r in
      ebind (paste_field e (IdName str_value) (w_new w e) c1 s1) (fun r =>
        let '(val, c2, s2) := r in
        ERet (emplace (w_lt w) fst (key, val) acc, c2, s2))).
  (** Resolve.hpp:944-948, 959-961 *)
  Definition entry_value (e : ct) (a : bytes * value) (acc : list (bytes * cv)) (s : rstate) : eprog (list (bytes * cv) * rstate) :=
    ebind (elift (paste_value w e (w_new w e) (snd a))) (fun v => ERet (tab_insert (fst a) v acc, s)).
  Definition entry_node (e : ct) (a : bytes * lnode) (acc : list (bytes * cv)) (s : rstate) : eprog (list (bytes * cv) * lnode * rstate) :=
    ebind (pn e (w_new w e) (snd a) s) (fun r => let '(v, c', s') := r in ERet (tab_insert (fst a) v acc, c', s')).

  (** arrays, Resolve.hpp:589-613 *)
  Fixpoint array_stored {A} (f : cv -> bytes * A -> rstate -> eprog (cv * rstate)) (olds : list cv) (l : list (bytes * A)) (s : rstate) : eprog (list cv * rstate) :=
    match olds, l with
    | old :: olds', a :: l' =>
        ebind (f old a s) (fun r => ebind (array_stored f olds' l' (snd r)) (fun q => ERet (fst r :: fst q, snd q)))
    | _, _ => ERet ([], s)
    end.
  Fixpoint array_read (e : ct) (count : Z) (olds : list cv) (n : lnode) (s : rstate) : eprog (list cv * lnode * rstate) :=
    match olds with
    | [] => ERet ([], n, s)
    | old :: olds' =>
        if l_parsed n then EThrow    (* the loop ends before the array is full: check_size throws *)
        else
        ebind (paste_field e (IdPos count) old n s) (fun r =>
          let '(v, n1, s1) := r in
          ebind (array_read e (count + 1) olds' n1 s1) (fun q => let '(vs, n', s') := q in ERet (v :: vs, n', s')))
    end.

  Fixpoint find_key (k : Z) (l : list (Z * nat)) : option nat :=
    match l with [] => None | (j, a) :: l' => if j =? k then Some a else find_key k l' end.

  (** one step of [Switch<T>::Paste(object, node)], Resolve.hpp:399-835, 935-963; numbers in the margin: lines of Resolve.hpp *)
  Definition paste_step (t : ct) (old : cv) (n : lnode) (s : rstate) : eprog (cv * lnode * rstate) :=
    let members := fun (fs : list field) (old : cv) (n : lnode) (s : rstate) (vi : Z) (mk : list cv -> cv) =>
      match old with
      | VList olds => ebind (paste_fields fs olds n s vi 0) (fun r => let '(vs, n', s') := r in ERet (mk vs, n', s'))
      | _ => EThrow
      end in
    let ntype := n_type (l_node n) in
    match t with
    | CCls c => if negb (is_scope ntype) then EThrow else members (w_cls w c) old n s 0 VList         (* 399-421 *)
    | CSeq e =>                                                                     (* 494-530 *)
        if negb (is_scope ntype) then EThrow
        else let add := fun v acc => acc ++ [v] in
             ebind (each_item (scoped e) (elem_value add e) (elem_node add e) [] n s) (fun r => let '(vs, n', s') := r in ERet (VList vs, n', s'))
    | CSet e =>                                                                     (* 494-519, 533-547 *)
        if negb (is_scope ntype) then EThrow
        else let add := emplace (w_lt w) (fun v => v) in
             ebind (each_item (scoped e) (elem_value add e) (elem_node add e) [] n s) (fun r => let '(vs, n', s') := r in ERet (VList vs, n', s'))
    | CMap k e =>                                                                   (* 494-519, 550-567 *)
        if negb (is_scope ntype) then EThrow
        else ebind (each_item true (fun _ _ _ => EThrow) (elem_entry k e) [] n s) (fun r => let '(l, n', s') := r in ERet (VMap l, n', s'))
    | CTab e =>                                                                     (* 935-963 *)
        if negb (ty_eqb ntype TObject) then EThrow
        else ebind (each_item (scoped e) (entry_value e) (entry_node e) [] n s) (fun r => let '(l, n', s') := r in ERet (VTab l, n', s'))
    | CArr len e =>
        if negb (is_scope ntype) then EThrow
        else match old with
             | VList olds =>
                 if negb (Nat.eqb (length olds) len) then EThrow
                 else if l_parsed n then
                   if scoped e then
                     if negb (Nat.eqb (length (n_nodes (l_node n))) len) then EThrow
                     else ebind (array_stored (fun old a s => ebind (pn e old (mkL true (snd a)) s) (fun q => ERet (fst (fst q), snd q))) olds (n_nodes (l_node n)) s)
                                (fun r => ERet (VList (fst r), n, snd r))
                   else
                     if negb (Nat.eqb (length (n_values (l_node n))) len) then EThrow
                     else ebind (array_stored (fun old a s => ebind (elift (paste_value w e old (snd a))) (fun v => ERet (v, s))) olds (n_values (l_node n)) s)
                                (fun r => ERet (VList (fst r), n, snd r))
                 else ebind (array_read e 0 olds n s) (fun r => let '(vs, n', s') := r in ERet (VList vs, n', s'))
             | _ => EThrow
             end
    | CPair a b =>                                                                  (* 637-644 *)
        if negb (ty_eqb ntype TObject) then EThrow
        else match old with
             | VList [oa; ob] =>
                 ebind (paste_field a (IdName str_first) oa n s) (fun r =>
                   let '(x, n1, s1) := r in
                   ebind (paste_field b (IdName str_second) ob n1 s1) (fun r => let '(y, n2, s2) := r in ERet (VList [x; y], n2, s2)))
             | _ => EThrow
             end
    | CTup c =>                                                                     (* 664-681 *)
        if negb (is_scope ntype) then EThrow
        else members (map (fun f => mkField [] false (f_type f)) (w_cls w c)) old n s 0 VList
    | CPtr e | CUniq e =>                                                           (* 703-721, 735-757; a node is not Null *)
        ebind (pn e (w_new w e) n s) (fun r => let '(x, n', s') := r in ERet (VSome x, n', s'))
    | CShared e | CWeak e =>                                                        (* 783-816, 829-835, Node.cpp:547-559 *)
        ebind (paste_field (CNum TUI64) (IdName str_shared_key) (VNum 0) n s) (fun r =>
          let '(k, n1, s1) := r in
          match k with
          | VNum key =>
              match find_key key (r_tab s1) with
              | Some a =>
                  match nth_error (r_heap s1) a with
                  | Some (u, _) => if ct_eqb u e then ERet (VRef a, n1, s1) else EUndef UbCast     (* 797: static_pointer_cast *)
                  | None => EUndef UbDangling
                  end
              | None =>
                  ebind (paste_field e (IdName str_shared_value) (w_new w e) n1 s1) (fun r =>
                    let '(x, n2, s2) := r in
                    let a := length (r_heap s2) in
                    (* the table keeps an entry made meanwhile under the same key *)
                    ERet (VRef a, n2, mkRs (r_heap s2 ++ [(e, x)]) (match find_key key (r_tab s2) with Some _ => r_tab s2 | None => (key, a) :: r_tab s2 end)))
              end
          | _ => EThrow
          end)
    | CPoly u =>                                                                    (* 447-465 *)
        if negb (is_scope ntype) then EThrow
        else ebind (field_value F (IdName str_type_id) n) (fun r =>
          let '(v, copied, n1) := r in
          if negb (ty_eqb (v_type v) TString) && negb (ty_eqb (v_type v) TBinary) then EThrow
          (* 257: the Srl::String refers to the data of a Value that is gone when paste_field returns *)
          else if copied && (zlen (v_data v) <=? 8) && (0 <? zlen (v_data v)) then EUndef UbDangling
          else ebind (elift (w_reg w u (v_data v, v_enc v))) (fun o =>
            match o with
            | None => EThrow                                                        (* Registration.h:33-35 *)
            | Some c => members (w_cls w c) (w_new w (CCls c)) n1 s 1 (VPoly c)
            end))
    | _ => EThrow    (* not a scope type *)
    end.
End Paste.

(** Resolve.hpp:399-835, the recursion *)
Fixpoint paste_node (F : nat) (w : world) (t : ct) (old : cv) (n : lnode) (s : rstate) : eprog (cv * lnode * rstate) :=
  match F with O => EFuel | S f => paste_step w (paste_node f w) f t old n s end.

(** Tree::restore (Tree.cpp:30-50, 77-83, Tree.hpp:23-41) on the events of a source *)
Definition restore_prog (F : nat) (w : world) (t : ct) (old : cv) : eprog (cv * rstate) :=
  ERead (fun e =>
    let (name, v) := e in
    if negb (is_scope (v_type v)) then EThrow
    else
      let root := mkL false (empty_node (v_type v)) in
      ebind (if scoped t then paste_node F w t old root rs_new
             else paste_field w (paste_node F w) F t (IdPos 0) old root rs_new) (fun r => ERet (fst (fst r), snd r))).
(** Node::paste(object) on a tree that was loaded (Node.hpp:74-87); for types that are not scopes paste_field(0, object) *)
Definition unwrap_prog (F : nat) (w : world) (t : ct) (old : cv) (n : node) (s : rstate) : eprog (cv * rstate) :=
  ebind (if scoped t then paste_node F w t old (mkL true n) s
         else paste_field w (paste_node F w) F t (IdPos 0) old (mkL true n) s) (fun r => ERet (fst (fst r), snd r)).
