(** What a document says about an object: restoring as a function on documents, without a parser, without stored items and
    without positions in an input. *)
From Coq Require Import ZArith List Bool.
From Verif Require Import Base M_Types M_Conv M_TpTools M_Charset S_Doc M_Tree S_Tree M_Object.
Import ListNotations.
Open Scope Z_scope.

Definition is_sc (d : doc) : bool := match d with DVal _ _ => false | DScope _ _ _ => true end.
Definition items (d : doc) : list doc := match d with DVal _ _ => [] | DScope _ _ its => its end.
Definition doc_type (d : doc) : ty := match d with DVal _ v => v_type v | DScope _ t _ => t end.

(** position and item of the [i]-th item that satisfies [p] *)
Fixpoint nth_match (p : doc -> bool) (i : nat) (its : list doc) : option (nat * doc) :=
  match its with
  | [] => None
  | d :: its' =>
      let next := fun i => match nth_match p i its' with Some (j, e) => Some (S j, e) | None => None end in
      if p d then match i with O => Some (O, d) | S i' => next i' end else next i
  end.
Definition of_kind (sc : bool) (d : doc) : bool := Bool.eqb (is_sc d) sc.
Definition of_name (sc : bool) (k : bytes) (d : doc) : bool := Bool.eqb (is_sc d) sc && bytes_eqb (doc_name d) k.
(** the item a field refers to: the first scope / value of that name, the i-th scope / value *)
Definition select (sc : bool) (id : fid) (its : list doc) : option (nat * doc) :=
  match id with
  | IdName k => nth_match (of_name sc k) 0 its
  | IdPos i => if i <? 0 then None else nth_match (of_kind sc) (Z.to_nat i) its
  end.
Definition kind_items (sc : bool) (its : list doc) : list doc := filter (of_kind sc) its.
(** number of items up to and including the n-th of that kind *)
Fixpoint upto (sc : bool) (n : nat) (its : list doc) : nat :=
  match n, its with
  | O, _ | _, [] => O
  | S n', d :: its' => S (upto sc (if of_kind sc d then n' else n) its')
  end.

(** The result of the functions below: the object, the objects shared so far, and the number of items of the scope up to the
    last one that was needed.  With [strict], a document is refused
    - if a scope that is not the root contains a scope behind the last item needed;
    - if an optional field is to be taken from a scope that has an item of that name of the other kind. *)
Section Doc.
  Variable w : world.
  Variable strict : bool.
  Variable dn : ct -> cv -> doc -> rstate -> res (cv * rstate * nat).

  Definition quiet (its : list doc) (used : nat) : bool := negb strict || forallb (fun d => negb (is_sc d)) (skipn used its).
  (** an item below the root *)
  Definition dchild (t : ct) (old : cv) (d : doc) (s : rstate) : res (cv * rstate) :=
    match d with
    | DVal _ v => let* x := paste_value w t old v in Ok (x, s)
    | DScope _ _ its => let* (v, s', u) := dn t old d s in if quiet its u then Ok (v, s') else Err
    end.
  Definition dfield (t : ct) (id : fid) (old : cv) (its : list doc) (s : rstate) : res (cv * rstate * nat) :=
    match select (scoped t) id its with
    | None => Err
    | Some (j, d) => let* (v, s') := dchild t old d s in Ok (v, s', S j)
    end.
  (** the members of a class: an optional one that is absent keeps its value *)
  Fixpoint dfields (fs : list field) (olds : list cv) (its : list doc) (s : rstate) (vi ni : Z) : res (list cv * rstate * nat) :=
    match fs, olds with
    | [], _ => Ok ([], s, O)
    | _ :: _, [] => Err
    | f :: fs', old :: olds' =>
        let sc := scoped (f_type f) in
        if f_opt f && strict && existsb (of_name (negb sc) (f_name f)) its then Err
        else if f_opt f && negb (existsb (of_name sc (f_name f)) its) then
          let* (vs, s', u) := dfields fs' olds' its s vi ni in Ok (old :: vs, s', length its)
        else
          let* (v, s1, u1) := dfield (f_type f) (if 0 <? zlen (f_name f) then IdName (f_name f) else IdPos (if sc then ni else vi)) old its s in
          let* (vs, s2, u2) := dfields fs' olds' its s1 (if sc then vi else vi + 1) (if sc then ni + 1 else ni) in
          Ok (v :: vs, s2, Nat.max u1 u2)
    end.
  (** elements, one after the other *)
  Fixpoint deach {B} (f : doc -> B -> rstate -> res (B * rstate)) (l : list doc) (acc : B) (s : rstate) : res (B * rstate) :=
    match l with
    | [] => Ok (acc, s)
    | d :: l' => let* (acc', s') := f d acc s in deach f l' acc' s'
    end.
  Fixpoint darray (e : ct) (olds : list cv) (l : list doc) (s : rstate) : res (list cv * rstate) :=
    match olds, l with
    | old :: olds', d :: l' => let* (v, s1) := dchild e old d s in let* (vs, s2) := darray e olds' l' s1 in Ok (v :: vs, s2)
    | _, _ => Ok ([], s)
    end.
  Definition delem {B} (add : cv -> B -> B) (e : ct) (d : doc) (acc : B) (s : rstate) : res (B * rstate) :=
    let* (v, s') := dchild e (w_new w e) d s in Ok (add v acc, s').
  Definition dentry (k e : ct) (d : doc) (acc : list (cv * cv)) (s : rstate) : res (list (cv * cv) * rstate) :=
    let* (key, s1, u1) := dfield k (IdName str_key) (w_new w k) (items d) s in
    let* (val, s2, u2) := dfield e (IdName str_value) (w_new w e) (items d) s1 in
    if quiet (items d) (Nat.max u1 u2) then Ok (emplace (w_lt w) fst (key, val) acc, s2) else Err.
  Definition dtab (e : ct) (d : doc) (acc : list (bytes * cv)) (s : rstate) : res (list (bytes * cv) * rstate) :=
    let* (v, s') := dchild e (w_new w e) d s in Ok (tab_insert (doc_name d) v acc, s').

  Definition dstep (t : ct) (old : cv) (k : bytes) (ntype : ty) (its : list doc) (s : rstate) : res (cv * rstate * nat) :=
    let all := length its in
    let members := fun (fs : list field) (old : cv) (vi : Z) (u0 : nat) (mk : list cv -> cv) =>
      match old with
      | VList olds => let* (vs, s', u) := dfields fs olds its s vi 0 in Ok (mk vs, s', Nat.max u0 u)
      | _ => Err
      end in
    match t with
    | CCls c => if negb (is_scope ntype) then Err else members (w_cls w c) old 0 O VList
    | CSeq e =>
        if negb (is_scope ntype) then Err
        else let* (vs, s') := deach (delem (fun v acc => acc ++ [v]) e) (kind_items (scoped e) its) [] s in Ok (VList vs, s', all)
    | CSet e =>
        if negb (is_scope ntype) then Err
        else let* (vs, s') := deach (delem (emplace (w_lt w) (fun v => v)) e) (kind_items (scoped e) its) [] s in Ok (VList vs, s', all)
    | CMap k e =>
        if negb (is_scope ntype) then Err
        else let* (l, s') := deach (dentry k e) (kind_items true its) [] s in Ok (VMap l, s', all)
    | CTab e =>
        if negb (ty_eqb ntype TObject) then Err
        else let* (l, s') := deach (dtab e) (kind_items (scoped e) its) [] s in Ok (VTab l, s', all)
    | CArr len e =>
        if negb (is_scope ntype) then Err
        else match old with
             | VList olds =>
                 if negb (Nat.eqb (length olds) len) then Err
                 else if negb (Nat.eqb (length (kind_items (scoped e) its)) len) then Err
                 else let* (vs, s') := darray e olds (kind_items (scoped e) its) s in Ok (VList vs, s', upto (scoped e) len its)
             | _ => Err
             end
    | CPair a b =>
        if negb (ty_eqb ntype TObject) then Err
        else match old with
             | VList [oa; ob] =>
                 let* (x, s1, u1) := dfield a (IdName str_first) oa its s in
                 let* (y, s2, u2) := dfield b (IdName str_second) ob its s1 in
                 Ok (VList [x; y], s2, Nat.max u1 u2)
             | _ => Err
             end
    | CTup c =>
        if negb (is_scope ntype) then Err
        else members (map (fun f => mkField [] false (f_type f)) (w_cls w c)) old 0 O VList
    | CPtr e | CUniq e => let* (x, s', u) := dn e (w_new w e) (DScope k ntype its) s in Ok (VSome x, s', u)
    | CShared e | CWeak e =>
        let* (key, s1, u1) := dfield (CNum TUI64) (IdName str_shared_key) (VNum 0) its s in
        match key with
        | VNum key =>
            match find_key key (r_tab s1) with
            | Some a =>
                match nth_error (r_heap s1) a with
                | Some (u, _) => if ct_eqb u e then Ok (VRef a, s1, u1) else UB UbCast
                | None => UB UbDangling
                end
            | None =>
                let* (x, s2, u2) := dfield e (IdName str_shared_value) (w_new w e) its s1 in
                let a := length (r_heap s2) in
                Ok (VRef a, mkRs (r_heap s2 ++ [(e, x)]) (match find_key key (r_tab s2) with Some _ => r_tab s2 | None => (key, a) :: r_tab s2 end), Nat.max u1 u2)
            end
        | _ => Err
        end
    | CPoly u =>
        if negb (is_scope ntype) then Err
        else match select false (IdName str_type_id) its with
             | Some (j, DVal _ v) =>
                 if negb (ty_eqb (v_type v) TString) && negb (ty_eqb (v_type v) TBinary) then Err
                 else let* o := w_reg w u (v_data v, v_enc v) in
                      match o with
                      | None => Err
                      | Some c => members (w_cls w c) (w_new w (CCls c)) 1 (S j) (VPoly c)
                      end
             | _ => Err
             end
    | _ => Err
    end.
End Doc.

(** a scope as an object; [F] bounds the nesting *)
Fixpoint said (F : nat) (w : world) (strict : bool) (t : ct) (old : cv) (d : doc) (s : rstate) : res (cv * rstate * nat) :=
  match F with
  | O => Fuel
  | S f =>
      match d with
      | DVal _ _ => Err
      | DScope k ntype its => dstep w strict (said f w strict) t old k ntype its s
      end
  end.

(** the root: an object, or a value inside an object *)
Definition says (F : nat) (w : world) (strict : bool) (t : ct) (old : cv) (d : doc) (s : rstate) : res (cv * rstate) :=
  if scoped t then let* (v, s', u) := said F w strict t old d s in Ok (v, s')
  else let* (v, s', u) := dfield w strict (said F w strict) t (IdPos 0) old (items d) s in Ok (v, s').

(** classes whose members all have names, different ones, or none; registered classes have names that are not the name of the
    type id *)
Definition named_class (fs : list field) : Prop := Forall (fun f => 0 < zlen (f_name f)) fs /\ NoDup (map f_name fs).
Definition unnamed_class (fs : list field) : Prop := Forall (fun f => f_name f = [] /\ f_opt f = false) fs.
Definition regular (w : world) : Prop :=
  (forall c, named_class (w_cls w c) \/ unnamed_class (w_cls w c)) /\
  (forall u id c, w_reg w u id = Ok (Some c) -> named_class (w_cls w c) /\ ~ In str_type_id (map f_name (w_cls w c))).
(** a document whose root is a scope and whose nesting is within the limit *)
Definition deep_enough (d : doc) : Prop := shaped d /\ is_sc d = true /\ (depth d <= 129)%nat.
