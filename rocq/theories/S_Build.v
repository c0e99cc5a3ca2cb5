(** What insertions by hand stand for, as documents. *)
From Coq Require Import ZArith List Bool.
From Verif Require Import Base M_Types M_Conv M_In S_Doc S_Tree S_Out M_Event M_Heap M_Out M_Tree M_TreeIO M_Object S_ObjStore M_Pack M_Build.
Import ListNotations.
Open Scope Z_scope.

(** The document of one insertion, and of several; [tab]: the shared objects that were inserted before.  An object stands for what Node::insert makes of it. *)
Inductive stands (w : world) (hp : heap_t) : ins -> shared_tab -> doc -> shared_tab -> Prop :=
| sd_obj i tab d tab' : (exists size, forall F, (size <= F)%nat -> emit F w hp (i_type i) (i_val i) (i_name i) tab = Ok (d, tab')) -> stands w hp (InObj i) tab d tab'
| sd_value k v tab : stands w hp (InValue k v) tab (DVal k v) tab
| sd_node k n own tab : stands w hp (InNode k n own) tab (tree_doc k n) tab
| sd_list k t vs tab ds tab' : all_stand w hp (map (fun v => InObj (mkItem [] t v)) vs) tab ds tab' -> stands w hp (InList k t vs) tab (DScope k TArray ds) tab'
| sd_scope k tp l tab ds tab' : all_stand w hp l tab ds tab' -> stands w hp (InScope k tp true l) tab (DScope k tp ds) tab'
with all_stand (w : world) (hp : heap_t) : list ins -> shared_tab -> list doc -> shared_tab -> Prop :=
| as_nil tab : all_stand w hp [] tab [] tab
| as_cons c l tab d tab1 ds tab2 : stands w hp c tab d tab1 -> all_stand w hp l tab1 ds tab2 -> all_stand w hp (c :: l) tab (d :: ds) tab2.
Scheme stands_mut := Minimality for stands Sort Prop with all_stand_mut := Minimality for all_stand Sort Prop.
Combined Scheme stand_ind from stands_mut, all_stand_mut.

(** no initializer lists *)
Fixpoint unlisted (c : ins) : Prop :=
  match c with
  | InList _ _ _ => False
  | InScope _ _ _ l => (fix all (l : list ins) : Prop := match l with [] => True | x :: l' => unlisted x /\ all l' end) l
  | _ => True
  end.
(** The same insertions, but an initializer list is an empty array followed by the elements, without names, outside of it *)
Fixpoint spill (c : ins) : list ins :=
  match c with
  | InList k t vs => InScope k TArray true [] :: map (fun v => InObj (mkItem [] t v)) vs
  | InScope k tp alive l => [InScope k tp alive (flat_map spill l)]
  | _ => [c]
  end.
(** the objects that are inserted; no ScopeWrap whose function is gone *)
Fixpoint objects (c : ins) : list item :=
  match c with
  | InObj i => [i]
  | InList _ t vs => map (fun v => mkItem [] t v) vs
  | InScope _ _ _ l => flat_map objects l
  | _ => []
  end.
Fixpoint callable (c : ins) : Prop :=
  match c with
  | InScope _ _ alive l => alive = true /\ (fix all (l : list ins) : Prop := match l with [] => True | x :: l' => callable x /\ all l' end) l
  | _ => True
  end.

(** Tree::pack of the insertions into memory writes [bs] *)
Definition hand_packs (w : world) (hp : heap_t) (p : parser) (l : list ins) (bs : bytes) : Prop :=
  exists size p', forall F m, (size <= F)%nat -> zlen bs < 2 ^ 32 -> exists h, pack_build (w_fp w) F w hp p (heap_init m) l = Ok (p', bs, h).
(** [n] is what the root of a new tree, an object, is after the insertions *)
Definition builds (w : world) (hp : heap_t) (l : list ins) (n : node) : Prop :=
  exists size tab, forall F, (size <= F)%nat -> build F w hp l (empty_node TObject) [] = Ok (n, tab).
