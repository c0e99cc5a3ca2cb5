(** Property C99: multisets, multimaps and unordered containers. *)
From Coq Require Import ZArith List Bool Lia Sorted Sorting.Permutation.
From Verif Require Import Base Lemmas M_Types M_Conv M_Charset M_In S_Doc M_OutOps M_Event M_Env M_PSrl M_MsgPack M_Json M_Heap M_Out M_Tree S_Tree P_Tree M_TreeIO S_TreeIO M_Object S_Object
  S_ObjStore P_ObjStore M_ObjIO S_ObjIO P_ObjIO P_ObjFit S_Restored P_Restored M_Multi S_Multi P_Multi Properties_Object Properties_Mixed.
Import ListNotations.
Open Scope Z_scope.

(** * C99 containers with equivalent elements and containers without an order.
    Full statement: what was stored comes back with the same elements in the same order.
    False of the unordered ones: a new element may be put anywhere, for instance in front. *)
Definition back (p : parser) (w : world) (add : cv -> list cv -> list cv) (e : ct) (bs : bytes) : res (list cv * rstate) :=
  let* (r, _) := run_block (restore_coll ex_fp 400 w p add e) (mkBlk [] bs) in Ok (snd r).
Theorem C99_iteration_order_refuted : exists place us bs us', placing place /\ io_bytes (MsgpP msgp_init) [] (CSeq (CNum TI32)) (VList us) = Ok bs /\
  back (MsgpP msgp_init) ex_world place (CNum TI32) bs = Ok (us', rs_new) /\ us' <> us.
Proof.
  exists (fun a l => a :: l), [VNum 1; VNum 2]. do 2 eexists. split; [intros a l; reflexivity|]. split; [vm_compute; reflexivity|]. split; [vm_compute; reflexivity|discriminate].
Qed.
(** std::multiset, std::multimap: whatever the input is, if it reads as the sequence [us] the container has the same elements,
    sorted, and those that are equivalent in the order of the input; directly and from a tree. [key]: the element, or the key of an entry *)
Theorem C99_multi_restored : forall w F F0 q b d e old us s P lt key, regular w -> holds (w_fp w) F q b d -> deep_enough d ->
  says F0 w true (CSeq e) old d rs_new = Ok (VList us, s) -> (F0 + length (events d) <= F)%nat ->
  weak_order P lt -> Forall (fun a => P (key a)) us ->
  exists r, stably_sorted P lt key us r /\
    (exists q' b', run_block (restore_coll (w_fp w) F w q (minsert lt key) e) b = Ok ((q', (r, s)), b')) /\
    (exists q' b' n, run_block (load_tree (w_fp w) F q) b = Ok ((q', (doc_name d, n)), b') /\ erun (unwrap_coll F w (minsert lt key) e n rs_new) [] = Some (Ok ((r, s), []))).
Proof.
  intros w F F0 q b d e old us s P lt key RG H De Sy L WO Fu. exists (fold_left (fun z a => minsert lt key a z) us []). split.
  - exact (minserts P lt key WO us [] Fu (Forall_nil _) (SSorted_nil _)).
  - split; [exact (coll_restored w F F0 q b d e old us s _ RG H De Sy L)|exact (coll_tree w F F0 q b d e old us s _ RG H De Sy L)].
Qed.
(** std::multimap, with its entries: sorted by the keys, entries with equivalent keys in the order of the input *)
Theorem C99_multimap_restored : forall w F F0 q b d e old l s P lt, regular w -> holds (w_fp w) F q b d -> deep_enough d ->
  says F0 w true (CSeq e) old d rs_new = Ok (VList (map (fun p => VList [fst p; snd p]) l), s) -> (F0 + length (events d) <= F)%nat ->
  weak_order P lt -> Forall (fun p => P (fst p)) l ->
  exists l', StronglySorted (fun a b => lt (fst b) (fst a) = false) l' /\ Permutation l l' /\ (forall k, P k -> filter (fun p => equiv lt k (fst p)) l' = filter (fun p => equiv lt k (fst p)) l) /\
    exists q' b', run_block (restore_coll (w_fp w) F w q (minsert lt entry_key) e) b = Ok ((q', (map (fun p => VList [fst p; snd p]) l', s)), b').
Proof.
  intros w F F0 q b d e old l s P lt RG H De Sy L WO Fl. destruct (multimap_sorted P lt l WO Fl) as (l' & E & A & B & C). exists l'. split; [exact A|]. split; [exact B|]. split; [exact C|].
  change (map (fun p => VList [fst p; snd p]) l') with (map pair_of l'). rewrite <- E. exact (coll_restored w F F0 q b d e old _ s _ RG H De Sy L).
Qed.
(** std::unordered_set, std::unordered_map: no two elements are equal, the first of equal ones is there, and if all are different they all are *)
Theorem C99_unordered_restored : forall w F F0 q b d e old us s eqb place key, regular w -> holds (w_fp w) F q b d -> deep_enough d ->
  says F0 w true (CSeq e) old d rs_new = Ok (VList us, s) -> (F0 + length (events d) <= F)%nat ->
  equality eqb -> placing place ->
  exists r, (distinct eqb key r /\ (forall k, find (fun a => eqb k (key a)) r = find (fun a => eqb k (key a)) us) /\ (distinct eqb key us -> Permutation us r)) /\
    (exists q' b', run_block (restore_coll (w_fp w) F w q (uinsert eqb place key) e) b = Ok ((q', (r, s)), b')) /\
    (exists q' b' n, run_block (load_tree (w_fp w) F q) b = Ok ((q', (doc_name d, n)), b') /\ erun (unwrap_coll F w (uinsert eqb place key) e n rs_new) [] = Some (Ok ((r, s), []))).
Proof.
  intros w F F0 q b d e old us s eqb place key RG H De Sy L E Pl. exists (fold_left (fun z a => uinsert eqb place key a z) us []). split.
  - destruct (uinserts eqb place key Pl E us [] I) as [A B]. split; [exact A|]. split; [exact B|]. exact (uinserts_distinct eqb place key Pl E us []).
  - split; [exact (coll_restored w F F0 q b d e old us s _ RG H De Sy L)|exact (coll_tree w F F0 q b d e old us s _ RG H De Sy L)].
Qed.
(** std::unordered_multiset, std::unordered_multimap: the same elements, as often *)
Theorem C99_unordered_multi_restored : forall w F F0 q b d e old us s place, regular w -> holds (w_fp w) F q b d -> deep_enough d ->
  says F0 w true (CSeq e) old d rs_new = Ok (VList us, s) -> (F0 + length (events d) <= F)%nat -> placing place ->
  exists r, Permutation us r /\
    (exists q' b', run_block (restore_coll (w_fp w) F w q place e) b = Ok ((q', (r, s)), b')) /\
    (exists q' b' n, run_block (load_tree (w_fp w) F q) b = Ok ((q', (doc_name d, n)), b') /\ erun (unwrap_coll F w place e n rs_new) [] = Some (Ok ((r, s), []))).
Proof.
  intros w F F0 q b d e old us s place RG H De Sy L Pl. exists (fold_left (fun z a => place a z) us []). split; [exact (placed place Pl us [])|].
  split; [exact (coll_restored w F F0 q b d e old us s _ RG H De Sy L)|exact (coll_tree w F F0 q b d e old us s _ RG H De Sy L)].
Qed.
(** whatever is inserted in which way: the input is taken, is refused and makes the behaviour undefined just where it is for a vector *)
Theorem C99_like_a_vector : forall F w add e old es,
  (forall tail, (exists r s, erun (restore_coll_prog F w add e) es = Some (Ok ((r, s), tail))) <-> (exists v s, erun (restore_prog F w (CSeq e) old) es = Some (Ok ((v, s), tail)))) /\
  (erun (restore_coll_prog F w add e) es = Some Err <-> erun (restore_prog F w (CSeq e) old) es = Some Err) /\
  (forall u, erun (restore_coll_prog F w add e) es = Some (UB u) <-> erun (restore_prog F w (CSeq e) old) es = Some (UB u)).
Proof.
  intros F w add e old es. rewrite (restore_coll_sim F w add e old es). destruct (erun (restore_prog F w (CSeq e) old) es) as [[[[v s] tl]| |u|]|]; cbn [omap fst snd].
  - split; [|split]; [intros tail; split|split|intros u; split]; try discriminate.
    + intros (r & s' & E). injection E as _ _ <-. eauto.
    + intros (r & s' & E). injection E as _ _ <-. eauto.
  - split; [|split]; [intros tail; split; intros (r & s & E); discriminate|split; reflexivity|intros u; split; discriminate].
  - split; [|split]; [intros tail; split; intros (r & s & E); discriminate|split; discriminate|intros u'; split; congruence].
  - split; [|split]; [intros tail; split; intros (r & s & E); discriminate|split; discriminate|intros u; split; discriminate].
  - split; [|split]; [intros tail; split; intros (r & s & E); discriminate|split; discriminate|intros u; split; discriminate].
Qed.
(** What was stored: a multiset or multimap comes back exactly, the others with the same elements. *)
Theorem C99_round_trip_partial : forall w p e us name n, regular w -> constructs w -> storable w [] (fun _ => 0%nat) (carried (w_fp w) p) n (CSeq e) (VList us) -> plain (VList us) = true ->
  name_fits p name -> names_fit w p [] (VList us) ->
  exists d tab size, (forall F, (size <= F)%nat -> stored_doc F w [] (CSeq e) (VList us) name [] = Ok (d, tab)) /\
  (size_fits p d -> exists bs s size', stores_as w [] p name (CSeq e) (VList us) bs /\
     forall add q F before rest, same_format p q -> (size' <= F)%nat ->
     exists r q' b', run_block (restore_coll (w_fp w) F w q add e) (mkBlk before (bs ++ rest)) = Ok ((q', (r, s)), b') /\
       (forall lt key, add = minsert lt key -> in_order lt key us -> r = us) /\
       (forall eqb place key, add = uinsert eqb place key -> equality eqb -> placing place -> distinct eqb key us -> Permutation us r) /\
       (placing add -> Permutation us r)).
Proof.
  intros w p e us name n RG NW ST P N NF.
  assert (HP : S_ObjStore.heap_ok w [] (fun _ => 0%nat) (carried (w_fp w) p)) by (split; [intros [|a] x y; discriminate|reflexivity]).
  assert (SH : shape w (CSeq e) (VList [])) by (apply sh_any; exact I).
  destruct (object_kept w p [] (fun _ => 0%nat) n (CSeq e) (VList us) name (VList []) RG NW HP ST SH N NF) as (d & tab & size & A & B). exists d, tab, size. split; [exact A|].
  intros Z. destruct (B Z) as (bs & c & s & r & B1 & _ & _ & B3 & _ & dn & size' & De & Sy & H). rewrite (plain_same r _ c P B3) in Sy.
  exists bs, s, (size' + length (events dn))%nat. split; [exact B1|]. intros add q F before rest SF L. exists (fold_left (fun z a => add a z) us []).
  destruct (coll_restored w F size' q (mkBlk before (bs ++ rest)) dn e (VList []) us s add RG (H q F before rest SF ltac:(lia)) De Sy L) as (q' & b' & R). exists q', b'. split; [exact R|].
  split; [|split].
  - intros lt key -> S. exact (minserts_sorted lt key us [] S).
  - intros eqb place key -> E Pl D. exact (uinserts_distinct eqb place key Pl E us [] D).
  - intros Pl. exact (placed add Pl us []).
Qed.
Print Assumptions C99_iteration_order_refuted.
Print Assumptions C99_multi_restored.
Print Assumptions C99_multimap_restored.
Print Assumptions C99_unordered_restored.
Print Assumptions C99_unordered_multi_restored.
Print Assumptions C99_like_a_vector.
Print Assumptions C99_round_trip_partial.

(** Entries of a multimap from strings, ordered by their first byte, to numbers: *)
Definition mm_cls (c : nat) : list field := match c with 0%nat => [mkField str_key false (CStr EUTF8); mkField str_value false (CNum TI32)] | _ => [] end.
Definition mm_world : world := mkWorld ex_fp mm_cls (fun _ => []) (fun _ _ => Ok None) (fun t => match t with CCls 0 => VList [VStr []; VNum 0] | _ => ex_new t end) ex_lt.
Definition entry (k : bytes) (n : Z) : cv := VList [VStr k; VNum n].
Definition mm_text : bytes := js ($"[{'key':'b','value':1},{'value':2,'key':'a'},{'key':'bc','value':3},{'key':'a','value':4},{'key':'b','value':1}]").
Example C99_ex_multimap : back json_p mm_world (minsert ex_lt entry_key) (CCls 0) mm_text =
  Ok ([entry ($"a") 2; entry ($"a") 4; entry ($"b") 1; entry ($"bc") 3; entry ($"b") 1], rs_new).
Proof. vm_compute. reflexivity. Qed.
Definition str_eqb (a b : cv) : bool := match a, b with VStr x, VStr y => bytes_eqb x y | _, _ => false end.
Example C99_ex_unordered_map : back json_p mm_world (uinsert str_eqb (fun a l => a :: l) entry_key) (CCls 0) mm_text =
  Ok ([entry ($"bc") 3; entry ($"a") 2; entry ($"b") 1], rs_new).
Proof. vm_compute. reflexivity. Qed.
Example C99_ex_multiset : (let* bs := io_bytes (PsrlP psrl_init) [] (CSeq (CNum TI32)) (VList [VNum 3; VNum (-7); VNum 3; VNum 2; VNum 2]) in back (PsrlP psrl_init) ex_world (minsert ex_lt (fun v => v)) (CNum TI32) bs) =
  Ok ([VNum (-7); VNum 2; VNum 2; VNum 3; VNum 3], rs_new).
Proof. vm_compute. reflexivity. Qed.
Example C99_ex_order : stably_sorted (fun v => exists n, v = VNum n) ex_lt (fun v => v) [VNum 3; VNum (-7); VNum 3] [VNum (-7); VNum 3; VNum 3].
Proof. apply (minserts _ ex_lt (fun v => v) num_order [VNum 3; VNum (-7); VNum 3] []); repeat constructor; eauto. Qed.
(** a value where the entries should be is passed over, a field that is missing is not *)
Example C99_ex_refused : back json_p mm_world (minsert ex_lt entry_key) (CCls 0) (js ($"[{'key':'b','value':1},{'key':'c'}]")) = Err /\
  back json_p mm_world (minsert ex_lt entry_key) (CCls 0) (js ($"[{'key':'b','value':1},3]")) = Ok ([entry ($"b") 1], rs_new).
Proof. split; vm_compute; reflexivity. Qed.
