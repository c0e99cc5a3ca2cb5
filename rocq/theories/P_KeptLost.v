(** Proofs about loading with PJson while [parsing] is still set. *)
From Coq Require Import ZArith List Bool Lia ZifyBool ZifyNat.
From Verif Require Import Base Lemmas M_Types M_Conv M_In P_In S_Doc M_OutOps M_Env M_Event M_PSrl M_MsgPack M_Json M_Tree M_TreeIO S_Tree P_Doc P_Tree M_Object M_Pack M_Kept S_Kept P_Kept.
Import ListNotations.
Open Scope Z_scope.

(** * A machine whose writing does not disturb its reading *)
Section Lost.
Context {S : Type}.
Variables (m : machine S) (R : S -> S -> Prop).
Hypothesis next_ok : forall s t, R s t ->
  match m_next m t with
  | Ok (e, t') => exists s', m_next m s = Ok (e, s') /\ R s' t'
  | Err => m_next m s = Err | UB u => m_next m s = UB u | Fuel => m_next m s = Fuel
  end.
Hypothesis write_ok : forall t0 k v t s, m_next m t0 = Ok ((k, v), t) -> is_scope (v_type v) = true -> R s t ->
  exists s', m_write m s [(k, val_type (v_type v)); (k, val_type TScopeEnd)] = Ok s' /\ R s' t.
Definition same_end (r' r : res S) : Prop :=
  match r with Ok t => exists s, r' = Ok s /\ R s t | Err => r' = Err | UB u => r' = UB u | Fuel => r' = Fuel end.
Definition lost (n' n n0 : node) (m0 : node) : Prop :=
  exists vs, n_values n' = n_values n ++ vs /\ n_values n0 = n_values m0 ++ vs /\ n_nodes n' = n_nodes n /\ n_type n' = n_type n.
Lemma lost_same n m0 : lost n n m0 m0.
Proof. exists []. rewrite !app_nil_r. auto. Qed.
Lemma lost_read : forall f dp n m0 s t, R s t ->
  same_end (fst (read_keep m true f dp n s)) (fst (read_keep m false f dp m0 t)) /\ lost (snd (read_keep m true f dp n s)) n (snd (read_keep m false f dp m0 t)) m0.
Proof.
  induction f as [|f IH]; intros dp n m0 s t HR; cbn [read_keep].
  - split; [reflexivity|apply lost_same].
  - pose proof (next_ok s t HR) as N. destruct (m_next m t) as [[[k v] t1]| |u|] eqn:NT; cbn [keep].
    2-4: rewrite N; cbn [keep fst snd]; split; [reflexivity|apply lost_same].
    destruct N as (s1 & -> & R1). cbn [keep]. destruct (ty_eqb (v_type v) TScopeEnd).
    { cbn [fst snd]. split; [exists s1; auto|apply lost_same]. }
    destruct (is_scope (v_type v)) eqn:V; cbn [negb].
    + destruct (max_depth <? dp + 1). { cbn [fst snd]. split; [reflexivity|apply lost_same]. }
      destruct (write_ok _ _ _ _ s1 NT V R1) as (s2 & -> & R2). cbn [keep]. rewrite store_string_utf8. cbn [keep].
      destruct (IH (dp + 1) (empty_node (v_type v)) (empty_node (v_type v)) s2 t1 R2) as [E1 _].
      destruct (read_keep m false f (dp + 1) (empty_node (v_type v)) t1) as [r c]. cbn [fst] in E1. rewrite store_node_utf8. cbn [keep].
      set (m1 := mkNode (n_type m0) (n_values m0) (n_nodes m0 ++ [(k, c)])).
      assert (L1 : lost n n m1 m0) by (exists []; unfold m1; cbn [n_values]; rewrite !app_nil_r; auto).
      destruct r as [t2| |u|]; cbn [same_end keep] in *.
      * destruct E1 as (s3 & -> & R3). cbn [keep]. destruct (IH dp n m1 s3 t2 R3) as [A (vs & B1 & B2 & B3 & B4)]. split; [exact A|]. exists vs. repeat split; assumption.
      * rewrite E1. cbn [keep fst snd]. split; [reflexivity|exact L1].
      * rewrite E1. cbn [keep fst snd]. split; [reflexivity|exact L1].
      * rewrite E1. cbn [keep fst snd]. split; [reflexivity|exact L1].
    + rewrite !store_value_utf8. cbn [keep].
      destruct (IH dp (mkNode (n_type n) (n_values n ++ [(k, v)]) (n_nodes n)) (mkNode (n_type m0) (n_values m0 ++ [(k, v)]) (n_nodes m0)) s1 t1 R1) as [A (vs & B1 & B2 & B3 & B4)].
      split; [exact A|]. exists ((k, v) :: vs). cbn [n_values n_nodes n_type] in *. rewrite <- app_assoc in B1, B2. auto.
Qed.
Lemma lost_load f old s t : R s t ->
  same_end (fst (load_keep m true f old s)) (fst (load_keep m false f old t)) /\
  let '(k, n) := snd (load_keep m false f old t) in snd (load_keep m true f old s) = (k, mkNode (n_type n) (n_values n) []).
Proof.
  intros HR. unfold load_keep. pose proof (next_ok s t HR) as N. destruct (m_next m t) as [[[k v] t1]| |u|] eqn:NT; cbn [keep].
  2-4: rewrite N; cbn [keep fst snd]; split; reflexivity.
  destruct N as (s1 & -> & R1). cbn [keep]. destruct (is_scope (v_type v)) eqn:V; cbn [negb]. 2: { cbn [fst snd]. split; reflexivity. }
  destruct (lost_read f 0 (empty_node (v_type v)) (empty_node (v_type v)) s1 t1 R1) as [A B].
  destruct (read_keep m false f 0 (empty_node (v_type v)) t1) as [r n] eqn:E. destruct (read_keep m true f 0 (empty_node (v_type v)) s1) as [r' n']. cbn [fst snd] in *.
  split; [exact A|]. destruct B as (vs & B1 & B2 & B3 & B4). cbn [empty_node n_values n_nodes n_type app] in *.
  assert (T : n_type n = v_type v). { destruct (kept_read m f 0 _ _ _ _ ltac:(lia) E) as (its & -> & _). reflexivity. }
  destruct n' as [t' vs' ns']. cbn [n_values n_nodes n_type] in *. congruence.
Qed.
End Lost.

(** * PJson: the scope written is closed at once; only [scope_closed] remembers it *)
Definition reclose (c : bool) (st : pjson) : pjson := mkPjson (j_compact st) (j_stack st) (j_type st) c (j_nbuf st) (j_vbuf st).
Section Run.
Context {I : Type}.
Variable run : forall A, prog A -> I -> res (A * I).
Hypothesis run_ret : forall A (a : A) i, run A (Ret a) i = Ok (a, i).
Hypothesis run_throw : forall A i, run A Throw i = Err.
Hypothesis run_undef : forall A u i, run A (Undef u) i = UB u.
Hypothesis run_fuel : forall A i, run A OutOfFuel i = Fuel.
Hypothesis run_bind : forall A B (p : prog A) (f : A -> prog B) i, run B (pbind p f) i = rbind (run A p i) (fun '(a, i') => run B (f a) i').
Definition similar {A} (f : A -> A) (p q : prog A) : Prop := forall i, run _ p i = let* (a, i') := run _ q i in Ok (f a, i').
Lemma sim_ret {A} (f : A -> A) a : similar f (Ret (f a)) (Ret a).
Proof. intros i. now rewrite !run_ret. Qed.
Lemma sim_bind {A B} (f : B -> B) (p : prog A) (k k' : A -> prog B) : (forall a, similar f (k a) (k' a)) -> similar f (pbind p k) (pbind p k').
Proof. intros H i. rewrite !run_bind. destruct (run _ p i) as [[a i']| | |]; cbn [rbind]; try reflexivity. apply H. Qed.
Lemma sim_bind2 {A B} (f : B -> B) (g : A -> A) (p p' : prog A) (k k' : A -> prog B) : similar g p p' -> (forall a, similar f (k (g a)) (k' a)) -> similar f (pbind p k) (pbind p' k').
Proof. intros Hp H i. rewrite !run_bind, Hp. destruct (run _ p' i) as [[a i']| | |]; cbn [rbind]; try reflexivity. apply H. Qed.
Lemma sim_throw {A} (f : A -> A) : similar f Throw Throw.
Proof. intros i. now rewrite !run_throw. Qed.
Lemma sim_fuel {A} (f : A -> A) : similar f OutOfFuel OutOfFuel.
Proof. intros i. now rewrite !run_fuel. Qed.
Lemma sim_move {A} (f : A -> A) n (p q : prog A) : similar f p q -> similar f (Move n p) (Move n q).
Proof. intros H. change (Move n p) with (pbind (Move n (Ret tt)) (fun _ => p)). change (Move n q) with (pbind (Move n (Ret tt)) (fun _ => q)). now apply sim_bind. Qed.
Lemma sim_deref {A} (f : A -> A) n (k k' : Z -> prog A) : (forall c, similar f (k c) (k' c)) -> similar f (Deref n k) (Deref n k').
Proof. intros H. change (Deref n k) with (pbind (Deref n (fun c => Ret c)) k). change (Deref n k') with (pbind (Deref n (fun c => Ret c)) k'). now apply sim_bind. Qed.

Section Close.
Variable c : bool.
Let g {A} (r : pjson * A) : pjson * A := (reclose c (fst r), snd r).
Let g3 (r : pjson * jstate * bool) : pjson * jstate * bool := (reclose c (fst (fst r)), snd (fst r), snd r).
Lemma close_quote f st s : similar g (process_quote f (reclose c st) s) (process_quote f st s).
Proof.
  unfold process_quote. change (j_type (reclose c st)) with (j_type st). destruct (ty_eqb (j_type st) TNull); [apply sim_throw|]. apply sim_move.
  change (j_vbuf (reclose c st)) with (j_vbuf st). change (j_nbuf (reclose c st)) with (j_nbuf st).
  apply sim_bind. intros [content buf]. cbv beta iota.
  set (b := if s_named s then _ else _ : pjson). set (b' := if s_named s then _ else _ : pjson).
  assert (Q : b = reclose c b') by (subst b b'; destruct (s_named s); reflexivity). rewrite Q.
  replace (process_string (reclose c b') content s) with (process_string b' content s) by reflexivity.
  apply sim_bind. intros s'. apply (sim_ret g (b', s')).
Qed.
Lemma close_bracket ch st s : similar g (process_bracket (reclose c st) ch s) (process_bracket st ch s).
Proof.
  unfold process_bracket. change (j_stack (reclose c st)) with (j_stack st). destruct (ty_eqb _ TScopeEnd).
  - destruct (j_stack st) as [|t rest]; [apply sim_throw|]. match goal with |- similar g _ (Ret ?r) => apply (sim_ret g r) end.
  - match goal with |- similar g _ (Ret ?r) => apply (sim_ret g r) end.
Qed.
Lemma close_item x f st s : similar g3 (process_item x f (reclose c st) s) (process_item x f st s).
Proof.
  unfold process_item. apply sim_deref. intros ch. destruct (ch =? 34).
  { apply (sim_bind2 g3 g); [apply close_quote|]. intros [st' s']. apply (sim_ret g3 (st', s', true)). }
  destruct (ch =? 58). { destruct (s_reading s); [apply sim_throw|]. match goal with |- similar g3 _ (Ret ?r) => apply (sim_ret g3 r) end. }
  destruct (existsb _ _). { apply (sim_bind2 g3 g); [apply close_bracket|]. intros [st' s']. apply (sim_ret g3 (st', s', true)). }
  destruct (ch =? 47). { apply sim_bind. intros []. apply (sim_ret g3 (st, s, true)). }
  apply sim_bind. intros [s' mv]. apply (sim_ret g3 (st, s', mv)).
Qed.
Lemma close_loop x f : forall n st s, similar g (json_loop x f n (reclose c st) s) (json_loop x f n st s).
Proof.
  induction n as [|n IH]; intros st s; cbn [json_loop]; [apply sim_fuel|].
  replace (seek_item f (reclose c st) s) with (seek_item f st s) by reflexivity. apply sim_bind. intros _.
  apply (sim_bind2 g g3); [apply close_item|]. intros [[st' s'] mv]. unfold g3. cbn [fst snd].
  assert (H : similar g (if s_complete s' then Ret (reclose c st', (s_name s', s_value s')) else json_loop x f n (reclose c st') s') (if s_complete s' then Ret (st', (s_name s', s_value s')) else json_loop x f n st' s')).
  { destruct (s_complete s'); [apply (sim_ret g (st', (s_name s', s_value s')))|apply IH]. }
  destruct mv; [now apply sim_move|exact H].
Qed.
End Close.

(** the kind of the innermost scope is always the one on top of the stack *)
Definition topped (st : pjson) : Prop := j_type st = stack_top (j_stack st).
Definition ends {A} (P : A -> Prop) (p : prog A) : Prop := forall i a i', run _ p i = Ok (a, i') -> P a.
Lemma ends_ret {A} (P : A -> Prop) a : P a -> ends P (Ret a).
Proof. intros H i a' i' E. rewrite run_ret in E. now injection E as <- _. Qed.
Lemma ends_throw {A} (P : A -> Prop) : ends P Throw.
Proof. intros i a i' E. rewrite run_throw in E. discriminate E. Qed.
Lemma ends_fuel {A} (P : A -> Prop) : ends P OutOfFuel.
Proof. intros i a i' E. rewrite run_fuel in E. discriminate E. Qed.
Lemma ends_bind {A B} (P : A -> Prop) (Q : B -> Prop) p k : ends P p -> (forall a, P a -> ends Q (k a)) -> ends Q (pbind p k).
Proof. intros H K i b i' E. rewrite run_bind in E. destruct (run _ p i) as [[a i1]| | |] eqn:R; cbn [rbind] in E; try discriminate E. exact (K a (H _ _ _ R) _ _ _ E). Qed.
Lemma ends_any {A} (p : prog A) : ends (fun _ => True) p.
Proof. intros i a i' _. exact Logic.I. Qed.
Lemma ends_move {A} (Q : A -> Prop) n p : ends Q p -> ends Q (Move n p).
Proof. intros H. change (Move n p) with (pbind (Move n (Ret tt)) (fun _ => p)). apply (ends_bind (fun _ => True)); [apply ends_any|auto]. Qed.
Lemma ends_deref {A} (Q : A -> Prop) n (k : Z -> prog A) : (forall c, ends Q (k c)) -> ends Q (Deref n k).
Proof. intros H. change (Deref n k) with (pbind (Deref n (fun c => Ret c)) k). apply (ends_bind (fun _ => True)); [apply ends_any|auto]. Qed.
Let topped2 {A} (r : pjson * A) : Prop := topped (fst r).
Lemma topped_quote f st s : topped st -> ends topped2 (process_quote f st s).
Proof.
  intros T. unfold process_quote. destruct (ty_eqb (j_type st) TNull); [apply ends_throw|]. apply ends_move. apply (ends_bind (fun _ => True)); [apply ends_any|]. intros [content buf] _. cbv beta iota.
  apply (ends_bind (fun _ => True)); [apply ends_any|]. intros s' _. apply ends_ret. unfold topped2. cbn [fst]. destruct (s_named s); exact T.
Qed.
Lemma topped_bracket ch st s : ends topped2 (process_bracket st ch s).
Proof. unfold process_bracket. destruct (ty_eqb _ TScopeEnd); [destruct (j_stack st) as [|t rest]; [apply ends_throw|]|]; apply ends_ret; reflexivity. Qed.
Lemma topped_loop x f : forall n st s, topped st -> ends topped2 (json_loop x f n st s).
Proof.
  induction n as [|n IH]; intros st s T; cbn [json_loop]; [apply ends_fuel|].
  apply (ends_bind (fun _ => True)); [apply ends_any|]. intros _ _.
  apply (ends_bind (fun r => topped (fst (fst r)))).
  - unfold process_item. apply ends_deref. intros ch. destruct (ch =? 34). { apply (ends_bind topped2); [now apply topped_quote|]. intros [st' s'] T'. apply ends_ret. exact T'. }
    destruct (ch =? 58). { destruct (s_reading s); [apply ends_throw|]. apply ends_ret. exact T. }
    destruct (existsb _ _). { apply (ends_bind topped2); [apply topped_bracket|]. intros [st' s'] T'. apply ends_ret. exact T'. }
    destruct (ch =? 47). { apply (ends_bind (fun _ => True)); [apply ends_any|]. intros [] _. apply ends_ret. exact T. }
    apply (ends_bind (fun _ => True)); [apply ends_any|]. intros [s' mv] _. apply ends_ret. exact T.
  - intros [[st' s'] mv] T'. cbn [fst] in T'.
    assert (H : ends topped2 (if s_complete s' then Ret (st', (s_name s', s_value s')) else json_loop x f n st' s')).
    { destruct (s_complete s'); [apply ends_ret; exact T'|now apply IH]. }
    destruct mv; [now apply ends_move|exact H].
Qed.

(** writing a scope and its end leaves nothing behind but [scope_closed] *)
Lemma pair_written x k t st : is_scope t = true -> topped st ->
  parser_write x (JsonP st) [(k, val_type t); (k, val_type TScopeEnd)] = Ok (JsonP (reclose false st)).
Proof.
  intros T Tp. unfold parser_write. cbn [write_events json_save].
  assert (E1 : env_event true x (k, val_type t) = Ok (k, val_type t)) by (unfold env_event, env_value; cbn [snd fst val_type v_type]; now rewrite T).
  assert (W1 : exists o, json_save x st (k, val_type t) = Ok (mkPjson (j_compact st) (t :: j_stack st) t true (j_nbuf st) (j_vbuf st), o)).
  { unfold json_save. rewrite E1. cbn [rbind json_write val_type v_type]. rewrite T. eexists. reflexivity. }
  destruct W1 as [o1 ->]. cbn [rbind]. unfold json_save. cbn. unfold reclose. now rewrite Tp.
Qed.
Inductive reclosed : parser * I -> parser * I -> Prop := rc c st i : topped st -> reclosed (JsonP (reclose c st), i) (JsonP st, i).
Lemma json_lost x f old p i : let q := JsonP p in
  same_end reclosed (fst (load_after run x f true old q i)) (fst (load_after run x f false old q i)) /\
  let '(k, n) := snd (load_after run x f false old q i) in snd (load_after run x f true old q i) = (k, mkNode (n_type n) (n_values n) []).
Proof.
  intros q. unfold load_after. apply lost_load.
  - intros s t [c st j T]. cbn [parser_machine m_next]. unfold parser_next. cbn [fst snd]. unfold json_read. rewrite (close_loop c x f f st js_init j).
    pose proof (topped_loop x f f st js_init T j) as TL.
    destruct (run _ (json_loop x f f st js_init) j) as [[[st' e] j']| | |]; cbn [rbind fst snd]; try reflexivity. exists (JsonP (reclose c st'), j'). split; [reflexivity|]. constructor. exact (TL _ _ eq_refl).
  - intros t0 k v t s _ V [c st j T]. cbn [parser_machine m_write fst snd]. rewrite pair_written; [|exact V|exact T]. cbn [rbind]. exists (JsonP (reclose false (reclose c st)), j). split; [reflexivity|]. change (reclose false (reclose c st)) with (reclose false st). now constructor.
  - cbn [q parser_clear]. change (json_clear p) with (reclose true (json_clear p)) at 1. constructor. reflexivity.
Qed.
End Run.

Lemma json_lost_block x f old p i : let q := JsonP p in
  same_end reclosed (fst (load_after (@run_block) x f true old q i)) (fst (load_after (@run_block) x f false old q i)) /\
  let '(k, n) := snd (load_after (@run_block) x f false old q i) in snd (load_after (@run_block) x f true old q i) = (k, mkNode (n_type n) (n_values n) []).
Proof. apply json_lost; try reflexivity. intros A B pr g b. rewrite run_block_bind. destruct (run_block pr b) as [[? ?]| | |]; reflexivity. Qed.
Lemma json_lost_stream x f old p i : let q := JsonP p in
  same_end reclosed (fst (load_after (@run_stream) x f true old q i)) (fst (load_after (@run_stream) x f false old q i)) /\
  let '(k, n) := snd (load_after (@run_stream) x f false old q i) in snd (load_after (@run_stream) x f true old q i) = (k, mkNode (n_type n) (n_values n) []).
Proof. apply json_lost; try reflexivity. intros A B pr g b. rewrite run_stream_bind. destruct (run_stream pr b) as [[? ?]| | |]; reflexivity. Qed.

(** * Documents without scopes in them *)
Lemma grows {S} (m : machine S) f : forall dp n s r n', 0 <= dp <= 128 -> read_keep m false f dp n s = (r, n') -> exists l, n_nodes n' = n_nodes n ++ l.
Proof. intros dp n s r n' D E. destruct (kept_read m f dp n s r n' D E) as (its & -> & _). unfold add_items. cbn [n_nodes]. eexists. reflexivity. Qed.
Lemma flat_read {S} (m : machine S) : forall f dp n s, 0 <= dp <= 128 -> n_nodes (snd (read_keep m false f dp n s)) = n_nodes n ->
  read_keep m true f dp n s = read_keep m false f dp n s.
Proof.
  induction f as [|f IH]; intros dp n s D H; [reflexivity|]. cbn [read_keep] in *. destruct (m_next m s) as [[[k v] s1]| |u|]; cbn [keep] in *; try reflexivity.
  destruct (ty_eqb (v_type v) TScopeEnd); [reflexivity|]. destruct (is_scope (v_type v)); cbn [negb] in *.
  - destruct (max_depth <? dp + 1) eqn:M; [reflexivity|]. exfalso. destruct (read_keep m false f (dp + 1) (empty_node (v_type v)) s1) as [r c]. rewrite store_node_utf8 in H. cbn [keep] in H.
    set (n1 := mkNode (n_type n) (n_values n) (n_nodes n ++ [(k, c)])) in *.
    assert (L : exists l, n_nodes (snd (keep r n1 (fun s2 : S => read_keep m false f dp n1 s2))) = n_nodes n ++ (k, c) :: l).
    { destruct r as [s2| |u|]; cbn [keep snd]; try (exists []; reflexivity).
      destruct (read_keep m false f dp n1 s2) as [r2 n2] eqn:E2. destruct (grows m f dp n1 s2 r2 n2 D E2) as [l G]. cbn [snd]. exists l. rewrite G. unfold n1. cbn [n_nodes]. now rewrite <- app_assoc. }
    destruct L as [l L]. rewrite L in H. assert (Q : length (n_nodes n ++ (k, c) :: l) = length (n_nodes n)) by now rewrite H. rewrite app_length in Q. cbn [length] in Q. lia.
  - rewrite !store_value_utf8 in *. cbn [keep] in *. apply IH; [exact D|]. rewrite H. reflexivity.
Qed.
Lemma flat_load {S} (m : machine S) f old s : n_nodes (snd (snd (load_keep m false f old s))) = [] -> load_keep m true f old s = load_keep m false f old s.
Proof.
  unfold load_keep. destruct (m_next m s) as [[[k v] s1]| |u|]; cbn [keep]; try reflexivity. destruct (is_scope (v_type v)); cbn [negb]; [|reflexivity].
  intros H. rewrite (flat_read m f 0 (empty_node (v_type v)) s1); [reflexivity|lia|]. destruct (read_keep m false f 0 (empty_node (v_type v)) s1). exact H.
Qed.

(** * Histories *)
Lemma loads_keep F w hp us : Forall (fun u => u = ULoad) us -> forall e, e_parsing (fold_left (use_tree F w hp) us e) = e_parsing e.
Proof. induction 1 as [|u us -> _ IH]; intros e; cbn [fold_left use_tree]; [reflexivity|]. rewrite IH. reflexivity. Qed.
Lemma well_used_parsing F w hp us : well_used F w hp us -> e_parsing (used F w hp us) = false.
Proof.
  intros [L|(a & u & b & -> & W & L)]; unfold used.
  - rewrite loads_keep by exact L. reflexivity.
  - rewrite fold_left_app. cbn [fold_left]. rewrite loads_keep by exact L. fold (used F w hp a). set (e := used F w hp a) in *. destruct u as [t v name|its|]; cbn [use_tree wrote] in *; [| |contradiction].
    + destruct W as (d & e' & E). unfold tree_store in *. destruct (stored_doc F w hp t v name (e_shared e)) as [[d0 tab]| | |]; try discriminate E. reflexivity.
    + destruct W as (d & e' & E). unfold tree_pack in *. cbn [e_shared] in *. destruct (pack_doc F w hp its []) as [[d0 tab]| | |]; try discriminate E. reflexivity.
Qed.
Lemma threw_parsing F w hp a u b : threw F w hp (used F w hp a) u -> Forall (fun u => u = ULoad) b -> e_parsing (used F w hp (a ++ u :: b)) = true.
Proof.
  intros W L. unfold used. rewrite fold_left_app. cbn [fold_left]. rewrite loads_keep by exact L. fold (used F w hp a). set (e := used F w hp a) in *. destruct u as [t v name|its|]; cbn [use_tree threw] in *; [| |contradiction].
  - destruct W as (e' & E). unfold tree_store in *. destruct (stored_doc F w hp t v name (e_shared e)) as [[d0 tab]| | |]; try discriminate E. reflexivity.
  - destruct W as (e' & E). unfold tree_pack in *. cbn [e_shared] in *. destruct (pack_doc F w hp its []) as [[d0 tab]| | |]; try discriminate E. reflexivity.
Qed.
Lemma same_end_alike {S} (R : S -> S -> Prop) r' r : same_end R r' r -> alike r r'.
Proof. unfold same_end, alike. destruct r; [intros (s & -> & _); exact Logic.I|intros ->; auto..]. Qed.
