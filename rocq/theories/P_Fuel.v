(** More fuel does not change a result. *)
From Coq Require Import ZArith List Bool Lia ZifyBool ZifyNat.
From Verif Require Import Base Lemmas M_Types M_Conv M_Charset M_In S_Doc M_Event M_PSrl M_MsgPack M_Json M_Tree M_TreeIO M_Object M_ObjIO.
Import ListNotations.
Open Scope nat_scope.

(** * Readers *)
Inductive pmore {A} : prog A -> prog A -> Prop :=
| pm_fuel q : pmore OutOfFuel q
| pm_ret a : pmore (Ret a) (Ret a)
| pm_throw : pmore Throw Throw
| pm_undef u : pmore (Undef u) (Undef u)
| pm_notnull k k' : pmore k k' -> pmore (NotNull k) (NotNull k')
| pm_move n k k' : pmore k k' -> pmore (Move n k) (Move n k')
| pm_peek n k k' : pmore k k' -> pmore (Peek n k) (Peek n k')
| pm_trypeek n k k' : (forall b, pmore (k b) (k' b)) -> pmore (TryPeek n k) (TryPeek n k')
| pm_deref o k k' : (forall c, pmore (k c) (k' c)) -> pmore (Deref o k) (Deref o k')
| pm_adv n k k' : pmore k k' -> pmore (Adv n k) (Adv n k')
| pm_anchor b k k' : pmore k k' -> pmore (Anchor b k) (Anchor b k')
| pm_back n k k' : (forall bs, pmore (k bs) (k' bs)) -> pmore (Back n k) (Back n k')
| pm_left k k' : (forall z, pmore (k z) (k' z)) -> pmore (LeftM1 k) (LeftM1 k').
Lemma pm_refl {A} (p : prog A) : pmore p p.
Proof. induction p; constructor; auto. Qed.
Lemma pm_bind {A B} (p p' : prog A) (f f' : A -> prog B) : pmore p p' -> (forall a, pmore (f a) (f' a)) -> pmore (pbind p f) (pbind p' f').
Proof. intros H G. induction H; cbn [pbind]; try (constructor; auto; fail). apply G. Qed.
Lemma pm_block {A} (p p' : prog A) : pmore p p' -> forall b, run_block p b <> Fuel -> run_block p' b = run_block p b.
Proof.
  induction 1 as [q|a| |u|k k' H IH|n k k' H IH|n k k' H IH|n k k' H IH|o k k' H IH|n k k' H IH|bb k k' H IH|n k k' H IH|k k' H IH]; intros b; cbn [run_block]; intros N;
    repeat match goal with |- context [match ?x with _ => _ end] => destruct x end; auto; congruence.
Qed.
Lemma pm_stream {A} (p p' : prog A) : pmore p p' -> forall s, run_stream p s <> Fuel -> run_stream p' s = run_stream p s.
Proof.
  induction 1 as [q|a| |u|k k' H IH|n k k' H IH|n k k' H IH|n k k' H IH|o k k' H IH|n k k' H IH|bb k k' H IH|n k k' H IH|k k' H IH]; intros s; cbn [run_stream]; intros N;
    repeat match goal with |- context [match ?x with _ => _ end] => destruct x end; auto; congruence.
Qed.
Ltac pm := repeat first [apply pm_bind; [|intros] | apply pm_notnull | apply pm_move | apply pm_peek | apply pm_trypeek; intros | apply pm_deref; intros | apply pm_adv | apply pm_anchor
  | apply pm_back; intros | apply pm_left; intros | match goal with |- pmore (match ?x with _ => _ end) _ => destruct x end | apply pm_refl ].
Lemma m_loop neg ts : forall f f' steps note, f <= f' -> pmore (move_loop f neg ts steps note) (move_loop f' neg ts steps note).
Proof. induction f as [|f IH]; intros [|f'] steps note L; try constructor; [lia|]. cbn [move_loop]. pm. apply IH. lia. Qed.
Lemma m_until f f' ts : f <= f' -> pmore (move_until f ts) (move_until f' ts).
Proof. intros L. constructor. now apply m_loop. Qed.
Lemma m_while f f' ts : f <= f' -> pmore (move_while f ts) (move_while f' ts).
Proof. intros L. constructor. now apply m_loop. Qed.
Lemma m_read_until f f' ts : f <= f' -> pmore (read_block_until f ts) (read_block_until f' ts).
Proof. intros L. unfold read_block_until. constructor. apply pm_bind; [now apply m_until|]. intros. apply pm_refl. Qed.
Lemma m_subst delim : forall f f' buf bufsz steps, f <= f' -> pmore (read_substitute f delim buf bufsz steps) (read_substitute f' delim buf bufsz steps).
Proof.
  induction f as [|f IH]; intros [|f'] buf bufsz steps L; try constructor; [lia|]. constructor. intros c. destruct (c =? delim)%Z; [constructor|]. cbn zeta.
  assert (G : forall b z s l, pmore (let! (n, buf') := substitute_token b s l in read_substitute f delim buf' z (s + n)) (let! (n, buf') := substitute_token b s l in read_substitute f' delim buf' z (s + n))).
  { intros. apply pm_bind; [apply pm_refl|]. intros [n b']. apply IH. lia. }
  constructor. intros [|]; [apply G|]. constructor. intros z. apply G.
Qed.
Lemma m_quote f f' st s : f <= f' -> pmore (process_quote f st s) (process_quote f' st s).
Proof.
  intros L. unfold process_quote. destruct (ty_eqb _ _); [constructor|]. constructor. apply pm_bind; [|intros; apply pm_refl].
  unfold read_unescape. apply pm_bind; [now apply m_subst|]. intros; apply pm_refl.
Qed.
Lemma m_item x f f' st s : f <= f' -> pmore (process_item x f st s) (process_item x f' st s).
Proof.
  intros L. unfold process_item. constructor. intros c. destruct (c =? 34)%Z; [apply pm_bind; [now apply m_quote|intros; apply pm_refl]|]. destruct (c =? 58)%Z; [apply pm_refl|].
  destruct (existsb _ _); [apply pm_refl|]. destruct (c =? 47)%Z.
  - apply pm_bind; [|intros; apply pm_refl]. unfold skip_comment. constructor. intros [|]; [|apply pm_refl]. constructor. intros d.
    destruct (d =? 42)%Z; [apply pm_bind; [now apply m_until|intros; apply pm_refl]|]. destruct (d =? 47)%Z; [apply pm_bind; [now apply m_until|intros; apply pm_refl]|apply pm_refl].
  - apply pm_bind; [|intros; apply pm_refl]. unfold process_char. constructor. intros d. destruct (is_literal d); [|apply pm_refl].
    apply pm_bind; [now apply m_read_until|]. intros; apply pm_refl.
Qed.
Lemma m_json_loop x f f' : f <= f' -> forall n n' st s, n <= n' -> pmore (json_loop x f n st s) (json_loop x f' n' st s).
Proof.
  intros LF. induction n as [|n IH]; intros [|n'] st s L; try constructor; [lia|]. cbn [json_loop]. apply pm_bind.
  { unfold seek_item. destruct (_ && _); [now apply m_until|now apply m_while]. }
  intros _. apply pm_bind; [now apply m_item|]. intros [[st' s'] mv]. cbn zeta.
  assert (G : pmore (if s_complete s' then Ret (st', (s_name s', s_value s')) else json_loop x f n st' s') (if s_complete s' then Ret (st', (s_name s', s_value s')) else json_loop x f' n' st' s')).
  { destruct (s_complete s'); [constructor|]. apply IH. lia. }
  destruct mv; [now constructor|exact G].
Qed.
Lemma m_json x f f' st : f <= f' -> pmore (json_read x f st) (json_read x f' st).
Proof. intros L. now apply m_json_loop. Qed.

(** * Programs over items *)
Inductive emore {A} : eprog A -> eprog A -> Prop :=
| em_fuel q : emore EFuel q
| em_ret a : emore (ERet a) (ERet a)
| em_throw : emore EThrow EThrow
| em_undef u : emore (EUndef u) (EUndef u)
| em_read k k' : (forall e, emore (k e) (k' e)) -> emore (ERead k) (ERead k').
Lemma em_refl {A} (p : eprog A) : emore p p.
Proof. induction p; constructor; auto. Qed.
Lemma em_bind {A B} (p p' : eprog A) (f f' : A -> eprog B) : emore p p' -> (forall a, emore (f a) (f' a)) -> emore (ebind p f) (ebind p' f').
Proof. intros H G. induction H; cbn [ebind]; try (constructor; auto; fail). apply G. Qed.
Lemma em_comp {St R} (rd rd' : St -> prog (St * event)) : (forall st, pmore (rd st) (rd' st)) -> forall p p' : eprog R, emore p p' -> forall st, pmore (ecomp rd p st) (ecomp rd' p' st).
Proof. intros H p p' E. induction E; intros st; cbn [ecomp]; try constructor. apply pm_bind; auto. intros [st' e]. auto. Qed.
Lemma em_end {A} (p p' : eprog A) : emore p p' -> (forall es, erun p es <> Some Fuel) -> forall es, erun p' es = erun p es.
Proof.
  induction 1; intros N es; cbn [erun]; auto; [destruct (N []); reflexivity|]. destruct es as [|e es]; auto. apply H0. intros es'. exact (N (e :: es')).
Qed.

Lemma m_source : forall f f' d n, f <= f' -> emore (read_source f d n) (read_source f' d n).
Proof.
  induction f as [|f IH]; intros [|f'] d n L; try constructor; [lia|]. intros [name v]. destruct (ty_eqb _ _); [constructor|]. destruct (negb _).
  - apply em_bind; [apply em_refl|]. intros n'. apply IH. lia.
  - destruct (_ <? _)%Z; [constructor|]. apply em_bind; [apply IH; lia|]. intros c. apply em_bind; [apply em_refl|]. intros n'. apply IH. lia.
Qed.
Lemma m_load f f' : f <= f' -> emore (load_prog f) (load_prog f').
Proof. intros L. constructor. intros [name v]. destruct (negb _); [constructor|]. apply em_bind; [now apply m_source|]. intros; apply em_refl. Qed.
Lemma m_keep f f' n name v : f <= f' -> emore (keep_item f n name v) (keep_item f' n name v).
Proof. intros L. unfold keep_item. destruct (is_scope _); [|apply em_refl]. apply em_bind; [now apply m_source|]. intros; apply em_refl. Qed.
Lemma m_scan : forall f f' want p n, f <= f' -> emore (scan f want p n) (scan f' want p n).
Proof.
  induction f as [|f IH]; intros [|f'] want p n L; try constructor; [lia|]. cbn [scan]. destruct (l_parsed n); [constructor|]. constructor. intros [name v].
  destruct (ty_eqb _ _); [constructor|]. destruct (_ && _); [constructor|]. apply em_bind; [apply m_keep; lia|]. intros n'. apply IH. lia.
Qed.
Lemma m_scan_item h k : forall f f' n, f <= f' -> emore (scan_item f h k n) (scan_item f' h k n).
Proof.
  induction f as [|f IH]; intros [|f'] n L; try constructor; [lia|]. cbn [scan_item]. destruct (l_parsed n); [constructor|]. constructor. intros [name v].
  destruct (ty_eqb _ _); [constructor|]. apply em_bind; [apply m_keep; lia|]. intros n'. apply em_bind; [apply em_refl|]. intros [|]; [constructor|]. apply IH. lia.
Qed.
Lemma m_scope_loop : forall f f' d, f <= f' -> emore (consume_scope_loop f d) (consume_scope_loop f' d).
Proof.
  induction f as [|f IH]; intros [|f'] d L; try constructor; [lia|]. intros e. cbn zeta. destruct (is_scope _); [apply IH; lia|].
  destruct (ty_eqb _ _); [destruct (_ <=? _)%Z; [constructor|]|]; apply IH; lia.
Qed.
Lemma m_scope f f' n : f <= f' -> emore (consume_scope f n) (consume_scope f' n).
Proof. intros L. unfold consume_scope. destruct (l_parsed n); [constructor|now apply m_scope_loop]. Qed.
Lemma m_consume_node f f' id n : f <= f' -> emore (consume_node f id n) (consume_node f' id n).
Proof.
  intros L. unfold consume_node. destruct (l_node n) as [t vs ns]. apply em_bind; [apply em_refl|]. intros i. destruct (pick ns i) as [[k c]|]; [apply em_refl|].
  apply em_bind; [now apply m_scan|]. intros; apply em_refl.
Qed.
Lemma m_consume_value f f' id n : f <= f' -> emore (consume_value f id n) (consume_value f' id n).
Proof.
  intros L. unfold consume_value. destruct (l_node n) as [t vs ns]. apply em_bind; [apply em_refl|]. intros i. destruct (pick vs i) as [[k c]|]; [apply em_refl|].
  apply em_bind; [now apply m_scan|]. intros; apply em_refl.
Qed.
Lemma m_has_field f f' want k n : f <= f' -> emore (has_field f want k n) (has_field f' want k n).
Proof.
  intros L. unfold has_field. destruct (l_parsed n); [apply em_refl|]. apply em_bind; [|intros; apply em_refl]. unfold consume_item.
  apply em_bind; [apply em_refl|]. intros [i|]; [constructor|]. apply em_bind; [apply em_refl|]. intros [j|]; [constructor|]. apply em_bind; [apply em_refl|]. intros h. now apply m_scan_item.
Qed.
Lemma m_field_node f f' id n : f <= f' -> emore (field_node f id n) (field_node f' id n).
Proof. intros L. unfold field_node. destruct (l_parsed n); [apply em_refl|]. apply em_bind; [now apply m_consume_node|intros; apply em_refl]. Qed.
Lemma m_field_value f f' id n : f <= f' -> emore (field_value f id n) (field_value f' id n).
Proof. intros L. unfold field_value. destruct (l_parsed n); [apply em_refl|]. apply em_bind; [now apply m_consume_value|intros; apply em_refl]. Qed.

Section Paste.
Variable w : world.
Variables pn pn' : ct -> cv -> lnode -> rstate -> eprog (cv * lnode * rstate).
Hypothesis PN : forall t old n s, emore (pn t old n s) (pn' t old n s).
Variables F F' : nat.
Hypothesis L : F <= F'.
Lemma m_field t id old n s : emore (paste_field w pn F t id old n s) (paste_field w pn' F' t id old n s).
Proof.
  unfold paste_field. destruct (scoped t).
  - apply em_bind; [now apply m_field_node|]. intros r. apply em_bind; [apply PN|]. intros [[v c] s']. destruct (l_parsed n); [constructor|]. apply em_bind; [now apply m_scope|intros; apply em_refl].
  - apply em_bind; [now apply m_field_value|intros; apply em_refl].
Qed.
Lemma m_fields : forall fs olds n s vi ni, emore (paste_fields w pn F fs olds n s vi ni) (paste_fields w pn' F' fs olds n s vi ni).
Proof.
  induction fs as [|f fs IH]; intros [|old olds] n s vi ni; try constructor. cbn [paste_fields]. apply em_bind.
  - destruct (f_opt f); [now apply m_has_field|constructor].
  - intros [h n']. cbn [fst snd]. destruct (negb h).
    + apply em_bind; [apply IH|intros; apply em_refl].
    + apply em_bind; [apply m_field|]. intros [[v n1] s1]. apply em_bind; [apply IH|intros; apply em_refl].
Qed.
Lemma m_each_stored {A B} (f f' : bytes * A -> B -> rstate -> eprog (B * rstate)) : (forall a acc s, emore (f a acc s) (f' a acc s)) ->
  forall l acc s, emore (each_stored f l acc s) (each_stored f' l acc s).
Proof. intros H. induction l as [|a l IH]; intros acc s; [constructor|]. cbn [each_stored]. apply em_bind; [apply H|]. intros; apply IH. Qed.
Lemma m_each_value {B} (f f' : bytes * value -> B -> rstate -> eprog (B * rstate)) : (forall a acc s, emore (f a acc s) (f' a acc s)) ->
  forall k k' acc n s, k <= k' -> emore (each_value_read F f k acc n s) (each_value_read F' f' k' acc n s).
Proof.
  intros H. induction k as [|k IH]; intros [|k'] acc n s LK; try constructor; [lia|]. cbn [each_value_read]. apply em_bind; [now apply m_consume_value|]. intros [[[[name v] b]|] n']; cbn [fst snd]; [|constructor].
  destruct (l_parsed n'); [constructor|]. apply em_bind; [apply H|]. intros [q s']. apply IH. lia.
Qed.
Lemma m_each_node {B} (f f' : bytes * lnode -> B -> rstate -> eprog (B * lnode * rstate)) : (forall a acc s, emore (f a acc s) (f' a acc s)) ->
  forall k k' acc n s, k <= k' -> emore (each_node_read F f k acc n s) (each_node_read F' f' k' acc n s).
Proof.
  intros H. induction k as [|k IH]; intros [|k'] acc n s LK; try constructor; [lia|]. cbn [each_node_read]. apply em_bind; [now apply m_consume_node|]. intros [[c|] n']; cbn [fst snd]; [|constructor].
  destruct (l_parsed n'); [constructor|]. apply em_bind; [apply H|]. intros [[q c'] s']. apply em_bind; [now apply m_scope|]. intros _. apply IH. lia.
Qed.
Lemma m_each_item {B} sc (fv fv' : bytes * value -> B -> rstate -> eprog (B * rstate)) (fn fn' : bytes * lnode -> B -> rstate -> eprog (B * lnode * rstate)) acc n s :
  (forall a acc s, emore (fv a acc s) (fv' a acc s)) -> (forall a acc s, emore (fn a acc s) (fn' a acc s)) -> emore (each_item F sc fv fn acc n s) (each_item F' sc fv' fn' acc n s).
Proof.
  intros H G. unfold each_item. destruct (l_parsed n).
  - apply em_bind; [|intros; apply em_refl]. destruct sc; apply m_each_stored; [|exact H]. intros a b t. apply em_bind; [apply G|intros; apply em_refl].
  - destruct sc; [now apply m_each_node|now apply m_each_value].
Qed.
Lemma m_elem_node {B} (add : cv -> B -> B) e a acc s : emore (elem_node w pn add e a acc s) (elem_node w pn' add e a acc s).
Proof. unfold elem_node. apply em_bind; [apply PN|intros; apply em_refl]. Qed.
Lemma m_entry_node e a acc s : emore (entry_node w pn e a acc s) (entry_node w pn' e a acc s).
Proof. unfold entry_node. apply em_bind; [apply PN|intros; apply em_refl]. Qed.
Lemma m_elem_entry k e a acc s : emore (elem_entry w pn F k e a acc s) (elem_entry w pn' F' k e a acc s).
Proof. unfold elem_entry. apply em_bind; [apply m_field|]. intros [[key c1] s1]. apply em_bind; [apply m_field|intros; apply em_refl]. Qed.
Lemma m_array_stored {A} (f f' : cv -> bytes * A -> rstate -> eprog (cv * rstate)) : (forall o a s, emore (f o a s) (f' o a s)) ->
  forall olds l s, emore (array_stored f olds l s) (array_stored f' olds l s).
Proof. intros H. induction olds as [|o olds IH]; intros [|a l] s; try constructor. cbn [array_stored]. apply em_bind; [apply H|]. intros [v s']. apply em_bind; [apply IH|intros; apply em_refl]. Qed.
Lemma m_array_read e : forall olds count n s, emore (array_read w pn F e count olds n s) (array_read w pn' F' e count olds n s).
Proof.
  induction olds as [|o olds IH]; intros count n s; try constructor. cbn [array_read]. destruct (l_parsed n); [constructor|]. apply em_bind; [apply m_field|]. intros [[v n1] s1]. apply em_bind; [apply IH|intros; apply em_refl].
Qed.
Lemma m_step t old n s : emore (paste_step w pn F t old n s) (paste_step w pn' F' t old n s).
Proof.
  assert (M : forall fs old n s vi mk, emore (match old with VList olds => ebind (paste_fields w pn F fs olds n s vi 0) (fun r => let '(vs, n', s') := r in ERet (mk vs, n', s')) | _ => @EThrow (cv * lnode * rstate) end)
    (match old with VList olds => ebind (paste_fields w pn' F' fs olds n s vi 0) (fun r => let '(vs, n', s') := r in ERet (mk vs, n', s')) | _ => EThrow end)).
  { intros fs o n1 s1 vi mk; destruct o; try constructor. apply em_bind; [apply m_fields|intros; apply em_refl]. }
  assert (SH : forall e, emore (paste_step w pn F (CShared e) old n s) (paste_step w pn' F' (CShared e) old n s)).
  { intros e. cbn [paste_step]. apply em_bind; [apply m_field|]. intros [[k n1] s1]. destruct k; try constructor. destruct (find_key _ _) as [a|]; [destruct (nth_error _ _) as [[u q]|]; [destruct (ct_eqb u e)|]; apply em_refl|].
    apply em_bind; [apply m_field|intros; apply em_refl]. }
  destruct t; try apply em_refl; try exact (SH _); cbn [paste_step].
  all: try (destruct (negb _); [constructor|]).
  all: try exact (M _ _ _ _ _ _).
  all: try (apply em_bind; [|intros; apply em_refl]; apply m_each_item; intros; try apply em_refl; first [apply m_elem_node|apply m_entry_node|apply m_elem_entry]).
  all: try (apply em_bind; [apply PN|intros; apply em_refl]).
  - destruct old as [| |olds| | | | | |]; try apply em_refl. destruct (negb _); [constructor|]. destruct (l_parsed n).
    + destruct (scoped t); [|apply em_refl]. destruct (negb _); [constructor|]. apply em_bind; [|intros; apply em_refl]. apply m_array_stored. intros. apply em_bind; [apply PN|intros; apply em_refl].
    + apply em_bind; [apply m_array_read|intros; apply em_refl].
  - destruct old as [| |[|oa [|ob [|]]]| | | | | |]; try apply em_refl. apply em_bind; [apply m_field|]. intros [[x n1] s1]. apply em_bind; [apply m_field|intros; apply em_refl].
  - apply em_bind; [now apply m_field_value|]. intros [[v copied] n1]. destruct (_ && _); [constructor|]. destruct (_ && _); [constructor|]. apply em_bind; [apply em_refl|].
    intros [c|]; [|constructor]. exact (M _ _ _ _ _ _).
Qed.
End Paste.
Lemma m_node w : forall F F' t old n s, F <= F' -> emore (paste_node F w t old n s) (paste_node F' w t old n s).
Proof. induction F as [|f IH]; intros [|f'] t old n s L; try constructor; [lia|]. cbn [paste_node]. apply m_step; [|lia]. intros. apply IH. lia. Qed.
Lemma m_unwrap w F F' t old n s : F <= F' -> emore (unwrap_prog F w t old n s) (unwrap_prog F' w t old n s).
Proof.
  intros L. unfold unwrap_prog. apply em_bind; [|intros; apply em_refl]. destruct (scoped t); [now apply m_node|]. apply m_field; [|exact L]. intros. now apply m_node.
Qed.
Lemma m_restore w F F' t old : F <= F' -> emore (restore_prog F w t old) (restore_prog F' w t old).
Proof.
  intros L. constructor. intros [name v]. destruct (negb _); [constructor|]. apply em_bind; [|intros; apply em_refl]. destruct (scoped t); [now apply m_node|]. apply m_field; [|exact L]. intros. now apply m_node.
Qed.
Lemma m_parser {R} x F F' q (p p' : eprog R) : F <= F' -> emore p p' -> pmore (with_parser x F q p) (with_parser x F' q p').
Proof.
  intros L E. unfold with_parser. destruct (parser_clear q); (apply pm_bind; [|intros; apply pm_refl]); apply em_comp; auto; intros; [apply pm_refl|apply pm_refl|now apply m_json].
Qed.
