(** MessagePack documents: writing with reserved places and reading back. *)
From Coq Require Import ZArith List Bool Lia ZifyBool ZifyNat.
From Verif Require Import Base Lemmas M_Types M_Conv M_In S_Doc M_OutOps S_Out M_Event S_MsgPack M_MsgPack P_In P_Reads P_Float P_Doc P_PSrlDoc P_MsgPack.
Import ListNotations.
Open Scope Z_scope.

Lemma small_scopes_scope n t its : small_scopes (DScope n t its) <-> zlen its < 2 ^ 32 /\ Forall small_scopes its.
Proof.
  cbn [small_scopes]. split; intros [A C]; (split; [exact A|]).
  - clear A. induction its; constructor; [tauto|apply IHits; tauto].
  - clear A. induction C; [exact I|split; auto].
Qed.

(** the bytes of a document *)
Definition doc_name (d : doc) : bytes := match d with DVal n _ | DScope n _ _ => n end.
Definition enc_name (named : bool) (n : bytes) : bytes := if named then flat (mp_write_str n) else [].
Fixpoint enc (named : bool) (d : doc) : bytes :=
  match d with
  | DVal n v => enc_name named n ++ match srl_to_msgp v with Ok ops => flat ops | _ => [] end
  | DScope n t its => enc_name named n ++
      ((if ty_eqb t TObject then 223 else 221) :: swapped 4 (zlen its)) ++ flat_map (enc (ty_eqb t TObject)) its
  end.

(** * operations with reservations *)
Lemma spec_run_app a b st : spec_run (a ++ b) st = spec_run b (spec_run a st).
Proof. apply fold_left_app. Qed.
Lemma valid_ops_app : forall a b out tk, valid_ops (map snd tk) a -> valid_ops (map snd (snd (spec_run a (out, tk)))) b ->
  valid_ops (map snd tk) (a ++ b).
Proof.
  induction a as [|o a IH]; intros b out tk Ha Hb; [exact Hb|].
  change (spec_run (o :: a) (out, tk)) with (spec_run a (spec_op (out, tk) o)) in Hb.
  destruct o as [w|n|k off w]; cbn [app valid_ops spec_op fst snd] in *.
  - eapply IH; eauto.
  - specialize (IH b (out ++ repeat 0 n) (tk ++ [(length out, n)])). rewrite map_app in IH. apply IH; auto.
  - destruct Ha as [Ha1 Ha2]. split; [exact Ha1|]. destruct (nth_error tk k) as [[p q]|]; eapply IH; eauto.
Qed.
Lemma write_events_app {S} (w : S -> event -> res (S * list oop)) a b : forall st,
  write_events w st (a ++ b) =
  (let* (st1, o1) := write_events w st a in let* (st2, o2) := write_events w st1 b in Ok (st2, o1 ++ o2)).
Proof.
  induction a as [|e a IH]; intros st; cbn [app write_events rbind].
  - destruct (write_events w st b) as [[? ?]| | |]; reflexivity.
  - destruct (w st e) as [[st1 o1]| | |]; cbn [rbind]; auto. rewrite IH.
    destruct (write_events w st1 a) as [[st2 o2]| | |]; cbn [rbind]; auto.
    destruct (write_events w st2 b) as [[st3 o3]| | |]; cbn [rbind]; auto. now rewrite app_assoc.
Qed.

(** * writing *)
Definition in_object (st : msgp) : bool := match mp_stack st with s :: _ => ty_eqb (ms_type s) TObject | [] => false end.
(** the scope after [k] more items *)
Definition bump (k : Z) (stack : list mscope) : list mscope :=
  match stack with [] => [] | s :: r => mkScope (ms_type s) (u32 (ms_elems s + k)) (ms_ticket s) :: r end.

Lemma bump_bump a b s : bump a (bump b s) = bump (a + b) s.
Proof.
  destruct s as [|[t e k] s]; [reflexivity|]. cbn [bump ms_type ms_elems ms_ticket]. do 2 f_equal. unfold u32.
  rewrite Zplus_mod_idemp_l. f_equal. lia.
Qed.
Lemma in_object_bump k st n : in_object (mkMsgp (bump k (mp_stack st)) n) = in_object st.
Proof. unfold in_object. destruct (mp_stack st); reflexivity. Qed.

Definition writes_doc (es : list event) (k : Z) (bs : bool -> bytes) : Prop :=
  forall st out tk, length tk = mp_next st ->
  exists ops tk', write_events msgp_write st es = Ok (mkMsgp (bump k (mp_stack st)) (mp_next st + length tk'), ops) /\
    spec_run ops (out, tk) = (out ++ bs (in_object st), tk ++ tk') /\ valid_ops (map snd tk) ops.

Definition scope_ok (st : msgp) : Prop := match mp_stack st with s :: _ => 0 <= ms_elems s < 2 ^ 32 | [] => True end.
Lemma bump0 st : scope_ok st -> bump 0 (mp_stack st) = mp_stack st.
Proof. unfold scope_ok. destruct (mp_stack st) as [|[t e k] s]; [reflexivity|]. cbn. intros. unfold u32. rewrite Z.add_0_r, Z.mod_small by (unfold two32; lia). reflexivity. Qed.

Lemma name_ops st name : writes_only (match mp_stack st with [] => [] | s :: _ => if ty_eqb (ms_type s) TObject then mp_write_str name else [] end) .
Proof.
  unfold mp_write_str. destruct (mp_stack st) as [|s r]; [constructor|]. destruct (ty_eqb _ _); [|constructor].
  destruct (_ <=? 31); [wo|]. destruct (_ <=? 254); [wo|]. destruct (_ <=? 65534); wo.
Qed.
Lemma name_flat st name : flat (match mp_stack st with [] => [] | s :: _ => if ty_eqb (ms_type s) TObject then mp_write_str name else [] end) = enc_name (in_object st) name.
Proof. unfold enc_name, in_object. destruct (mp_stack st) as [|s r]; [reflexivity|]. destruct (ty_eqb _ _); reflexivity. Qed.

Lemma msgp_write_item st name v : v_type v <> TScopeEnd -> msgp_write st (name, v) =
  let pre := match mp_stack st with [] => [] | s :: _ => if ty_eqb (ms_type s) TObject then mp_write_str name else [] end in
  if is_scope (v_type v) then
    Ok (mkMsgp (mkScope (v_type v) 0 (mp_next st) :: bump 1 (mp_stack st)) (S (mp_next st)),
        pre ++ [OWrite [if ty_eqb (v_type v) TObject then 223 else 221]; OReserve 4])
  else let* ops := srl_to_msgp v in Ok (mkMsgp (bump 1 (mp_stack st)) (mp_next st), pre ++ ops).
Proof.
  intros H. unfold msgp_write. destruct (v_type v) eqn:T; try contradiction; destruct (mp_stack st) as [|s r]; reflexivity.
Qed.

Lemma writes_val n v : wf_value v -> writes_doc [(n, v)] 1 (fun nm => enc nm (DVal n v)).
Proof.
  intros W st out tk L. destruct (srl_to_msgp_reads v W) as (ops & E & O & _).
  assert (T : v_type v <> TScopeEnd) by (intros T; unfold wf_value in W; rewrite T in W; contradiction).
  assert (Sc : is_scope (v_type v) = false) by (unfold wf_value in W; destruct (v_type v); try reflexivity; contradiction).
  cbn [write_events]. rewrite msgp_write_item by auto. rewrite Sc, E. cbn [rbind].
  pose proof (name_ops st n) as NO. pose proof (name_flat st n) as NF. cbv zeta.
  set (pre := match mp_stack st with [] => [] | s :: _ => _ end) in *.
  exists ((pre ++ ops) ++ []), []. rewrite Nat.add_0_r. split; [reflexivity|].
  rewrite app_nil_r, writes_only_run by (apply writes_only_app; auto). cbn [fst snd]. rewrite flat_app, NF, app_nil_r.
  split; [|apply writes_only_valid, writes_only_app; auto]. cbn [enc]. now rewrite E.
Qed.

Lemma writes_list (l : list doc) : Forall (fun d => writes_doc (events d) 1 (fun nm => enc nm d)) l ->
  forall st out tk, scope_ok st -> length tk = mp_next st ->
  exists ops tk', write_events msgp_write st (flat_map events l) = Ok (mkMsgp (bump (zlen l) (mp_stack st)) (mp_next st + length tk'), ops) /\
    spec_run ops (out, tk) = (out ++ flat_map (enc (in_object st)) l, tk ++ tk') /\ valid_ops (map snd tk) ops.
Proof.
  induction 1 as [|d l Hd Hl IH]; intros st out tk SO L.
  - exists [], []. cbn [flat_map write_events]. change (zlen (@nil doc)) with 0. rewrite bump0, Nat.add_0_r, !app_nil_r by auto.
    split; [destruct st; reflexivity|]. split; [reflexivity|exact I].
  - destruct (Hd st out tk L) as (o1 & t1 & E1 & R1 & V1). cbv beta in R1.
    set (st1 := mkMsgp (bump 1 (mp_stack st)) (mp_next st + length t1)) in *.
    destruct (IH st1 (out ++ enc (in_object st) d) (tk ++ t1)) as (o2 & t2 & E2 & R2 & V2).
    { unfold scope_ok, st1. cbn [mp_stack]. destruct (mp_stack st) as [|s r]; [exact I|]. cbn [bump ms_elems]. unfold u32. apply Z.mod_pos_bound. reflexivity. }
    { unfold st1. cbn [mp_next]. rewrite app_length. lia. }
    exists (o1 ++ o2), (t1 ++ t2). cbn [flat_map]. rewrite write_events_app, E1. cbn [rbind]. rewrite E2. cbn [rbind].
    split; [|split].
    + do 2 f_equal. unfold st1. cbn [mp_stack mp_next]. rewrite bump_bump, app_length. f_equal; [f_equal; rewrite zlen_cons; lia|lia].
    + rewrite spec_run_app, R1. etransitivity; [exact R2|]. unfold st1. rewrite in_object_bump, <- !app_assoc. reflexivity.
    + eapply valid_ops_app; [exact V1|]. rewrite R1. cbn [snd]. exact V2.
Qed.

Lemma overwrite_at (a b b' c : bytes) : length b = length b' -> overwrite (a ++ b ++ c) (length a + 0) b' = a ++ b' ++ c.
Proof.
  intros H. unfold overwrite. rewrite Nat.add_0_r, firstn_app_exact by reflexivity. f_equal. f_equal.
  rewrite <- skipn_skipn, skipn_app_exact by reflexivity. now apply skipn_app_exact.
Qed.

Lemma msgp_write_end t e k r n : msgp_write (mkMsgp (mkScope t e k :: r) n) ev_end = Ok (mkMsgp r n, [OPatch k 0 (swapped 4 e)]).
Proof. reflexivity. Qed.

Lemma writes_any d : wf_doc d -> small_scopes d -> writes_doc (events d) 1 (fun nm => enc nm d).
Proof.
  induction d as [n v|n t its IH] using doc_ind2; intros W SS; [apply writes_val; cbn in W; tauto|].
  apply wf_doc_scope in W. destruct W as (Wn & Wt & Wi). apply small_scopes_scope in SS. destruct SS as [Sl Si].
  assert (IH' : Forall (fun d => writes_doc (events d) 1 (fun nm => enc nm d)) its).
  { clear - IH Wi Si. rewrite Forall_forall in *. intros x Hx. apply IH; auto. }
  clear IH. intros st out tk L.
  assert (T : v_type (val_type t) = t) by reflexivity.
  cbn [events write_events]. rewrite msgp_write_item by (rewrite T; destruct Wt; subst; discriminate).
  rewrite T. replace (is_scope t) with true by (destruct Wt; subst; reflexivity).
  pose proof (name_ops st n) as NO. pose proof (name_flat st n) as NF. cbv zeta.
  set (pre := match mp_stack st with [] => [] | s :: _ => _ end) in *. cbn [rbind].
  set (st1 := mkMsgp (mkScope t 0 (mp_next st) :: bump 1 (mp_stack st)) (S (mp_next st))).
  set (hd := (out ++ enc_name (in_object st) n) ++ [if ty_eqb t TObject then 223 else 221]).
  assert (R0 : spec_run (pre ++ [OWrite [if ty_eqb t TObject then 223 else 221]; OReserve 4]) (out, tk) =
               (hd ++ repeat 0 4, tk ++ [(length hd, 4%nat)])).
  { rewrite spec_run_app, (writes_only_run pre NO), NF. cbn [fst snd spec_run fold_left spec_op]. reflexivity. }
  destruct (writes_list its IH' st1 (hd ++ repeat 0 4) (tk ++ [(length hd, 4%nat)])) as (o2 & t2 & E2 & R2 & V2).
  { cbn. lia. }
  { unfold st1. cbn [mp_next]. rewrite app_length. cbn [length]. lia. }
  rewrite write_events_app, E2. cbn [rbind write_events]. cbn [mp_stack bump ms_type ms_elems ms_ticket st1].
  rewrite msgp_write_end. cbn [rbind].
  eexists _, ((length hd, 4%nat) :: t2). split; [|split].
  - unfold st1. cbn [mp_next length]. do 3 f_equal. lia.
  - rewrite spec_run_app, R0, spec_run_app.
    match goal with |- context [spec_run o2 ?x] => rewrite (R2 : spec_run o2 x = _) end. cbn [spec_run app fold_left spec_op fst snd].
    rewrite nth_error_app1 by (rewrite app_length; cbn [length]; lia).
    rewrite nth_error_app2, <- L, Nat.sub_diag by lia. cbn [nth_error].
    rewrite <- (app_assoc hd). rewrite overwrite_at by (rewrite swapped_length; reflexivity).
    cbn [enc]. unfold hd. rewrite <- !app_assoc. cbn [app]. do 3 f_equal.
    rewrite Z.add_0_l. unfold u32. rewrite Z.mod_small by (unfold two32; pose proof (zlen_nonneg its); lia).
    unfold in_object. cbn [mp_stack ms_type st1]. reflexivity.
  - eapply valid_ops_app with (out := out).
    + eapply valid_ops_app with (out := out); [apply writes_only_valid; exact NO|]. cbn [valid_ops]. exact I.
    + rewrite R0. cbn [snd]. eapply valid_ops_app with (out := hd ++ repeat 0 4); [exact V2|].
      match goal with |- context [spec_run o2 ?x] => rewrite (R2 : spec_run o2 x = _) end. cbn [snd app valid_ops]. split; [|exact I]. exists 4%nat. split; [|rewrite swapped_length; lia].
      rewrite !map_app. cbn [map snd]. rewrite nth_error_app1 by (rewrite app_length, map_length; cbn [length]; lia).
      rewrite nth_error_app2, map_length, <- L, Nat.sub_diag by (rewrite map_length; lia). reflexivity.
Qed.

(** * reading *)
Definition with_top (t : ty) (k : Z) (j : nat) (r : list mscope) (n : nat) : msgp := mkMsgp (mkScope t k j :: r) n.

Lemma reads_msgp_value name v : wf_name name -> wf_value v ->
  (forall n, reads (msgp_read (mkMsgp [] n)) (enc false (DVal name v)) (mkMsgp [] n, ([], mp_norm_v v))) /\
  (forall t k j r n, 1 <= k -> reads (msgp_read (with_top t k j r n)) (enc (ty_eqb t TObject) (DVal name v))
     (with_top t (k - 1) j r n, (if ty_eqb t TObject then name else [], mp_norm_v v))).
Proof.
  intros Wn Wv. destruct (srl_to_msgp_reads v Wv) as (ops & E & O & p & bs & F & R). split.
  - intros n. cbn [enc]. rewrite E, F. cbn [enc_name app]. unfold msgp_read. cbn [mp_stack].
    apply (reads_bind _ _ [p] bs p); [apply reads_byte|apply R].
  - intros t k j r n K. cbn [enc]. rewrite E, F. unfold msgp_read, with_top. cbn [mp_stack ms_elems ms_type ms_ticket mp_next].
    replace (k <? 1) with false by lia. destruct (ty_eqb t TObject).
    + destruct (write_str_reads name Wn) as (_ & q & bs2 & F2 & S2 & _ & R2). unfold enc_name. rewrite F2. rewrite <- app_comm_cons.
      apply (reads_bind _ _ [q] (bs2 ++ p :: bs) q); [apply reads_byte|]. rewrite S2.
      apply reads_bind with (a := name).
      * unfold mp_read_name. eapply reads_bind0; [exact R2|]. unfold val_block_enc. cbn [v_data].
        rewrite trunc_block_id by (unfold wf_name in Wn; unfold_words; lia). apply reads_ret.
      * apply (reads_bind _ _ [p] bs p); [apply reads_byte|apply R].
    + apply (reads_bind _ _ [p] bs p); [apply reads_byte|apply R].
Qed.

Lemma scope_prefix t : t = TObject \/ t = TArray -> forall st name n, 0 <= n < 2 ^ 32 ->
  reads (let! p := read_move 1 in mp_read_value st name p) ((if ty_eqb t TObject then 223 else 221) :: swapped 4 n)
    (mkMsgp (mkScope t n 0 :: mp_stack st) (mp_next st), (name, val_type t)).
Proof.
  intros T st name n H. set (p := if ty_eqb t TObject then 223 else 221).
  apply (reads_bind _ _ [p] (swapped 4 n) p); [apply reads_byte|]. unfold mp_read_value, mp_scope_info.
  assert (Q : prefix_is_scope p = true /\ negb (Z.land p 64 =? 0) = true /\ negb (Z.land p 1 =? 0) = true /\
      (if negb (Z.land p 2 =? 0) then TObject else TArray) = t) by (unfold p; destruct T; subst; repeat split; reflexivity).
  destruct Q as (-> & -> & -> & ->).
  eapply reads_bind0; [eapply reads_bind0; [apply reads_swapped; [reflexivity|lia|reflexivity]|apply reads_ret]|].
  cbv beta iota. unfold u32. rewrite Z.mod_small by (unfold two32; lia). apply reads_ret.
Qed.

Lemma reads_msgp_scope name t its : wf_name name -> t = TObject \/ t = TArray -> zlen its < 2 ^ 32 ->
  let body := (if ty_eqb t TObject then 223 else 221) :: swapped 4 (zlen (its : list doc)) in
  (forall n, reads (msgp_read (mkMsgp [] n)) (enc_name false name ++ body) (with_top t (zlen its) 0 [] n, ([], val_type t))) /\
  (forall t' k j r n, 1 <= k -> reads (msgp_read (with_top t' k j r n)) (enc_name (ty_eqb t' TObject) name ++ body)
     (with_top t (zlen its) 0 (mkScope t' (k - 1) j :: r) n, (if ty_eqb t' TObject then name else [], val_type t))).
Proof.
  intros Wn T Sl body. pose proof (zlen_nonneg its) as N. split.
  - intros n. unfold msgp_read. cbn [mp_stack enc_name app]. apply (scope_prefix t T (mkMsgp [] n)); lia.
  - intros t' k j r n K. unfold msgp_read, with_top. cbn [mp_stack ms_elems ms_type ms_ticket mp_next].
    replace (k <? 1) with false by lia. destruct (ty_eqb t' TObject).
    + destruct (write_str_reads name Wn) as (_ & q & bs2 & F2 & S2 & _ & R2). unfold enc_name. rewrite F2, <- app_comm_cons.
      apply (reads_bind _ _ [q] (bs2 ++ body) q); [apply reads_byte|]. rewrite S2.
      apply reads_bind with (a := name).
      * unfold mp_read_name. eapply reads_bind0; [exact R2|]. unfold val_block_enc. cbn [v_data].
        rewrite trunc_block_id by (unfold wf_name in Wn; unfold_words; lia). apply reads_ret.
      * apply (scope_prefix t T (mkMsgp (mkScope t' (k - 1) j :: r) n)). lia.
    + cbn [enc_name app]. apply (scope_prefix t T (mkMsgp (mkScope t' (k - 1) j :: r) n)). lia.
Qed.

Lemma reads_msgp_end t j r n : reads (msgp_read (with_top t 0 j r n)) [] (mkMsgp r n, ev_end).
Proof. apply reads_ret. Qed.

Definition reads_doc (d : doc) : Prop :=
  (forall n, reads (read_events msgp_read (length (events d)) (mkMsgp [] n)) (enc false d)
      (mkMsgp [] n, events (doc_norm mp_norm_v false d))) /\
  (forall t k j r n, 1 <= k -> reads (read_events msgp_read (length (events d)) (with_top t k j r n)) (enc (ty_eqb t TObject) d)
     (with_top t (k - 1) j r n, events (doc_norm mp_norm_v (ty_eqb t TObject) d))).

Lemma reads_list l : Forall reads_doc l -> forall t j r n,
  reads (read_events msgp_read (length (flat_map events l)) (with_top t (zlen l) j r n)) (flat_map (enc (ty_eqb t TObject)) l)
     (with_top t 0 j r n, flat_map events (map (doc_norm mp_norm_v (ty_eqb t TObject)) l)).
Proof.
  induction 1 as [|d l [_ Hd] Hl IH]; intros t j r n; [apply reads_events_nil|].
  cbn [flat_map map]. rewrite app_length. eapply reads_events_app.
  - apply Hd. rewrite zlen_cons. pose proof (zlen_nonneg l). lia.
  - replace (zlen (d :: l) - 1) with (zlen l) by (rewrite zlen_cons; lia). apply IH.
Qed.

Lemma reads_any d : wf_doc d -> small_scopes d -> reads_doc d.
Proof.
  induction d as [nm v|nm t its IH] using doc_ind2; intros W SS.
  - cbn in W. destruct (reads_msgp_value nm v (proj1 W) (proj2 W)) as [A B]. split.
    + intros n. cbn [events length]. rewrite <- (app_nil_r (enc _ _)). eapply reads_events_cons; [apply A|apply reads_events_nil].
    + intros t k j r n K. cbn [events length]. rewrite <- (app_nil_r (enc _ _)). eapply reads_events_cons; [apply B; auto|apply reads_events_nil].
  - apply wf_doc_scope in W. destruct W as (Wn & Wt & Wi). apply small_scopes_scope in SS. destruct SS as [Sl Si].
    assert (IH' : Forall reads_doc its).
    { clear - IH Wi Si. rewrite Forall_forall in *. intros x Hx. apply IH; auto. }
    clear IH. pose proof (reads_list its IH') as RL. destruct (reads_msgp_scope nm t its Wn Wt Sl) as [A B].
    assert (E : forall n r, reads (read_events msgp_read (length (flat_map events its ++ [ev_end])) (with_top t (zlen its) 0 r n))
       (flat_map (enc (ty_eqb t TObject)) its) (mkMsgp r n, flat_map events (map (doc_norm mp_norm_v (ty_eqb t TObject)) its) ++ [ev_end])).
    { intros n r. rewrite app_length. rewrite <- (app_nil_r (flat_map (enc _) _)). eapply reads_events_app; [apply RL|].
      cbn [length]. rewrite <- (app_nil_r []). eapply reads_events_cons; [apply reads_msgp_end|apply reads_events_nil]. }
    split.
    + intros n. cbn [events length enc doc_norm]. rewrite app_assoc. eapply reads_events_cons; [apply A|]. apply E.
    + intros t' k j r n K. cbn [events length enc doc_norm]. rewrite app_assoc. eapply reads_events_cons; [apply B; auto|]. apply E.
Qed.

Lemma msgp_doc d : wf_doc d -> small_scopes d ->
  exists w' ops, write_events msgp_write msgp_init (events d) = Ok (w', ops) /\ valid_ops [] ops /\ spec_out ops = enc false d /\
    reads (read_events msgp_read (length (events d)) msgp_init) (spec_out ops) (msgp_init, events (doc_norm mp_norm_v false d)).
Proof.
  intros W S. destruct (writes_any d W S msgp_init [] [] eq_refl) as (ops & tk & E & R & V).
  eexists _, ops. split; [exact E|]. split; [exact V|].
  assert (O : spec_out ops = enc false d) by (exact (f_equal fst R)). split; [exact O|].
  rewrite O. apply (reads_any d W S).
Qed.
