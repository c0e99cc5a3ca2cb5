(** Scanning programs under the cursor discipline of P_In, with and without the limit on the length of unquoted
    literals that a stream imposes. *)
From Coq Require Import ZArith List Bool Lia ZifyBool ZifyNat.
From Verif Require Import Base Lemmas M_In P_In.
Import ListNotations.
Open Scope Z_scope.

(** [run_ghost] of P_In; [lim = false] drops the limit of 1000 bytes *)
Fixpoint run_gl {R} (lim : bool) (p : prog R) (b : blk) (g : ghost) : option (R * blk * ghost) :=
  match p with
  | Ret r => Some (r, b, g)
  | Throw | Undef _ | OutOfFuel | LeftM1 _ => None
  | NotNull k => match b_done b, b_rest b with [], [] => None | _, _ => run_gl lim k b g end
  | Move n k =>
      if (0 <=? n) && (n <? two63) && (n <=? zlen (b_rest b)) then
        let rest' := skipn (Z.to_nat n) (b_rest b) in
        let b' := mkBlk (rev_append (firstn (Z.to_nat n) (b_rest b)) (b_done b)) rest' in
        match g_lit g with
        | None => run_gl lim k b' (mkGhost (vis_after_move n (length rest')) (Z.to_nat n) None)
        | Some d =>
            if n =? 1 then
              if ((d <? 1000)%nat || negb lim) && ((d =? 0)%nat || (2 <=? zlen (b_rest b)))
              then run_gl lim k b' (mkGhost (vis_after_move n (length rest')) 0 (Some (S d))) else None
            else if (d =? 0)%nat
            then run_gl lim k b' (mkGhost (vis_after_move n (length rest')) (Z.to_nat n) None) else None
        end
      else None
  | Peek n k =>
      if (0 <=? n) && (n <? two63) && (n <=? zlen (b_rest b)) then
        match g_lit g with
        | None => run_gl lim k b (mkGhost (vis_after_peek n (length (b_rest b))) 0 None)
        | Some _ => None
        end
      else None
  | TryPeek n k =>
      if (0 <=? n) && (n <=? zlen (b_rest b)) then
        match g_lit g with
        | None => run_gl lim (k true) b (mkGhost (vis_after_peek n (length (b_rest b))) 0 None)
        | Some _ => None
        end
      else None
  | Deref off k =>
      if (off <? g_vis g)%nat then
        match nth_error (b_rest b) off with Some c => run_gl lim (k c) b g | None => None end
      else None
  | Adv n k =>
      if (n <=? g_vis g)%nat && (n <=? length (b_rest b))%nat then
        match g_lit g with
        | None => run_gl lim k (mkBlk (rev_append (firstn n (b_rest b)) (b_done b)) (skipn n (b_rest b)))
                             (mkGhost (g_vis g - n) 0 None)
        | Some _ => None
        end
      else None
  | Anchor true k => run_gl lim k b (mkGhost (g_vis g) 0 (Some 0%nat))
  | Anchor false k =>
      run_gl lim k b (mkGhost (g_vis g) (match g_lit g with Some d => d | None => g_back g end) None)
  | Back n k =>
      if (0 <=? n) && (n <=? Z.of_nat (g_back g)) && (n <=? zlen (b_done b)) then
        match g_lit g with
        | None => run_gl lim (k (rev (firstn (Z.to_nat n) (b_done b)))) b g
        | Some _ => None
        end
      else None
  end.

Lemma run_gl_block : forall R lim (p : prog R) b g r b' g',
  run_gl lim p b g = Some (r, b', g') -> run_block p b = Ok (r, b').
Proof.
  intros R lim.
  induction p as [r1|  |u| |p IHp|n p IHp|n p IHp|n p IHp|off p IHp|n p IHp|an p IHp|n p IHp|p IHp];
    intros b g r0 b' g' H0; cbn [run_gl run_block] in *; try discriminate.
  - congruence.
  - destruct (b_done b), (b_rest b); try discriminate; eauto.
  - destruct ((0 <=? n) && (n <? two63) && (n <=? zlen (b_rest b))) eqn:E; [|discriminate].
    replace (two63 <=? n) with false by lia. replace (n <=? zlen (b_rest b)) with true by lia.
    destruct (g_lit g) as [d|]; [|eauto].
    destruct (n =? 1).
    + destruct (((d <? 1000)%nat || negb lim) && _); [eauto|discriminate].
    + destruct (d =? 0)%nat; [eauto|discriminate].
  - destruct ((0 <=? n) && (n <? two63) && (n <=? zlen (b_rest b))) eqn:E; [|discriminate].
    replace (two63 <=? n) with false by lia. replace (n <=? zlen (b_rest b)) with true by lia.
    destruct (g_lit g); [discriminate|eauto].
  - destruct ((0 <=? n) && (n <=? zlen (b_rest b))) eqn:E; [|discriminate].
    replace (n <=? zlen (b_rest b)) with true by lia.
    destruct (g_lit g); [discriminate|eauto].
  - destruct (off <? g_vis g)%nat; [|discriminate]. destruct (nth_error (b_rest b) off); [eauto|discriminate].
  - destruct ((n <=? g_vis g)%nat && (n <=? length (b_rest b))%nat) eqn:E; [|discriminate].
    replace (n <=? length (b_rest b))%nat with true by lia. destruct (g_lit g); [discriminate|eauto].
  - destruct an; eauto.
  - destruct ((0 <=? n) && (n <=? Z.of_nat (g_back g)) && (n <=? zlen (b_done b))) eqn:E; [|discriminate].
    replace (n <=? zlen (b_done b)) with true by lia. destruct (g_lit g); [discriminate|eauto].
Qed.

Lemma run_gl_ghost : forall R (p : prog R) b g, run_gl true p b g = run_ghost p b g.
Proof.
  induction p as [r1|  |u| |p IHp|n p IHp|n p IHp|n p IHp|off p IHp|n p IHp|an p IHp|n p IHp|p IHp];
    intros b g; cbn [run_gl run_ghost]; auto.
  - destruct (b_done b), (b_rest b); auto.
  - destruct (_ && _); [|reflexivity]. destruct (g_lit g) as [d|]; [|auto].
    cbn [negb]. rewrite orb_false_r. destruct (n =? 1); [destruct (_ && _); auto|destruct (d =? 0)%nat; auto].
  - destruct (_ && _); [|reflexivity]. destruct (g_lit g); auto.
  - destruct (_ && _); [|reflexivity]. destruct (g_lit g); auto.
  - destruct (_ <? _)%nat; [|reflexivity]. destruct (nth_error (b_rest b) off); auto.
  - destruct (_ && _); [|reflexivity]. destruct (g_lit g); auto.
  - destruct an; auto.
  - destruct (_ && _); [|reflexivity]. destruct (g_lit g); auto.
Qed.

Lemma run_gl_bind : forall A B lim (p : prog A) (f : A -> prog B) b g,
  run_gl lim (pbind p f) b g =
  match run_gl lim p b g with Some (a, b', g') => run_gl lim (f a) b' g' | None => None end.
Proof.
  induction p as [r1|  |u| |p IHp|n p IHp|n p IHp|n p IHp|off p IHp|n p IHp|an p IHp|n p IHp|p IHp];
    intros f b g; cbn [pbind run_gl]; auto.
  - destruct (b_done b), (b_rest b); auto.
  - destruct (_ && _); [|reflexivity]. destruct (g_lit g); [|apply IHp].
    destruct (n =? 1); [destruct (_ && _); [apply IHp|reflexivity]|destruct (_ =? 0)%nat; [apply IHp|reflexivity]].
  - destruct (_ && _); [|reflexivity]. destruct (g_lit g); [reflexivity|apply IHp].
  - destruct (_ && _); [|reflexivity]. destruct (g_lit g); [reflexivity|apply IHp].
  - destruct (_ <? _)%nat; [|reflexivity]. destruct (nth_error (b_rest b) off); [apply IHp|reflexivity].
  - destruct (_ && _); [|reflexivity]. destruct (g_lit g); [reflexivity|apply IHp].
  - destruct an; apply IHp.
  - destruct (_ && _); [|reflexivity]. destruct (g_lit g); [reflexivity|apply IHp].
Qed.

(** in front of [rest], not inside a literal, the next byte being available *)
Definition ready (g : ghost) (rest : bytes) : Prop := g_lit g = None /\ ((1 <= g_vis g)%nat \/ rest = []).

Lemma rel_init1 : forall src, rel (set_block src) (mkGhost (Nat.min 1 (length src)) 0 None) (set_stream src).
Proof.
  intros src. unfold set_stream, fetch. cbn. destruct src; constructor; cbn; auto; try lia.
  - exists []. reflexivity.
  - intros a H; injection H as <-; lia.
  - exists []. reflexivity.
  - intros a H; injection H as <-; lia.
Qed.
Lemma ready_init src : ready (mkGhost (Nat.min 1 (length src)) 0 None) src.
Proof. split; [reflexivity|]. cbn [g_vis]. destruct src; [right; reflexivity|left; cbn; lia]. Qed.

(** [p] reads [bs] in front of [rest] and returns [a] *)
Definition rd {A} (lim : bool) (p : prog A) (bs rest : bytes) (a : A) : Prop :=
  forall d g, ready g (bs ++ rest) ->
  exists g', run_gl lim p (mkBlk d (bs ++ rest)) g = Some (a, mkBlk (rev bs ++ d) rest, g') /\ ready g' rest.

Lemma rd_block {A} lim (p : prog A) bs rest a : rd lim p bs rest a ->
  forall d, run_block p (mkBlk d (bs ++ rest)) = Ok (a, mkBlk (rev bs ++ d) rest).
Proof.
  intros H d. destruct (H d (mkGhost 1 0 None)) as (g' & E & _); [split; [reflexivity|left; cbn; lia]|].
  eapply run_gl_block; eauto.
Qed.
Lemma rd_stream {A} (p : prog A) bs rest a : rd true p bs rest a ->
  exists s, run_stream p (set_stream (bs ++ rest)) = Ok (a, s).
Proof.
  intros H. destruct (H [] _ (ready_init (bs ++ rest))) as (g' & E & _). rewrite run_gl_ghost in E.
  destruct (ghost_stream _ _ _ _ _ _ _ _ (rel_init1 (bs ++ rest)) E) as (s & S1 & _). eauto.
Qed.

Lemma rd_ret {A} lim (a : A) rest : rd lim (Ret a) [] rest a.
Proof. intros d g R. exists g. split; [reflexivity|exact R]. Qed.
Lemma rd_bind {A B} lim (p : prog A) (f : A -> prog B) b1 b2 rest a c :
  rd lim p b1 (b2 ++ rest) a -> rd lim (f a) b2 rest c -> rd lim (pbind p f) (b1 ++ b2) rest c.
Proof.
  intros H1 H2 d g R. rewrite <- app_assoc in R |- *. destruct (H1 d g R) as (g1 & E1 & R1).
  rewrite run_gl_bind, E1. destruct (H2 (rev b1 ++ d) g1 R1) as (g2 & E2 & R2). exists g2.
  rewrite E2, rev_app_distr, <- app_assoc. auto.
Qed.
Lemma rd_bind0 {A B} lim (p : prog A) (f : A -> prog B) bs rest a c :
  rd lim p bs rest a -> rd lim (f a) [] rest c -> rd lim (pbind p f) bs rest c.
Proof. intros. rewrite <- (app_nil_r bs). eapply rd_bind; eauto. Qed.
Lemma rd_bind1 {A B} lim (p : prog A) (f : A -> prog B) bs rest a c :
  rd lim p [] (bs ++ rest) a -> rd lim (f a) bs rest c -> rd lim (pbind p f) bs rest c.
Proof. intros. rewrite <- (app_nil_l bs). eapply rd_bind; eauto. Qed.

Lemma rd_move1 {A} lim (k : prog A) c bs rest a : rd lim k bs rest a -> rd lim (Move 1 k) (c :: bs) rest a.
Proof.
  intros H d g [Rl Rv]. cbn [app run_gl b_rest b_done].
  replace ((0 <=? 1) && (1 <? two63) && (1 <=? zlen (c :: bs ++ rest))) with true by (rewrite zlen_cons; pose proof (zlen_nonneg (bs ++ rest)); unfold two63; lia).
  rewrite Rl. change (Z.to_nat 1) with 1%nat. cbn [firstn skipn rev_append].
  destruct (H (c :: d) (mkGhost (vis_after_move 1 (length (bs ++ rest))) 1 None)) as (g' & E & R').
  - split; [reflexivity|]. cbn [g_vis]. unfold vis_after_move. change (1 <? 1024) with true. cbv iota.
    destruct (bs ++ rest); [right; reflexivity|left; cbn; lia].
  - exists g'. rewrite E. cbn [rev]. rewrite <- app_assoc. auto.
Qed.

Lemma rd_deref {A} lim (k : Z -> prog A) c r bs rest a : bs ++ rest = c :: r ->
  rd lim (k c) bs rest a -> rd lim (Deref 0 k) bs rest a.
Proof.
  intros E H d g R. cbn [run_gl b_rest]. destruct (H d g R) as (g' & E' & R'). exists g'. split; [|exact R'].
  destruct R as [_ [Rv|Rv]]; [|rewrite E in Rv; discriminate].
  replace (0 <? g_vis g)%nat with true by lia. rewrite <- E'. rewrite E at 1. reflexivity.
Qed.

Lemma rd_notnull {A} lim (k : prog A) bs rest a : bs ++ rest <> [] -> rd lim k bs rest a -> rd lim (NotNull k) bs rest a.
Proof.
  intros N H d g R. cbn [run_gl b_rest b_done]. destruct (H d g R) as (g' & E' & R'). exists g'. split; [|exact R'].
  rewrite <- E'. destruct d; [|reflexivity]. destruct (bs ++ rest); [congruence|reflexivity].
Qed.

Lemma rd_lift {A B} lim (r : res A) (f : A -> prog B) a bs rest c : r = Ok a -> rd lim (f a) bs rest c -> rd lim (pbind (lift r) f) bs rest c.
Proof. intros ->. auto. Qed.

(** * Character tokens *)

Definition is_pair (t : token) : bool := match t with TkPair _ _ => true | _ => false end.
(** what is_at_token computes on the character [c] for tokens of one character *)
Fixpoint tok_at (ts : list token) (c : Z) (note : bool) : bool * bool :=
  match ts with
  | [] => (false, note)
  | TkChar t :: ts' => if c =? t then (true, note) else tok_at ts' c note
  | TkNotify t :: ts' => tok_at ts' c (note || (c =? t))
  | TkPair _ _ :: ts' => tok_at ts' c note
  end.

Lemma gl_is_at_token lim ts c r note : forallb (fun t => negb (is_pair t)) ts = true -> forall d g, (1 <= g_vis g)%nat ->
  run_gl lim (is_at_token ts note) (mkBlk d (c :: r)) g = Some (tok_at ts c note, mkBlk d (c :: r), g).
Proof.
  revert note. induction ts as [|t ts IH]; intros note P d g V; [reflexivity|].
  cbn [forallb] in P. apply andb_prop in P. destruct P as [P1 P2]. destruct t as [x|x y|x]; [|discriminate|].
  - cbn [is_at_token run_gl b_rest nth_error tok_at]. replace (0 <? g_vis g)%nat with true by lia.
    destruct (c =? x); [reflexivity|apply IH; auto].
  - cbn [is_at_token run_gl b_rest nth_error tok_at]. replace (0 <? g_vis g)%nat with true by lia. apply IH; auto.
Qed.

(** the notes taken while passing over [bs] *)
Definition notes (ts : list token) (bs : bytes) (note : bool) : bool := fold_left (fun n c => snd (tok_at ts c n)) bs note.

Lemma rd_move_loop lim ts neg : forallb (fun t => negb (is_pair t)) ts = true ->
  forall bs fuel steps note c rest, (length bs < fuel)%nat ->
  Forall (fun b => forall n, fst (tok_at ts b n) = neg) bs -> (forall n, fst (tok_at ts c n) = negb neg) ->
  rd lim (move_loop fuel neg ts steps note) bs (c :: rest) (steps + zlen bs, snd (tok_at ts c (notes ts bs note))).
Proof.
  intros P. induction bs as [|b bs IH]; intros fuel steps note c rest F A C; (destruct fuel as [|fuel]; [cbn in F; lia|]).
  - cbn [move_loop]. intros d g R. cbn [app] in *. rewrite run_gl_bind.
    destruct R as [Rl [Rv|Rv]]; [|discriminate]. rewrite gl_is_at_token by auto. cbn [notes fold_left].
    destruct (tok_at ts c note) as [at_ nt] eqn:Et. specialize (C note). rewrite Et in C. cbn [fst] in C. subst at_.
    replace (Bool.eqb neg (negb neg)) with false by (destruct neg; reflexivity). cbn [run_gl]. exists g. cbn [snd rev app].
    replace (steps + zlen (@nil Z)) with steps by (cbn; lia). split; [reflexivity|split; [auto|left; auto]].
  - inversion A as [|? ? A1 A2]; subst. cbn [move_loop]. intros d g R. cbn [app] in *. rewrite run_gl_bind.
    pose proof R as R0. destruct R0 as [Rl [Rv|Rv]]; [|discriminate]. rewrite gl_is_at_token by auto.
    destruct (tok_at ts b note) as [at_ nt] eqn:Et. specialize (A1 note). rewrite Et in A1. cbn [fst] in A1. subst at_.
    replace (Bool.eqb neg neg) with true by (destruct neg; reflexivity).
    assert (M : rd lim (Move 1 (move_loop fuel neg ts (steps + 1) nt)) (b :: bs) (c :: rest) (steps + zlen (b :: bs), snd (tok_at ts c (notes ts (b :: bs) note)))).
    { apply rd_move1. rewrite zlen_cons. replace (steps + (1 + zlen bs)) with (steps + 1 + zlen bs) by lia.
      cbn [notes fold_left]. rewrite Et. cbn [snd]. apply IH; auto. cbn in F. lia. }
    apply M. exact R.
Qed.

Lemma rd_move_until lim ts fuel bs c rest : forallb (fun t => negb (is_pair t)) ts = true -> (length bs < fuel)%nat ->
  Forall (fun b => forall n, fst (tok_at ts b n) = false) bs -> (forall n, fst (tok_at ts c n) = true) ->
  exists r, rd lim (move_until fuel ts) bs (c :: rest) r.
Proof.
  intros P F A C. eexists. unfold move_until, move_until_gen. apply rd_notnull; [destruct bs; discriminate|].
  apply (rd_move_loop lim ts false P bs fuel 0 false c rest F A C).
Qed.
Lemma rd_move_while lim ts fuel bs c rest : forallb (fun t => negb (is_pair t)) ts = true -> (length bs < fuel)%nat ->
  Forall (fun b => forall n, fst (tok_at ts b n) = true) bs -> (forall n, fst (tok_at ts c n) = false) ->
  exists r, rd lim (move_while fuel ts) bs (c :: rest) r.
Proof.
  intros P F A C. eexists. unfold move_while, move_until_gen. apply rd_notnull; [destruct bs; discriminate|].
  apply (rd_move_loop lim ts true P bs fuel 0 false c rest F A C).
Qed.

(** inside a literal: [d0] one-byte moves since the anchor *)
Lemma gl_move_loop_lit lim ts : forallb (fun t => negb (is_pair t)) ts = true ->
  forall bs fuel steps note c rest d g d0, (length bs < fuel)%nat ->
  Forall (fun b => forall n, fst (tok_at ts b n) = false) bs -> (forall n, fst (tok_at ts c n) = true) ->
  (lim = true -> (d0 + length bs < 1000)%nat) -> g_lit g = Some d0 -> (1 <= g_vis g)%nat ->
  exists g', run_gl lim (move_loop fuel false ts steps note) (mkBlk d (bs ++ c :: rest)) g =
    Some ((steps + zlen bs, snd (tok_at ts c (notes ts bs note))), mkBlk (rev bs ++ d) (c :: rest), g')
    /\ g_lit g' = Some (d0 + length bs)%nat /\ (1 <= g_vis g')%nat.
Proof.
  intros P. induction bs as [|b bs IH]; intros fuel steps note c rest d g d0 F A C L Gl Gv; (destruct fuel as [|fuel]; [cbn in F; lia|]).
  - cbn [move_loop app]. rewrite run_gl_bind, gl_is_at_token by auto. cbn [notes fold_left].
    destruct (tok_at ts c note) as [at_ nt] eqn:Et. specialize (C note). rewrite Et in C. cbn [fst] in C. subst at_.
    cbn [Bool.eqb run_gl snd rev app length]. exists g. replace (steps + zlen (@nil Z)) with steps by (cbn; lia).
    rewrite Nat.add_0_r. auto.
  - inversion A as [|? ? A1 A2]; subst. cbn [move_loop app]. rewrite run_gl_bind, gl_is_at_token by auto.
    destruct (tok_at ts b note) as [at_ nt] eqn:Et. specialize (A1 note). rewrite Et in A1. cbn [fst] in A1. subst at_.
    cbn [Bool.eqb run_gl b_rest b_done].
    assert (Zl : 2 <= zlen (b :: bs ++ c :: rest)). { rewrite zlen_cons, zlen_app, zlen_cons. pose proof (zlen_nonneg bs). pose proof (zlen_nonneg rest). lia. }
    replace ((0 <=? 1) && (1 <? two63) && (1 <=? zlen (b :: bs ++ c :: rest))) with true by (unfold two63; lia).
    rewrite Gl. change (1 =? 1) with true. cbv iota.
    replace (((d0 <? 1000)%nat || negb lim) && ((d0 =? 0)%nat || (2 <=? zlen (b :: bs ++ c :: rest)))) with true.
    2:{ destruct lim; [specialize (L eq_refl)|]; cbn [negb]; lia. }
    change (Z.to_nat 1) with 1%nat. cbn [firstn skipn rev_append].
    destruct (IH fuel (steps + 1) nt c rest (b :: d) (mkGhost (vis_after_move 1 (length (bs ++ c :: rest))) 0 (Some (S d0))) (S d0)) as (g' & E & G1 & G2).
    + cbn in F. lia.
    + exact A2.
    + exact C.
    + intros Hl. specialize (L Hl). cbn in L. lia.
    + reflexivity.
    + cbn [g_vis]. unfold vis_after_move. change (1 <? 1024) with true. cbv iota. rewrite app_length. cbn [length]. lia.
    + exists g'. rewrite E. rewrite zlen_cons. replace (steps + 1 + zlen bs) with (steps + (1 + zlen bs)) by lia.
      cbn [notes fold_left]. rewrite Et. cbn [snd rev]. rewrite <- app_assoc. split; [reflexivity|].
      split; [rewrite G1; f_equal; cbn; lia|exact G2].
Qed.

Lemma rd_block_until lim ts fuel bs c rest : forallb (fun t => negb (is_pair t)) ts = true -> (length bs < fuel)%nat ->
  Forall (fun b => forall n, fst (tok_at ts b n) = false) bs -> (forall n, fst (tok_at ts c n) = true) ->
  (lim = true -> (length bs < 1000)%nat) ->
  rd lim (read_block_until fuel ts) bs (c :: rest) (bs, snd (tok_at ts c (notes ts bs false))).
Proof.
  intros P F A C L d g R. unfold read_block_until, move_until, move_until_gen. cbn [run_gl pbind b_rest b_done].
  destruct R as [Rl [Rv|Rv]]; [|destruct bs; discriminate].
  destruct (gl_move_loop_lit lim ts P bs fuel 0 false c rest d (mkGhost (g_vis g) 0 (Some 0%nat)) 0 F A C) as (g' & E & G1 & G2); auto.
  assert (NN : forall X (a b : X), match d, bs ++ c :: rest with [], [] => a | _, _ => b end = b) by (intros; destruct d; [destruct bs|]; reflexivity).
  rewrite NN. rewrite run_gl_bind, E. cbn [run_gl b_done b_rest]. rewrite G1. cbn [g_back g_lit g_vis Nat.add].
  replace ((0 <=? 0 + zlen bs) && (0 + zlen bs <=? Z.of_nat (length bs)) && (0 + zlen bs <=? zlen (rev bs ++ d))) with true.
  2:{ rewrite zlen_app. unfold zlen. rewrite rev_length. lia. }
  replace (Z.to_nat (0 + zlen bs)) with (length (rev bs)) by (rewrite rev_length; unfold zlen; lia).
  rewrite firstn_app_exact by reflexivity. rewrite rev_involutive. eexists. split; [reflexivity|]. split; [reflexivity|]. left. exact G2.
Qed.
