(** The exact language of PJson. *)
From Coq Require Import ZArith List Bool Lia ZifyBool ZifyNat.
From Verif Require Import Base Lemmas M_Types M_Conv M_Charset M_In S_Doc M_OutOps M_Event M_Env M_Json M_Tree S_Tree M_TreeIO S_JsonQuoted S_JsonStream S_JsonLang
  P_Float P_Paste P_In P_Scan P_JsonLit P_JsonDoc P_JsonUnesc P_JsonSafe P_Tree P_JsonReuse P_Safe P_TreeSafe.
Import ListNotations.
Open Scope Z_scope.

(** * Scanning *)
Definition seek_stops : list token := [TkChar 34; TkChar 58; TkChar 123; TkChar 91; TkChar 125; TkChar 93; TkChar 47].
Definition seek_white : list token := [TkChar 32; TkChar 44; TkChar 10; TkChar 9; TkChar 13].
(** seek_item stays in front of this *)
Definition here (v : bool) (c : Z) : bool :=
  if v then negb (existsb (Z.eqb c) [32; 44; 10; 9; 13]) else existsb (Z.eqb c) [34; 58; 123; 91; 125; 93; 47].

Lemma stops_at c n : fst (tok_at seek_stops c n) = here false c.
Proof. unfold here, seek_stops. cbn [tok_at existsb]. repeat (destruct (c =? _); [reflexivity|]). reflexivity. Qed.
Lemma white_at c n : fst (tok_at seek_white c n) = negb (here true c).
Proof. unfold here, seek_white. cbn [tok_at existsb]. repeat (destruct (c =? _); [reflexivity|]). reflexivity. Qed.

Definition is_char (t : token) : bool := match t with TkChar _ => true | _ => false end.
Lemma move_none ts neg : match ts with TkChar _ :: _ => True | _ => False end -> forallb (fun t => negb (is_pair t)) ts = true ->
  forall t fuel steps note d, Forall (fun b => forall n, fst (tok_at ts b n) = neg) t -> forall z, run_block (move_loop fuel neg ts steps note) (mkBlk d t) <> Ok z.
Proof.
  intros H P. induction t as [|b t IH]; intros fuel steps note d A z; (destruct fuel as [|fuel]; [discriminate|]); cbn [move_loop].
  - destruct ts as [|[c| |] ts]; try contradiction. cbn [is_at_token pbind run_block b_rest nth_error]. discriminate.
  - inversion A as [|? ? A1 A2]; subst. rewrite run_block_bind.
    pose proof (gl_is_at_token false ts b t note P d (mkGhost 1 0 None) (le_n 1)) as G. apply run_gl_block in G. rewrite G. cbn [rbind].
    destruct (tok_at ts b note) as [a nt] eqn:E. specialize (A1 note). rewrite E in A1. cbn [fst] in A1. subst a.
    rewrite Bool.eqb_reflx. cbn [run_block b_rest b_done]. change (two63 <=? 1) with false. cbv iota.
    replace (1 <=? zlen (b :: t)) with true by (rewrite zlen_cons; pose proof (zlen_nonneg t); lia).
    change (Z.to_nat 1) with 1%nat. cbn [firstn skipn rev_append]. apply IH; auto.
Qed.

Section Loop.
  Variables (x : fp_text) (F : nat).

  Definition mode (st : pjson) (s : jstate) : bool := expects (j_type st) (s_reading s).
  Lemma seek_eq st s : seek_item F st s = if mode st s then move_while F seek_white else move_until F seek_stops.
  Proof. unfold seek_item, mode, expects. destruct (s_reading s), (ty_eqb (j_type st) TArray); reflexivity. Qed.
  Lemma seek_over st s a c r d : Forall (fun b => here (mode st s) b = false) a -> here (mode st s) c = true -> (length a < F)%nat ->
    exists z, run_block (seek_item F st s) (mkBlk d (a ++ c :: r)) = Ok (z, mkBlk (rev a ++ d) (c :: r)).
  Proof.
    intros A C L. rewrite seek_eq. destruct (mode st s) eqn:M.
    - destruct (rd_move_while false seek_white F a c r eq_refl L) as (z & R).
      + eapply Forall_impl; [|exact A]. cbv beta. intros b B n. now rewrite white_at, B.
      + intros n. now rewrite white_at, C.
      + exists z. apply (rd_block _ _ _ _ _ R).
    - destruct (rd_move_until false seek_stops F a c r eq_refl L) as (z & R).
      + eapply Forall_impl; [|exact A]. cbv beta. intros b B n. now rewrite stops_at.
      + intros n. now rewrite stops_at.
      + exists z. apply (rd_block _ _ _ _ _ R).
  Qed.
  Lemma seek_none st s t d z : Forall (fun b => here (mode st s) b = false) t -> run_block (seek_item F st s) (mkBlk d t) <> Ok z.
  Proof.
    intros A. rewrite seek_eq. destruct (mode st s); unfold move_while, move_until, move_until_gen; cbn [run_block b_done b_rest].
    - assert (K : run_block (move_loop F true seek_white 0 false) (mkBlk d t) <> Ok z).
      { apply move_none; [exact I|reflexivity|]. eapply Forall_impl; [|exact A]. cbv beta. intros b B n. now rewrite white_at, B. }
      destruct d, t; auto; discriminate.
    - assert (K : run_block (move_loop F false seek_stops 0 false) (mkBlk d t) <> Ok z).
      { apply move_none; [exact I|reflexivity|]. eapply Forall_impl; [|exact A]. cbv beta. intros b B n. now rewrite stops_at. }
      destruct d, t; auto; discriminate.
  Qed.
  Lemma split_at v t : (exists a c r, t = a ++ c :: r /\ Forall (fun b => here v b = false) a /\ here v c = true) \/ Forall (fun b => here v b = false) t.
  Proof.
    induction t as [|b t IH]; [right; constructor|]. destruct (here v b) eqn:B.
    - left. exists [], b, t. auto.
    - destruct IH as [(a & c & r & -> & A & C)|A]; [left; exists (b :: a), c, r|right]; auto.
  Qed.

  Notation L n st s d t := (run_block (json_loop x F n st s) (mkBlk d t)).
  Definition okeq {A} (r q : res A) : Prop := forall z, r = Ok z <-> q = Ok z.

  (** what is skipped in front of an item *)
  Lemma loop_skip n st s d c t : here (mode st s) c = false -> (length (c :: t) < F)%nat -> okeq (L n st s d (c :: t)) (L n st s (c :: d) t).
  Proof.
    intros H B z. destruct n as [|m]; [cbn; split; discriminate|]. cbn [json_loop]. rewrite !run_block_bind.
    destruct (split_at (mode st s) t) as [(a & e & r & -> & A & C)|A].
    - cbn [length] in B. rewrite app_length in B. destruct (seek_over st s a e r (c :: d) A C ltac:(lia)) as (z1 & ->).
      destruct (seek_over st s (c :: a) e r d) as (z2 & E2); [constructor; auto|exact C|cbn [length]; lia|]. cbn [app] in E2. rewrite E2.
      cbn [rbind rev]. rewrite <- app_assoc. reflexivity.
    - assert (A2 : Forall (fun b => here (mode st s) b = false) (c :: t)) by (constructor; auto).
      pose proof (fun z => seek_none st s t (c :: d) z A) as N1. pose proof (fun z => seek_none st s (c :: t) d z A2) as N2.
      destruct (run_block (seek_item F st s) (mkBlk d (c :: t))) as [q| | |]; [now destruct (N2 q)| | |];
        (destruct (run_block (seek_item F st s) (mkBlk (c :: d) t)) as [q'| | |]; [now destruct (N1 q')| | |]); cbn; split; discriminate.
  Qed.
  (** one round in front of an item *)
  Definition round (m : nat) (st : pjson) (s : jstate) : prog (pjson * event) :=
    let! (st', s', move) := process_item x F st s in
    let next := if s_complete s' then Ret (st', (s_name s', s_value s')) else json_loop x F m st' s' in
    if move then Move 1 next else next.
  Lemma loop_round m st s d c t : here (mode st s) c = true -> (0 < F)%nat -> L (S m) st s d (c :: t) = run_block (round m st s) (mkBlk d (c :: t)).
  Proof.
    intros H B. cbn [json_loop]. rewrite run_block_bind. destruct (seek_over st s [] c t d (Forall_nil _) H B) as (z & E). cbn [app] in E. rewrite E. reflexivity.
  Qed.
  Lemma move_run {A} (k : prog A) c d t : run_block (Move 1 k) (mkBlk d (c :: t)) = run_block k (mkBlk (c :: d) t).
  Proof.
    cbn [run_block b_rest b_done]. change (two63 <=? 1) with false. cbv iota. replace (1 <=? zlen (c :: t)) with true by (rewrite zlen_cons; pose proof (zlen_nonneg t); lia). reflexivity.
  Qed.
  Lemma ret_run {A} (a : A) b : run_block (Ret a) b = Ok (a, b).
  Proof. reflexivity. Qed.
  Lemma loop_nil n st s d z : L n st s d [] <> Ok z.
  Proof.
    destruct n as [|m]; [discriminate|]. cbn [json_loop]. rewrite run_block_bind. pose proof (fun z => seek_none st s [] d z (Forall_nil _)) as N.
    destruct (run_block (seek_item F st s) (mkBlk d [])) as [q| | |]; [now destruct (N q)| | |]; discriminate.
  Qed.

  (** * Comments *)
  Lemma pair_run : forall t fuel steps note d, (length t < fuel)%nat ->
    match closing_slash t with
    | Some u => exists z d', run_block (move_loop fuel false [TkPair 42 47] steps note) (mkBlk d t) = Ok (z, mkBlk d' (42 :: u))
    | None => forall z, run_block (move_loop fuel false [TkPair 42 47] steps note) (mkBlk d t) <> Ok z
    end.
  Proof.
    induction t as [|c t IH]; intros fuel steps note d B; (destruct fuel as [|fuel]; [cbn in B; lia|]); cbn [move_loop is_at_token pbind run_block b_rest].
    - cbn. discriminate.
    - assert (M : forall z, run_block (move_loop fuel false [TkPair 42 47] steps z) (mkBlk d t) = run_block (move_loop fuel false [TkPair 42 47] steps z) (mkBlk d t)) by reflexivity.
      destruct t as [|e t].
      + cbn [closing_slash]. intros z. cbn -[two63 move_loop]. change (two63 <=? 1) with false. cbv iota. cbn -[two63 move_loop]. destruct fuel; cbn; discriminate.
      + replace (2 <=? zlen (c :: e :: t)) with true by (rewrite !zlen_cons; pose proof (zlen_nonneg t); lia). cbn [pbind run_block b_rest nth_error].
        assert (K : forall st' nt, match closing_slash (e :: t) with
          | Some u => exists z d', run_block (Move 1 (move_loop fuel false [TkPair 42 47] st' nt)) (mkBlk d (c :: e :: t)) = Ok (z, mkBlk d' (42 :: u))
          | None => forall z, run_block (Move 1 (move_loop fuel false [TkPair 42 47] st' nt)) (mkBlk d (c :: e :: t)) <> Ok z end).
        { intros st' nt. rewrite move_run. apply IH. cbn [length] in *. lia. }
        change (closing_slash (c :: e :: t)) with (if (c =? 42) && (e =? 47) then Some (e :: t) else closing_slash (e :: t)).
        destruct (Z.eqb_spec c 42) as [->|N].
        * cbn [pbind run_block b_rest nth_error andb]. destruct (Z.eqb_spec e 47) as [->|N2].
          -- cbn [pbind Bool.eqb run_block]. eauto.
          -- cbn [pbind Bool.eqb]. apply K.
        * cbn [pbind Bool.eqb andb]. apply K.
  Qed.
  Definition newline (c : Z) : bool := (c =? 10) || (c =? 13).
  Lemma line_split t : match next_line t with
    | Some u => exists a e, t = a ++ e :: u /\ Forall (fun c => newline c = false) a /\ newline e = true
    | None => Forall (fun c => newline c = false) t end.
  Proof.
    induction t as [|c t IH]; [constructor|]. cbn [next_line]. fold (newline c). destruct (newline c) eqn:E; [exists [], c; auto|].
    destruct (next_line t); [|auto]. destruct IH as (a & e & -> & A & B). exists (c :: a), e. auto.
  Qed.
  Lemma line_at c n : fst (tok_at [TkChar 10; TkChar 13] c n) = newline c.
  Proof. unfold newline. cbn [tok_at]. destruct (c =? 10), (c =? 13); reflexivity. Qed.
  Lemma line_run t d : (length t < F)%nat ->
    match next_line t with
    | Some u => exists z d' e, run_block (move_until F [TkChar 10; TkChar 13]) (mkBlk d t) = Ok (z, mkBlk d' (e :: u))
    | None => forall z, run_block (move_until F [TkChar 10; TkChar 13]) (mkBlk d t) <> Ok z
    end.
  Proof.
    intros B. pose proof (line_split t) as S. destruct (next_line t) as [u|].
    - destruct S as (a & e & -> & A & E). rewrite app_length in B. destruct (rd_move_until false [TkChar 10; TkChar 13] F a e u eq_refl) as (z & R); [cbn [length] in B; lia| | |].
      + eapply Forall_impl; [|exact A]. cbv beta. intros c H n. now rewrite line_at.
      + intros n. now rewrite line_at.
      + exists z, (rev a ++ d), e. apply (rd_block _ _ _ _ _ R).
    - intros z. unfold move_until, move_until_gen. cbn [run_block b_done b_rest].
      assert (K : run_block (move_loop F false [TkChar 10; TkChar 13] 0 false) (mkBlk d t) <> Ok z).
      { apply move_none; [exact I|reflexivity|]. eapply Forall_impl; [|exact S]. cbv beta. intros b H n. now rewrite line_at. }
      destruct d, t; auto; discriminate.
  Qed.
  Lemma notnull_run {A} (k : prog A) d c t : run_block (NotNull k) (mkBlk d (c :: t)) = run_block k (mkBlk d (c :: t)).
  Proof. cbn [run_block b_done b_rest]. destruct d; reflexivity. Qed.

  Lemma sig_here v c : existsb (Z.eqb c) [34; 58; 123; 91; 125; 93; 47] = true -> here v c = true.
  Proof. intros H. destruct v; [|exact H]. cbn [here existsb] in *. lia. Qed.

  (** a slash *)
  Lemma loop_slash m st s d (t : bytes) : s_complete s = false -> (length (47%Z :: t) < F)%nat ->
    match t with
    | [] => forall z, L (S m) st s d (47 :: t) <> Ok z
    | c :: r =>
        if c =? 42 then match closing_slash t with Some u => exists d', L (S m) st s d (47 :: t) = L m st s d' u | None => forall z, L (S m) st s d (47 :: t) <> Ok z end
        else if c =? 47 then match next_line r with Some u => exists d', L (S m) st s d (47 :: t) = L m st s d' u | None => forall z, L (S m) st s d (47 :: t) <> Ok z end
        else L (S m) st s d (47 :: t) = L m st s (47 :: d) t
    end.
  Proof.
    intros Hs B. rewrite loop_round by (try apply sig_here; try reflexivity; lia). unfold round, process_item. cbn [pbind run_block b_rest nth_error].
    cbn [Z.eqb Pos.eqb existsb orb]. rewrite !run_block_bind. unfold skip_comment. cbn [run_block b_rest].
    replace (1 <=? zlen (47 :: t)) with true by (rewrite zlen_cons; pose proof (zlen_nonneg t); lia). cbn [run_block b_rest nth_error].
    destruct t as [|c r]; [cbn; discriminate|]. cbn [nth_error]. destruct (Z.eqb_spec c 42) as [->|N42]; [|destruct (Z.eqb_spec c 47) as [->|N47]].
    - rewrite !run_block_bind. unfold move_until, move_until_gen. rewrite notnull_run.
      pose proof (pair_run (47 :: 42 :: r) F 0 false d B) as P. change (closing_slash (47 :: 42 :: r)) with (closing_slash (42 :: r)) in P.
      destruct (closing_slash (42 :: r)) as [u|].
      + destruct P as (z & d' & ->). exists (42 :: d'). repeat (cbn [rbind]; rewrite ?ret_run). rewrite Hs. now rewrite move_run.
      + intros z. destruct (run_block (move_loop F false [TkPair 42 47] 0 false) (mkBlk d (47 :: 42 :: r))) as [q| | |]; [now destruct (P q)| | |]; discriminate.
    - rewrite !run_block_bind. pose proof (line_run (47 :: 47 :: r) d B) as P. change (next_line (47 :: 47 :: r)) with (next_line r) in P.
      destruct (next_line r) as [u|].
      + destruct P as (z & d' & e & ->). exists (e :: d'). repeat (cbn [rbind]; rewrite ?ret_run). rewrite Hs. now rewrite move_run.
      + intros z. destruct (run_block (move_until F [TkChar 10; TkChar 13]) (mkBlk d (47 :: 47 :: r))) as [q| | |]; [now destruct (P q)| | |]; discriminate.
    - repeat (cbn [rbind]; rewrite ?ret_run). rewrite Hs. now rewrite move_run.
  Qed.

  Lemma lit_char c : is_literal c = true <-> literal_char c.
  Proof.
    unfold is_literal, literal_char. rewrite orb_true_iff, existsb_exists, andb_true_iff. split; (intros [H|H]; [left; lia|right]).
    - destruct H as (y & I & E). apply Z.eqb_eq in E. now subst.
    - exists c. split; [exact H|apply Z.eqb_refl].
  Qed.
  Lemma sig_iff c : significant c <-> existsb (Z.eqb c) [34; 58; 123; 91; 125; 93; 47] = true.
  Proof.
    unfold significant. rewrite existsb_exists. split; [intros H; exists c; split; [exact H|apply Z.eqb_refl]|intros (y & H & E); apply Z.eqb_eq in E; now subst].
  Qed.
  (** a character that means nothing where a value is expected *)
  Lemma loop_other m st s d c (t : bytes) : s_complete s = false -> (0 < F)%nat -> here (mode st s) c = true -> ignored (mode st s) c ->
    L (S m) st s d (c :: t) = L m st s (c :: d) t.
  Proof.
    intros Hs B H [N1 N2]. rewrite loop_round by auto. rewrite sig_iff in N1. destruct (mode st s) eqn:M; [|unfold here in H; congruence].
    assert (NL : is_literal c = false) by (destruct (is_literal c) eqn:E; [apply lit_char in E; destruct (N2 eq_refl E)|reflexivity]).
    unfold round, process_item. cbn [pbind run_block b_rest nth_error]. cbn [existsb] in N1.
    replace (c =? 34) with false by lia. replace (c =? 58) with false by lia. replace (existsb (Z.eqb c) [123; 125; 91; 93]) with false by (cbn [existsb]; lia). replace (c =? 47) with false by lia.
    rewrite run_block_bind. unfold process_char. cbn [pbind run_block b_rest nth_error]. rewrite NL. repeat (cbn [pbind rbind]; rewrite ?ret_run). rewrite Hs. now rewrite move_run.
  Qed.

  Lemma okeq_refl {A} (r : res A) : okeq r r.
  Proof. intros z. reflexivity. Qed.
  Lemma slash_len : forall t u, closing_slash t = Some u -> (length u < length t)%nat.
  Proof.
    induction t as [|c t IH]; intros u H; [discriminate|]. destruct t as [|e t]; [discriminate|].
    change (closing_slash (c :: e :: t)) with (if (c =? 42) && (e =? 47) then Some (e :: t) else closing_slash (e :: t)) in H.
    destruct (_ && _); [injection H as <-; cbn; lia|]. apply IH in H. cbn [length] in *. lia.
  Qed.
  Lemma line_len : forall t u, next_line t = Some u -> (length u < length t)%nat.
  Proof.
    induction t as [|c t IH]; intros u H; [discriminate|]. cbn [next_line] in H. destruct (_ || _); [injection H as <-; cbn; lia|]. apply IH in H. cbn [length]. lia.
  Qed.
  Lemma passed_len v t u : passed v t u -> (length u < length t)%nat.
  Proof.
    destruct 1 as [c t H|c t H1 H2|t u H|t u H]; cbn [length]; try lia; [apply line_len in H; lia|apply slash_len in H; cbn [length] in H; lia].
  Qed.
  Lemma loop_pass n st s d (t u : bytes) : s_complete s = false -> passed (mode st s) t u -> (length t < F)%nat ->
    exists n' d', (n' <= n <= S n')%nat /\ okeq (L n st s d t) (L n' st s d' u).
  Proof.
    intros Hs P B. destruct n as [|m]. { exists O, []. split; [lia|]. cbn. apply okeq_refl. }
    destruct P as [c t H|c t H1 H2|t u H|t u H].
    - destruct (here (mode st s) c) eqn:E.
      + exists m, (c :: d). split; [lia|]. rewrite loop_other; [apply okeq_refl|auto|lia|auto|auto].
      + exists (S m), (c :: d). split; [lia|]. apply loop_skip; auto.
    - pose proof (loop_slash m st s d (c :: t) Hs B) as E. cbv beta iota in E. replace (c =? 42) with false in E by lia. replace (c =? 47) with false in E by lia.
      exists m, (47 :: d). split; [lia|]. rewrite E. apply okeq_refl.
    - pose proof (loop_slash m st s d (47 :: t) Hs B) as E. cbn [Z.eqb Pos.eqb] in E. rewrite H in E. destruct E as (d' & E). exists m, d'. split; [lia|]. rewrite E. apply okeq_refl.
    - pose proof (loop_slash m st s d (42 :: t) Hs B) as E. cbn [Z.eqb Pos.eqb] in E. rewrite H in E. destruct E as (d' & E). exists m, d'. split; [lia|]. rewrite E. apply okeq_refl.
  Qed.
  Lemma slash_passes m st s d (t : bytes) z : s_complete s = false -> (length (47%Z :: t) < F)%nat -> L (S m) st s d (47 :: t) = Ok z -> exists u, passed (mode st s) (47 :: t) u.
  Proof.
    intros Hs B E. pose proof (loop_slash m st s d t Hs B) as K. destruct t as [|c r]; [destruct (K z E)|].
    destruct (Z.eqb_spec c 42) as [->|N42]; [|destruct (Z.eqb_spec c 47) as [->|N47]].
    - destruct (closing_slash (42 :: r)) as [u|] eqn:U; [|destruct (K z E)]. exists u. now constructor.
    - destruct (next_line r) as [u|] eqn:U; [|destruct (K z E)]. exists u. now constructor.
    - exists (c :: r). now constructor.
  Qed.

  (** * The beginnings of items *)
  Lemma loop_colon m st s d (t : bytes) : s_complete s = false -> (0 < F)%nat ->
    L (S m) st s d (58 :: t) = if s_reading s then Err else L m st (mkJs (s_name s) (s_value s) false (s_named s) true) (58 :: d) t.
  Proof.
    intros Hs B. rewrite loop_round by (try apply sig_here; auto). unfold round, process_item. cbn [pbind run_block b_rest nth_error].
    cbn [Z.eqb Pos.eqb existsb orb]. destruct (s_reading s); [reflexivity|]. cbn [pbind]. rewrite Hs. cbn [s_complete]. now rewrite move_run.
  Qed.
  Definition opened (st : pjson) (sc : ty) : pjson := mkPjson (j_compact st) (sc :: j_stack st) sc (j_closed st) (j_nbuf st) (j_vbuf st).
  Definition shut (st : pjson) : pjson := mkPjson (j_compact st) (List.tl (j_stack st)) (stack_top (List.tl (j_stack st))) (j_closed st) (j_nbuf st) (j_vbuf st).
  Lemma loop_open m st s d (t : bytes) c sc : (0 < F)%nat -> (c = 123 /\ sc = TObject) \/ (c = 91 /\ sc = TArray) ->
    L (S m) st s d (c :: t) = Ok ((opened st sc, (s_name s, val_type sc)), mkBlk (c :: d) t).
  Proof.
    intros B H. rewrite loop_round by (try apply sig_here; destruct H as [[-> ->]|[-> ->]]; auto). unfold round, process_item. cbn [pbind run_block b_rest nth_error].
    destruct H as [[-> ->]|[-> ->]]; cbn [Z.eqb Pos.eqb existsb orb process_bracket pbind]; unfold process_bracket; cbn [Z.eqb Pos.eqb];
      cbn -[run_block two63]; rewrite move_run; reflexivity.
  Qed.
  Lemma loop_shut m st s d (t : bytes) c : (0 < F)%nat -> c = 125 \/ c = 93 ->
    L (S m) st s d (c :: t) = match j_stack st with [] => Err | _ => Ok ((shut st, (s_name s, val_type TScopeEnd)), mkBlk (c :: d) t) end.
  Proof.
    intros B H. rewrite loop_round by (try apply sig_here; destruct H as [-> | ->]; auto). unfold round, process_item, shut. cbn [pbind run_block b_rest nth_error].
    destruct H as [-> | ->]; cbn [Z.eqb Pos.eqb existsb orb pbind]; unfold process_bracket; cbn [Z.eqb Pos.eqb];
      destruct (j_stack st) as [|q l]; cbn -[run_block two63]; try reflexivity; rewrite move_run; reflexivity.
  Qed.

  Lemma unicode_escape : forall n t, (length t <= n)%nat -> unquote t = Unicode -> escape_u t.
  Proof.
    induction n as [|n IH]; intros t B H; destruct t as [|c t]; try discriminate H; [cbn in B; lia|]. cbn [unquote] in H.
    destruct (c =? 34); [discriminate|]. cbn [length] in B. destruct (Z.eqb_spec c 92) as [->|].
    - destruct t as [|k t]; [discriminate|]. destruct (escape_of k).
      + destruct (unquote t) eqn:E; try discriminate H. destruct (IH t) as (p & q & ->); [cbn in B; lia|auto|]. now exists (92 :: k :: p), q.
      + destruct (Z.eqb_spec k 117) as [->|]; [exists [], t; reflexivity|]. destruct (unquote (k :: t)) eqn:E; try discriminate H.
        destruct (IH (k :: t)) as (p & q & E2); [lia|auto|]. rewrite E2. now exists (92 :: p), q.
    - destruct (unquote t) eqn:E; try discriminate H. destruct (IH t) as (p & q & ->); [lia|auto|]. now exists (c :: p), q.
  Qed.
  Lemma unquote_rest t s r : unquote t = Text s r -> exists u, r = 34 :: u /\ (length u < length t)%nat /\ (escape_u u -> escape_u t).
  Proof.
    intros H. destruct (unquote_lit _ t s r (le_n _) H) as (t1 & r1 & -> & -> & _). exists r1. split; [reflexivity|]. split; [rewrite app_length; cbn; lia|].
    intros (p & q & ->). exists (t1 ++ 34 :: p), q. now rewrite <- app_assoc.
  Qed.

  Definition rebuffed (st st' : pjson) : Prop := j_compact st' = j_compact st /\ j_stack st' = j_stack st /\ j_type st' = j_type st.
  Lemma loop_quote m st s d (t : bytes) : s_complete s = false -> (length (34%Z :: t) < F)%nat -> j_type st <> TNull ->
    match unquote t with
    | Text w r => forall u, r = 34 :: u -> exists st' d', rebuffed st st' /\ L (S m) st s d (34 :: t) =
        (if mode st s then Ok ((st', (s_name s, val_string w EUTF8)), mkBlk d' u)
         else if s_named s then Err else L m st' (mkJs w (s_value s) false true (s_reading s)) d' u)
    | NoEnd => L (S m) st s d (34 :: t) = UB UbEnd
    | Unicode => True
    end.
  Proof.
    intros Hs B Nt. cbn [length] in B. rewrite loop_round by (try apply sig_here; auto; lia). unfold round, process_item. cbn [pbind run_block b_rest nth_error].
    cbn [Z.eqb Pos.eqb existsb orb]. rewrite !run_block_bind. unfold process_quote.
    replace (ty_eqb (j_type st) TNull) with false by (destruct (j_type st); cbn; congruence). rewrite move_run.
    destruct (unquote t) as [w r| |] eqn:U; [|exact I|].
    - intros u ->. destruct (string_read t w (34 :: u) (if s_named s then j_vbuf st else j_nbuf st) F (34 :: d) U ltac:(lia)) as (t1 & buf & E & R & _).
      rewrite run_block_bind, R. cbn [rbind].
      set (st' := if s_named s then mkPjson _ _ _ _ _ _ else _). exists st', (34 :: rev t1 ++ 34 :: d).
      assert (RB : rebuffed st st') by (unfold st', rebuffed; destruct (s_named s); cbn; auto). split; [exact RB|]. clearbody st'.
      unfold process_string. destruct RB as (_ & _ & ->). unfold mode, expects. destruct (s_reading s || ty_eqb (j_type st) TArray).
      + rewrite run_block_bind. repeat (cbn [rbind pbind s_complete s_name s_value]; rewrite ?ret_run). now rewrite move_run.
      + destruct (s_named s); [reflexivity|]. rewrite run_block_bind. repeat (cbn [rbind pbind s_complete s_name s_value]; rewrite ?ret_run). rewrite Hs. now rewrite move_run.
    - rewrite run_block_bind, no_end; [reflexivity|exact U|lia].
  Qed.
  Lemma loop_quote_root m st s d (t : bytes) : (0 < F)%nat -> j_type st = TNull -> L (S m) st s d (34 :: t) = Err.
  Proof.
    intros B Nt. rewrite loop_round by (try apply sig_here; auto; lia). unfold round, process_item, process_quote. cbn [pbind run_block b_rest nth_error].
    cbn [Z.eqb Pos.eqb existsb orb]. rewrite Nt. reflexivity.
  Qed.

  (** * Numbers and constants *)
  Lemma end_iff c : literal_end c <-> lit_stop c.
  Proof. unfold literal_end, lit_stop. cbn. intuition congruence. Qed.
  Lemma literal_split t : (exists a e r, t = a ++ e :: r /\ Forall (fun b => ~ literal_end b) a /\ literal_end e) \/ Forall (fun b => ~ literal_end b) t.
  Proof.
    induction t as [|b t IH]; [right; constructor|]. destruct (existsb (Z.eqb b) [44; 32; 125; 93]) eqn:B.
    - left. exists [], b, t. split; [reflexivity|]. split; [constructor|]. apply existsb_exists in B. destruct B as (y & I & E). apply Z.eqb_eq in E. now subst.
    - assert (N : ~ literal_end b). { intros I. assert (X : existsb (Z.eqb b) [44; 32; 125; 93] = true); [|congruence]. apply existsb_exists. exists b. split; [exact I|apply Z.eqb_refl]. }
      destruct IH as [(a & c & r & -> & A & C)|A]; [left; exists (b :: a), c, r|right]; auto.
  Qed.
  Lemma lit_stop_at c n : fst (tok_at lit_toks c n) = existsb (Z.eqb c) [44; 32; 125; 93].
  Proof. rewrite lit_tok. now destruct (existsb _ _). Qed.
  Lemma end_bool c : literal_end c <-> existsb (Z.eqb c) [44; 32; 125; 93] = true.
  Proof. unfold literal_end. rewrite existsb_exists. split; [intros I; exists c; split; [exact I|apply Z.eqb_refl]|intros (y & I & E); apply Z.eqb_eq in E; now subst]. Qed.
  Lemma lit_here c : is_literal c = true -> here true c = true.
  Proof. unfold is_literal, here. cbn [existsb]. lia. Qed.
  Lemma lit_item c : is_literal c = true -> c <> 34 /\ c <> 58 /\ c <> 47 /\ existsb (Z.eqb c) [123; 125; 91; 93] = false.
  Proof. unfold is_literal. cbn [existsb]. lia. Qed.
  Lemma loop_literal m st s d c (t : bytes) : mode st s = true -> is_literal c = true -> (0 < F)%nat ->
    L (S m) st s d (c :: t) = run_block (let! (s', move) := process_char x F s in
       let next := if s_complete s' then Ret (st, (s_name s', s_value s')) else json_loop x F m st s' in if move then Move 1 next else next) (mkBlk d (c :: t)).
  Proof.
    intros M C B. rewrite loop_round by (auto; rewrite M; now apply lit_here). unfold round, process_item. cbn [pbind run_block b_rest nth_error].
    destruct (lit_item c C) as (N1 & N2 & N3 & N4). rewrite N4. replace (c =? 34) with false by lia. replace (c =? 58) with false by lia. replace (c =? 47) with false by lia.
    rewrite !run_block_bind. destruct (run_block (process_char x F s) (mkBlk d (c :: t))) as [[[s' mv] b1]| | |]; reflexivity.
  Qed.
  Lemma loop_literal_end m st s d a w e r : mode st s = true -> literal_char a -> (length (a :: w ++ e :: r) < F)%nat ->
    Forall (fun b => ~ literal_end b) (a :: w) -> literal_end e -> exists d',
    L (S m) st s d (a :: w ++ e :: r) = match str_to_type x (a :: w) (if existsb (Z.eqb 46) (a :: w) then TFP64 else TNull) with
      | Some v => Ok ((st, (s_name s, v)), mkBlk d' (behind_literal e r)) | None => Err end.
  Proof.
    intros M C B A E. apply lit_char in C. cbn [length] in B. rewrite app_length in B. cbn [length] in B.
    exists (if (e =? 125) || (e =? 93) then rev (a :: w) ++ d else e :: rev (a :: w) ++ d).
    rewrite loop_literal by (auto; lia). unfold process_char. cbn [pbind run_block b_rest nth_error]. rewrite C. rewrite !run_block_bind. fold lit_toks.
    assert (R : rd false (read_block_until F lit_toks) (a :: w) (e :: r) (a :: w, snd (tok_at lit_toks e (notes lit_toks (a :: w) false)))).
    { apply rd_block_until; [reflexivity|cbn [length]; lia| | |discriminate].
      - eapply Forall_impl; [|exact A]. cbv beta. intros b H n. rewrite lit_stop_at. rewrite end_bool in H. now destruct (existsb _ _).
      - intros n. rewrite lit_stop_at. now apply end_bool. }
    rewrite (rd_block _ _ _ _ _ R d : run_block _ (mkBlk d (a :: w ++ e :: r)) = _). cbn [rbind].
    rewrite lit_notes by (eapply Forall_impl; [|exact A]; cbv beta; intros b H; now rewrite <- end_iff). rewrite lit_tok. apply end_bool in E. rewrite E. cbn [snd orb].
    destruct (str_to_type x (a :: w) _) as [v|]; [|reflexivity]. cbn [run_block b_rest nth_error rbind s_complete s_name s_value]. unfold behind_literal.
    destruct ((e =? 125) || (e =? 93)); cbn [negb]; [reflexivity|]. cbv zeta. rewrite move_run. reflexivity.
  Qed.
  Lemma loop_literal_none m st s d a w z : mode st s = true -> literal_char a -> (0 < F)%nat -> Forall (fun b => ~ literal_end b) (a :: w) -> L (S m) st s d (a :: w) <> Ok z.
  Proof.
    intros M C B A. apply lit_char in C. rewrite loop_literal by auto. unfold process_char. cbn [pbind run_block b_rest nth_error]. rewrite C. rewrite !run_block_bind. fold lit_toks.
    unfold read_block_until. cbn [run_block]. rewrite run_block_bind. unfold move_until, move_until_gen. rewrite notnull_run.
    assert (K : forall z, run_block (move_loop F false lit_toks 0 false) (mkBlk d (a :: w)) <> Ok z).
    { intros z'. apply move_none; [exact I|reflexivity|]. eapply Forall_impl; [|exact A]. cbv beta. intros b H n. rewrite lit_stop_at. rewrite end_bool in H. now destruct (existsb _ _). }
    destruct (run_block (move_loop F false lit_toks 0 false) (mkBlk d (a :: w))) as [q| | |]; [now destruct (K q)| | |]; discriminate.
  Qed.

  (** * Items *)
  Definition parses (st : pjson) : Prop := j_type st = stack_top (j_stack st) /\ Forall (fun t => is_scope t = true) (j_stack st).
  Definition key_of (s : jstate) : option bytes := if s_named s then Some (s_name s) else None.
  Definition looking (s : jstate) : Prop := s_complete s = false /\ (s_named s = false -> s_name s = []).
  Lemma named_key s : looking s -> named (key_of s) = s_name s.
  Proof. intros [_ H]. unfold key_of. destruct (s_named s); [reflexivity|cbn; now rewrite H]. Qed.
  Definition stepped (st : pjson) (e : event) (st' : pjson) : Prop :=
    let t := v_type (snd e) in
    if is_scope t then j_stack st' = t :: j_stack st /\ j_type st' = t
    else if ty_eqb t TScopeEnd then exists top, j_stack st = top :: j_stack st' /\ j_type st' = stack_top (j_stack st')
    else j_stack st' = j_stack st /\ j_type st' = j_type st.
  Lemma parses_step st e st' : parses st -> stepped st e st' -> parses st'.
  Proof.
    unfold parses, stepped. intros [A B]. destruct (is_scope _) eqn:S.
    - intros [-> ->]. split; [reflexivity|constructor; auto].
    - destruct (ty_eqb _ _); [intros (top & E & ->)|intros [-> ->]]; [|auto]. rewrite E in B. inversion B; subst. auto.
  Qed.
  Lemma parses_null st : parses st -> (j_type st = TNull <-> j_stack st = []).
  Proof. intros [-> B]. destruct (j_stack st) as [|t l]; cbn [stack_top]; [tauto|]. inversion B; subst. split; [intros ->; discriminate|discriminate]. Qed.
  Lemma parses_rebuff st st' : rebuffed st st' -> parses st -> parses st'.
  Proof. unfold rebuffed, parses. intros (_ & -> & ->). auto. Qed.
  Lemma stepped_rebuff st st' e st'' : rebuffed st st' -> stepped st' e st'' -> stepped st e st''.
  Proof. unfold rebuffed, stepped. intros (_ & -> & ->). auto. Qed.
  Lemma plain_step st st' e : plain_value (snd e) -> rebuffed st st' -> stepped st e st'.
  Proof. unfold stepped, plain_value. intros [-> N] (_ & -> & ->). destruct (v_type (snd e)); cbn; auto. congruence. Qed.
  Lemma literal_plain w v : literal_value x w v -> plain_value v.
  Proof.
    unfold literal_value. generalize (if existsb (Z.eqb 46) w then TFP64 else TNull). intros h. unfold str_to_type, plain_value. destruct (trim_space w) as [|c0 r] eqn:T; [discriminate|]. rewrite <- T.
    destruct (_ && _ && _); [intros X; injection X as <-; split; [reflexivity|discriminate]|]. destruct (_ && _ && _); [intros X; injection X as <-; split; [reflexivity|discriminate]|].
    destruct (_ && _ && _); [intros X; injection X as <-; split; [reflexivity|discriminate]|].
    assert (FP : match x_strtod x (trim_space w) with Some bits => Some (val_f64 bits) | None => None end = Some v -> plain_value v).
    { destruct (x_strtod x (trim_space w)) as [d|]; [|discriminate]. intros X. assert (v = val_f64 d) as -> by congruence. unfold plain_value. destruct (v_type_f64 d) as [-> | ->]; split; try reflexivity; discriminate. }
    destruct (is_fp h); [exact FP|]. destruct (str_to_int (trim_space w)) as [[i sg] ok]. destruct ok; [|exact FP].
    intros X. destruct sg; injection X as <-; cbn; split; congruence.
  Qed.

  Lemma looking_named w v c : looking (mkJs w v false true c).
  Proof. split; [reflexivity|discriminate]. Qed.
  Lemma escape_cons c t : ~ escape_u (c :: t) -> ~ escape_u t.
  Proof. intros N (p & q & ->). apply N. now exists (c :: p), q. Qed.
  Lemma passed_suffix v t u : passed v t u -> exists p, t = p ++ u.
  Proof.
    assert (SL : forall t u, closing_slash t = Some u -> exists p, t = p ++ u).
    { induction t0 as [|c t0 IH]; intros u0 H; [discriminate|]. destruct t0 as [|e t0]; [discriminate|].
      change (closing_slash (c :: e :: t0)) with (if (c =? 42) && (e =? 47) then Some (e :: t0) else closing_slash (e :: t0)) in H.
      destruct (_ && _); [injection H as <-; now exists [c]|]. destruct (IH _ H) as (p & ->). now exists (c :: p). }
    assert (LL : forall t u, next_line t = Some u -> exists p, t = p ++ u).
    { induction t0 as [|c t0 IH]; intros u0 H; [discriminate|]. cbn [next_line] in H. destruct (_ || _); [injection H as <-; now exists [c]|]. destruct (IH _ H) as (p & ->). now exists (c :: p). }
    destruct 1 as [c t H|c t H1 H2|t u H|t u H].
    - now exists [c].
    - now exists [47].
    - destruct (LL _ _ H) as (p & ->). now exists (47 :: 47 :: p).
    - destruct (SL _ _ H) as (p & ->). now exists (47 :: p).
  Qed.
  Lemma passed_escape v t u : passed v t u -> ~ escape_u t -> ~ escape_u u.
  Proof. intros P N (p & q & ->). destruct (passed_suffix _ _ _ P) as (p' & ->). apply N. exists (p' ++ p), q. now rewrite <- app_assoc. Qed.

  Lemma item_sound : forall N t, (length t <= N)%nat -> (length t < F)%nat -> ~ escape_u t -> forall n st s d st' e b', parses st -> looking s ->
    L n st s d t = Ok ((st', e), b') -> item x (j_type st) (key_of s) (s_reading s) t e (b_rest b') /\ stepped st e st'.
  Proof.
    induction N as [|N IH]; intros t LN B NU n st s d st' e b' P Lk E.
    { destruct t; [|cbn in LN; lia]. now apply loop_nil in E. }
    destruct t as [|c t]; [now apply loop_nil in E|]. destruct n as [|m]; [discriminate E|]. pose proof Lk as [Hs Hn].
    assert (PASS : forall u, passed (mode st s) (c :: t) u -> item x (j_type st) (key_of s) (s_reading s) (c :: t) e (b_rest b') /\ stepped st e st').
    { intros u Pu. destruct (loop_pass (S m) st s d (c :: t) u Hs Pu B) as (n' & d' & _ & Q). apply Q in E. pose proof (passed_len _ _ _ Pu) as Lu.
      destruct (IH u ltac:(cbn [length] in *; lia) ltac:(cbn [length] in *; lia) (passed_escape _ _ _ Pu NU) n' st s d' st' e b' P Lk E) as [I1 I2].
      split; [|exact I2]. eapply ITpass; [exact Pu|exact I1]. }
    destruct (Z.eq_dec c 47) as [->|N47]. { destruct (slash_passes m st s d t _ Hs B E) as (u & Pu). now apply (PASS u). }
    assert (F0 : (0 < F)%nat) by lia. cbn [length] in LN, B.
    destruct (Z.eq_dec c 58) as [->|N58].
    { rewrite loop_colon in E by auto. destruct (s_reading s) eqn:R; [discriminate E|].
      destruct (IH t ltac:(lia) ltac:(lia) (escape_cons _ _ NU) _ _ _ _ _ _ _ P (conj eq_refl Hn : looking (mkJs (s_name s) (s_value s) false (s_named s) true)) E) as [I1 I2].
      split; [|exact I2]. now apply ITcolon. }
    destruct (Z.eq_dec c 123) as [->|N123].
    { rewrite (loop_open _ _ _ _ _ _ TObject F0) in E by auto. injection E as <- <- <-. split; [|split; reflexivity]. rewrite <- (named_key s Lk). apply ITobject. }
    destruct (Z.eq_dec c 91) as [->|N91].
    { rewrite (loop_open _ _ _ _ _ _ TArray F0) in E by auto. injection E as <- <- <-. split; [|split; reflexivity]. rewrite <- (named_key s Lk). apply ITarray. }
    destruct (Z.eq_dec c 125) as [K125|N125]; [|destruct (Z.eq_dec c 93) as [K93|N93]].
    1,2: assert (K : c = 125 \/ c = 93) by lia; rewrite (loop_shut _ _ _ _ _ _ F0 K) in E; destruct (j_stack st) as [|q l] eqn:Sk; [discriminate E|]; injection E as <- <- <-;
      rewrite <- (named_key s Lk); (split; [apply ITclose; [exact K|]; rewrite (parses_null st P), Sk; discriminate|]);
      unfold stepped, shut; cbn; rewrite Sk; now exists q.
    destruct (Z.eq_dec c 34) as [->|N34].
    { destruct (ty_eqb (j_type st) TNull) eqn:Tn.
      { rewrite loop_quote_root in E; [discriminate E|auto|]. destruct (j_type st); cbn in Tn; congruence. }
      assert (Nt : j_type st <> TNull) by (intros X; rewrite X in Tn; discriminate Tn).
      pose proof (loop_quote m st s d t Hs ltac:(cbn [length]; lia) Nt) as Q. destruct (unquote t) as [w r| |] eqn:U.
      - destruct (unquote_rest _ _ _ U) as (u & -> & Lu & Eu). destruct (Q u eq_refl) as (st1 & d1 & RB & E1). rewrite E1 in E. destruct (mode st s) eqn:M.
        + injection E as <- <- <-. rewrite <- (named_key s Lk). split; [|apply plain_step; [split; cbn; congruence|exact RB]]. now apply ITstring.
        + destruct (s_named s) eqn:Nm; [discriminate E|].
          assert (NU1 : ~ escape_u u) by (intros X; apply (escape_cons _ _ NU); auto).
          destruct (IH u ltac:(lia) ltac:(lia) NU1 _ _ _ _ _ _ _ (parses_rebuff _ _ RB P) (looking_named w (s_value s) (s_reading s)) E) as [I1 I2].
          split; [|eapply stepped_rebuff; eauto]. unfold key_of in *. rewrite Nm. destruct RB as (_ & _ & Tt). rewrite Tt in I1. eapply ITname; eauto.
      - destruct (escape_cons _ _ NU). eapply unicode_escape; eauto.
      - rewrite Q in E. discriminate E. }
    destruct (mode st s) eqn:M; [destruct (is_literal c) eqn:C|].
    - destruct (literal_split (c :: t)) as [(a & q & r & Ea & A & Q)|A].
      + destruct a as [|a0 w]; [cbn [app] in Ea; injection Ea as -> ->; exfalso; apply end_bool in Q; unfold is_literal in C; cbn [existsb] in Q, C; lia|].
        injection Ea as -> ->. apply lit_char in C.
        destruct (loop_literal_end m st s d a0 w q r M C) as (d' & E1); [cbn [length]; lia|auto|auto|]. rewrite E1 in E.
        destruct (str_to_type x (a0 :: w) _) as [v|] eqn:V; [|discriminate E]. injection E as <- <- <-. rewrite <- (named_key s Lk).
        split; [now apply ITliteral|]. apply plain_step; [eapply literal_plain, V|repeat split].
      + apply loop_literal_none in E; auto; [contradiction|now apply lit_char].
    - apply (PASS t). constructor. split; [unfold significant; cbn; lia|]. intros _ H. apply lit_char in H. congruence.
    - apply (PASS t). constructor. split; [unfold significant; cbn; lia|discriminate].
  Qed.

  Lemma item_complete sc k c t e r : item x sc k c t e r -> forall st s d n, parses st -> j_type st = sc -> looking s -> key_of s = k -> s_reading s = c ->
    (length t < n)%nat -> (length t < F)%nat -> exists st' d', L n st s d t = Ok ((st', e), mkBlk d' r) /\ stepped st e st'.
  Proof.
    induction 1 as [k c t u e r Pu I IH|k t e r I IH|c t w u e r Ex Nt U I IH|k c t w u Ex Nt U|k c t|k c t|k c b t Hb Nt|k c a w q r v Ex Ca A Q V];
      intros st s d n P T Lk Kk Rd Ln B; pose proof Lk as [Hs Hn]; (destruct n as [|m]; [lia|]); assert (F0 : (0 < F)%nat) by lia.
    - assert (M : mode st s = expects sc c) by (unfold mode; now rewrite T, Rd). rewrite <- M in Pu. pose proof (passed_len _ _ _ Pu) as Lu.
      destruct (loop_pass (S m) st s d t u Hs Pu B) as (n' & d' & Hn' & Q). destruct (IH st s d' n' P T Lk Kk Rd ltac:(lia) ltac:(lia)) as (st' & d2 & E & S').
      exists st', d2. split; [now apply Q|exact S'].
    - rewrite loop_colon by auto. rewrite Rd. cbn [length] in *.
      apply (IH st (mkJs (s_name s) (s_value s) false (s_named s) true) (58 :: d) m P T (conj eq_refl Hn) Kk eq_refl); lia.
    - cbn [length] in *. pose proof (loop_quote m st s d t Hs ltac:(cbn [length]; lia) ltac:(congruence)) as X. rewrite U in X. destruct (X u eq_refl) as (st1 & d1 & RB & ->).
      replace (mode st s) with false by (unfold mode; now rewrite T, Rd, Ex). unfold key_of in Kk. destruct (s_named s); [discriminate Kk|].
      destruct (unquote_rest _ _ _ U) as (u' & Eu & Lu & _). injection Eu as <-.
      destruct (IH st1 (mkJs w (s_value s) false true (s_reading s)) d1 m (parses_rebuff _ _ RB P)) as (st' & d2 & E & S'); auto; try lia.
      + destruct RB as (_ & _ & ->). exact T.
      + split; [reflexivity|discriminate].
      + exists st', d2. split; [exact E|eapply stepped_rebuff; eauto].
    - pose proof (loop_quote m st s d t Hs B ltac:(congruence)) as X. rewrite U in X. destruct (X u eq_refl) as (st1 & d1 & RB & ->).
      replace (mode st s) with true by (unfold mode; now rewrite T, Rd, Ex). rewrite <- Kk, (named_key s Lk). eexists _, _. split; [reflexivity|]. apply plain_step; [split; cbn; congruence|exact RB].
    - rewrite (loop_open _ _ _ _ _ _ TObject F0) by auto. rewrite <- Kk, (named_key s Lk). eexists _, _. split; [reflexivity|split; reflexivity].
    - rewrite (loop_open _ _ _ _ _ _ TArray F0) by auto. rewrite <- Kk, (named_key s Lk). eexists _, _. split; [reflexivity|split; reflexivity].
    - rewrite (loop_shut _ _ _ _ _ _ F0 Hb). rewrite <- Kk, (named_key s Lk). destruct (j_stack st) as [|q l] eqn:Sk.
      { apply (parses_null st P) in Sk. congruence. }
      eexists _, _. split; [reflexivity|]. unfold stepped, shut; cbn; rewrite Sk; now exists q.
    - assert (M : mode st s = true) by (unfold mode; now rewrite T, Rd). destruct (loop_literal_end m st s d a w q r M Ca B A Q) as (d' & ->).
      unfold literal_value in V. rewrite V. rewrite <- Kk, (named_key s Lk). eexists _, _. split; [reflexivity|]. apply plain_step; [eapply literal_plain, V|repeat split].
  Qed.
End Loop.

(** * Whole documents *)
Lemma item_len x sc k c t e r : item x sc k c t e r -> (length r < length t)%nat.
Proof.
  induction 1 as [k c t u e r Pu I IH|k t e r I IH|c t w u e r Ex Nt U I IH|k c t w u Ex Nt U|k c t|k c t|k c b t Hb Nt|k c a w q r v Ex Ca A Q V]; cbn [length]; try lia.
  - apply passed_len in Pu. lia.
  - destruct (unquote_rest _ _ _ U) as (u' & Eu & Lu & _). injection Eu as <-. lia.
  - destruct (unquote_rest _ _ _ U) as (u' & Eu & Lu & _). injection Eu as <-. lia.
  - unfold behind_literal. rewrite app_length. destruct (_ || _); cbn [length]; lia.
Qed.
Lemma items_len x sc its t r : items_of x sc its t r -> (length r < length t)%nat.
Proof. induction 1 as [sc k t r I|sc k v its t u r I V1 V2 S IH|sc k sub sc1 its t u w r I T1 S1 IH1 S2 IH2]; apply item_len in I; lia. Qed.
Lemma looking_init : looking js_init.
Proof. split; reflexivity. Qed.
Lemma shorter_run {A} (p : prog A) d t r b : run_block p (mkBlk d t) = Ok (r, b) -> (length (b_rest b) <= length t)%nat /\ (~ escape_u t -> ~ escape_u (b_rest b)).
Proof.
  intros E. destruct (run_suffix _ _ _ _ E) as (pre & S). cbn [b_rest] in S. rewrite S. split; [rewrite app_length; lia|]. intros N (p1 & q & Q). apply N. rewrite Q. exists (pre ++ p1), q. now rewrite <- app_assoc.
Qed.
Lemma plain_not_end v : v_type v <> TScopeEnd -> ty_eqb (v_type v) TScopeEnd = false.
Proof. destruct (v_type v); cbn; congruence. Qed.

Lemma source_sound x F : forall f dp n0 st d t, parses st -> (length t < F)%nat -> ~ escape_u t -> 0 <= dp <= max_depth ->
  forall st' n b', run_block (ecomp (json_read x F) (read_source f dp n0) st) (mkBlk d t) = Ok ((st', n), b') ->
  exists its, items_of x (j_type st) its t (b_rest b') /\ n = add_items n0 its /\ dp + Z.of_nat (deepest its) <= max_depth /\
    parses st' /\ exists top, j_stack st = top :: j_stack st'.
Proof.
  induction f as [|f IH]; intros dp n0 st d t P B NU D st' n b' E; [discriminate E|].
  cbn [read_source ecomp] in E. rewrite run_block_bind in E. destruct (run_block (json_read x F st) (mkBlk d t)) as [[[st1 [k v]] b1]| | |] eqn:R; try discriminate E. cbn [rbind] in E.
  unfold json_read in R. destruct (item_sound x F _ t (le_n _) B NU F st js_init d st1 (k, v) b1 P looking_init R) as [I S]. cbn [key_of js_init s_named s_reading] in I.
  destruct (shorter_run _ _ _ _ _ R) as [L1 N1]. specialize (N1 NU). destruct b1 as [d1 t1]. cbn [b_rest] in *.
  pose proof (parses_step _ _ _ P S) as P1. unfold stepped in S. cbn [snd] in S.
  destruct (ty_eqb (v_type v) TScopeEnd) eqn:En.
  - cbn [ecomp run_block] in E. injection E as <- <- <-. assert (V : v_type v = TScopeEnd) by (destruct (v_type v); cbn in En; congruence). rewrite V in S. cbn in S.
    assert (v = val_type TScopeEnd) as ->.
    { clear - I V. remember (k, v) as e eqn:Ee. assert (V' : v_type (snd e) = TScopeEnd) by (subst; exact V). replace v with (snd e) by (now subst). clear k v V Ee.
      induction I as [k c t u e r Pu I IH|k t e r I IH|c t w u e r Ex Nt U I IH|k c t w u Ex Nt U|k c t|k c t|k c b t Hb Nt|k c a w q r v Ex Ca A Q V]; auto; cbn [snd] in *; try discriminate V'.
      apply literal_plain in V. destruct V as [_ V]. congruence. }
    exists []. split; [eapply ISend; exact I|]. split; [unfold add_items, vals_of, subs_of; cbn [flat_map]; rewrite !app_nil_r; now destruct n0|]. split; [cbn; lia|]. split; [exact P1|].
    destruct S as (top & S & _). eauto.
  - destruct (is_scope (v_type v)) eqn:Sc; cbn [negb] in E.
    + destruct (Z.ltb_spec max_depth (dp + 1)) as [M|M]; [discriminate E|]. rewrite ecomp_bind, run_block_bind in E.
      destruct (run_block (ecomp (json_read x F) (read_source f (dp + 1) (empty_node (v_type v))) st1) (mkBlk d1 t1)) as [[[st2 n2] [d2 t2]]| | |] eqn:R2; try discriminate E. cbn [rbind] in E.
      destruct S as [Sk Ty]. destruct (IH (dp + 1) (empty_node (v_type v)) st1 d1 t1 P1 ltac:(lia) N1 ltac:(lia) _ _ _ R2) as (sub & I2 & -> & D2 & P2 & top & T2).
      rewrite Ty in I2. rewrite store_node_utf8 in E. cbn [elift ebind] in E. destruct (shorter_run _ _ _ _ _ R2) as [L2 N2]. specialize (N2 N1). cbn [b_rest] in *.
      rewrite Sk in T2. injection T2 as _ T2.
      assert (J : j_type st2 = j_type st) by (destruct P2 as [-> _]; destruct P as [-> _]; now rewrite T2).
      destruct (IH dp _ st2 d2 t2 P2 ltac:(lia) N2 D _ _ _ E) as (its & I3 & -> & D3 & P3 & top3 & T3). rewrite J in I3.
      assert (v = val_type (v_type v)) as Ev.
      { clear - I Sc. remember (k, v) as e eqn:Ee. assert (V' : is_scope (v_type (snd e)) = true) by (subst; exact Sc). replace v with (snd e) by (now subst). clear k v Sc Ee.
        induction I as [k c t u e r Pu I IH|k t e r I IH|c t w u e r Ex Nt U I IH|k c t w u Ex Nt U|k c t|k c t|k c b t Hb Nt|k c a w q r v Ex Ca A Q V]; auto; cbn [snd] in *; try discriminate V'; try reflexivity.
        apply literal_plain in V. destruct V as [V _]. congruence. }
      exists (DScope k (v_type v) sub :: its). split; [eapply ISscope; [rewrite <- Ev; exact I|exact Sc|exact I2|exact I3]|]. split.
      { unfold add_items, subs_of, vals_of. cbn [n_type n_values n_nodes flat_map app]. rewrite doc_node_eq. now rewrite <- app_assoc. }
      split; [cbn [deepest fold_right]; rewrite depth_scope; change (fold_right _ 0%nat its) with (deepest its); lia|]. split; [exact P3|]. rewrite T2. eauto.
    + rewrite store_value_utf8 in E. cbn [elift ebind] in E. cbv iota in S.
      destruct (IH dp _ st1 d1 t1 P1 ltac:(lia) N1 D _ _ _ E) as (its & I3 & -> & D3 & P3 & top3 & T3). destruct S as [Sk Ty]. rewrite Ty in I3. rewrite Sk in T3.
      exists (DVal k v :: its). split; [eapply ISvalue; eauto; intros X; rewrite X in En; discriminate En|]. split.
      { unfold add_items. cbn [n_type n_values n_nodes vals_of subs_of flat_map app]. now rewrite <- app_assoc. }
      split; [cbn [deepest fold_right depth]; change (fold_right _ 0%nat its) with (deepest its); lia|]. split; [exact P3|]. eauto.
Qed.

Lemma json_sound x F st src p k n b : (length src < F)%nat -> ~ escape_u src -> run_block (load_tree x F (JsonP st)) (set_block src) = Ok ((p, (k, n)), b) ->
  exists d, k = [] /\ n = doc_node d /\ text_of x d src (b_rest b) /\ (depth d <= 129)%nat.
Proof.
  intros B NU E. unfold load_tree, set_block in E. cbn [parser_clear] in E. rewrite run_block_bind in E. unfold load_prog in E. cbn [ecomp] in E. rewrite run_block_bind in E.
  destruct (run_block (json_read x F (json_clear st)) (mkBlk [] src)) as [[[st1 [k1 v]] b1]| | |] eqn:R; try discriminate E. cbn [rbind] in E.
  assert (P : parses (json_clear st)) by (split; [reflexivity|constructor]).
  unfold json_read in R. destruct (item_sound x F _ src (le_n _) B NU F _ js_init [] st1 (k1, v) b1 P looking_init R) as [I S]. cbn [key_of js_init s_named s_reading json_clear j_type] in I.
  destruct (shorter_run _ _ _ _ _ R) as [L1 N1]. specialize (N1 NU). destruct b1 as [d1 t1]. cbn [b_rest] in *.
  pose proof (parses_step _ _ _ P S) as P1. unfold stepped in S. cbn [snd] in S. destruct (is_scope (v_type v)) eqn:Sc; cbn [negb] in E; [|discriminate E].
  rewrite ecomp_bind, run_block_bind in E.
  destruct (run_block (ecomp (json_read x F) (read_source F 0 (empty_node (v_type v))) st1) (mkBlk d1 t1)) as [[[st2 n2] b2]| | |] eqn:R2; try discriminate E. cbn [rbind ecomp run_block] in E. injection E as <- <- <- <-.
  destruct S as [Sk Ty]. destruct (source_sound x F F 0 (empty_node (v_type v)) st1 d1 t1 P1 ltac:(lia) N1 ltac:(unfold max_depth; lia) _ _ _ R2) as (its & I2 & -> & D2 & P2 & _).
  rewrite Ty in I2.
  assert (K : k1 = [] /\ v = val_type (v_type v)).
  { clear - I Sc. remember (k1, v) as e eqn:Ee. assert (V' : is_scope (v_type (snd e)) = true) by (subst; exact Sc). replace v with (snd e) by (now subst). replace k1 with (fst e) by (now subst). clear k1 v Sc Ee.
    remember TNull as sc eqn:Hsc. remember None as kk eqn:Hk. revert Hk.
    induction I as [k c t u e r Pu I IH|k t e r I IH|c t w u e r Ex Nt U I IH|k c t w u Ex Nt U|k c t|k c t|k c b t Hb Nt|k c a w q r v Ex Ca A Q V]; intros Hk; auto; subst; cbn [snd fst named] in *; try discriminate V'; auto; try congruence.
    apply literal_plain in V. destruct V as [V _]. congruence. }
  destruct K as [-> Ev]. exists (DScope [] (v_type v) its). split; [reflexivity|]. split; [now rewrite doc_node_eq|]. split; [|rewrite depth_scope; unfold max_depth in D2; lia].
  eapply TXroot; [rewrite <- Ev; exact I|exact Sc|exact I2].
Qed.

Lemma source_complete x F sc its t r : items_of x sc its t r -> forall f dp n0 st d, parses st -> j_type st = sc -> (length t < F)%nat -> (length t < f)%nat -> 0 <= dp <= max_depth ->
  exists st' d', run_block (ecomp (json_read x F) (read_source f dp n0) st) (mkBlk d t) =
    (if dp + Z.of_nat (deepest its) <=? max_depth then Ok ((st', add_items n0 its), mkBlk d' r) else Err) /\ parses st' /\ exists top, j_stack st = top :: j_stack st'.
Proof.
  induction 1 as [sc k t r I|sc k v its t u r I V1 V2 S IH|sc k sub sc1 its t u w r I T1 S1 IH1 S2 IH2]; intros f dp n0 st d P T B Lf D; (destruct f as [|f]; [lia|]);
    destruct (item_complete x F _ _ _ _ _ _ I st js_init d F P T looking_init eq_refl eq_refl B B) as (st1 & d1 & E & Sp); pose proof (parses_step _ _ _ P Sp) as P1; pose proof (item_len _ _ _ _ _ _ _ I) as Li;
    unfold stepped in Sp; cbn [snd] in Sp; cbn [read_source ecomp]; rewrite run_block_bind; unfold json_read at 1; rewrite E; cbn [rbind].
  - change (v_type (val_type TScopeEnd)) with TScopeEnd in *. cbn in Sp. change (ty_eqb TScopeEnd TScopeEnd) with true. cbv iota. cbn [ecomp run_block]. destruct Sp as (top & Sk & _). exists st1, d1. change (deepest []) with 0%nat.
    replace (dp + Z.of_nat 0 <=? max_depth) with true by lia. split; [|eauto]. unfold add_items, vals_of, subs_of. cbn [flat_map]. rewrite !app_nil_r. now destruct n0.
  - rewrite (plain_not_end _ V2), V1 in *. cbn [negb]. rewrite store_value_utf8. cbn [elift ebind]. destruct Sp as [Sk Ty].
    destruct (IH f dp (mkNode (n_type n0) (n_values n0 ++ [(k, v)]) (n_nodes n0)) st1 d1 P1 ltac:(congruence) ltac:(lia) ltac:(lia) D) as (st2 & d2 & -> & P2 & top & T2).
    exists st2, d2. split; [|rewrite <- Sk; eauto]. cbn [deepest fold_right depth]. change (fold_right _ 0%nat its) with (deepest its). rewrite Nat.max_0_l.
    destruct (_ <=? _); [|reflexivity]. unfold add_items. cbn [n_type n_values n_nodes vals_of subs_of flat_map app]. now rewrite <- app_assoc.
  - change (v_type (val_type sc1)) with sc1 in *. rewrite (scope_not_end _ T1), T1 in *. cbn [negb]. destruct Sp as [Sk Ty]. pose proof (items_len _ _ _ _ _ S1) as L1.
    cbn [deepest fold_right]. rewrite depth_scope. change (fold_right _ 0%nat its) with (deepest its).
    destruct (Z.ltb_spec max_depth (dp + 1)) as [M|M].
    + (* too deep at once; the state afterwards is not reached *)
      assert (M' : dp + Z.of_nat (Nat.max (S (deepest sub)) (deepest its)) <=? max_depth = false) by lia.
      exists (mkPjson (j_compact st) (List.tl (j_stack st)) (stack_top (List.tl (j_stack st))) (j_closed st) [] []), []. rewrite M'. split; [reflexivity|].
      destruct P as [Pa Pb]. destruct (j_stack st) as [|top l] eqn:Js.
      { exfalso. assert (Sn : sc = TNull) by (rewrite <- T, Pa; reflexivity). clear - S2 Sn. induction S2 as [sc k t r I|sc k v its t u r I V1 V2 S IH|sc k sub sc1 its t u w r I T1 S1 IH1 S2 IH2]; auto.
        remember (k, val_type TScopeEnd) as e eqn:Ee. clear -I Sn Ee. induction I; auto; try discriminate Ee; try congruence.
        injection Ee as _ ->. apply literal_plain in H3. destruct H3 as [_ X]. cbn in X. congruence. }
      inversion Pb; subst. split; [split; [reflexivity|auto]|]. cbn. eauto.
    + rewrite ecomp_bind, run_block_bind. destruct (IH1 f (dp + 1) (empty_node sc1) st1 d1 P1 Ty ltac:(lia) ltac:(lia) ltac:(lia)) as (st2 & d2 & -> & P2 & top & T2).
      rewrite Sk in T2. injection T2 as _ T2. assert (J : j_type st2 = sc) by (destruct P2 as [-> _]; rewrite <- T; destruct P as [-> _]; now rewrite T2).
      destruct (Z.leb_spec (dp + 1 + Z.of_nat (deepest sub)) max_depth) as [M2|M2].
      * cbn [rbind]. rewrite store_node_utf8. cbn [elift ebind].
        destruct (IH2 f dp (mkNode (n_type n0) (n_values n0) (n_nodes n0 ++ [(k, add_items (empty_node sc1) sub)])) st2 d2 P2 J ltac:(lia) ltac:(lia) D) as (st3 & d3 & -> & P3 & top3 & T3).
        exists st3, d3. split; [|rewrite T2; eauto].
        replace (dp + Z.of_nat (Nat.max (S (deepest sub)) (deepest its)) <=? max_depth) with (dp + Z.of_nat (deepest its) <=? max_depth) by lia.
        destruct (_ <=? _); [|reflexivity]. unfold add_items, subs_of, vals_of. cbn [n_type n_values n_nodes flat_map app empty_node]. rewrite doc_node_eq. now rewrite <- app_assoc.
      * cbn [rbind]. replace (dp + Z.of_nat (Nat.max (S (deepest sub)) (deepest its)) <=? max_depth) with false by lia.
        destruct (IH2 f dp n0 st2 d2 P2 J ltac:(lia) ltac:(lia) D) as (st3 & d3 & _ & P3 & top3 & T3). exists st3, d3. split; [reflexivity|]. split; [exact P3|]. rewrite T2. eauto.
Qed.

Lemma json_complete x F st d src rest : text_of x d src rest -> (length src < F)%nat -> exists p before,
  run_block (load_tree x F (JsonP st)) (set_block src) = if Nat.leb (depth d) 129 then Ok ((p, ([], doc_node d)), mkBlk before rest) else Err.
Proof.
  intros T B. destruct T as [sc its t u r I Sc S]. unfold load_tree, set_block. cbn [parser_clear]. rewrite run_block_bind. unfold load_prog. cbn [ecomp]. rewrite run_block_bind.
  assert (P : parses (json_clear st)) by (split; [reflexivity|constructor]).
  destruct (item_complete x F _ _ _ _ _ _ I (json_clear st) js_init [] F P eq_refl looking_init eq_refl eq_refl B B) as (st1 & d1 & E & Sp). unfold json_read at 1. rewrite E. cbn [rbind].
  pose proof (parses_step _ _ _ P Sp) as P1. unfold stepped in Sp. cbn [snd] in Sp. change (v_type (val_type sc)) with sc in *. rewrite Sc in *. cbn [negb]. destruct Sp as [Sk Ty].
  pose proof (item_len _ _ _ _ _ _ _ I) as Li. rewrite ecomp_bind, run_block_bind.
  destruct (source_complete x F _ _ _ _ S F 0 (empty_node sc) st1 d1 P1 Ty ltac:(lia) ltac:(lia) ltac:(unfold max_depth; lia)) as (st2 & d2 & -> & _).
  exists (JsonP st2), d2. rewrite depth_scope. replace (Nat.leb (Datatypes.S (deepest its)) 129) with (0 + Z.of_nat (deepest its) <=? max_depth) by (unfold max_depth; lia).
  destruct (_ <=? _); [|reflexivity]. cbn [rbind ecomp run_block]. now rewrite doc_node_eq.
Qed.

(** * One reading *)
Definition sc_ok (sc : ty) : Prop := sc = TNull \/ is_scope sc = true.
Lemma sample sc : sc_ok sc -> exists st, parses st /\ j_type st = sc.
Proof.
  intros [->|H]; [exists (json_init true); split; [split; [reflexivity|constructor]|reflexivity]|].
  exists (mkPjson true [sc] sc true [] []). split; [split; [reflexivity|repeat constructor; exact H]|reflexivity].
Qed.
Lemma item_one x sc k c t e r e' r' : sc_ok sc -> item x sc k c t e r -> item x sc k c t e' r' -> e = e' /\ r = r'.
Proof.
  intros Hsc I I'. destruct (sample sc Hsc) as (st & P & T).
  set (s := mkJs (named k) (val_type TNull) false (match k with Some _ => true | None => false end) c).
  assert (Lk : looking s) by (unfold s; destruct k; split; try reflexivity; discriminate).
  assert (Kk : key_of s = k) by (unfold s, key_of; destruct k; reflexivity).
  set (N := S (length t)).
  destruct (item_complete x N _ _ _ _ _ _ I st s [] N P T Lk Kk eq_refl ltac:(unfold N; lia) ltac:(unfold N; lia)) as (s1 & d1 & E1 & _).
  destruct (item_complete x N _ _ _ _ _ _ I' st s [] N P T Lk Kk eq_refl ltac:(unfold N; lia) ltac:(unfold N; lia)) as (s2 & d2 & E2 & _).
  rewrite E1 in E2. injection E2 as _ -> _ ->. auto.
Qed.
Lemma items_one x sc its t r : items_of x sc its t r -> is_scope sc = true -> forall its' r', items_of x sc its' t r' -> its = its' /\ r = r'.
Proof.
  induction 1 as [sc k t r I|sc k v its t u r I V1 V2 S IH|sc k sub sc1 its t u w r I T1 S1 IH1 S2 IH2]; intros Sc its' r' H'; (assert (Ok_ : sc_ok sc) by now right);
    inversion H' as [k' ? ? I'|k' v' i' ? u' ? I' V1' V2' S'|k' sub' sc1' i' ? u' w' ? I' T1' S1' S2']; subst; destruct (item_one _ _ _ _ _ _ _ _ _ Ok_ I I') as [Ee Er]; injection Ee; intros; subst.
  - auto.
  - cbn in V2'. congruence.
  - discriminate T1'.
  - cbn in V2. congruence.
  - destruct (IH Sc _ _ S') as [-> ->]. auto.
  - cbn in V1. congruence.
  - discriminate T1.
  - cbn in V1'. congruence.
  - destruct (IH1 T1 _ _ S1') as [-> ->]. destruct (IH2 Sc _ _ S2') as [-> ->]. auto.
Qed.
Lemma text_one x d t r d' r' : text_of x d t r -> text_of x d' t r' -> d = d' /\ r = r'.
Proof.
  intros H H'. destruct H as [sc its t u r I Sc S]. inversion H' as [sc' its' ? u' ? I' Sc' S']; subst. destruct (item_one _ _ _ _ _ _ _ _ _ (or_introl eq_refl) I I') as [Ee Er].
  assert (sc = sc') as <- by (apply (f_equal (fun q => v_type (snd q))) in Ee; exact Ee). subst u'. destruct (items_one _ _ _ _ _ S Sc _ _ S') as [-> ->]. auto.
Qed.
Lemma json_reject x F st src : wf_bytes src -> (2 * length src < F)%nat -> ~ escape_u src -> (forall d rest, ~ text_of x d src rest) ->
  let r := run_block (load_tree x F (JsonP st)) (set_block src) in r = Err \/ r = UB UbEnd.
Proof.
  intros W L N H. cbv zeta. pose proof (load_any x (JsonP st) F src W L) as T. unfold triple in T.
  destruct (run_block (load_tree x F (JsonP st)) (set_block src)) as [[[p [k n]] b]| |u|] eqn:E; [|auto| |contradiction].
  - destruct (json_sound x F st src p k n b ltac:(lia) N E) as (d & _ & _ & X & _). destruct (H _ _ X).
  - cbn [load_ub] in T. destruct T as [->|[_ T]]; [auto|contradiction].
Qed.

(** * What makes no difference *)
Lemma comma_passes v t : passed v (44 :: t) t.
Proof. apply PSchar. split; [unfold significant; cbn; lia|]. intros _. unfold literal_char. cbn. lia. Qed.
Lemma comma_item x sc k c t e r : item x sc k c (44 :: t) e r -> item x sc k c t e r.
Proof.
  intros H. inversion H as [k' c' t' u e' r' P I|k' t' e' r' I|c' t' s u e' r' Ex Nt U I|k' c' t' s u Ex Nt U|k' c' t'|k' c' t'|k' c' b t' Hb Nt|k' c' a s d r' v Ex Ca A Q V]; subst.
  - inversion P; subst. exact I.
  - lia.
  - destruct Ca as [Ca|Ca]; [lia|]. cbn in Ca. lia.
Qed.
Lemma commas_ignored x sc its t r : is_scope sc = true -> items_of x sc its (44 :: t) r <-> items_of x sc its t r.
Proof.
  intros Sc. split; intros H; inversion H as [k ? ? I|k v i ? u ? I V1 V2 S|k sub sc1 i ? u w ? I T1 S1 S2]; subst.
  - eapply ISend, comma_item, I.
  - eapply ISvalue; eauto. now apply comma_item.
  - eapply ISscope; eauto. now apply comma_item.
  - eapply ISend, ITpass; [apply comma_passes|exact I].
  - eapply ISvalue; eauto. eapply ITpass; [apply comma_passes|exact I].
  - eapply ISscope; eauto. eapply ITpass; [apply comma_passes|exact I].
Qed.
Lemma bracket_swap x sc k c t e r b b' : b = 125 \/ b = 93 -> b' = 125 \/ b' = 93 -> item x sc k c (b :: t) e r -> item x sc k c (b' :: t) e r.
Proof.
  intros Hb Hb' H. inversion H as [k' c' t' u e' r' P I|k' t' e' r' I|c' t' s u e' r' Ex Nt U I|k' c' t' s u Ex Nt U|k' c' t'|k' c' t'|k' c' b0 t' Hb0 Nt|k' c' a s d r' v Ex Ca A Q V]; subst; try lia.
  - inversion P as [c0 t0 Ig| | |]; subst; try lia. exfalso. destruct Ig as [Ig _]. apply Ig. unfold significant. cbn. lia.
  - now apply ITclose.
  - destruct Ca as [Ca|Ca]; [lia|]. cbn in Ca. lia.
Qed.
Lemma brackets_alike x sc k c t e r : item x sc k c (125 :: t) e r <-> item x sc k c (93 :: t) e r.
Proof. split; apply bracket_swap; auto. Qed.
