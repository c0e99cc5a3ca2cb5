(** PJson reads what the grammar of RFC 8259 derives. *)
From Coq Require Import ZArith List Bool Lia ZifyBool ZifyNat.
From Verif Require Import Base Lemmas M_Types M_Conv M_Charset M_In S_Conv S_Doc S_Json S_JsonText S_Charset M_OutOps S_Out M_Event M_Env M_Json
  P_Conv P_Text P_Float P_Paste P_Doc P_Scan P_JsonStr P_JsonLit P_JsonDoc P_JsonText P_JsonGrammar.
Import ListNotations.
Open Scope Z_scope.

Definition ws3 (c : Z) : Prop := c = 10 \/ c = 9 \/ c = 13.
Lemma ws3_white ws : Forall ws3 ws -> Forall white ws.
Proof. apply Forall_impl. unfold ws3, white. lia. Qed.
Lemma space_skip w : Forall js_space w -> Forall skipc w.
Proof. apply Forall_impl. unfold js_space, skipc. cbn. lia. Qed.

(** * Literals *)
Record lit_txt (x : fp_text) (t : bytes) (v : value) : Prop := {
  lt_first : exists c r, t = c :: r /\ is_literal c = true /\ c <> 34 /\ c <> 58 /\ c <> 47 /\ c <> 123 /\ c <> 91 /\ ~ In c [32; 44; 10; 9; 13];
  lt_chars : Forall (fun c => ~ lit_stop c) t;
  lt_parse : forall ws, Forall ws3 ws -> str_to_type x (t ++ ws) (lit_hint t) = Some v
}.

Lemma dec_value_nonneg s : Forall is_digit s -> 0 <= dec_value s.
Proof.
  intros F. apply (dec_from_mono s F 0). lia.
Qed.
Lemma lit_js_int x t n : js_int t n -> - two63 < n < two64 -> exists v, lit_txt x t v /\ meaning_of v = MeInt n.
Proof.
  intros (s & [[Dn Dd] _] & [[-> ->]|[-> ->]]) B.
  - exists (val_int TUI64 (dec_value s)). assert (H0 : 0 <= dec_value s) by (apply dec_value_nonneg; auto). split.
    + constructor.
      * destruct s as [|c r]; [congruence|]. inversion Dd; subst. exists c, r. split; [reflexivity|]. split; [now apply digit_literal|].
        unfold is_digit in *. first_char.
      * eapply Forall_impl; [|exact Dd]. intros; now apply digit_not_stop.
      * intros ws W. unfold lit_hint. rewrite digits_no_dot by auto. rewrite <- (app_nil_l (s ++ ws)). apply parse_nat; [reflexivity|constructor|now apply ws3_white|split; auto|lia].
    + apply meaning_int; [cbn; tauto|]. unfold in_range. cbn [int_min int_max]. unfold_words. lia.
  - exists (val_int TI64 (- dec_value s)). assert (H0 : 0 <= dec_value s) by (apply dec_value_nonneg; auto). split.
    + constructor.
      * exists 45, s. split; [reflexivity|]. first_char.
      * constructor; [unfold lit_stop; lia|]. eapply Forall_impl; [|exact Dd]. intros; now apply digit_not_stop.
      * intros ws W. unfold lit_hint. cbn [existsb]. rewrite digits_no_dot by auto. cbn [Z.eqb Pos.eqb orb].
        rewrite <- (app_nil_l ((45 :: s) ++ ws)). apply parse_neg; [reflexivity|constructor|now apply ws3_white|split; auto|lia].
    + apply meaning_int; [cbn; tauto|]. unfold in_range. cbn [int_min int_max]. unfold_words. lia.
Qed.

Lemma digits_number s : digits s -> Forall number_char s.
Proof. intros [_ D]. eapply Forall_impl; [|exact D]. unfold number_char. auto. Qed.
Lemma number_chars t : js_number t -> Forall number_char t /\ (exists c r, t = c :: r /\ (is_digit c \/ c = 45)) /\ ~ plain_int t.
Proof.
  intros (i & n & f & e & -> & I & F & E & NE).
  assert (NF : Forall number_char f).
  { destruct F as [->|(s & -> & D)]; [constructor|]. constructor; [right; cbn; auto|now apply digits_number]. }
  assert (Ne : Forall number_char e).
  { destruct E as [->|(c & sg & s & -> & C & Sg & D)]; [constructor|]. constructor; [right; cbn; lia|]. apply Forall_app. split; [|now apply digits_number].
    destruct Sg as [->|[->| ->]]; [constructor| |]; (constructor; [right; cbn; auto|constructor]). }
  destruct I as (s & [[Ds Dd] _] & Ii).
  split; [|split].
  - apply Forall_app. split; [|apply Forall_app; auto]. destruct Ii as [[-> _]|[-> _]]; [apply digits_number; split; auto|].
    constructor; [right; cbn; auto|apply digits_number; split; auto].
  - destruct Ii as [[-> _]|[-> _]]; [|eexists 45, _; split; [reflexivity|auto]]. destruct s as [|c s]; [congruence|]. inversion Dd; subst. eexists c, _. split; [reflexivity|auto].
  - assert (X : exists c, In c (f ++ e) /\ ~ is_digit c /\ c <> 45).
    { destruct F as [->|(s1 & -> & D)]; [|exists 46; split; [cbn; auto|unfold is_digit; lia]].
      destruct E as [->|(c & sg & s1 & -> & C & Sg & D)]; [cbn in NE; congruence|]. exists c. split; [cbn; auto|unfold is_digit; lia]. }
    destruct X as (c & Ic & Nd & N45).
    intros [[_ P]|(s' & Es & [_ P])]; rewrite Forall_forall in P.
    + apply Nd, P. apply in_or_app. auto.
    + assert (J : In c (i ++ f ++ e)) by (apply in_or_app; auto). rewrite Es in J. destruct J as [J|J]; [lia|]. apply Nd, P, J.
Qed.

Lemma lit_js_number x t d : js_number t -> x_strtod x t = Some d -> 0 <= d < 2 ^ 64 -> exists v, lit_txt x t v /\ meaning_of v = MeFloat d.
Proof.
  intros J RT B. destruct (number_chars t J) as (F & (c & r & E & Hc) & NI). exists (val_f64 d).
  assert (Nn : t <> []) by (rewrite E; discriminate). split.
  - constructor.
    + exists c, r. split; [exact E|]. split; [destruct Hc as [Hc| ->]; [now apply digit_literal|reflexivity]|].
      destruct Hc as [Hc| ->]; [unfold is_digit in Hc|]; first_char.
    + eapply Forall_impl; [|exact F]. intros a Ha. apply number_char_facts in Ha. tauto.
    + intros ws Hw. unfold str_to_type. rewrite <- (app_nil_l (t ++ ws)). rewrite trim_space_exact.
      * rewrite E. rewrite <- E. replace (102 <=? c) with false by (destruct Hc as [Hc| ->]; [unfold is_digit in Hc|]; lia).
        rewrite andb_false_r. cbn [andb]. rewrite RT. destruct (is_fp (lit_hint t)); [reflexivity|].
        pose proof (number_text_not_int t F Nn NI) as S. destruct (str_to_int t) as [[i sg] ok]. cbn in S. now rewrite S.
      * constructor.
      * now apply ws3_white.
      * exact Nn.
      * intros a Ha. eapply Forall_hd in F; eauto. apply number_char_facts in F. tauto.
      * intros a Ha. apply Forall_rev in F. eapply Forall_hd in F; eauto. apply number_char_facts in F. tauto.
  - transitivity (MeFloat (v_double (val_f64 d))); [unfold meaning_of; destruct (v_type_f64 d) as [-> | ->]; reflexivity|]. f_equal. apply val_f64_roundtrip. exact B.
Qed.

Lemma lit_js_const x t v : In (t, v) [(str_true, val_bool true); (str_false, val_bool false); (str_null, val_type TNull)] -> lit_txt x t v.
Proof.
  intros I. constructor; auto.
  - cbn in I. destruct I as [I|[I|[I|[]]]]; injection I as <- <-; eexists _, _; (split; [reflexivity|]); first_char.
  - cbn in I. destruct I as [I|[I|[I|[]]]]; injection I as <- <-; repeat (constructor; [unfold lit_stop; lia|]); constructor.
  - intros ws W. cbn in I. destruct I as [I|[I|[I|[]]]]; injection I as <- <-; unfold str_to_type; rewrite <- (app_nil_l (_ ++ ws)), trim_space_exact;
      try (now apply ws3_white); try constructor; try discriminate; try (cbn; intros a Ha; injection Ha as <-; unfold white; lia); reflexivity.
Qed.

Lemma rd_lit2 x F n st s w rest stack v t ws c : jrel stack st -> s_reading s = true \/ top stack = TArray ->
  Forall skipc w -> (length w < F)%nat -> lit_txt x t v -> Forall ws3 ws -> lit_stop c ->
  (length (t ++ ws) < F)%nat ->
  rd false (json_loop x F (S n) st s) (w ++ (t ++ ws) ++ (if negb ((c =? 125) || (c =? 93)) then [c] else []))
     (if negb ((c =? 125) || (c =? 93)) then rest else c :: rest) (st, (s_name s, v)).
Proof.
  intros [R1 R2] M W L [(c0 & r0 & E0 & Lc & N1 & N2 & N3 & N4 & N5 & N6) LC LR] Hw Hc LF.
  assert (NS : Forall (fun c => ~ lit_stop c) (t ++ ws)).
  { apply Forall_app. split; [exact LC|]. eapply Forall_impl; [|exact Hw]. unfold ws3, lit_stop. lia. }
  assert (ED : existsb (Z.eqb 46) (t ++ ws) = existsb (Z.eqb 46) t).
  { rewrite existsb_app. replace (existsb (Z.eqb 46) ws) with false; [apply orb_false_r|]. symmetry. apply existsb_nIn. intros I.
    rewrite Forall_forall in Hw. apply Hw in I. unfold ws3 in I. lia. }
  set (mv := negb ((c =? 125) || (c =? 93))).
  assert (REST : (if mv then [c] else []) ++ (if mv then rest else c :: rest) = c :: rest) by (destruct mv; reflexivity).
  eapply (rd_loop false x F n st s w c0 (r0 ++ ws ++ c :: rest)) with (st' := st) (s' := mkJs (s_name s) v true (s_named s) (s_reading s)) (move := mv); auto.
  - unfold stops. replace (negb (s_reading s) && negb (ty_eqb (j_type st) TArray)) with false; [exact N6|].
    rewrite R2. destruct M as [-> | ->]; [reflexivity|rewrite andb_false_r; reflexivity].
  - transitivity ((t ++ ws) ++ c :: rest); [f_equal; exact REST|]. rewrite E0, <- app_assoc. reflexivity.
  - match goal with |- rd _ _ _ ?l _ => replace l with (c :: rest) by (symmetry; exact REST) end.
    unfold process_item. apply (rd_deref _ _ c0 (r0 ++ ws ++ c :: rest)); [rewrite E0, <- app_assoc; reflexivity|].
    replace (c0 =? 34) with false by lia. replace (c0 =? 58) with false by lia. replace (c0 =? 47) with false by lia.
    assert (NB : c0 <> 125 /\ c0 <> 93). { rewrite E0 in LC. inversion LC; subst. unfold lit_stop in *. lia. }
    replace (existsb (Z.eqb c0) [123; 125; 91; 93]) with false by (symmetry; apply existsb_nIn; cbn; lia).
    eapply rd_bind0 with (a := (_, mv)); [|apply rd_ret].
    unfold process_char. apply (rd_deref _ _ c0 (r0 ++ ws ++ c :: rest)); [rewrite E0, <- app_assoc; reflexivity|]. rewrite Lc.
    eapply rd_bind0.
    { apply (rd_block_until false lit_toks); auto; [| |discriminate].
      - eapply Forall_impl; [|exact NS]. intros b Hb k. rewrite lit_tok.
        replace (existsb (Z.eqb b) [44; 32; 125; 93]) with false by (symmetry; apply existsb_nIn; unfold lit_stop in Hb; cbn; lia). reflexivity.
      - intros k. rewrite lit_tok. replace (existsb (Z.eqb c) [44; 32; 125; 93]) with true by (symmetry; apply existsb_In; unfold lit_stop in Hc; cbn; lia). reflexivity. }
    cbv beta iota. rewrite lit_tok. replace (existsb (Z.eqb c) [44; 32; 125; 93]) with true by (symmetry; apply existsb_In; unfold lit_stop in Hc; cbn; lia).
    cbn [snd]. rewrite lit_notes by exact NS. cbn [orb]. rewrite ED. fold (lit_hint t). rewrite LR by exact Hw.
    apply (rd_deref _ _ c rest); [reflexivity|]. apply rd_ret.
  - cbn [s_complete s_name s_value]. unfold mv. destruct (negb _); [apply rd_move1|]; apply rd_ret.
Qed.

(** * Strings and names *)
Lemma js_chars_units t s : js_chars false t s -> exists us, concat us = t /\ Forall2 unit_of us s /\ (length s <= length t)%nat.
Proof.
  induction 1 as [|c t s Hc N1 N2 H (us & E & U & L)|e c t s I H (us & E & U & L)|h n t s U|h l n m t s U]; try discriminate.
  - exists []. split; [reflexivity|]. split; [constructor|cbn; lia].
  - exists ([c] :: us). cbn [concat]. rewrite E. split; [reflexivity|]. split; [constructor; [left; auto|exact U]|cbn; lia].
  - exists ([92; e] :: us). cbn [concat]. rewrite E. split; [reflexivity|]. split; [constructor; [|exact U]|cbn; lia].
    right. exists e. split; [reflexivity|]. cbn in I. repeat (destruct I as [I|I]; [injection I as <- <-; reflexivity|]). destruct I.
Qed.

Lemma rd_js_chars t s F rest : js_chars false t s -> (length t < F)%nat ->
  forall buf, exists buf', rd false (read_unescape F buf) t (34 :: rest) (s, buf').
Proof. intros J L buf. destruct (js_chars_units t s J) as (us & E & U & Ls). rewrite <- E. apply rd_unescape; [exact U|lia]. Qed.

(** a field name, white space and the colon *)
Lemma rd_key x F n st w rest stack k name w1 sp : jrel stack st -> top stack = TObject -> js_chars false k name ->
  Forall skipc w -> (length w < F)%nat -> (length k < F)%nat -> Forall skipc w1 -> (length w1 < F)%nat ->
  exists st', jrel stack st' /\ forall out, rd false (json_loop x F n st' (mkJs name (val_type TNull) false true true)) sp rest out ->
  rd false (json_loop x F (S (S n)) st js_init) (w ++ (34 :: k) ++ 34 :: w1 ++ 58 :: sp) rest out.
Proof.
  intros [R1 R2] T P W L Ln W1 L1.
  destruct (quote_item false x F st js_init name k (w1 ++ 58 :: sp ++ rest) (j_nbuf st)) with (s' := mkJs name (val_type TNull) false true false) as (st' & Q & E1 & E2).
  - rewrite R2, T. reflexivity.
  - reflexivity.
  - now apply rd_js_chars.
  - intros st1 E. unfold process_string. rewrite E, R2, T. reflexivity.
  - exists st'. split; [split; congruence|]. intros out K.
    eapply (rd_loop false x F (S n) st js_init w 34 (k ++ 34 :: w1 ++ 58 :: sp ++ rest)) with (st' := st'); auto.
    + unfold stops. rewrite R2, T. cbn. auto.
    + cbn [app]. rewrite <- app_assoc. cbn [app]. reflexivity.
    + cbn [app]. rewrite <- app_assoc. exact Q.
    + cbn [s_complete s_name s_value]. apply rd_move1.
      change (w1 ++ 58 :: sp) with (w1 ++ [] ++ (58 :: sp)).
      eapply (rd_loop false x F n st' _ w1 58 (sp ++ rest) [] (58 :: sp)); auto.
      * unfold stops. rewrite E2, R2, T. cbn. auto.
      * unfold process_item. apply (rd_deref _ _ 58 (sp ++ rest)); [reflexivity|]. cbn [Z.eqb Pos.eqb s_reading]. apply rd_ret.
      * cbn [s_complete s_name s_value s_named s_reading]. apply rd_move1. exact K.
Qed.

(** * One event, with its name *)
Lemma rd_item x F stack st sc k nm w vb v' stack' rest :
  jrel stack st -> top stack = sc -> js_key false sc k nm ->
  Forall skipc w -> (length (w ++ k) + 3 <= F)%nat ->
  (forall n st1 s w1, jrel stack st1 -> s_reading s = true \/ top stack = TArray -> s_name s = nm -> Forall skipc w1 -> (length w1 < F)%nat ->
     exists st', rd false (json_loop x F (S n) st1 s) (w1 ++ vb) rest (st', (nm, v')) /\ jrel stack' st') ->
  exists st', rd false (json_read x F st) (w ++ k ++ vb) rest (st', (nm, v')) /\ jrel stack' st'.
Proof.
  intros R T K W L V. unfold json_read. destruct K as [|k name w1 w2 Kc K1 K2].
  - rewrite app_nil_r in L. destruct F as [|F0]; [lia|]. cbn [app]. apply V; auto. lia.
  - do 3 (rewrite ?app_length in L; cbn [length] in L). destruct F as [|[|[|F0]]]; try lia.
    destruct (rd_key x (S (S (S F0))) (S F0) st w rest stack k name w1 (w2 ++ vb) R T Kc W) as (st1 & R1 & Q); [lia|lia|now apply space_skip|lia|].
    destruct (V F0 st1 (mkJs name (val_type TNull) false true true) w2 R1) as (st' & Q' & R'); auto using space_skip; [lia|].
    exists st'. split; [|exact R']. apply Q in Q'.
    match goal with |- rd _ _ ?b _ _ => match type of Q' with rd _ _ ?b' _ _ => replace b with b'; [exact Q'|] end end.
    cbn [app]. rewrite <- !app_assoc. cbn [app]. rewrite <- !app_assoc. reflexivity.
Qed.

(** * Values and sequences of items *)
Definition int_ok (m : meaning) : Prop := match m with MeInt n => - two63 < n < two64 | _ => True end.
Definition tailc (c : Z) : bytes := if c =? 44 then [44] else [].
Definition resto (c : Z) (rest : bytes) : bytes := if c =? 44 then rest else c :: rest.
Lemma tail_resto c rest : tailc c ++ resto c rest = c :: rest.
Proof. unfold tailc, resto. destruct (Z.eqb_spec c 44); [subst|]; reflexivity. Qed.

Definition val_reads (x : fp_text) (nm t : bytes) (m : mdoc) : Prop :=
  zlen t < two32 -> all_means int_ok m -> exists d, mdoc_of d = m /\
  forall F stack st sc k w w2 c rest, jrel stack st -> scopes stack -> stack <> [] -> top stack = sc -> js_key false sc k nm ->
    Forall skipc w -> Forall js_space w2 -> c = 44 \/ c = 125 \/ c = 93 -> (length (w ++ k ++ t ++ w2) + 5 <= F)%nat ->
  exists st' sk wn, w2 ++ tailc c = sk ++ wn /\ jrel stack st' /\
    rd false (read_events (json_read x F) (length (events d)) st) (w ++ k ++ t ++ sk) (wn ++ resto c rest) (st', events d).
Definition items_read (x : fp_text) (sc : ty) (t : bytes) (ms : list mdoc) : Prop :=
  zlen t < two32 -> Forall (all_means int_ok) ms -> exists ds, map mdoc_of ds = ms /\
  forall F stack st w close rest, (sc = TObject \/ sc = TArray) -> jrel (sc :: stack) st -> scopes (sc :: stack) -> Forall skipc w -> close = 125 \/ close = 93 ->
    (length (w ++ t) + 5 <= F)%nat ->
  exists st' used wn, w ++ t = used ++ wn /\ Forall skipc wn /\ jrel (sc :: stack) st' /\
    rd false (read_events (json_read x F) (length (flat_map events ds)) st) used (wn ++ close :: rest) (st', flat_map events ds).

Lemma split_ws w : Forall js_space w -> exists ws, Forall ws3 ws /\ (w = ws \/ exists r, w = ws ++ 32 :: r).
Proof.
  induction 1 as [|c w Hc H (ws & A & B)]; [exists []; split; [constructor|auto]|].
  destruct (Z.eq_dec c 32) as [->|N]; [exists []; split; [constructor|right; exists w; reflexivity]|].
  exists (c :: ws). split; [constructor; [unfold js_space, ws3 in *; cbn in Hc; lia|exact A]|].
  destruct B as [->|(r & ->)]; [auto|right; exists r; reflexivity].
Qed.

Lemma rd_one {S} lim (r : S -> prog (S * event)) st b st1 e rest : rd lim (r st) b rest (st1, e) -> rd lim (read_events r 1 st) b rest (st1, [e]).
Proof. intros H. rewrite <- (app_nil_r b). eapply rd_events_cons; [exact H|]. apply rd_ret. Qed.
Lemma gl_read_events_app {S} lim (r : S -> prog (S * event)) n m st :
  forall b g, run_gl lim (read_events r (n + m) st) b g =
  run_gl lim (let! (st1, e1) := read_events r n st in let! (st2, e2) := read_events r m st1 in Ret (st2, e1 ++ e2)) b g.
Proof.
  revert st. induction n as [|n IH]; intros st b g.
  - cbn [Nat.add read_events pbind]. rewrite run_gl_bind. destruct (run_gl lim (read_events r m st) b g) as [[[[? ?] ?] ?]|]; reflexivity.
  - cbn [Nat.add read_events]. rewrite !run_gl_bind.
    destruct (run_gl lim (r st) b g) as [[[[st1 e] b1] g1]|]; auto.
    rewrite !run_gl_bind, IH, run_gl_bind.
    destruct (run_gl lim (read_events r n st1) b1 g1) as [[[[st2 es] b2] g2]|]; cbn [run_gl]; auto.
    rewrite !run_gl_bind.
    destruct (run_gl lim (read_events r m st2) b2 g2) as [[[[? ?] ?] ?]|]; reflexivity.
Qed.
Lemma rd_events_app {S} lim (r : S -> prog (S * event)) n m st b1 st1 es1 b2 st2 es2 rest :
  rd lim (read_events r n st) b1 (b2 ++ rest) (st1, es1) -> rd lim (read_events r m st1) b2 rest (st2, es2) ->
  rd lim (read_events r (n + m) st) (b1 ++ b2) rest (st2, es1 ++ es2).
Proof.
  intros H1 H2 d g R. destruct (H1 d g) as (g1 & E1 & R1); [rewrite app_assoc; exact R|]. destruct (H2 (rev b1 ++ d) g1 R1) as (g2 & E2 & R2).
  exists g2. split; [|exact R2]. rewrite <- app_assoc. rewrite rev_app_distr, <- app_assoc.
  rewrite (gl_read_events_app lim r n m st). rewrite run_gl_bind, E1. cbv beta iota. rewrite run_gl_bind, E2. reflexivity.
Qed.

Lemma all_means_scope P nm t ms : all_means P (MScope nm t ms) <-> Forall (all_means P) ms.
Proof. cbn [all_means]. induction ms as [|m ms IH]; split; intros H; auto; [destruct H; constructor; tauto|inversion H; tauto]. Qed.

(** what is common to all scopes: the brackets around the items *)
Lemma scope_reads x sc t ms : (sc = TObject \/ sc = TArray) -> items_read x sc t ms -> zlen t < two32 -> Forall (all_means int_ok) ms ->
  exists ds, map mdoc_of ds = ms /\
  forall F stack st rest close nm b1, jrel stack st -> scopes stack -> close = 125 \/ close = 93 -> (length t + 5 <= F)%nat ->
    (forall r, exists st1, rd false (json_read x F st) b1 r (st1, (nm, val_type sc)) /\ jrel (sc :: stack) st1) ->
  exists st', jrel stack st' /\
    rd false (read_events (json_read x F) (length (events (DScope nm sc ds))) st) (b1 ++ t ++ [close]) rest (st', events (DScope nm sc ds)).
Proof.
  intros Hsc It Z0 A. destruct (It Z0 A) as (ds & M & Rd). exists ds. split; [exact M|].
  intros F stack st rest close nm b1 R Sc Hc L V. destruct (V ((t ++ [close]) ++ rest)) as (st1 & Q1 & R1).
  assert (Sc1 : scopes (sc :: stack)) by (constructor; auto).
  destruct (Rd F stack st1 [] close rest Hsc R1 Sc1 (Forall_nil _) Hc L) as (st2 & used & wn & E & Wn & R2 & Q2). cbn [app] in E.
  assert (Lw : (length wn <= length t)%nat) by (rewrite E, app_length; lia).
  destruct F as [|F0]; [lia|].
  destruct (rd_close false x (S F0) F0 st2 js_init wn rest (sc :: stack) close R2 ltac:(discriminate) Hc Wn ltac:(lia)) as (st3 & Q3 & R3).
  exists st3. split; [exact R3|]. cbn [events length]. eapply rd_events_cons; [exact Q1|].
  rewrite app_length. cbn [length]. rewrite E. rewrite <- app_assoc. eapply rd_events_app.
  - replace ((wn ++ [close]) ++ rest) with (wn ++ close :: rest) by (rewrite <- app_assoc; reflexivity). exact Q2.
  - apply rd_one. exact Q3.
Qed.

Lemma lit_reads x nm t mv v : lit_txt x t v -> meaning_of v = mv -> val_reads x nm t (MVal nm mv).
Proof.
  intros LT Mv _ _. exists (DVal nm v). split; [cbn; now rewrite Mv|].
  intros F stack st sc k w w2 c rest R Sc Ne T K W W2 Hc L. do 2 (rewrite ?app_length in L).
  destruct (split_ws w2 W2) as (ws & H3 & [->|(r & ->)]).
  - destruct (rd_item x F stack st sc k nm w (t ++ ws ++ tailc c) v stack (resto c rest) R T K W) as (st' & Q & R').
    + rewrite app_length. lia.
    + intros n st1 s w1 R1 M Ns W1 L1. exists st1. split; [|exact R1]. rewrite <- Ns.
      pose proof (rd_lit2 x F n st1 s w1 rest stack v t ws c R1 M W1 L1 LT H3) as Q.
      replace (negb ((c =? 125) || (c =? 93))) with (c =? 44) in Q by lia.
      rewrite (app_assoc t ws). unfold tailc, resto. destruct (Z.eqb_spec c 44); [subst c|]; (apply Q; [unfold lit_stop; lia|rewrite app_length; lia]).
    + exists st', (ws ++ tailc c), []. split; [now rewrite app_nil_r|]. split; [exact R'|]. cbn [events app length]. apply rd_one. exact Q.
  - rewrite app_length in L. cbn [length] in L.
    destruct (rd_item x F stack st sc k nm w (t ++ ws ++ [32]) v stack ((r ++ tailc c) ++ resto c rest) R T K W) as (st' & Q & R').
    + rewrite app_length. lia.
    + intros n st1 s w1 R1 M Ns W1 L1. exists st1. split; [|exact R1]. rewrite <- Ns.
      pose proof (rd_lit2 x F n st1 s w1 ((r ++ tailc c) ++ resto c rest) stack v t ws 32 R1 M W1 L1 LT H3) as Q.
      rewrite (app_assoc t ws). apply Q; [unfold lit_stop; lia|rewrite app_length; lia].
    + exists st', (ws ++ [32]), (r ++ tailc c). split; [rewrite <- !app_assoc; reflexivity|]. split; [exact R'|]. cbn [events app length]. apply rd_one. exact Q.
Qed.

Lemma json_reads x :
  (forall nm t m, js_value x false nm t m -> val_reads x nm t m) /\ (forall sc t ms, js_items x false sc t ms -> (sc = TObject \/ sc = TArray) -> items_read x sc t ms).
Proof.
  apply (js_mut x false (fun nm t m => val_reads x nm t m) (fun sc t ms => (sc = TObject \/ sc = TArray) -> items_read x sc t ms)).
  - intros nm. apply (lit_reads x nm _ _ (val_type TNull)); [apply lit_js_const; cbn; auto|reflexivity].
  - intros nm. apply (lit_reads x nm _ _ (val_bool true)); [apply lit_js_const; cbn; auto|reflexivity].
  - intros nm. apply (lit_reads x nm _ _ (val_bool false)); [apply lit_js_const; cbn; auto|reflexivity].
  - intros nm t n J Z0 A. destruct (lit_js_int x t n J A) as (v & LT & Mv). exact (lit_reads x nm t _ v LT Mv Z0 A).
  - intros nm t d J RT B. destruct (lit_js_number x t d J RT B) as (v & LT & Mv). exact (lit_reads x nm t _ v LT Mv).
  - intros nm t s J Z0 _. exists (DVal nm (val_string s EUTF8)).
    assert (Ls : zlen s < two32).
    { destruct (js_chars_units t s J) as (_ & _ & _ & H). unfold quoted, zlen in *. cbn [length] in Z0. rewrite app_length in Z0. lia. }
    split. { cbn [mdoc_of]. unfold meaning_of. cbn [v_type val_string v_data]. now rewrite trunc_block_id. }
    intros F stack st sc k w w2 c rest R Sc Ne T K W W2 Hc L. do 2 (rewrite ?app_length in L). unfold quoted in *. cbn [length] in L. rewrite app_length in L.
    destruct (rd_item x F stack st sc k nm w (34 :: t ++ [34]) (val_string s EUTF8) stack ((w2 ++ tailc c) ++ resto c rest) R T K W) as (st' & Q & R').
    + rewrite app_length. lia.
    + intros n st1 s1 w1 R1 M Ns W1 L1. rewrite <- Ns. apply (rd_str false x F n st1 s1 w1 _ stack); auto. apply rd_js_chars; [exact J|]. lia.
    + exists st', [], (w2 ++ tailc c). split; [reflexivity|]. split; [exact R'|]. rewrite app_nil_r. cbn [events length]. apply rd_one. exact Q.
  - intros nm t ms _ It Z0 A. apply all_means_scope in A.
    destruct (scope_reads x TArray t ms ltac:(auto) (It ltac:(auto))) as (ds & M & Rd); auto.
    { unfold zlen in *. cbn [length] in Z0. rewrite app_length in Z0. lia. }
    exists (DScope nm TArray ds). split; [cbn [mdoc_of]; now rewrite M|].
    intros F stack st sc k w w2 c rest R Sc Ne T K W W2 Hc L. do 2 (rewrite ?app_length in L). cbn [length] in L. rewrite app_length in L.
    destruct (Rd F stack st ((w2 ++ tailc c) ++ resto c rest) 93 nm (w ++ k ++ [91]) R Sc ltac:(auto) ltac:(lia)) as (st' & R' & Q).
    + intros r. apply (rd_item x F stack st sc k nm w [91] (val_type TArray) (TArray :: stack) r R T K W); [rewrite app_length; lia|].
      intros n st1 s1 w1 R1 Mo Ns W1 L1. rewrite <- Ns. apply (rd_open false x F n st1 s1 w1 r stack TArray R1); auto.
    + exists st', [], (w2 ++ tailc c). split; [reflexivity|]. split; [exact R'|]. rewrite app_nil_r.
      replace (w ++ k ++ 91 :: t ++ [93]) with ((w ++ k ++ [91]) ++ t ++ [93]) by (rewrite <- !app_assoc; reflexivity). exact Q.
  - intros nm t ms _ It Z0 A. apply all_means_scope in A.
    destruct (scope_reads x TObject t ms ltac:(auto) (It ltac:(auto))) as (ds & M & Rd); auto.
    { unfold zlen in *. cbn [length] in Z0. rewrite app_length in Z0. lia. }
    exists (DScope nm TObject ds). split; [cbn [mdoc_of]; now rewrite M|].
    intros F stack st sc k w w2 c rest R Sc Ne T K W W2 Hc L. do 2 (rewrite ?app_length in L). cbn [length] in L. rewrite app_length in L.
    destruct (Rd F stack st ((w2 ++ tailc c) ++ resto c rest) 125 nm (w ++ k ++ [123]) R Sc ltac:(auto) ltac:(lia)) as (st' & R' & Q).
    + intros r. apply (rd_item x F stack st sc k nm w [123] (val_type TObject) (TObject :: stack) r R T K W); [rewrite app_length; lia|].
      intros n st1 s1 w1 R1 Mo Ns W1 L1. rewrite <- Ns. apply (rd_open false x F n st1 s1 w1 r stack TObject R1); auto.
    + exists st', [], (w2 ++ tailc c). split; [reflexivity|]. split; [exact R'|]. rewrite app_nil_r.
      replace (w ++ k ++ 123 :: t ++ [125]) with ((w ++ k ++ [123]) ++ t ++ [125]) by (rewrite <- !app_assoc; reflexivity). exact Q.
  - intros sc w Hw _ _ _. exists []. split; [reflexivity|]. intros F stack st w0 close rest Hsc R Sc W Hc L.
    exists st, [], (w0 ++ w). split; [reflexivity|]. split; [apply Forall_app; auto using space_skip|]. split; [exact R|]. apply rd_ret.
  - intros sc w1 k nm t w2 m W1 K _ V W2 Hsc Z0 A. inversion A as [|? ? Am _]; subst.
    destruct V as (d & M & Rd); [|exact Am|].
    { unfold zlen in *. do 2 (rewrite ?app_length in Z0). lia. }
    exists [d]. split; [cbn; now rewrite M|]. intros F stack st w0 close rest _ R Sc W Hc L. do 3 (rewrite ?app_length in L).
    destruct (Rd F (sc :: stack) st sc k (w0 ++ w1) w2 close rest R Sc ltac:(discriminate) eq_refl K) as (st' & sk & wn & E & R' & Q); auto.
    + apply Forall_app. auto using space_skip.
    + do 2 (rewrite ?app_length). lia.
    + assert (Et : tailc close = [] /\ resto close rest = close :: rest) by (unfold tailc, resto; destruct Hc as [-> | ->]; auto).
      destruct Et as [Et1 Et2]. rewrite Et1, app_nil_r in E. rewrite Et2 in Q.
      exists st', ((w0 ++ w1) ++ k ++ t ++ sk), wn. split; [rewrite E, <- !app_assoc; reflexivity|].
      split; [|split; [exact R'|cbn [flat_map]; rewrite app_nil_r; exact Q]].
      apply space_skip in W2. rewrite E in W2. apply Forall_app in W2. tauto.
  - intros sc w1 k nm t w2 m r ms W1 K _ V W2 _ It Nms Hsc Z0 A. inversion A as [|? ? Am Ams]; subst.
    assert (ZT : zlen t < two32 /\ zlen r < two32). { unfold zlen in *. do 3 (rewrite ?app_length in Z0; cbn [length] in Z0). lia. }
    destruct (V (proj1 ZT) Am) as (d & M & Rd). destruct (It Hsc (proj2 ZT) Ams) as (ds & Ms & Rs).
    exists (d :: ds). split; [cbn; now rewrite M, Ms|]. intros F stack st w0 close rest _ R Sc W Hc L. do 4 (rewrite ?app_length in L; cbn [length] in L).
    destruct (Rd F (sc :: stack) st sc k (w0 ++ w1) w2 44 (r ++ close :: rest) R Sc ltac:(discriminate) eq_refl K) as (st1 & sk & wn & E & R1 & Q1); auto.
    + apply Forall_app. auto using space_skip.
    + do 2 (rewrite ?app_length). lia.
    + change (tailc 44) with [44] in E. change (resto 44 (r ++ close :: rest)) with (r ++ close :: rest) in Q1.
      assert (Wn : Forall skipc (sk ++ wn)). { rewrite <- E. apply Forall_app. split; [now apply space_skip|]. constructor; [unfold skipc; cbn; auto|constructor]. }
      apply Forall_app in Wn. destruct Wn as [_ Wn].
      assert (Lw : (length wn <= length w2 + 1)%nat) by (pose proof (f_equal (@length Z) E) as El; rewrite !app_length in El; cbn [length] in El; lia).
      destruct (Rs F stack st1 wn close rest Hsc R1 Sc Wn Hc) as (st2 & used & wn2 & E2 & Wn2 & R2 & Q2).
      { rewrite app_length. lia. }
      exists st2, (((w0 ++ w1) ++ k ++ t ++ sk) ++ used), wn2. split; [|split; [exact Wn2|split; [exact R2|]]].
      * replace (w2 ++ 44 :: r) with ((w2 ++ [44]) ++ r) by (rewrite <- app_assoc; reflexivity). rewrite E. repeat rewrite <- app_assoc. rewrite E2. reflexivity.
      * cbn [flat_map]. rewrite app_length. eapply rd_events_app; [|exact Q2].
        replace (used ++ wn2 ++ close :: rest) with (wn ++ r ++ close :: rest) by (rewrite !app_assoc, E2; reflexivity). exact Q1.
Qed.

(** * Whole texts *)
Lemma json_text_reads x w t m r0 F rest : Forall js_space w -> js_value x false [] t m -> (exists sc ms, m = MScope [] sc ms) -> all_means int_ok m -> zlen t < two32 -> (length (w ++ t) + 5 <= F)%nat ->
  exists d r', mdoc_of d = m /\ rd false (read_events (json_read x F) (length (events d)) (json_clear r0)) (w ++ t) rest (r', events d).
Proof.
  intros W J (sc & ms & E) A Z0 L. subst m. rewrite app_length in L. apply all_means_scope in A.
  assert (G : forall sc b c t', (sc = TObject /\ b = 123 /\ c = 125 \/ sc = TArray /\ b = 91 /\ c = 93) -> js_items x false sc t' ms -> t = b :: t' ++ [c] ->
    exists d r', mdoc_of d = MScope [] sc ms /\ rd false (read_events (json_read x F) (length (events d)) (json_clear r0)) (w ++ t) rest (r', events d)).
  { intros sc0 b c t' H Ji Et. subst t. assert (Hs : sc0 = TObject \/ sc0 = TArray) by tauto. pose proof (proj2 (json_reads x) sc0 t' ms Ji Hs) as It.
    cbn [length] in L. rewrite app_length in L.
    destruct (scope_reads x sc0 t' ms Hs It) as (ds & M & Rd); auto.
    { unfold zlen in *. cbn [length] in Z0. rewrite app_length in Z0. lia. }
    destruct (Rd F [] (json_clear r0) rest c [] (w ++ [b])) as (r' & R' & Q).
    - split; reflexivity.
    - constructor.
    - lia.
    - lia.
    - intros r. unfold json_read. destruct F as [|F0]; [lia|].
      destruct (rd_open false x (S F0) F0 (json_clear r0) js_init w r [] sc0) as (st' & Q & R'); auto using space_skip; [split; reflexivity|lia|].
      exists st'. split; [|exact R']. replace (if ty_eqb sc0 TArray then 91 else 123) with b in Q by (destruct H as [(-> & -> & _)|(-> & -> & _)]; reflexivity). exact Q.
    - exists (DScope [] sc0 ds), r'. split; [cbn [mdoc_of]; now rewrite M|]. replace (w ++ b :: t' ++ [c]) with ((w ++ [b]) ++ t' ++ [c]) by (rewrite <- app_assoc; reflexivity). exact Q. }
  inversion J; subst; eapply G; eauto; tauto.
Qed.

Lemma json_text_block x w t m r0 F before rest :
  Forall js_space w -> js_value x false [] t m -> (exists sc ms, m = MScope [] sc ms) -> all_means int_ok m -> zlen t < two32 -> (length (w ++ t) + 5 <= F)%nat ->
  exists d r', mdoc_of d = m /\
    run_block (read_events (json_read x F) (length (events d)) (json_clear r0)) (mkBlk before ((w ++ t) ++ rest)) =
      Ok ((r', events d), mkBlk (rev (w ++ t) ++ before) rest).
Proof.
  intros W J S A Z0 L. destruct (json_text_reads x w t m r0 F rest W J S A Z0 L) as (d & r' & M & R). exists d, r'. split; [exact M|].
  exact (rd_block _ _ _ _ _ R before).
Qed.
