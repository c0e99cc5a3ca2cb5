(** How many bytes a reader takes: every reader comes to an end, from memory and from a stream. *)
From Coq Require Import ZArith List Bool Lia ZifyBool ZifyNat.
From Verif Require Import Base Lemmas M_Types M_Conv M_Charset M_In S_Doc M_Event M_PSrl M_MsgPack M_Json
  P_In P_Safe P_JsonSafe P_Deliver P_Charset.
Import ListNotations.
Open Scope nat_scope.

(** [p] run on a source with at most [N] bytes *)
Fixpoint pend {R} (N : nat) (p : prog R) (Q : nat -> R -> Prop) {struct p} : Prop :=
  match p with
  | Ret r => Q N r
  | Throw | Undef _ => True
  | OutOfFuel => False
  | NotNull k | Peek _ k | Anchor _ k => pend N k Q
  | Move n k => Z.to_nat n <= N -> pend (N - Z.to_nat n) k Q
  | Adv n k => n <= N -> pend (N - n) k Q
  | TryPeek _ k => forall b, pend N (k b) Q
  | Deref _ k => forall c, is_byte c -> pend N (k c) Q
  | Back n k => forall bs, wf_bytes bs -> zlen bs = Z.max 0 n -> pend N (k bs) Q
  | LeftM1 k => forall z, pend N (k z) Q
  end.
Lemma pend_bind {A B} (p : prog A) (f : A -> prog B) Q : forall N, pend N p (fun m a => pend m (f a) Q) -> pend N (pbind p f) Q.
Proof. induction p as [r| |u| |k IH|n k IH|n k IH|n k IH|o k IH|n k IH|bb k IH|n k IH|k IH]; intros N H; cbn [pend pbind] in *; auto. Qed.
Lemma pend_weaken {A} (p : prog A) (Q R : nat -> A -> Prop) : forall N, pend N p Q -> (forall m a, m <= N -> Q m a -> R m a) -> pend N p R.
Proof.
  induction p as [r| |u| |k IH|n k IH|n k IH|n k IH|o k IH|n k IH|bb k IH|n k IH|k IH]; intros N H X; cbn [pend] in *; eauto.
  - intros L. eapply IH; [now apply H|]. intros m a Lm. apply X. lia.
  - intros L. eapply IH; [now apply H|]. intros m a Lm. apply X. lia.
Qed.

Lemma pend_block {A} (p : prog A) Q : forall N b, pend N p Q -> wf_blk b -> length (b_rest b) <= N ->
  match run_block p b with Ok (a, b') => exists m, length (b_rest b') <= m /\ Q m a | Fuel => False | _ => True end.
Proof.
  induction p as [r| |u| |k IH|n k IH|n k IH|n k IH|o k IH|n k IH|bb k IH|n k IH|k IH]; intros N b H W L; cbn [pend run_block] in *; auto.
  - eauto.
  - destruct (b_done b), (b_rest b) eqn:E; auto; eapply IH; eauto; rewrite E; exact L.
  - destruct (two63 <=? n)%Z; [exact I|]. destruct (n <=? zlen (b_rest b))%Z eqn:E; [|exact I]. unfold zlen in E. eapply IH; [apply H; lia|now apply wf_moved|]. cbn [b_rest]. rewrite skipn_length. lia.
  - destruct (two63 <=? n)%Z; [exact I|]. destruct (n <=? zlen (b_rest b))%Z; [|exact I]. eapply IH; eauto.
  - eapply IH; eauto.
  - destruct (nth_error (b_rest b) o) eqn:E; [|exact I]. eapply IH; eauto. apply H. apply nth_error_In in E. destruct W as [_ W2]. unfold wf_bytes in W2. rewrite Forall_forall in W2. now apply W2.
  - destruct (n <=? length (b_rest b)) eqn:E; [|exact I]. eapply IH; [apply H; lia|now apply wf_moved|]. cbn [b_rest]. rewrite skipn_length. lia.
  - eapply IH; eauto.
  - destruct (n <=? zlen (b_done b))%Z eqn:E; [|exact I]. eapply IH; [apply H|exact W|exact L]; [apply wf_rev, wf_firstn, W|]. unfold zlen in *. rewrite rev_length, firstn_length. lia.
  - eapply IH; eauto.
Qed.

(** what a stream has left *)
Definition sleft (s : strm) : nat := length (s_win s) - s_pos s + length (s_src s).
Lemma fetch_left n r s ok s' : wf_strm s -> fetch n r s = (ok, s') -> sleft s' = sleft s.
Proof.
  intros (A & B & C & D). unfold fetch, sleft. destruct (s_eof s); [intros X; inversion X; subst; reflexivity|]. cbn zeta.
  set (kp := match s_anchor s with Some a => a | None => s_pos s end). assert (K : kp <= s_pos s) by (unfold kp; destruct (s_anchor s); auto).
  set (rl := Z.to_nat _). intros X. inversion X; subst; clear X. cbn [s_win s_pos s_src]. rewrite app_length, !skipn_length, firstn_length. lia.
Qed.
Lemma need_left n s ok s' : wf_strm s -> need n s = (ok, s') -> sleft s' = sleft s.
Proof. intros W. unfold need. destruct (_ <? _)%Z; [intros X; inversion X; subst; reflexivity|now apply fetch_left]. Qed.
Lemma pend_stream {A} (p : prog A) Q : forall N s, pend N p Q -> wf_strm s -> sleft s <= N ->
  match run_stream p s with Ok (a, s') => exists m, sleft s' <= m /\ Q m a | Fuel => False | _ => True end.
Proof.
  induction p as [r| |u| |k IH|n k IH|n k IH|n k IH|o k IH|n k IH|bb k IH|n k IH|k IH]; intros N s H W L; cbn [pend run_stream] in *; auto.
  - eauto.
  - eapply IH; eauto.
  - destruct (two63 <=? n)%Z; [exact I|]. destruct (need n s) as [ok s1] eqn:E. pose proof (need_left _ _ _ _ W E) as LE. destruct (wf_need _ _ _ _ W E) as [(W1 & W2 & W3 & W4) LL]. destruct ok; [|exact I].
    specialize (LL eq_refl). unfold sleft in LE, L |- *. eapply IH; [apply H; lia| |unfold sleft; cbn [s_win s_pos s_src]; lia].
    split; [|split; [|split]]; cbn [s_win s_src s_pos s_anchor]; auto. destruct (s_anchor s1); [lia|exact I].
  - destruct (two63 <=? n)%Z; [exact I|]. destruct (need n s) as [ok s1] eqn:E. pose proof (need_left _ _ _ _ W E) as LE. destruct (wf_need _ _ _ _ W E) as [W1 _]. destruct ok; [|exact I]. eapply IH; eauto. lia.
  - destruct (need n s) as [ok s1] eqn:E. pose proof (need_left _ _ _ _ W E) as LE. destruct (wf_need _ _ _ _ W E) as [W1 _]. eapply IH; eauto. lia.
  - destruct (nth_error (s_win s) _) eqn:E; [|exact I]. eapply IH; eauto. apply H. apply nth_error_In in E. destruct W as (W2 & _). unfold wf_bytes in W2. rewrite Forall_forall in W2. now apply W2.
  - destruct (_ <=? _) eqn:E; [|exact I]. destruct W as (W1 & W2 & W3 & W4). unfold sleft in L. eapply IH; [apply H; lia| |unfold sleft; cbn [s_win s_pos s_src]; lia].
    split; [|split; [|split]]; cbn [s_win s_src s_pos s_anchor]; auto; [lia|]. destruct (s_anchor s); [lia|exact I].
  - destruct W as (W1 & W2 & W3 & W4). destruct bb; (eapply IH; [exact H| |exact L]; split; [|split; [|split]]; cbn [s_win s_src s_pos s_anchor]; auto).
  - destruct (n <=? Z.of_nat (s_pos s))%Z eqn:E; [|exact I]. eapply IH; [apply H|exact W|exact L]; destruct W as (W1 & W2 & W3 & W4); [apply wf_firstn, wf_skipn, W1|]. unfold zlen. rewrite firstn_length, skipn_length. lia.
  - eapply IH; eauto.
Qed.

(** * PSrl *)
Ltac pbnd H := apply pend_bind; eapply pend_weaken; [apply H|cbv beta].
Lemma p_block N n : pend N (read_block n) (fun m bs => m + Z.to_nat n = N /\ zlen bs = Z.max 0 n).
Proof. cbn. intros L bs _ B. split; [lia|exact B]. Qed.
Lemma p_move N n : pend N (read_move n) (fun m _ => m + Z.to_nat n = N).
Proof. unfold read_move. pbnd (p_block N n). intros m bs _ [A _]. exact A. Qed.
Lemma p_swapped N n : pend N (read_swapped n) (fun m _ => m + Z.to_nat n = N).
Proof. unfold read_swapped. pbnd (p_block N n). intros m bs _ [A _]. exact A. Qed.
(** shifts of 64 are undefined: the eleven rounds are never used up *)
Lemma p_decode N : pend N decode_integer (fun _ _ => True).
Proof.
  unfold decode_integer. cbn [pend]. intros c _. assert (D : forall f b o sh N, (77 <= 7 * Z.of_nat f + sh)%Z -> (7 <= sh)%Z -> (sh <= 77)%Z -> f <> 0 -> pend N (decode_loop f b o sh) (fun _ _ => True)).
  { induction f as [|f IH]; intros b o sh M L L1 L2 NZ; [congruence|]. cbn [decode_loop]. destruct (has _ _).
    - cbn [pend]. intros _ c0 _. destruct (64 <=? sh)%Z eqn:E; [exact I|]. apply IH; lia.
    - destruct (_ <? _)%Z; [exact I|]. cbn [pend]. auto. }
  apply D; lia.
Qed.
Lemma p_psrl N st : pend N (psrl_read st) (fun m _ => m < N).
Proof.
  unfold psrl_read. apply pend_bind. eapply pend_weaken with (Q := fun m _ => m < N).
  { unfold psrl_read_head. pbnd (p_move N 1). intros m flag _ E. destruct (_ || _); [cbn; lia|]. destruct (has flag FIndexed).
    - pbnd (p_decode m). intros m2 i L2 _. destruct (_ <=? _)%Z; [exact I|]. destruct (nth_error _ _); cbn; auto. lia.
    - pbnd (p_decode m). intros m2 n L2 _. pbnd (p_block m2 n). intros m3 bs L3 _. cbn. lia. }
  intros m [st1 [flag name]] _ Lm. destruct (flag =? 0)%Z.
  { destruct (ps_stack st1) eqn:E; [exact I|]. unfold psrl_pop. rewrite E. cbn. exact Lm. }
  destruct (flag_is_scope flag); [cbn; exact Lm|].
  destruct (has flag FNum).
  { apply pend_bind. eapply pend_weaken with (Q := fun _ _ => True); [|intros m2 v L2 _; cbn; lia]. unfold psrl_read_num. destruct (has flag _); [exact I|]. destruct (has flag FFP32); [pbnd (p_move m 4); intros; exact I|].
    destruct (has flag FFP64); [pbnd (p_move m 8); intros; exact I|]. pbnd (p_decode m). intros m2 n _ _. destruct (has flag FSigned); [destruct (_ =? _)%Z|]; exact I. }
  destruct (has flag (Z.lor FBinary FString)).
  { pbnd (p_decode m). intros m2 n L2 _. pbnd (p_block m2 n). intros m3 bs L3 _. cbn. lia. }
  destruct (has flag FNull); cbn; auto.
Qed.

(** * MessagePack *)
Lemma p_int N t : pend N (mp_read_int t) (fun _ _ => True).
Proof. unfold mp_read_int. pbnd (p_swapped N (Z.of_nat (int_bytes t))). intros; exact I. Qed.
Lemma p_str N p : pend N (mp_read_str p) (fun _ _ => True).
Proof.
  unfold mp_read_str. apply pend_bind. eapply pend_weaken with (Q := fun _ _ => True); [|intros m n _ _; pbnd (p_block m n); intros; exact I].
  unfold mp_str_size. destruct (_ && _); [exact I|]. repeat (destruct (p =? _)%Z); (eapply pend_weaken; [apply p_move|]; intros; exact I).
Qed.
Definition deep (N : nat) (st : msgp) : nat := 2 * N + length (mp_stack st).
Lemma p_value N st name p : pend N (mp_read_value st name p) (fun m r => deep m (fst r) <= S (deep N st)).
Proof.
  unfold mp_read_value, deep. destruct (prefix_is_scope p).
  { apply pend_bind. eapply pend_weaken with (Q := fun _ _ => True).
    - unfold mp_scope_info. destruct (negb _); [|exact I]. destruct (negb (Z.land p 1 =? 0)%Z); [pbnd (p_swapped N 4)|pbnd (p_swapped N 2)]; intros; exact I.
    - intros m [t n] Lm _. cbn [pend fst mp_stack length]. lia. }
  destruct (prefix_is_str p); [pbnd (p_str N p); intros m v Lm _; cbn [pend fst]; lia|]. destruct (prefix_is_scalar p).
  { apply pend_bind. eapply pend_weaken with (Q := fun _ _ => True); [|intros m v Lm _; cbn [pend fst]; lia]. unfold mp_read_scalar, mp_read_num.
    destruct (_ || _); [exact I|]. destruct (_ && _); [|destruct (_ =? _)%Z; exact I].
    repeat (destruct (p =? _)%Z); try apply p_int; try exact I; [pbnd (p_swapped N 4)|pbnd (p_swapped N 8)]; intros; exact I. }
  destruct (prefix_is_bin p); [|exact I]. apply pend_bind. eapply pend_weaken with (Q := fun _ _ => True); [|intros m v Lm _; cbn [pend fst]; lia].
  unfold mp_read_bin. apply pend_bind. eapply pend_weaken with (Q := fun _ _ => True); [|intros m n _ _; pbnd (p_block m n); intros; exact I].
  unfold mp_bin_size. repeat (destruct (p =? _)%Z); (eapply pend_weaken; [apply p_move|]; intros; exact I).
Qed.
Lemma p_msgp N st : pend N (msgp_read st) (fun m r => deep m (fst r) < deep N st).
Proof.
  unfold msgp_read. destruct (mp_stack st) as [|s stack] eqn:E.
  - pbnd (p_move N 1). intros m p Lm Em. eapply pend_weaken; [apply p_value|]. intros m2 r _ H. unfold deep in *. cbv beta in H. rewrite E in *. cbn [length] in *. lia.
  - destruct (_ <? _)%Z; [cbn [pend fst]; unfold deep; rewrite E; cbn [mp_stack length]; lia|].
    set (st1 := mkMsgp (mkScope (ms_type s) (ms_elems s - 1) (ms_ticket s) :: stack) (mp_next st)).
    assert (X : forall m, S m <= N -> forall m2 (r : msgp * event), deep m2 (fst r) <= S (deep m st1) -> deep m2 (fst r) < deep N st).
    { intros m Lm m2 r H. unfold deep in *. rewrite E. unfold st1 in H. cbn [mp_stack length] in *. lia. }
    pbnd (p_move N 1). intros m p Lm Em. destruct (ty_eqb _ _).
    + apply pend_bind. eapply pend_weaken with (Q := fun _ _ => True).
      * destruct (prefix_is_str p); [|exact I]. unfold mp_read_name. pbnd (p_str m p). intros; exact I.
      * intros m1 name L1 _. pbnd (p_move m1 1). intros m2 q L2 E2. eapply pend_weaken; [apply p_value|]. intros m3 r _. apply X. lia.
    + eapply pend_weaken; [apply p_value|]. intros m3 r _. apply X. lia.
Qed.

(** * JSON *)
Lemma p_at ts : forall note N, pend N (is_at_token ts note) (fun m _ => m = N).
Proof.
  induction ts as [|[c|a b|c] ts IH]; intros note N; cbn [is_at_token pend]; auto.
  - intros x _. destruct (_ =? _)%Z; [reflexivity|apply IH].
  - intros [|]; [|apply IH]. cbn [pend]. intros x _. destruct (x =? a)%Z; [|apply IH]. cbn [pend]. intros y _. destruct (y =? b)%Z; [reflexivity|apply IH].
Qed.
Lemma p_loop neg ts : forall f steps note N, N < f -> (0 <= steps)%Z -> pend N (move_loop f neg ts steps note) (fun m r => Z.of_nat m + (fst r - steps) = Z.of_nat N)%Z.
Proof.
  induction f as [|f IH]; intros steps note N L S; [lia|]. cbn [move_loop]. pbnd (p_at ts note N). intros m [t n] _ ->. destruct (Bool.eqb _ _); [|cbn; lia].
  cbn [pend]. change (Z.to_nat 1) with 1. intros L1. eapply pend_weaken; [apply IH; lia|]. intros m r _ H. cbv beta in H. lia.
Qed.
Lemma p_until neg f ts N : N < f -> pend N (move_until_gen f neg ts) (fun m r => Z.of_nat m + fst r = Z.of_nat N)%Z.
Proof. intros L. unfold move_until_gen. cbn [pend]. eapply pend_weaken; [apply p_loop; lia|]. intros m r _ H. cbv beta in H. lia. Qed.
Lemma p_read_until f ts N : N < f -> pend N (read_block_until f ts) (fun m r => Z.of_nat m + zlen (fst r) = Z.of_nat N)%Z.
Proof.
  intros L. unfold read_block_until. cbn [pend]. apply pend_bind. eapply pend_weaken; [apply p_until, L|]. intros m [n note] Lm H. cbn [fst] in H. cbn [pend]. intros bs _ B. cbn [fst]. lia.
Qed.
Lemma p_put N buf idx c n : (0 <= idx < zlen buf)%Z -> 0 < n -> pend N (put buf idx c n) (fun m r => m < N /\ fst r = 1%Z /\ zlen (snd r) = zlen buf).
Proof.
  intros Hi Hn. unfold put. destruct (store_zlen buf idx [c] ltac:(lia)) as [(b2 & -> & Z2)| ->]; [|exact I]. cbn [lift pbind pend]. intros L. cbn [fst snd]. split; [lia|]. split; [reflexivity|exact Z2].
Qed.
Lemma p_subst N buf idx left : (0 <= idx < zlen buf)%Z ->
  pend N (substitute_token buf idx left) (fun m r => m < N /\ (0 <= fst r)%Z /\ (zlen buf <= zlen (snd r))%Z /\ (idx + fst r <= zlen (snd r))%Z).
Proof.
  intros Hi. unfold substitute_token.
  assert (P : forall c n, 0 < n -> pend N (put buf idx c n) (fun m r => m < N /\ (0 <= fst r)%Z /\ (zlen buf <= zlen (snd r))%Z /\ (idx + fst r <= zlen (snd r))%Z)).
  { intros c n L. eapply pend_weaken; [apply p_put; auto|]. intros m r _ (A & -> & ->). split; [exact A|lia]. }
  destruct (_ <=? _)%Z; [|cbn [pend]; intros a _; apply P; lia]. cbn [pend]. intros a _ b _. destruct (a =? 92)%Z; [|apply P; lia].
  destruct (substitute_of b); [apply P; lia|]. destruct (b =? 117)%Z; [|apply P; lia].
  unfold uc_literal. pbnd (p_block N 6). intros m bs Lm [Em Lb]. change (Z.to_nat 6) with 6 in Em. change (Z.max 0 6) with 6%Z in Lb.
  destruct bs as [|b1 [|b2 [|b3 [|b4 [|b5 [|b6 [|]]]]]]]; try (cbn in Lb; lia).
  change (hex_to_bytes_dest 2 (skipn 2 [b1; b2; b3; b4; b5; b6])) with (hex_loop [b3; b4; b5; b6]).
  destruct (hex_loop4 b3 b4 b5 b6) as [->|(h1 & h2 & ->)]; cbn [lift pbind]; [exact I|].
  destruct (conv_unit h1 h2 buf idx ltac:(lia)) as [->|[->|(n & buf' & -> & N1 & N2 & N3)]]; cbn [lift pend]; [exact I|exact I|]. cbn [fst snd]. lia.
Qed.
Lemma p_read_subst delim : forall f buf bufsz steps N, N < f -> (0 <= steps <= zlen buf)%Z -> (0 <= bufsz <= zlen buf)%Z ->
  pend N (read_substitute f delim buf bufsz steps) (fun _ _ => True).
Proof.
  induction f as [|f IH]; intros buf bufsz steps N L Hs Hb; [lia|]. cbn [read_substitute pend]. intros c _. destruct (c =? delim)%Z; [exact I|]. cbn zeta.
  set (bz := if (bufsz <? steps + 1)%Z then (bufsz + (steps + 10))%Z else bufsz). set (bf := if (bufsz <? steps + 1)%Z then resize buf bz else buf).
  assert (B : (bz <= zlen bf /\ steps < zlen bf /\ 0 <= bz)%Z).
  { unfold bf, bz. destruct (Z.ltb_spec bufsz (steps + 1)); [rewrite resize_len by lia|]; lia. }
  clearbody bz bf. destruct B as (B1 & B2 & B3).
  assert (G : forall left, pend N (let! (n, buf') := substitute_token bf steps left in read_substitute f delim buf' bz (steps + n)) (fun _ _ => True)).
  { intros left. pbnd (p_subst N bf steps left ltac:(lia)). intros m [n buf'] _ (A & N0 & N1 & N2). cbn [fst snd] in *. apply IH; lia. }
  intros [|]; [apply G|]. cbn [pend]. intros z. apply G.
Qed.
Lemma p_quote f st s N : N < f -> pend N (process_quote f st s) (fun _ _ => True).
Proof.
  intros L. unfold process_quote. destruct (ty_eqb _ _); [exact I|]. cbn [pend]. change (Z.to_nat 1) with 1. intros L1. apply pend_bind. eapply pend_weaken with (Q := fun _ _ => True).
  { unfold read_unescape. apply pend_bind. set (buf := if s_named s then _ else _). pose proof (zlen_nonneg buf). eapply pend_weaken; [apply p_read_subst; lia|]. intros m [n b] _ _. exact I. }
  intros m [c buf] _ _. cbn zeta. unfold process_string. destruct (_ || _); [exact I|]. destruct (s_named s); exact I.
Qed.
Lemma str_to_type_nil x t : str_to_type x [] t = None.
Proof. destruct t; reflexivity. Qed.
Lemma p_char x f s N : N < f -> pend N (process_char x f s) (fun m r => snd r = false -> s_complete (fst r) = true /\ m < N).
Proof.
  intros L. unfold process_char. cbn [pend]. intros c _. destruct (is_literal c); [|cbn; discriminate].
  pbnd (p_read_until f [TkChar 44; TkChar 32; TkChar 125; TkChar 93; TkNotify 46] N L). intros m [block fp] _ H. cbn [fst] in H.
  destruct (str_to_type x block _) eqn:E; [|exact I]. cbn [pend snd fst s_complete]. intros d _ _. split; [reflexivity|].
  destruct block; [rewrite str_to_type_nil in E; discriminate|]. cbn [length] in H. unfold zlen in H. cbn [length] in H. lia.
Qed.
Lemma p_item x f st s N : N < f -> pend N (process_item x f st s) (fun m r => snd r = false -> s_complete (snd (fst r)) = true /\ m < N).
Proof.
  intros L. unfold process_item. cbn [pend]. intros c _. destruct (c =? 34)%Z; [pbnd (p_quote f st s N L); intros m [a b] _ _; cbn; discriminate|].
  destruct (c =? 58)%Z; [destruct (s_reading s); cbn; [exact I|discriminate]|].
  destruct (existsb _ _).
  { unfold process_bracket. destruct (ty_eqb _ _); [destruct (j_stack st)|]; cbn; try exact I; discriminate. }
  destruct (c =? 47)%Z.
  { apply pend_bind. eapply pend_weaken with (Q := fun _ _ => True); [|intros m a _ _; cbn; discriminate]. unfold skip_comment. cbn [pend]. intros [|]; [|exact I]. cbn [pend]. intros d _.
    destruct (d =? 42)%Z; [pbnd (p_until false f [TkPair 42 47] N L); intros; exact I|]. destruct (d =? 47)%Z; [pbnd (p_until false f [TkChar 10; TkChar 13] N L); intros; exact I|exact I]. }
  pbnd (p_char x f s N L). intros m [s' mv] _ H. cbn [pend fst snd] in *. exact H.
Qed.
Lemma p_json_loop x f : forall n st s N, N < n -> N < f -> pend N (json_loop x f n st s) (fun m _ => m < N).
Proof.
  induction n as [|n IH]; intros st s N L1 L2; [lia|]. cbn [json_loop]. apply pend_bind. eapply pend_weaken with (Q := fun _ _ => True).
  { unfold seek_item. destruct (_ && _); (eapply pend_weaken; [apply p_until, L2|]; intros; exact I). }
  intros m a Lm _. pbnd (p_item x f st s m ltac:(lia)). intros m1 [[st' s'] mv] Lm1 H. cbn [fst snd] in H. cbn zeta. destruct mv.
  - cbn [pend]. change (Z.to_nat 1) with 1. intros L3. destruct (s_complete s'); [cbn; lia|]. eapply pend_weaken; [apply IH; lia|]. cbv beta. intros; lia.
  - destruct (H eq_refl) as [-> H2]. cbn. lia.
Qed.
Lemma p_json x f st N : N < f -> pend N (json_read x f st) (fun m _ => m < N).
Proof. intros L. now apply p_json_loop. Qed.

(** * Both kinds of facts at once *)
Lemma pend_gok {A} (p : prog A) Q G : forall N, pend N p Q -> gok p G -> pend N p (fun m a => Q m a /\ G a).
Proof. induction p as [r| |u| |k IH|n k IH|n k IH|n k IH|o k IH|n k IH|bb k IH|n k IH|k IH]; intros N H X; cbn [pend gok] in *; auto. Qed.
