(** What the parsers hand over when they read arbitrary bytes: values that the constructors of Srl::Value produce. *)
From Coq Require Import ZArith List Bool Lia ZifyBool ZifyNat.
From Verif Require Import Base Lemmas M_Types M_Conv M_Charset M_In S_Conv S_Charset S_Doc M_Event M_PSrl M_MsgPack M_Json M_TreeIO M_Tree S_ObjSafe
  P_In P_Conv P_Text P_Paste P_Float P_Charset P_MsgPack.
Import ListNotations.
Open Scope Z_scope.

(** [p] returns only what satisfies [Q], whatever bytes it meets *)
Fixpoint gok {A} (p : prog A) (Q : A -> Prop) : Prop :=
  match p with
  | Ret a => Q a
  | Throw | Undef _ | OutOfFuel => True
  | NotNull k | Move _ k | Peek _ k | Adv _ k | Anchor _ k => gok k Q
  | TryPeek _ k => forall b, gok (k b) Q
  | Deref _ k => forall c, is_byte c -> gok (k c) Q
  | Back n k => forall bs, wf_bytes bs -> zlen bs = Z.max 0 n -> gok (k bs) Q
  | LeftM1 k => forall z, gok (k z) Q
  end.
Lemma gok_bind {A B} (p : prog A) (f : A -> prog B) Q : gok p (fun a => gok (f a) Q) -> gok (pbind p f) Q.
Proof. induction p; cbn; auto. Qed.
Lemma gok_weaken {A} (p : prog A) (Q R : A -> Prop) : gok p Q -> (forall a, Q a -> R a) -> gok p R.
Proof. induction p; cbn; eauto. Qed.
Lemma gok_lift {A} (r : res A) (Q : A -> Prop) : (forall a, r = Ok a -> Q a) -> gok (lift r) Q.
Proof. destruct r; cbn; auto. Qed.

Definition wf_blk (b : blk) : Prop := wf_bytes (b_done b) /\ wf_bytes (b_rest b).
Lemma wf_firstn n (l : bytes) : wf_bytes l -> wf_bytes (firstn n l).
Proof. intros H. apply Forall_forall. intros x X. unfold wf_bytes in H. rewrite Forall_forall in H. apply H. rewrite <- (firstn_skipn n l). apply in_or_app. now left. Qed.
Lemma wf_skipn n (l : bytes) : wf_bytes l -> wf_bytes (skipn n l).
Proof. intros H. apply Forall_forall. intros x X. unfold wf_bytes in H. rewrite Forall_forall in H. apply H. rewrite <- (firstn_skipn n l). apply in_or_app. now right. Qed.
Lemma wf_rev (l : bytes) : wf_bytes l -> wf_bytes (rev l).
Proof. intros H. apply Forall_rev, H. Qed.
Lemma wf_moved n b : wf_blk b -> wf_blk (mkBlk (rev_append (firstn n (b_rest b)) (b_done b)) (skipn n (b_rest b))).
Proof. intros [A B]. split; cbn [b_done b_rest]; [|now apply wf_skipn]. rewrite rev_append_rev. apply Forall_app. split; [apply wf_rev, wf_firstn, B|exact A]. Qed.
Lemma gok_run {A} (p : prog A) Q : gok p Q -> forall b a b', wf_blk b -> run_block p b = Ok (a, b') -> Q a /\ wf_blk b'.
Proof.
  induction p as [r| |u| |k IH|n k IH|n k IH|n k IH|o k IH|n k IH|bb k IH|n k IH|k IH]; cbn [gok run_block]; intros G b a b' W H; try discriminate H.
  - inversion H; subst. auto.
  - destruct (b_done b), (b_rest b); try discriminate H; eapply IH; eauto.
  - destruct (_ <=? n); [discriminate H|]. destruct (_ <=? _); [|discriminate H]. eapply IH; [exact G| |exact H]. now apply wf_moved.
  - destruct (_ <=? n); [discriminate H|]. destruct (_ <=? _); [|discriminate H]. eapply IH; eauto.
  - eapply IH; eauto.
  - destruct (nth_error (b_rest b) o) as [c|] eqn:E; [|discriminate H]. eapply IH; [apply G|exact W|exact H]. apply nth_error_In in E. destruct W as [_ W]. unfold wf_bytes in W. rewrite Forall_forall in W. auto.
  - destruct (_ <=? _)%nat; [|discriminate H]. eapply IH; [exact G| |exact H]. now apply wf_moved.
  - eapply IH; eauto.
  - destruct (n <=? zlen (b_done b)) eqn:L; [|discriminate H]. eapply IH; [apply G|exact W|exact H]; [apply wf_rev, wf_firstn, W|].
    unfold zlen in *. rewrite rev_length, firstn_length. lia.
  - eapply IH; eauto.
Qed.

Ltac gbnd H := apply gok_bind; eapply gok_weaken; [apply H|].

Lemma g_block n : gok (read_block n) (fun bs => wf_bytes bs /\ zlen bs = Z.max 0 n).
Proof. cbn. auto. Qed.
Lemma g_move n : 0 <= n -> gok (read_move n) (fun x => 0 <= x < 256 ^ n).
Proof. intros N. unfold read_move. gbnd (g_block n). intros bs [W L]. cbn. pose proof (unle_bound bs W) as B. unfold zlen in L. replace (Z.max 0 n) with n in L by lia. rewrite <- L. exact B. Qed.
Lemma g_swapped n : 0 <= n -> gok (read_swapped n) (fun x => 0 <= x < 256 ^ n).
Proof. intros N. unfold read_swapped. gbnd (g_block n). intros bs [W L]. cbn. pose proof (unle_bound (rev bs) (wf_rev _ W)) as B. unfold zlen in B, L. rewrite rev_length in B. replace (Z.max 0 n) with n in L by lia. rewrite <- L. exact B. Qed.

(** * Values *)
Definition sane (v : value) : Prop := sound_event ([], v).
Lemma sane_data t d e : t = TString \/ t = TBinary -> wf_bytes d -> sane (mkValue t 0 (trunc_block d) e).
Proof.
  intros T W. unfold sane, sound_event, wf_value. destruct T as [-> | ->]; cbn [snd v_type v_data].
  all: split; [apply wf_firstn, W|]; unfold trunc_block, zlen; rewrite firstn_length; unfold u32; pose proof (Z.mod_pos_bound (Z.of_nat (length d)) two32 ltac:(reflexivity)); unfold two32 in *; lia.
Qed.
Lemma sane_i64 n : sane (val_int TI64 n).
Proof.
  cbn. exists (s64 (u64 n)). unfold u64 at 1. pose proof (Z.mod_pos_bound n two64 ltac:(reflexivity)) as B. unfold in_range, s64, u64. cbn [int_min int_max]. unfold_words.
  destruct (_ <? _) eqn:E; (split; [lia|]).
  - now rewrite Z.mod_mod.
  - replace (n mod 18446744073709551616 - 18446744073709551616) with (n mod 18446744073709551616 + (-1) * 18446744073709551616) by lia. rewrite Z.mod_add by lia. now rewrite Z.mod_mod.
Qed.
Lemma sane_u64 n : sane (val_int TUI64 n).
Proof.
  cbn. exists (u64 n). unfold in_range, u64. cbn [int_min int_max]. pose proof (Z.mod_pos_bound n two64 ltac:(reflexivity)) as B. unfold_words. split; [lia|]. now rewrite Z.mod_mod.
Qed.
Lemma sane_f64 d : 0 <= d < 2 ^ 64 -> sane (val_f64 d).
Proof.
  intros H. unfold sane, sound_event. unfold val_f64. destruct (narrow64 d) as [f|] eqn:E; cbn; [|unfold wf_value; cbn; lia].
  destruct (narrow64_sound d f ltac:(unfold_words; lia) E) as (_ & R & _). unfold wf_value. cbn. unfold_words. lia.
Qed.
Lemma sane_bool b : sane (val_bool b).
Proof. destruct b; cbn; auto. Qed.

Definition good {S} (r : S * event) : Prop := sound_event (snd r).
(** * PSrl *)
Lemma g_num flag : gok (psrl_read_num flag) sane.
Proof.
  unfold psrl_read_num. destruct (has flag _); [apply sane_bool|]. destruct (has flag FFP32).
  { gbnd (g_move 4 ltac:(lia)). intros x B. exact B. }
  destruct (has flag FFP64). { gbnd (g_move 8 ltac:(lia)). intros x B. apply sane_f64. exact B. }
  apply gok_bind. eapply gok_weaken with (Q := fun _ => True).
  - unfold decode_integer. clear. assert (D : forall f b o s, gok (decode_loop f b o s) (fun _ => True)).
    { induction f as [|f IH]; intros; cbn [decode_loop]; [exact I|]. destruct (has _ _); [|destruct (_ <? _); exact I]. cbn [gok]. intros c _. destruct (_ <=? _); [exact I|apply IH]. }
    cbn [gok]. intros; apply D.
  - intros n _. destruct (has flag FSigned); [|apply sane_u64]. destruct (_ =? _); [exact I|apply sane_i64].
Qed.
Lemma g_decode : gok decode_integer (fun _ => True).
Proof.
  unfold decode_integer. assert (D : forall f b o s, gok (decode_loop f b o s) (fun _ => True)).
  { induction f as [|f IH]; intros; cbn [decode_loop]; [exact I|]. destruct (has _ _); [|destruct (_ <? _); exact I]. cbn [gok]. intros c _. destruct (_ <=? _); [exact I|apply IH]. }
  cbn [gok]. intros; apply D.
Qed.
Lemma g_psrl st : gok (psrl_read st) good.
Proof.
  unfold psrl_read. apply gok_bind. eapply gok_weaken with (Q := fun _ => True).
  { unfold psrl_read_head. gbnd (g_move 1 ltac:(lia)). intros flag _. destruct (_ || _); [exact I|]. destruct (has flag FIndexed).
    - gbnd g_decode. intros i _. destruct (_ <=? _); [exact I|]. destruct (nth_error _ _); exact I.
    - gbnd g_decode. intros n _. gbnd (g_block n). intros bs _. exact I. }
  intros [st1 [flag name]] _. destruct (flag =? 0).
  { destruct (ps_stack st1); [exact I|]. apply gok_bind, gok_lift. intros; exact I. }
  destruct (flag_is_scope flag). { cbn. destruct (has flag FObject); exact I. }
  destruct (has flag FNum). { gbnd g_num. intros v H. exact H. }
  destruct (has flag (Z.lor FBinary FString)).
  { gbnd g_decode. intros n _. gbnd (g_block n). intros bs [W _]. apply (sane_data (if has flag FBinary then TBinary else TString) bs EUTF8); [destruct (has flag FBinary); auto|exact W]. }
  destruct (has flag FNull); exact I.
Qed.

(** * MessagePack *)
Lemma sane_int t x : is_int_ty t = true -> 0 <= x < 256 ^ Z.of_nat (int_bytes t) -> sane (val_int t (if is_signed t then to_signed (int_bytes t) x else x)).
Proof.
  intros T B. assert (R : in_range t (if is_signed t then to_signed (int_bytes t) x else x)).
  { destruct t; try discriminate T; cbn [is_signed int_bytes] in *; unfold in_range, to_signed; cbn [int_min int_max]; try destruct (_ <? _) eqn:E; cbn in *; unfold_words; lia. }
  unfold sane, sound_event, wf_value, val_int. destruct t; try discriminate T; cbn [snd v_type v_raw]; eauto.
Qed.
Lemma g_int t : is_int_ty t = true -> gok (mp_read_int t) sane.
Proof. intros T. unfold mp_read_int. gbnd (g_swapped (Z.of_nat (int_bytes t)) ltac:(lia)). intros x B. now apply sane_int. Qed.
Lemma g_scalar p : gok (mp_read_scalar p) sane.
Proof.
  unfold mp_read_scalar. destruct (_ || _); [apply sane_bool|]. destruct (_ && _).
  - unfold mp_read_num. repeat (destruct (p =? _)); try (apply g_int; reflexivity); try exact I.
    + gbnd (g_swapped 4 ltac:(lia)). intros x B. exact B.
    + gbnd (g_swapped 8 ltac:(lia)). intros x B. apply sane_f64. exact B.
  - destruct (p =? 192); [exact I|]. unfold mp_read_fixnum. cbn [gok]. unfold sane, sound_event, wf_value, val_int. cbn [snd v_type v_raw]. eexists. split; [|reflexivity]. unfold in_range. cbn [int_min int_max].
    destruct (negb _).
    + rewrite Z.land_comm. change 31 with (Z.ones 5). rewrite Z.land_ones by lia. pose proof (Z.mod_pos_bound p (2 ^ 5) ltac:(lia)). unfold_words. lia.
    + rewrite Z.land_comm. change 127 with (Z.ones 7). rewrite Z.land_ones by lia. pose proof (Z.mod_pos_bound p (2 ^ 7) ltac:(lia)). unfold_words. lia.
Qed.
Lemma g_str p : gok (mp_read_str p) sane.
Proof.
  unfold mp_read_str. apply gok_bind. eapply gok_weaken with (Q := fun _ => True).
  { unfold mp_str_size. destruct (_ && _); [exact I|]. repeat (destruct (p =? _)); (eapply gok_weaken; [apply g_move; lia|]; intros; exact I). }
  intros n _. gbnd (g_block n). intros bs [W _]. apply sane_data; auto.
Qed.
Lemma g_bin p : gok (mp_read_bin p) sane.
Proof.
  unfold mp_read_bin. apply gok_bind. eapply gok_weaken with (Q := fun _ => True).
  { unfold mp_bin_size. repeat (destruct (p =? _)); (eapply gok_weaken; [apply g_move; lia|]; intros; exact I). }
  intros n _. gbnd (g_block n). intros bs [W _]. apply sane_data; auto.
Qed.
Lemma g_value st name p : gok (mp_read_value st name p) good.
Proof.
  unfold mp_read_value. destruct (prefix_is_scope p).
  { apply gok_bind. eapply gok_weaken with (Q := fun r => fst r = TObject \/ fst r = TArray).
    - unfold mp_scope_info. destruct (negb _); [|cbn; destruct (negb _); auto]. destruct (negb (Z.land p 1 =? 0)).
      + gbnd (g_swapped 4 ltac:(lia)). intros n _. cbn. destruct (negb _); auto.
      + gbnd (g_swapped 2 ltac:(lia)). intros n _. cbn. destruct (negb _); auto.
    - intros [t n] H. cbn in H. destruct H as [-> | ->]; exact I. }
  destruct (prefix_is_str p); [gbnd (g_str p); intros v H; exact H|]. destruct (prefix_is_scalar p); [gbnd (g_scalar p); intros v H; exact H|].
  destruct (prefix_is_bin p); [gbnd (g_bin p); intros v H; exact H|exact I].
Qed.
Lemma g_msgp st : gok (msgp_read st) good.
Proof.
  unfold msgp_read. destruct (mp_stack st) as [|s stack].
  - gbnd (g_move 1 ltac:(lia)). intros p _. apply g_value.
  - destruct (_ <? _); [exact I|]. gbnd (g_move 1 ltac:(lia)). intros p _. destruct (ty_eqb _ _); [|apply g_value].
    apply gok_bind. eapply gok_weaken with (Q := fun _ => True).
    + destruct (prefix_is_str p); [|exact I]. unfold mp_read_name. gbnd (g_str p). intros; exact I.
    + intros name _. gbnd (g_move 1 ltac:(lia)). intros q _. apply g_value.
Qed.

(** * JSON *)
Definition wf_bufs (st : pjson) : Prop := wf_bytes (j_nbuf st) /\ wf_bytes (j_vbuf st).
Lemma wf_repeat0 n : wf_bytes (repeat 0 n).
Proof. induction n; cbn; constructor; auto. unfold is_byte. lia. Qed.
Lemma wf_resize b n : wf_bytes b -> wf_bytes (resize b n).
Proof. intros W. unfold resize. apply Forall_app. split; [now apply wf_firstn|apply wf_repeat0]. Qed.
Lemma wf_store b i c b' : wf_bytes b -> wf_bytes c -> store b i c = Ok b' -> wf_bytes b'.
Proof.
  intros B C. unfold store. destruct c; [intros X; inversion X; subst; exact B|]. destruct (_ <=? _); [|discriminate]. intros X. injection X as <-. change (wf_bytes (firstn (Z.to_nat i) b ++ (z :: c) ++ skipn (Z.to_nat i + length (z :: c)) b)).
  apply Forall_app. split; [now apply wf_firstn|]. apply Forall_app. split; [exact C|now apply wf_skipn].
Qed.
Lemma wf_iconv to from : forall f src lo, wf_bytes src -> let '(o, r, _, _) := iconv f to from src lo in wf_bytes o /\ wf_bytes r.
Proof.
  induction f as [|f IH]; intros src lo W; cbn [iconv]; destruct src as [|c src]; try (split; [constructor|]; exact W).
  set (s := c :: src) in *. destruct (decode from s) as [ch n| |] eqn:D; try (split; [constructor|exact W]).
  destruct (_ <=? _); [|split; [constructor|exact W]]. specialize (IH (skipn n s) (lo - zlen (encode to ch)) (wf_skipn _ _ W)).
  destruct (iconv _ _ _ _ _) as [[[o r] l] e]. destruct IH as [A B]. split; [|exact B]. apply Forall_app. split; [|exact A].
  apply wf_encode. destruct (decode_sound from s ch n W D) as (H & _). exact H.
Qed.
Lemma wf_conv_loop to from th : forall f idx cv buf src lo n b', wf_bytes buf -> wf_bytes src -> conv_loop f to from th idx cv buf src lo = Ok (n, b') -> wf_bytes b'.
Proof.
  induction f as [|f IH]; intros idx cv buf src lo n b' WB WS; cbn [conv_loop]; [discriminate|]. pose proof (wf_iconv to from (length src) src lo WS) as WI.
  destruct (iconv _ _ _ _ _) as [[[o r] l] e]. destruct WI as [A B]. destruct (store buf (idx + cv) o) as [b1| | |] eqn:S; cbn [rbind]; try discriminate.
  pose proof (wf_store _ _ _ _ WB A S) as W1. destruct e.
  all: first [destruct th; [discriminate|]; intros X; inversion X; subst; exact W1 | intros X; injection X as _ <-; exact W1 |
    intros X; eapply IH; [| |exact X]; [now apply wf_resize|exact B]].
Qed.
Lemma wf_conv to from data buf th idx n b' : wf_bytes buf -> wf_bytes data -> conv_charset to from data buf th idx = Ok (n, b') -> wf_bytes b'.
Proof.
  intros WB WD. unfold conv_charset. destruct data as [|c d]; [intros X; inversion X; subst; exact WB|]. set (data := c :: d) in *. destruct (enc_eqb to from).
  - cbv zeta. destruct (store _ idx data) as [b2| | |] eqn:S; cbn [rbind]; try discriminate. intros X. inversion X; subst. eapply wf_store; [| |exact S]; [destruct (_ <? _); auto using wf_resize|exact WD].
  - destruct (_ || _); [destruct th; [discriminate|]; intros X; inversion X; subst; exact WB|]. intros X. eapply wf_conv_loop; [| |exact X]; [destruct (_ <? _); auto using wf_resize|exact WD].
Qed.
Lemma wf_hex s : forall h, hex_loop s = Ok h -> wf_bytes h.
Proof.
  remember (length s) as n. assert (L : (length s <= n)%nat) by lia. clear Heqn. revert s L. induction n as [|n IH]; intros s L h.
  { destruct s; [|cbn in L; lia]. cbn. intros X. inversion X; constructor. }
  destruct s as [|a [|b s]]; cbn [hex_loop]; try discriminate; [intros X; inversion X; constructor|].
  destruct (hex_conv a); cbn [rbind]; try discriminate. destruct (hex_conv b); cbn [rbind]; try discriminate. destruct (hex_loop s) as [r| | |] eqn:E; cbn [rbind]; try discriminate.
  intros X. inversion X; subst. constructor; [|eapply IH; [|exact E]; cbn [length] in L; lia]. unfold is_byte, u8. apply Z.mod_pos_bound. reflexivity.
Qed.

Lemma g_put buf idx c n : wf_bytes buf -> is_byte c -> gok (put buf idx c n) (fun r => wf_bytes (snd r)).
Proof. intros W C. unfold put. apply gok_bind, gok_lift. intros b' S. cbn. eapply wf_store; [exact W| |exact S]. constructor; [exact C|constructor]. Qed.
Lemma g_subst buf idx left : wf_bytes buf -> gok (substitute_token buf idx left) (fun r => wf_bytes (snd r)).
Proof.
  intros W. unfold substitute_token. destruct (_ <=? _); [|intros a A; now apply g_put]. intros a A b B. destruct (a =? 92); [|now apply g_put].
  destruct (substitute_of b) as [c|] eqn:S.
  - apply g_put; [exact W|]. unfold substitute_of in S. repeat (destruct (b =? _); [inversion S; subst; unfold is_byte; lia|]). discriminate.
  - destruct (b =? 117); [|now apply g_put]. unfold uc_literal. gbnd (g_block 6). intros bs [WB _]. apply gok_bind, gok_lift. intros h H. apply gok_lift. intros [n b'] X. cbn.
    eapply wf_conv; [exact W| |exact X]. unfold hex_to_bytes_dest in H. destruct (negb _); [discriminate|]. destruct (Nat.ltb _ _); [discriminate|]. eapply wf_hex, H.
Qed.
Lemma g_read_subst delim : forall f buf bufsz steps, wf_bytes buf -> gok (read_substitute f delim buf bufsz steps) (fun r => wf_bytes (snd r)).
Proof.
  induction f as [|f IH]; intros buf bufsz steps W; cbn [read_substitute gok]; [exact I|]. intros c _. destruct (c =? delim); [exact W|]. cbn zeta.
  set (b2 := if bufsz <? steps + 1 then _ else _). set (b1 := if bufsz <? steps + 1 then _ else _). assert (W2 : wf_bytes b2) by (unfold b2; destruct (_ <? _); auto using wf_resize).
  assert (G : forall l, gok (let! (n, buf') := substitute_token b2 steps l in read_substitute f delim buf' b1 (steps + n)) (fun r => wf_bytes (snd r))).
  { intros l. gbnd (g_subst b2 steps l W2). intros [n b'] H. now apply IH. }
  intros [|]; [apply G|]. cbn [gok]. apply G.
Qed.
Lemma g_unescape f buf : wf_bytes buf -> gok (read_unescape f buf) (fun r => wf_bytes (fst r) /\ wf_bytes (snd r)).
Proof. intros W. unfold read_unescape. gbnd (g_read_subst 34 f buf (zlen buf) 0 W). intros [n b] H. cbn in *. split; [now apply wf_firstn|exact H]. Qed.
Lemma g_at ts : forall note, gok (is_at_token ts note) (fun _ => True).
Proof.
  induction ts as [|[c|a b|c] ts IH]; intros note; cbn [is_at_token gok]; auto.
  - intros x _. destruct (_ =? _); [exact I|apply IH].
  - intros [|]; [|apply IH]. cbn [gok]. intros x _. destruct (x =? a); [|apply IH]. cbn [gok]. intros y _. destruct (y =? b); [exact I|apply IH].
Qed.
Lemma g_loop neg ts : forall f steps note, gok (move_loop f neg ts steps note) (fun _ => True).
Proof. induction f as [|f IH]; intros; cbn [move_loop]; [exact I|]. gbnd (g_at ts note). intros [t n] _. destruct (Bool.eqb _ _); [apply IH|exact I]. Qed.
Lemma g_until f ts : gok (move_until f ts) (fun _ => True).
Proof. apply g_loop. Qed.

Section Json.
Variable x : fp_text.
Hypothesis STRTOD : forall s d, x_strtod x s = Some d -> 0 <= d < 2 ^ 64.
Lemma sane_text s hint v : str_to_type x s hint = Some v -> sane v.
Proof.
  unfold str_to_type. destruct (trim_space s) as [|c0 r] eqn:T; [discriminate|]. rewrite <- T.
  destruct (_ && _ && _); [intros X; inversion X; apply sane_bool|]. destruct (_ && _ && _); [intros X; inversion X; apply sane_bool|]. destruct (_ && _ && _); [intros X; inversion X; exact I|].
  assert (FP : match x_strtod x (trim_space s) with Some bits => Some (val_f64 bits) | None => None end = Some v -> sane v).
  { destruct (x_strtod x (trim_space s)) as [d|] eqn:E; [|discriminate]. intros X. inversion X. apply sane_f64. eapply STRTOD, E. }
  destruct (is_fp hint); [exact FP|]. destruct (str_to_int _) as [[i sg] ok]. destruct ok; [|exact FP]. intros X. inversion X. destruct sg; [apply sane_i64|apply sane_u64].
Qed.
Definition jgood (s : jstate) : Prop := s_complete s = true -> sane (s_value s).
Lemma g_item f st s : wf_bufs st -> jgood s -> gok (process_item x f st s) (fun r => wf_bufs (fst (fst r)) /\ jgood (snd (fst r))).
Proof.
  intros W G. unfold process_item. cbn [gok]. intros c _. destruct (c =? 34).
  { apply gok_bind. eapply gok_weaken with (Q := fun r => wf_bufs (fst r) /\ jgood (snd r)); [|intros [a b] H; exact H]. unfold process_quote.
    destruct (ty_eqb _ _); [exact I|]. cbn [gok]. gbnd (g_unescape f (if s_named s then j_vbuf st else j_nbuf st) ltac:(destruct (s_named s); apply W)). intros [content buf] [A B]. cbn [fst snd] in *.
    set (st' := if s_named s then _ else _). assert (W' : wf_bufs st') by (unfold st', wf_bufs; destruct (s_named s); cbn; split; auto; apply W).
    apply gok_bind. eapply gok_weaken with (Q := jgood); [|intros s' H; split; [exact W'|exact H]]. unfold process_string. destruct (_ || _); [|destruct (s_named s); [exact I|exact G]].
    intros _. cbn [s_value]. apply (sane_data TString content EUTF8); auto. }
  destruct (c =? 58); [destruct (s_reading s); [exact I|split; auto]|].
  destruct (existsb _ _).
  { apply gok_bind. eapply gok_weaken with (Q := fun r => wf_bufs (fst r) /\ jgood (snd r)); [|intros [a b] H; exact H]. unfold process_bracket.
    assert (X : forall t stack ty, In t [TObject; TArray; TScopeEnd] -> gok (Ret (mkPjson (j_compact st) stack ty (j_closed st) (j_nbuf st) (j_vbuf st), mkJs (s_name s) (val_type t) true (s_named s) (s_reading s))) (fun r => wf_bufs (fst r) /\ jgood (snd r))).
    { intros t stack ty T. split; [exact W|]. intros _. cbn in *. destruct T as [<-|[<-|[<-|[]]]]; exact I. }
    destruct (c =? 123); [apply X; cbn; auto|]. destruct (c =? 91); [apply X; cbn; auto|]. cbn [ty_eqb ty_num Z.eqb]. change (ty_eqb TScopeEnd TScopeEnd) with true. cbn iota.
    destruct (j_stack st); [exact I|apply X; cbn; auto]. }
  destruct (c =? 47).
  { apply gok_bind. eapply gok_weaken with (Q := fun _ => True); [|intros; split; auto]. unfold skip_comment. cbn [gok]. intros [|]; [|exact I]. cbn [gok]. intros d _.
    destruct (d =? 42); [gbnd (g_until f [TkPair 42 47]); intros; exact I|]. destruct (d =? 47); [gbnd (g_until f [TkChar 10; TkChar 13]); intros; exact I|exact I]. }
  apply gok_bind. eapply gok_weaken with (Q := fun r => jgood (fst r)); [|intros [s' mv] H; split; [exact W|exact H]]. unfold process_char. cbn [gok]. intros e _.
  destruct (is_literal e); [|exact G]. unfold read_block_until. cbn [pbind gok]. apply gok_bind. gbnd (g_until f [TkChar 44; TkChar 32; TkChar 125; TkChar 93; TkNotify 46]). intros [steps fp] _. cbn [gok]. intros bs _ _.
  destruct (str_to_type x bs _) as [v|] eqn:E; [|exact I]. cbn [gok]. intros d _ _. cbn. eapply sane_text, E.
Qed.
Lemma g_json f : forall n st s, wf_bufs st -> jgood s -> gok (json_loop x f n st s) (fun r => wf_bufs (fst r) /\ good r).
Proof.
  induction n as [|n IH]; intros st s W G; cbn [json_loop]; [exact I|]. apply gok_bind. eapply gok_weaken with (Q := fun _ => True).
  { unfold seek_item. destruct (_ && _); [apply g_until|apply g_loop]. }
  intros _ _. gbnd (g_item f st s W G). intros [[st' s'] mv] [A B]. cbn [fst snd] in *.
  assert (N : gok (if s_complete s' then Ret (st', (s_name s', s_value s')) else json_loop x f n st' s') (fun r => wf_bufs (fst r) /\ good r)).
  { destruct (s_complete s') eqn:C; [|now apply IH]. split; [exact A|]. apply B, C. }
  destruct mv; exact N.
Qed.
Lemma g_json_read f st : wf_bufs st -> gok (json_read x f st) (fun r => wf_bufs (fst r) /\ good r).
Proof. intros W. apply g_json; [exact W|]. intros X. discriminate X. Qed.
End Json.

(** * The same from a stream *)
Definition wf_strm (s : strm) : Prop :=
  wf_bytes (s_win s) /\ wf_bytes (s_src s) /\ (s_pos s <= length (s_win s))%nat /\ match s_anchor s with Some a => (a <= s_pos s)%nat | None => True end.
Lemma wf_fetch n r s ok s' : wf_strm s -> fetch n r s = (ok, s') -> wf_strm s' /\ (ok = true -> (s_pos s' + Z.to_nat n <= length (s_win s'))%nat).
Proof.
  intros (A & B & C & D). unfold fetch. destruct (s_eof s); [intros X; inversion X; subst; split; [repeat split; auto|discriminate]|]. cbn zeta.
  set (kp := match s_anchor s with Some a => a | None => s_pos s end). assert (K : (kp <= s_pos s)%nat) by (unfold kp; destruct (s_anchor s); auto).
  set (got := firstn _ (s_src s)). intros X. inversion X; subst; clear X. assert (LG : (length (skipn (kp - Nat.min kp 32) (s_win s)) = length (s_win s) - (kp - Nat.min kp 32))%nat) by apply skipn_length.
  split.
  - split; [|split; [|split]]; cbn [s_win s_src s_pos s_anchor].
    + apply Forall_app. split; [now apply wf_skipn|now apply wf_firstn].
    + now apply wf_skipn.
    + rewrite app_length, LG. lia.
    + unfold kp in *. destruct (s_anchor s); [exact I|]. lia.
  - cbn [s_win s_pos]. rewrite app_length, LG. unfold zlen. intros H. lia.
Qed.
Lemma wf_need n s ok s' : wf_strm s -> need n s = (ok, s') -> wf_strm s' /\ (ok = true -> (s_pos s' + Z.to_nat n <= length (s_win s'))%nat).
Proof. intros W. unfold need. destruct (_ <? _) eqn:L; [|now apply wf_fetch]. intros X. inversion X; subst. split; [exact W|]. intros _. destruct W as (_ & _ & W & _). unfold zlen in L. lia. Qed.
Lemma wf_set_stream src : wf_bytes src -> wf_strm (set_stream src).
Proof.
  intros W. unfold set_stream. destruct (fetch 0 1 (mkStrm [] 0 None src false)) as [ok s'] eqn:E. eapply wf_fetch; [|exact E]. repeat split; cbn; auto. constructor.
Qed.
Lemma gok_stream {A} (p : prog A) Q : gok p Q -> forall s a s', wf_strm s -> run_stream p s = Ok (a, s') -> Q a /\ wf_strm s'.
Proof.
  induction p as [r| |u| |k IH|n k IH|n k IH|n k IH|o k IH|n k IH|bb k IH|n k IH|k IH]; cbn [gok run_stream]; intros G s a s' W H; try discriminate H.
  - inversion H; subst. auto.
  - eapply IH; eauto.
  - destruct (_ <=? n); [discriminate H|]. destruct (need n s) as [ok s1] eqn:N. destruct (wf_need _ _ _ _ W N) as [(W1 & W2 & W3 & W4) L]. destruct ok; [|discriminate H]. eapply IH; [exact G| |exact H].
    split; [|split; [|split]]; cbn [s_win s_src s_pos s_anchor]; auto. destruct (s_anchor s1); [lia|exact I].
  - destruct (_ <=? n); [discriminate H|]. destruct (need n s) as [ok s1] eqn:N. destruct (wf_need _ _ _ _ W N) as [W1 _]. destruct ok; [|discriminate H]. eapply IH; eauto.
  - destruct (need n s) as [ok s1] eqn:N. destruct (wf_need _ _ _ _ W N) as [W1 _]. eapply IH; [apply G|exact W1|exact H].
  - destruct (nth_error (s_win s) (s_pos s + o)) as [c|] eqn:E; [|discriminate H]. eapply IH; [apply G|exact W|exact H]. apply nth_error_In in E. destruct W as [W _]. unfold wf_bytes in W. rewrite Forall_forall in W. auto.
  - destruct (_ <=? _)%nat eqn:L; [|discriminate H]. destruct W as (W1 & W2 & W3 & W4). eapply IH; [exact G| |exact H]. split; [|split; [|split]]; cbn [s_win s_src s_pos s_anchor]; auto; [lia|]. destruct (s_anchor s); [lia|exact I].
  - destruct W as (W1 & W2 & W3 & W4). destruct bb; (eapply IH; [exact G| |exact H]); (split; [|split; [|split]]); cbn [s_win s_src s_pos s_anchor]; auto.
  - destruct (n <=? _) eqn:L; [|discriminate H]. eapply IH; [apply G|exact W|exact H]; destruct W as (W1 & W2 & W3 & W4); [now apply wf_firstn, wf_skipn|].
    unfold zlen in *. rewrite firstn_length, skipn_length. lia.
  - eapply IH; [apply G|exact W|exact H].
Qed.

(** * Programs over items: what goes wrong *)
Section Items.
Context {St R : Type} (rd : St -> prog (St * event)) (I : St -> Prop).
Hypothesis RD : forall st, I st -> gok (rd st) (fun r => I (fst r) /\ good r).
Lemma ecomp_ub (p : eprog R) : forall st b u, I st -> wf_blk b -> run_block (ecomp rd p st) b = UB u ->
  (exists n, run_block (read_events rd n st) b = UB u) \/
  (exists n st' es b', run_block (read_events rd n st) b = Ok ((st', es), b') /\ Forall sound_event es /\ erun p es = Some (UB u)).
Proof.
  induction p as [r| |v| |k IH]; intros st b u HI HB H; cbn [ecomp run_block] in H; try discriminate H.
  - right. exists 0%nat, st, [], b. split; [reflexivity|]. split; [constructor|]. cbn. inversion H. reflexivity.
  - rewrite run_block_bind in H. destruct (run_block (rd st) b) as [[[st1 e] b1]| |v|] eqn:E; cbn [rbind] in H; try discriminate H.
    + destruct (gok_run _ _ (RD st HI) b (st1, e) b1 HB E) as [[I1 G1] B1]. cbn [fst snd] in *. destruct (IH e st1 b1 u I1 B1 H) as [(n & X)|(n & st' & es & b' & X & Y & Z)].
      * left. exists (S n). cbn [read_events]. rewrite run_block_bind, E. cbn [rbind]. rewrite run_block_bind, X. reflexivity.
      * right. exists (S n), st', (e :: es), b'. split; [|split; [constructor; auto|exact Z]]. cbn [read_events]. rewrite run_block_bind, E. cbn [rbind]. rewrite run_block_bind, X. reflexivity.
    + left. exists 1%nat. cbn [read_events]. rewrite run_block_bind, E. cbn [rbind]. congruence.
Qed.
Lemma ecomp_stream_ub (p : eprog R) : forall st b u, I st -> wf_strm b -> run_stream (ecomp rd p st) b = UB u ->
  (exists n, run_stream (read_events rd n st) b = UB u) \/
  (exists n st' es b', run_stream (read_events rd n st) b = Ok ((st', es), b') /\ Forall sound_event es /\ erun p es = Some (UB u)).
Proof.
  induction p as [r| |v| |k IH]; intros st b u HI HB H; cbn [ecomp run_stream] in H; try discriminate H.
  - right. exists 0%nat, st, [], b. split; [reflexivity|]. split; [constructor|]. cbn. inversion H. reflexivity.
  - rewrite run_stream_bind in H. destruct (run_stream (rd st) b) as [[[st1 e] b1]| |v|] eqn:E; cbn [rbind] in H; try discriminate H.
    + destruct (gok_stream _ _ (RD st HI) b (st1, e) b1 HB E) as [[I1 G1] B1]. cbn [fst snd] in *. destruct (IH e st1 b1 u I1 B1 H) as [(n & X)|(n & st' & es & b' & X & Y & Z)].
      * left. exists (S n). cbn [read_events]. rewrite run_stream_bind, E. cbn [rbind]. rewrite run_stream_bind, X. reflexivity.
      * right. exists (S n), st', (e :: es), b'. split; [|split; [constructor; auto|exact Z]]. cbn [read_events]. rewrite run_stream_bind, E. cbn [rbind]. rewrite run_stream_bind, X. reflexivity.
    + left. exists 1%nat. cbn [read_events]. rewrite run_stream_bind, E. cbn [rbind]. congruence.
Qed.
End Items.
