(** Reading JSON with a parser that was used before. *)
From Coq Require Import ZArith List Bool Lia ZifyBool ZifyNat.
From Verif Require Import Base Lemmas M_Types M_Conv M_Charset S_Charset M_In P_In S_Doc M_OutOps M_Env M_Event M_PSrl M_MsgPack M_Json M_Tree M_TreeIO P_Charset P_Safe P_JsonSafe P_Deliver.
Import ListNotations.
Open Scope Z_scope.

Lemma run_suffix {A} (p : prog A) : forall b r b', run_block p b = Ok (r, b') -> exists pre, b_rest b = pre ++ b_rest b'.
Proof.
  induction p as [r| |u| |k IH|n k IH|n k IH|n k IH|off k IH|n k IH|c k IH|n k IH|k IH]; intros b r0 b' E; cbn [run_block] in E; try discriminate E.
  - injection E as _ <-. now exists [].
  - destruct (b_done b), (b_rest b) eqn:R; try discriminate E; rewrite <- R; eauto.
  - destruct (two63 <=? n); [discriminate E|]. destruct (n <=? zlen (b_rest b)); [|discriminate E]. destruct (IH _ _ _ E) as [pre H]. cbn [b_rest] in H. exists (firstn (Z.to_nat n) (b_rest b) ++ pre). rewrite <- app_assoc, <- H. symmetry. apply firstn_skipn.
  - destruct (two63 <=? n); [discriminate E|]. destruct (n <=? zlen (b_rest b)); [|discriminate E]. eauto.
  - eauto.
  - destruct (nth_error (b_rest b) off); [eauto|discriminate E].
  - destruct (n <=? length (b_rest b))%nat; [|discriminate E]. destruct (IH _ _ _ E) as [pre H]. cbn [b_rest] in H. exists (firstn n (b_rest b) ++ pre). rewrite <- app_assoc, <- H. symmetry. apply firstn_skipn.
  - eauto.
  - destruct (n <=? zlen (b_done b)); [eauto|discriminate E].
  - eauto.
Qed.
Lemma escape_up pre l : escape_u l -> escape_u (pre ++ l).
Proof. intros (p & q & ->). exists (pre ++ p), q. now rewrite <- app_assoc. Qed.

(** two runs on the same input: in step, or one of them writes outside of its buffer because of an escape ([e]: there is one) *)
Definition step {A} (R : A -> A -> Prop) (r r' : res (A * blk)) : Prop :=
  match r, r' with
  | Ok (a, b), Ok (a', b') => b = b' /\ R a a'
  | Err, Err => True | UB u, UB u' => u = u' | Fuel, Fuel => True
  | _, _ => False
  end.
Section Two.
Variable e : Prop.
Definition up (b : blk) : Prop := escape_u (b_rest b) -> e.
Definition two {A} (R : A -> A -> Prop) (p q : prog A) (b : blk) : Prop :=
  up b -> e /\ (run_block p b = UB UbHeap \/ run_block q b = UB UbHeap) \/ step R (run_block p b) (run_block q b).
Lemma two_ret {A} (R : A -> A -> Prop) a a' b : R a a' -> two R (Ret a) (Ret a') b.
Proof. intros H _. right. cbn. auto. Qed.
Lemma two_throw {A} (R : A -> A -> Prop) b : two R Throw Throw b.
Proof. right. exact I. Qed.
Lemma two_fuel {A} (R : A -> A -> Prop) b : two R OutOfFuel OutOfFuel b.
Proof. right. exact I. Qed.
Lemma two_same {A} (p : prog A) b : two eq p p b.
Proof. right. destruct (run_block p b) as [[a b']| | |]; cbn; auto. Qed.
Lemma two_impl {A} (R R' : A -> A -> Prop) p q b : two R p q b -> (forall a a', R a a' -> R' a a') -> two R' p q b.
Proof. intros H K U. destruct (H U) as [X|X]; [left; exact X|right]. destruct (run_block p b) as [[a b1]| | |], (run_block q b) as [[a' b2]| | |]; cbn [step] in *; auto. destruct X; auto. Qed.
Lemma two_bind {A B} (R : A -> A -> Prop) (R' : B -> B -> Prop) p q (k k' : A -> prog B) b : two R p q b ->
  (forall a a' b1, R a a' -> two R' (k a) (k' a') b1) -> two R' (pbind p k) (pbind q k') b.
Proof.
  intros H K U. rewrite !run_block_bind. destruct (H U) as [[E [-> | ->]]|H']; [left; auto..|]. clear H. rename H' into H.
  destruct (run_block p b) as [[a b1]| | |] eqn:Ep, (run_block q b) as [[a' b2]| | |] eqn:Eq; cbn [step] in H; try contradiction; try (right; cbn [rbind step]; solve [auto]). cbn [rbind].
  destruct H as [<- HR]. destruct (run_suffix _ _ _ _ Ep) as [pre S]. apply (K a a' b1 HR). intros X. apply U. rewrite S. now apply escape_up.
Qed.
Lemma two_same_bind {A B} (R' : B -> B -> Prop) (p : prog A) (k k' : A -> prog B) b : (forall a b1, two R' (k a) (k' a) b1) -> two R' (pbind p k) (pbind p k') b.
Proof. intros K. apply (two_bind eq); [apply two_same|]. intros a a' b1 <-. apply K. Qed.
Lemma two_move {A} (R : A -> A -> Prop) n (p q : prog A) b : (forall b', two R p q b') -> two R (Move n p) (Move n q) b.
Proof. intros H. change (Move n p) with (pbind (Move n (Ret tt)) (fun _ => p)). change (Move n q) with (pbind (Move n (Ret tt)) (fun _ => q)). apply two_same_bind. auto. Qed.
Lemma two_deref {A} (R : A -> A -> Prop) n (k k' : Z -> prog A) b : (forall c, nth_error (b_rest b) n = Some c -> two R (k c) (k' c) b) -> two R (Deref n k) (Deref n k') b.
Proof. intros H U. cbn [run_block]. destruct (nth_error (b_rest b) n) as [c|]; [exact (H c eq_refl U)|right; reflexivity]. Qed.

(** * One character *)
(** the buffers: large enough, and alike as far as they are filled *)
Definition roomy (buf : bytes) : Prop := zlen buf = 0 \/ 10 <= zlen buf.
Definition alike_to (n : Z) (b1 b2 : bytes) : Prop := 0 <= n <= zlen b1 /\ n <= zlen b2 /\ firstn (Z.to_nat n) b1 = firstn (Z.to_nat n) b2.
(** what a character adds *)
Definition added (n : Z) (r r' : Z * bytes) : Prop := fst r = fst r' /\ 0 <= fst r /\ alike_to (n + fst r) (snd r) (snd r').
Lemma store_prefix buf i o buf' : 0 <= i -> store buf i o = Ok buf' -> o <> [] -> zlen buf' = zlen buf /\ i + zlen o <= zlen buf /\ firstn (Z.to_nat (i + zlen o)) buf' = firstn (Z.to_nat i) buf ++ o.
Proof.
  intros Hi E N. assert (L : i + zlen o <= zlen buf).
  { unfold store in E. destruct o as [|c o]; [contradiction|]. destruct (Z.leb_spec (i + zlen (c :: o)) (zlen buf)) as [L|]; [exact L|discriminate E]. }
  destruct (store_ok buf i o Hi L) as (b' & E' & Z' & F' & _). rewrite E in E'. injection E' as <-. split; [exact Z'|]. split; [exact L|].
  replace (Z.to_nat (i + zlen o)) with (Z.to_nat i + length o)%nat by (unfold zlen; lia). exact F'.
Qed.
Lemma two_put b1 b2 i c n b : alike_to i b1 b2 -> i < zlen b1 -> i < zlen b2 -> 
  two (fun r r' => added i r r' /\ zlen (snd r) = zlen b1 /\ zlen (snd r') = zlen b2) (put b1 i c n) (put b2 i c n) b.
Proof.
  intros (H1 & H2 & H3) L1 L2. unfold put.
  destruct (store_ok b1 i [c] ltac:(lia) ltac:(cbn; lia)) as (x & E1 & _). destruct (store_ok b2 i [c] ltac:(lia) ltac:(cbn; lia)) as (y & E2 & _).
  destruct (store_prefix b1 i [c] x (proj1 H1) E1 ltac:(discriminate)) as (Z1 & _ & P1). destruct (store_prefix b2 i [c] y (proj1 H1) E2 ltac:(discriminate)) as (Z2 & _ & P2). change (zlen [c]) with 1 in *.
  rewrite E1, E2. cbn [lift pbind]. change (Adv n (Ret (1, x))) with (pbind (Adv n (Ret tt)) (fun _ => Ret (1, x))). change (Adv n (Ret (1, y))) with (pbind (Adv n (Ret tt)) (fun _ => Ret (1, y))).
  apply two_same_bind. intros _ b'. apply two_ret. cbn [fst snd]. split; [|auto]. split; [reflexivity|]. split; [cbn; lia|]. cbn [fst snd]. split; [lia|]. split; [lia|]. now rewrite P1, P2, H3.
Qed.
(** a code unit, stored where it belongs or undefined *)
Lemma unit_stored x y buf idx : is_byte x -> is_byte y -> 0 <= idx < zlen buf -> 10 <= zlen buf ->
  let r := conv_charset EUTF8 EUTF16 [x; y] buf true idx in
  match utf16_dec [x; y] with
  | DChar c _ => r = UB UbHeap \/ exists buf', r = Ok (zlen (utf8 c), buf') /\ zlen buf <= zlen buf' /\ idx + zlen (utf8 c) <= zlen buf' /\ firstn (Z.to_nat (idx + zlen (utf8 c))) buf' = firstn (Z.to_nat idx) buf ++ utf8 c
  | _ => r = Err
  end.
Proof.
  intros Bx By [Hi Hb] Ten. cbv zeta. unfold conv_charset. cbn [enc_eqb orb enc_num].
  change (1 <? 2) with true. cbv iota. change (zlen [x; y] * 1) with 2.
  set (buf1 := if zlen buf <? idx + 2 then resize buf (idx + 2) else buf).
  assert (L1 : zlen buf <= zlen buf1 /\ idx + 2 <= zlen buf1 /\ firstn (Z.to_nat idx) buf1 = firstn (Z.to_nat idx) buf).
  { unfold buf1. destruct (Z.ltb_spec (zlen buf) (idx + 2)); [rewrite resize_len by lia|split; [lia|split; [lia|reflexivity]]]. split; [lia|]. split; [lia|]. apply resize_firstn; unfold zlen in *; lia. }
  clearbody buf1. destruct L1 as (L1 & L2 & L3). cbn [length conv_loop iconv decode].
  destruct (utf16_dec [x; y]) as [c n| |] eqn:D; [|cbn [store rbind]; auto|cbn [store rbind]; auto].
  assert (n = 2%nat). { cbn [utf16_dec] in D. destruct (_ && _) in D; [discriminate|]. destruct (_ && _) in D; [discriminate|]. now injection D. } subst n.
  assert (C3 : c < 65536). { unfold utf16_dec in D. cbv zeta in D. destruct (_ && _) in D; [discriminate|]. destruct (_ && _) in D; [discriminate|]. assert (Q : c = x + 256 * y) by congruence. unfold is_byte in *. lia. }
  assert (U3 : (length (utf8 c) <= 3)%nat) by (unfold utf8; repeat match goal with |- context [if ?t then _ else _] => destruct t eqn:? end; cbn [length]; lia).
  pose proof (encode_len EUTF8 c ltac:(discriminate)) as [E1 E2]. cbn [skipn]. change (encode EUTF8 c) with (utf8 c) in *. set (o := utf8 c) in *.
  assert (NO : o <> []) by (intros Q; rewrite Q in E1; cbn in E1; lia).
  destruct (Z.leb_spec (zlen o) (zlen buf1 - idx)) as [LE|LE].
  - cbn [fst snd]. rewrite app_nil_r, Z.add_0_r. destruct (store_zlen buf1 idx o ltac:(lia)) as [(b2 & Es & Z2)| ->]; cbn [rbind]; [|auto]. rewrite Es. cbn [rbind].
    right. exists b2. destruct (store_prefix _ _ _ _ Hi Es NO) as (_ & P1 & P2). split; [|split; [lia|]; split; [lia|]; now rewrite P2, L3]. cbn [skipn]. assert (Q : zlen b2 - idx - (zlen buf1 - idx - zlen o) = zlen o) by lia. rewrite Q. reflexivity.
  - left. cbn [store rbind length iconv decode]. rewrite D. cbn [skipn]. change (encode EUTF8 c) with o.
    set (buf2 := resize buf1 (zlen buf1 + zlen [x; y] * 4)). set (nl := zlen buf1 + zlen [x; y] * 4 - (zlen buf1 - (zlen buf1 - idx))).
    assert (Z2 : zlen buf2 = zlen buf1 + 8). { unfold buf2. rewrite resize_len; unfold zlen in *; cbn [length]; lia. }
    assert (N : nl = zlen buf1 + 8 - idx). { unfold nl, zlen. cbn [length]. lia. }
    clearbody buf2 nl. destruct (Z.leb_spec (zlen o) nl) as [LL|LL]; [|unfold zlen in *; lia].
    rewrite app_nil_r. replace (idx + (zlen buf1 - (zlen buf1 - idx))) with (idx + idx) by lia. unfold store. destruct o as [|o1 o2]; [contradiction|]. destruct (Z.leb_spec (idx + idx + zlen (o1 :: o2)) (zlen buf2)) as [X|X]; [|reflexivity].
    exfalso. unfold zlen in *. cbn [length] in *. lia.
Qed.

Lemma two_token b1 b2 i left b : alike_to i b1 b2 -> i < zlen b1 -> i < zlen b2 -> 10 <= zlen b1 -> 10 <= zlen b2 ->
  two (fun r r' => added i r r' /\ zlen b1 <= zlen (snd r) /\ zlen b2 <= zlen (snd r')) (substitute_token b1 i left) (substitute_token b2 i left) b.
Proof.
  intros Al L1 L2 T1 T2.
  assert (P : forall c n b', two (fun r r' => added i r r' /\ zlen b1 <= zlen (snd r) /\ zlen b2 <= zlen (snd r')) (put b1 i c n) (put b2 i c n) b').
  { intros c n b'. eapply two_impl; [apply two_put; assumption|]. cbv beta. intros r r' (X & -> & ->). split; [exact X|lia]. }
  unfold substitute_token. destruct (2 <=? left); [|apply two_deref; intros c _; apply P].
  apply two_deref. intros c Hc. apply two_deref. intros d Hd. destruct (Z.eqb_spec c 92) as [->|]; [|apply P]. destruct (substitute_of d); [apply P|]. destruct (Z.eqb_spec d 117) as [->|]; [|apply P].
  intros U. assert (HE : e). { apply U. destruct (b_rest b) as [|x [|y l]]; try discriminate. cbn [nth_error] in *. injection Hc as ->. injection Hd as ->. now exists [], l. }
  assert (W : two (fun r r' => added i r r' /\ zlen b1 <= zlen (snd r) /\ zlen b2 <= zlen (snd r')) (uc_literal b1 i) (uc_literal b2 i) b); [|exact (W U)].
  unfold uc_literal. apply (two_bind (fun x y : bytes => x = y /\ length x = 6%nat)).
  { intros _. right. pose proof (triple_read_block (fun _ => True) 6 b (fun bs _ => zlen bs = 6) (fun _ => Logic.I) ltac:(lia) (fun bs b' X _ => X)) as TR. unfold triple in TR.
    destruct (run_block (read_block 6) b) as [[bl b']| | |]; cbn [step]; [|solve [auto]..]. split; [reflexivity|]. split; [reflexivity|]. unfold zlen in TR. lia. }
  intros bl bl' b' [<- Lb]. destruct bl as [|y1 [|y2 [|y3 [|y4 [|y5 [|y6 [|]]]]]]]; try discriminate Lb.
  change (hex_to_bytes_dest 2 (skipn 2 [y1; y2; y3; y4; y5; y6])) with (hex_loop [y3; y4; y5; y6]).
  destruct (hex_loop4 y3 y4 y5 y6) as [->|(h1 & h2 & HX)]; [cbn [lift pbind]; apply two_throw|]. pose proof (wf_hex _ _ HX) as WH. inversion WH as [|? ? B1 WH' Q0]. inversion WH' as [|? ? B2 WH'' Q3]. subst. rewrite HX. cbn [lift pbind].
  destruct Al as (A1 & A2 & A3). pose proof (unit_stored h1 h2 b1 i B1 B2 ltac:(lia) T1) as Q1. pose proof (unit_stored h1 h2 b2 i B1 B2 ltac:(lia) T2) as Q2. cbv zeta in Q1, Q2.
  destruct (utf16_dec [h1; h2]) as [ch n| |]; [|rewrite Q1, Q2; cbn [lift]; apply two_throw..].
  destruct Q1 as [-> |(x & -> & X1 & X2 & X3)]. { intros _. left. cbn. auto. } destruct Q2 as [-> |(y & -> & Y1 & Y2 & Y3)]. { intros _. left. cbn. auto. }
  cbn [lift]. apply two_ret. cbn [fst snd]. split; [|lia]. unfold added. cbn [fst snd]. split; [reflexivity|]. pose proof (zlen_nonneg (utf8 ch)). split; [lia|]. split; [lia|]. split; [lia|]. now rewrite X3, Y3, A3.
Qed.

(** * Strings *)
(** one buffer of a reader: the part that is filled, and the copy of the size *)
Definition fit (buf : bytes) (sz : Z) : Prop := 0 <= sz <= zlen buf /\ roomy buf.
Lemma two_read delim : forall f b1 b2 s1 s2 i b, fit b1 s1 -> fit b2 s2 -> alike_to i b1 b2 ->
  two (fun r r' => fst r = fst r' /\ 0 <= fst r /\ alike_to (fst r) (snd r) (snd r') /\ roomy (snd r) /\ roomy (snd r')) (read_substitute f delim b1 s1 i) (read_substitute f delim b2 s2 i) b.
Proof.
  induction f as [|f IH]; intros b1 b2 s1 s2 i b [F1 M1] [F2 M2] Al; cbn [read_substitute]; [apply two_fuel|].
  match goal with |- two ?R (Peek 0 ?p) (Peek 0 ?q) b => change (two R (pbind (Peek 0 (Ret tt)) (fun _ => p)) (pbind (Peek 0 (Ret tt)) (fun _ => q)) b) end.
  apply two_same_bind. intros _ b'. apply two_deref. intros c _. destruct (c =? delim). { apply two_ret. cbn [fst snd]. destruct Al as (A1 & A2 & A3). repeat split; auto; lia. }
  cbv zeta. destruct Al as (A1 & A2 & A3).
  set (z1 := if s1 <? i + 1 then s1 + (i + 10) else s1). set (z2 := if s2 <? i + 1 then s2 + (i + 10) else s2).
  set (c1 := if s1 <? i + 1 then resize b1 z1 else b1). set (c2 := if s2 <? i + 1 then resize b2 z2 else b2).
  assert (G : forall bf sz z cf, 0 <= sz <= zlen bf -> roomy bf -> 0 <= i <= zlen bf -> z = (if sz <? i + 1 then sz + (i + 10) else sz) -> cf = (if sz <? i + 1 then resize bf z else bf) ->
    0 <= z <= zlen cf /\ i < zlen cf /\ 10 <= zlen cf /\ firstn (Z.to_nat i) cf = firstn (Z.to_nat i) bf).
  { intros bf sz z cf X1 X2 X3 -> ->. unfold roomy in X2. destruct (Z.ltb_spec sz (i + 1)).
    - rewrite resize_len by lia. split; [lia|]. split; [lia|]. split; [lia|]. apply resize_firstn; unfold zlen in *; lia.
    - split; [lia|]. split; [lia|]. split; [lia|reflexivity]. }
  destruct (G b1 s1 z1 c1 F1 M1 A1 eq_refl eq_refl) as (Z1 & I1 & T1 & P1). destruct (G b2 s2 z2 c2 F2 M2 ltac:(lia) eq_refl eq_refl) as (Z2 & I2 & T2 & P2). clearbody z1 z2 c1 c2. clear G.
  assert (Al' : alike_to i c1 c2) by (split; [lia|split; [lia|now rewrite P1, P2]]).
  assert (GO : forall left b9, two (fun r r' => fst r = fst r' /\ 0 <= fst r /\ alike_to (fst r) (snd r) (snd r') /\ roomy (snd r) /\ roomy (snd r'))
    (let! (n, buf') := substitute_token c1 i left in read_substitute f delim buf' z1 (i + n)) (let! (n, buf') := substitute_token c2 i left in read_substitute f delim buf' z2 (i + n)) b9).
  { intros left b9. eapply two_bind; [apply two_token; eauto; lia|]. cbv beta. intros [n x] [n' y] b8 ((E1 & E2 & E3) & X & Y). cbn [fst snd] in *. subst n'. apply IH; [split; [lia|right; lia]..|exact E3]. }
  match goal with |- two ?R (TryPeek 2 ?k) (TryPeek 2 ?k') b' => change (two R (pbind (TryPeek 2 (fun ok => Ret ok)) k) (pbind (TryPeek 2 (fun ok => Ret ok)) k') b') end.
  apply two_same_bind. intros ok b7. destruct ok; [apply GO|].
  match goal with |- two ?R (LeftM1 ?k) (LeftM1 ?k') b7 => change (two R (pbind (LeftM1 (fun z => Ret z)) k) (pbind (LeftM1 (fun z => Ret z)) k') b7) end.
  apply two_same_bind. intros l b6. apply GO.
Qed.
Lemma two_unescape f b1 b2 b : roomy b1 -> roomy b2 ->
  two (fun r r' => fst r = fst r' /\ roomy (snd r) /\ roomy (snd r')) (read_unescape f b1) (read_unescape f b2) b.
Proof.
  intros R1 R2. unfold read_unescape. eapply two_bind; [apply two_read; [split; [pose proof (zlen_nonneg b1); lia|assumption]|split; [pose proof (zlen_nonneg b2); lia|assumption]|]|].
  - unfold alike_to. pose proof (zlen_nonneg b1). pose proof (zlen_nonneg b2). split; [lia|]. split; [lia|reflexivity].
  - cbv beta. intros [n x] [n' y] b' (E1 & E2 & (_ & _ & E3) & E4 & E5). cbn [fst snd] in *. subst n'. apply two_ret. cbn [fst snd]. auto.
Qed.

(** * Items *)
(** two parsers that differ at most in their buffers *)
Definition twin (s t : pjson) : Prop := j_stack s = j_stack t /\ j_type s = j_type t /\ (roomy (j_nbuf s) /\ roomy (j_vbuf s)) /\ (roomy (j_nbuf t) /\ roomy (j_vbuf t)).
Definition twin2 {A} (r r' : pjson * A) : Prop := twin (fst r) (fst r') /\ snd r = snd r'.
Definition twin3 (r r' : pjson * jstate * bool) : Prop := twin (fst (fst r)) (fst (fst r')) /\ snd (fst r) = snd (fst r') /\ snd r = snd r'.
Lemma two_quote f st st' s b : twin st st' -> two twin2 (process_quote f st s) (process_quote f st' s) b.
Proof.
  intros (T2 & T3 & (T5 & T6) & T7 & T8). unfold process_quote. rewrite T3. destruct (ty_eqb (j_type st') TNull); [apply two_throw|]. apply two_move. intros b0.
  eapply two_bind; [apply two_unescape; destruct (s_named s); assumption|]. cbv beta. intros [c x] [c' y] b1 (E & R1 & R2). cbn [fst snd] in *. subst c'.
  set (u := if s_named s then _ else _ : pjson). set (u' := if s_named s then _ else _ : pjson).
  assert (W : twin u u') by (subst u u'; destruct (s_named s); unfold twin; cbn; repeat split; assumption).
  assert (Q : process_string u c s = process_string u' c s) by (unfold process_string; destruct W as (_ & -> & _); reflexivity). rewrite Q.
  apply two_same_bind. intros s' b2. apply two_ret. split; [exact W|reflexivity].
Qed.
Lemma two_bracket c st st' s b : twin st st' -> two twin2 (process_bracket st c s) (process_bracket st' c s) b.
Proof.
  intros (T2 & T3 & (T5 & T6) & T7 & T8). unfold process_bracket. rewrite T2. destruct (ty_eqb _ TScopeEnd); [destruct (j_stack st') as [|t r]; [apply two_throw|]|]; apply two_ret; (split; [unfold twin; cbn; repeat split; assumption|reflexivity]).
Qed.
Lemma two_item x f st st' s b : twin st st' -> two twin3 (process_item x f st s) (process_item x f st' s) b.
Proof.
  intros T. unfold process_item. apply two_deref. intros c _. destruct (c =? 34).
  { eapply two_bind; [now apply two_quote|]. intros [u s1] [u' s1'] b1 [W E]. cbn [fst snd] in *. subst. apply two_ret. split; [exact W|split; reflexivity]. }
  destruct (c =? 58). { destruct (s_reading s); [apply two_throw|]. apply two_ret. split; [exact T|split; reflexivity]. }
  destruct (existsb _ _). { eapply two_bind; [now apply two_bracket|]. intros [u s1] [u' s1'] b1 [W E]. cbn [fst snd] in *. subst. apply two_ret. split; [exact W|split; reflexivity]. }
  destruct (c =? 47). { apply two_same_bind. intros [] b1. apply two_ret. split; [exact T|split; reflexivity]. }
  apply two_same_bind. intros [s' mv] b1. apply two_ret. split; [exact T|split; reflexivity].
Qed.
Lemma two_loop x f : forall n st st' s b, twin st st' -> two twin2 (json_loop x f n st s) (json_loop x f n st' s) b.
Proof.
  induction n as [|n IH]; intros st st' s b T; cbn [json_loop]; [apply two_fuel|].
  assert (Q : seek_item f st s = seek_item f st' s) by (unfold seek_item; destruct T as (_ & -> & _); reflexivity). rewrite Q. apply two_same_bind. intros _ b1.
  eapply two_bind; [now apply two_item|]. intros [[u s1] mv] [[u' s1'] mv'] b2 (W & E1 & E2). cbn [fst snd] in *. subst.
  assert (H : forall b3, two twin2 (if s_complete s1' then Ret (u, (s_name s1', s_value s1')) else json_loop x f n u s1') (if s_complete s1' then Ret (u', (s_name s1', s_value s1')) else json_loop x f n u' s1') b3).
  { intros b3. destruct (s_complete s1'); [apply two_ret; split; [exact W|reflexivity]|now apply IH]. }
  destruct mv'; [now apply two_move|apply H].
Qed.
Lemma two_comp {A} x f (p : eprog A) : forall st st' b, twin st st' -> two twin2 (ecomp (json_read x f) p st) (ecomp (json_read x f) p st') b.
Proof.
  induction p as [a| |u| |k IH]; intros st st' b T; cbn [ecomp].
  - apply two_ret. split; [exact T|reflexivity].
  - apply two_throw.
  - right. reflexivity.
  - apply two_fuel.
  - eapply two_bind; [apply two_loop; exact T|]. intros [u ev] [u' ev'] b1 [W E]. cbn [fst snd] in *. subst. now apply IH.
Qed.
End Two.

Definition twin_parsers (p q : parser) : Prop := match p, q with JsonP s, JsonP t => twin s t | _, _ => False end.
Lemma two_load x F s t b : roomy (j_nbuf s) -> roomy (j_vbuf s) -> roomy (j_nbuf t) -> roomy (j_vbuf t) ->
  two (escape_u (b_rest b)) (fun r r' => twin_parsers (fst r) (fst r') /\ snd r = snd r') (load_tree x F (JsonP s)) (load_tree x F (JsonP t)) b.
Proof.
  intros R1 R2 R3 R4. unfold load_tree. cbn [parser_clear]. eapply two_bind; [apply two_comp; unfold twin; cbn; repeat split; assumption|].
  intros [u r] [u' r'] b' [W E]. cbn [fst snd] in *. subst. apply two_ret. cbn. auto.
Qed.
