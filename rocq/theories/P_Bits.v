(** BitWrap, VecWrap and Bytes. *)
From Coq Require Import ZArith List Bool Lia ZifyBool ZifyNat.
From Verif Require Import Base Lemmas M_Types M_Conv S_Conv S_Json M_Bits S_Bits P_Conv P_Doc P_JsonLit M_Object.
Import ListNotations.
Open Scope Z_scope.

Lemma lookup_cases str i : (exists b, b64_lookup str i = Ok b) \/ b64_lookup str i = UB UbOob.
Proof. unfold b64_lookup. destruct (nth_error str i); auto. destruct (_ <? 128); eauto. Qed.
Lemma writes_loop : forall fuel str i todo, b64_decode_loop fuel str i todo = let (bs, r) := b64_writes fuel str i todo in let* _ := r in Ok bs.
Proof.
  induction fuel as [|f IH]; intros str i todo; cbn [b64_decode_loop b64_writes]; [reflexivity|]. destruct (Nat.eqb todo 0); [reflexivity|].
  destruct (lookup_cases str i) as [[b0 ->]| ->]; [|reflexivity]. destruct (lookup_cases str (i + 1)) as [[b1 ->]| ->]; [|reflexivity].
  destruct (lookup_cases str (i + 2)) as [[b2 ->]| ->]; [|reflexivity]. destruct (lookup_cases str (i + 3)) as [[b3 ->]| ->]; [|reflexivity].
  cbn [rbind]. destruct (_ || _ || _ || _); [reflexivity|]. rewrite IH. destruct (b64_writes f str (i + 4) (todo - 3)) as [bs [[]| | |]]; reflexivity.
Qed.
Lemma writes_le : forall fuel str i todo, (length (fst (b64_writes fuel str i todo)) <= todo)%nat.
Proof.
  induction fuel as [|f IH]; intros str i todo; cbn [b64_writes]; [cbn; lia|]. destruct (Nat.eqb_spec todo 0); [cbn; lia|].
  destruct (b64_lookup str i), (b64_lookup str (i + 1)), (b64_lookup str (i + 2)), (b64_lookup str (i + 3)); try (cbn; lia). destruct (_ || _ || _ || _); [cbn; lia|].
  specialize (IH str (i + 4)%nat (todo - 3)%nat). destruct (b64_writes f str (i + 4) (todo - 3)) as [bs r]. cbn [fst] in *. rewrite app_length. cbn [length].
  destruct (Nat.ltb_spec 1 todo); [destruct (Nat.ltb_spec 2 todo)|]; cbn [length]; lia.
Qed.
Lemma writes_full : forall fuel str i todo, (todo <= fuel)%nat -> snd (b64_writes fuel str i todo) = Ok tt -> length (fst (b64_writes fuel str i todo)) = todo.
Proof.
  induction fuel as [|f IH]; intros str i todo L; cbn [b64_writes]; [cbn; lia|]. destruct (Nat.eqb_spec todo 0); [cbn; lia|].
  destruct (b64_lookup str i), (b64_lookup str (i + 1)), (b64_lookup str (i + 2)), (b64_lookup str (i + 3)); try discriminate. destruct (_ || _ || _ || _); [discriminate|].
  specialize (IH str (i + 4)%nat (todo - 3)%nat). destruct (b64_writes f str (i + 4) (todo - 3)) as [bs r]. cbn [fst snd] in *. intros E. specialize (IH ltac:(lia) E). rewrite app_length. cbn [length].
  destruct (Nat.ltb_spec 1 todo); [destruct (Nat.ltb_spec 2 todo)|]; cbn [length]; lia.
Qed.
Lemma writes_outcome fuel str i todo : match snd (b64_writes fuel str i todo) with Fuel => False | UB u => u = UbOob | _ => True end.
Proof.
  revert i todo. induction fuel as [|f IH]; intros i todo; cbn [b64_writes]; [exact I|]. destruct (Nat.eqb todo 0); [exact I|].
  destruct (b64_lookup str i), (b64_lookup str (i + 1)), (b64_lookup str (i + 2)), (b64_lookup str (i + 3)); try reflexivity. destruct (_ || _ || _ || _); [exact I|].
  specialize (IH (i + 4)%nat (todo - 3)%nat). now destruct (b64_writes f str (i + 4) (todo - 3)).
Qed.

(** what is written if there is room *)
Definition plain_bits (v : value) : bytes * res unit :=
  if ty_eqb (v_type v) TString then
    if Nat.ltb 0 (length (v_data v)) && negb (Nat.eqb (Nat.modulo (length (v_data v)) 4) 0) then ([], Err)
    else b64_writes (bits_size v) (v_data v) 0 (bits_size v)
  else (v_data v, Ok tt).
Lemma plain_len v : (length (fst (plain_bits v)) <= bits_size v)%nat.
Proof. unfold plain_bits. destruct (ty_eqb _ _) eqn:T; [|cbn [fst]; unfold bits_size; rewrite T; lia]. destruct (_ && _); [cbn; lia|]. apply writes_le. Qed.
Lemma plain_full v : snd (plain_bits v) = Ok tt -> length (fst (plain_bits v)) = bits_size v.
Proof. unfold plain_bits. destruct (ty_eqb _ _) eqn:T; [|cbn [fst]; unfold bits_size; now rewrite T]. destruct (_ && _); [discriminate|]. now apply writes_full. Qed.
Lemma copy_plain room v : Z.of_nat (bits_size v) <= room -> copy_bits room (bits_size v) v = plain_bits v.
Proof.
  intros R. unfold copy_bits, plain_bits, into. destruct (ty_eqb (v_type v) TString) eqn:T.
  - destruct (_ && _); [reflexivity|]. pose proof (writes_le (bits_size v) (v_data v) 0 (bits_size v)). destruct (_ <? _) eqn:E; [|reflexivity]. unfold zlen in E. lia.
  - destruct (_ <? _) eqn:E; [|reflexivity]. unfold zlen in E. cbn [fst] in E. unfold bits_size in R. rewrite T in R. lia.
Qed.
Lemma copy_beyond room v : snd (plain_bits v) = Ok tt -> 0 <= room < Z.of_nat (bits_size v) -> snd (copy_bits room (bits_size v) v) = UB UbOob.
Proof.
  intros P R. pose proof (plain_full v P) as L. revert P L. unfold copy_bits, plain_bits, into. destruct (ty_eqb (v_type v) TString) eqn:T.
  - destruct (_ && _); [discriminate|]. intros P L. unfold zlen. rewrite L. destruct (_ <? _) eqn:E; [reflexivity|lia].
  - intros P L. unfold zlen. cbn [fst] in *. rewrite L. destruct (_ <? _) eqn:E; [reflexivity|lia].
Qed.

(** * Vectors *)
Lemma resize_len grow u n x : length (x_data (vec_resize grow u n x)) = Z.to_nat (n * u).
Proof. cbn [vec_resize x_data]. rewrite app_length, firstn_length, repeat_length. lia. Qed.
Lemma resize_mem grow u n x : grows grow -> n * u <= x_mem (vec_resize grow u n x).
Proof. intros G. cbn [vec_resize x_mem]. destruct (_ <=? _) eqn:E; [lia|]. apply G. lia. Qed.
Lemma write_len x bs : (length bs <= length (x_data x))%nat -> length (x_data (vec_write x bs)) = length (x_data x).
Proof. intros L. cbn [vec_write x_data]. rewrite app_length, firstn_length, skipn_length. lia. Qed.
Lemma write_any_len x bs : length (x_data (vec_write x bs)) = length (x_data x).
Proof. cbn [vec_write x_data]. rewrite app_length, firstn_length, skipn_length. lia. Qed.

Lemma vec_fits grow u x v : grows grow -> 1 <= u -> Z.of_nat (bits_size v) mod u = 0 -> bits_type v = true ->
  exists m, let y := vec_resize grow u (Z.of_nat (bits_size v) / u) x in
  vecwrap_paste grow u x v = (if Nat.eqb (bits_size v) 0 then (vec_write y [], Ok tt) else (vec_write y (fst (plain_bits v)), snd (plain_bits v))) /\ x_mem y = m /\ Z.of_nat (bits_size v) <= m /\ length (x_data y) = bits_size v.
Proof.
  intros G U M T. unfold vecwrap_paste. rewrite T. cbn [negb]. set (y := vec_resize grow u (Z.of_nat (bits_size v) / u) x).
  assert (E : Z.of_nat (bits_size v) / u * u = Z.of_nat (bits_size v)) by (rewrite (Z.div_mod (Z.of_nat (bits_size v)) u) at 2 by lia; lia).
  assert (RM : Z.of_nat (bits_size v) <= x_mem y) by (pose proof (resize_mem grow u (Z.of_nat (bits_size v) / u) x G); fold y in H; lia).
  exists (x_mem y). split; [|split; [reflexivity|split; [exact RM|]]].
  - unfold bitwrap_paste. rewrite T. cbn [negb]. destruct (Nat.eqb_spec (bits_size v) 0) as [Z0|Z0]; [reflexivity|]. destruct (x_mem y =? 0) eqn:X; [lia|]. rewrite copy_plain by exact RM. now destruct (plain_bits v).
  - unfold y. rewrite resize_len, E. lia.
Qed.
Lemma write_all_data x bs : length bs = length (x_data x) -> vec_write x bs = mkVec bs (x_mem x).
Proof. intros L. unfold vec_write. rewrite <- L, firstn_all, skipn_all2 by lia. now rewrite app_nil_r. Qed.

(** * What comes back *)
Lemma brings_plain bs v : brings bs v -> bits_type v = true /\ plain_bits v = (bs, Ok tt) /\ bits_size v = length bs.
Proof.
  intros (W & L & C). assert (T : trunc_block bs = bs) by (apply trunc_block_id; unfold_words; lia). destruct C as [->| ->].
  - unfold bits_type, plain_bits, bits_size. cbn [v_type val_block v_data ty_eqb ty_num Z.eqb Pos.eqb]. rewrite T. auto.
  - assert (T2 : trunc_block (b64_text bs) = b64_text bs) by (apply trunc_block_id; rewrite b64_text_len; unfold_words; Z.to_euclidean_division_equations; lia).
    pose proof (base64_roundtrip bs W) as R. rewrite b64_text_eq in R by exact W. unfold base64_to_bytes, base64_to_bytes_dest in R. unfold bits_type, plain_bits, bits_size.
    cbn [v_type val_string val_block_enc v_data ty_eqb ty_num Z.eqb Pos.eqb]. rewrite T2. destruct (_ && _); [discriminate|]. split; [reflexivity|]. rewrite writes_loop in R.
    destruct (b64_writes _ _ _ _) as [d r] eqn:E. destruct r as [[]| | |]; cbn [rbind] in R; try discriminate. injection R as ->. split; [reflexivity|].
    pose proof (writes_full (get_base64_decoded_size (b64_text bs)) (b64_text bs) 0 _ (le_n _)) as Fu. rewrite E in Fu. symmetry. exact (Fu eq_refl).
Qed.
Lemma vec_back grow u x bs v : grows grow -> 1 <= u -> zlen bs mod u = 0 -> brings bs v -> exists m, vecwrap_paste grow u x v = (mkVec bs m, Ok tt) /\ zlen bs <= m.
Proof.
  intros G U M B. destruct (brings_plain _ _ B) as (T & P & S). unfold zlen in *. rewrite <- S in M. destruct (vec_fits grow u x v G U M T) as (m & E & X & R & Y). cbv zeta in E, X, Y.
  rewrite P in E. cbn [fst snd] in E. exists m. split; [|rewrite <- S; exact R]. destruct (Nat.eqb_spec (bits_size v) 0) as [Z0|Z0].
  - destruct bs; [|cbn in S; lia]. rewrite write_all_data in E by (rewrite Y, Z0; reflexivity). rewrite X in E. exact E.
  - rewrite write_all_data in E by (rewrite Y; lia). rewrite X in E. exact E.
Qed.
Lemma insert_back bs m : zlen bs <= m -> vecwrap_insert (mkVec bs m) = Ok (val_block bs TBinary).
Proof.
  intros L. unfold vecwrap_insert, bitwrap_insert. cbn [x_mem x_data]. destruct (m =? 0) eqn:E; [|reflexivity]. unfold zlen in *. destruct bs; [reflexivity|]. cbn [length] in L. lia.
Qed.
(** * Too little room *)
Lemma vec_beyond u bs v : 1 < u -> zlen bs mod u <> 0 -> brings bs v ->
  snd (vecwrap_paste exact_grow u vec_new v) = if zlen bs <? u then Err else UB UbOob.
Proof.
  intros U M B. destruct (brings_plain _ _ B) as (T & P & S). unfold zlen in *. unfold vecwrap_paste. rewrite T. cbn [negb]. unfold bitwrap_paste. rewrite T. cbn [negb].
  set (n := Z.of_nat (bits_size v)). assert (N : n mod u <> 0) by (unfold n; rewrite S; exact M). assert (N0 : n <> 0) by (intros E; rewrite E, Z.mod_0_l in N by lia; lia).
  destruct (Nat.eqb_spec (bits_size v) 0) as [Z0|_]; [unfold n in N0; lia|]. pose proof (Z.div_mod n u ltac:(lia)) as D. pose proof (Z.mod_pos_bound n u ltac:(lia)) as Bd.
  cbn [vec_resize x_mem vec_new]. unfold exact_grow. rewrite <- S. fold n. destruct (n <? u) eqn:C.
  - assert (Q : n / u = 0) by (apply Z.div_small; unfold n in *; lia). rewrite Q. cbn. reflexivity.
  - assert (Q : 1 <= n / u) by (apply Z.div_le_lower_bound; lia). assert (Q2 : 0 < n / u * u) by nia. destruct (n / u * u <=? 0) eqn:E1; [lia|]. destruct (n / u * u =? 0) eqn:E2; [lia|].
    pose proof (copy_beyond (n / u * u) v) as K. rewrite P in K. cbn [snd] in K. specialize (K eq_refl). fold n in K. specialize (K ltac:(nia)). destruct (copy_bits _ _ _) as [a r]. exact K.
Qed.
(** * Defined *)
Lemma plain_ascii v : ascii_text v -> defined (snd (plain_bits v)).
Proof.
  intros A. unfold plain_bits. destruct (ty_eqb (v_type v) TString) eqn:T; [|exact I]. destruct (_ && _) eqn:E; [exact I|]. assert (TS : v_type v = TString) by (destruct (v_type v); try discriminate T; reflexivity).
  specialize (A TS). destruct (base64_ascii _ A) as [(_ & _ & d & H)|[_ H]]; unfold base64_to_bytes, base64_to_bytes_dest in H; rewrite E, writes_loop in H; unfold bits_size; rewrite T;
    destruct (b64_writes _ _ _ _) as [bs [[]| | |]]; cbn [rbind] in H; try discriminate; exact I.
Qed.
Lemma vec_defined grow u x v : grows grow -> 1 <= u -> Z.of_nat (bits_size v) mod u = 0 -> ascii_text v -> defined (snd (vecwrap_paste grow u x v)).
Proof.
  intros G U M A. destruct (bits_type v) eqn:T; [|unfold vecwrap_paste; rewrite T; exact I]. destruct (vec_fits grow u x v G U M T) as (m & E & _). cbv zeta in E. rewrite E.
  destruct (Nat.eqb _ 0); [exact I|]. cbn [snd]. now apply plain_ascii.
Qed.
Lemma bitwrap_defined f v : (forall n m, f n = Some m -> n <= m) -> ascii_text v ->
  defined (snd (bitwrap_paste (Some f) v)) /\ (length (fst (bitwrap_paste (Some f) v)) <= bits_size v)%nat.
Proof.
  intros R A. unfold bitwrap_paste. destruct (bits_type v); cbn [negb]; [|split; [exact I|cbn; lia]]. destruct (Nat.eqb _ 0); [split; [exact I|cbn; lia]|].
  destruct (f _) as [m|] eqn:E; [|split; [exact I|cbn; lia]]. rewrite copy_plain by (eapply R; eauto). split; [now apply plain_ascii|apply plain_len].
Qed.
(** * Text accepted *)
Lemma bytes_text grow x v : grows grow -> v_type v = TString -> Forall (fun c => 0 <= c < 128) (v_data v) ->
  (snd (bytes_paste grow x v) = Ok tt <-> (length (v_data v) < 4)%nat \/ ((length (v_data v) mod 4 = 0)%nat /\ Forall b64_letter (v_data v))) /\
  ((length (v_data v) < 4)%nat -> x_data (fst (bytes_paste grow x v)) = []).
Proof.
  intros G T A. assert (BT : bits_type v = true) by (unfold bits_type; rewrite T; reflexivity). unfold bytes_paste.
  assert (M1 : Z.of_nat (bits_size v) mod 1 = 0) by apply Z.mod_1_r. destruct (vec_fits grow 1 x v G ltac:(lia) M1 BT) as (m & E & _ & _ & Y). cbv zeta in E. rewrite E. clear E.
  assert (BS : bits_size v = get_base64_decoded_size (v_data v)) by (unfold bits_size; rewrite T; reflexivity).
  assert (SZ : get_base64_decoded_size (v_data v) = 0%nat <-> (length (v_data v) < 4)%nat).
  { unfold get_base64_decoded_size. destruct (Nat.ltb_spec (length (v_data v)) 4); [split; [intros _; assumption|reflexivity]|]. split; [|lia]. pose proof (Nat.div_le_mono 4 (length (v_data v)) 4 ltac:(lia) H) as D. change (4 / 4)%nat with 1%nat in D.
    destruct (_ =? 61), (_ =? 61); lia. }
  rewrite BS in *. destruct (Nat.eqb_spec (get_base64_decoded_size (v_data v)) 0) as [Z0|Z0].
  - split; [split; [intros _; left; now apply SZ|reflexivity]|]. intros _. cbn [fst]. destruct (x_data (vec_write _ _)) eqn:D; [reflexivity|]. pose proof (write_any_len (vec_resize grow 1 (Z.of_nat (get_base64_decoded_size (v_data v)) / 1) x) []) as L. rewrite D in L. rewrite Y, Z0 in L. discriminate.
  - assert (NL : ~ (length (v_data v) < 4)%nat) by (rewrite <- SZ; exact Z0). split; [|intros L; contradiction]. cbn [snd]. unfold plain_bits. rewrite T. cbn [ty_eqb ty_num Z.eqb Pos.eqb]. rewrite BS.
    destruct (base64_ascii _ A) as [(L & F & d & H)|[N H]]; unfold base64_to_bytes, base64_to_bytes_dest in H.
    + destruct (_ && _); [discriminate|]. rewrite writes_loop in H. destruct (b64_writes _ _ _ _) as [bs [[]| | |]]; cbn [rbind] in H; try discriminate. split; auto.
    + split; [|intros [C|C]; [contradiction|]; exfalso; apply N; exact C]. destruct (_ && _); [discriminate|]. rewrite writes_loop in H. destruct (b64_writes _ _ _ _) as [bs [[]| | |]]; cbn [rbind] in H; try discriminate; intros K; discriminate K.
Qed.
(** * After a failure *)
Lemma vec_failed grow u x v : 1 <= u -> (v_type v = TString \/ v_type v = TBinary) ->
  length (x_data (fst (vecwrap_paste grow u x v))) = Z.to_nat (Z.of_nat (bits_size v) / u * u).
Proof.
  intros U T. assert (BT : bits_type v = true) by (unfold bits_type; destruct T as [-> | ->]; reflexivity). unfold vecwrap_paste. rewrite BT. cbn [negb].
  destruct (bitwrap_paste _ v) as [bs r]. cbn [fst]. rewrite write_any_len. apply resize_len.
Qed.
(** * The members of type Bytes of the model of objects *)
Lemma bytes_object grow x w old v : grows grow -> match paste_value w CBits old v with
  | Ok o => exists s m, o = VStr s /\ bytes_paste grow x v = (mkVec s m, Ok tt)
  | Err => snd (bytes_paste grow x v) = Err
  | UB u => snd (bytes_paste grow x v) = UB u
  | Fuel => False
  end.
Proof.
  intros G. destruct (bits_type v) eqn:BT.
  2: { unfold bytes_paste, vecwrap_paste. rewrite BT. unfold bits_type in BT. cbn [paste_value]. destruct (v_type v); try discriminate BT; reflexivity. }
  assert (M1 : Z.of_nat (bits_size v) mod 1 = 0) by apply Z.mod_1_r. destruct (vec_fits grow 1 x v G ltac:(lia) M1 BT) as (m & E & _ & _ & Y). cbv zeta in E. unfold bytes_paste. rewrite E. clear E.
  cbn [paste_value]. assert (TT : v_type v = TString \/ v_type v = TBinary) by (unfold bits_type in BT; destruct (v_type v); try discriminate BT; auto).
  destruct TT as [T|T]; rewrite T.
  - assert (BS : bits_size v = get_base64_decoded_size (v_data v)) by (unfold bits_size; rewrite T; reflexivity). rewrite BS in *.
    destruct (Nat.eqb_spec (get_base64_decoded_size (v_data v)) 0) as [Z0|Z0].
    + exists [], (x_mem (vec_resize grow 1 (Z.of_nat (get_base64_decoded_size (v_data v)) / 1) x)). split; [reflexivity|]. now rewrite write_all_data by (rewrite Y, Z0; reflexivity).
    + pose proof (plain_full v) as PF. rewrite BS in PF. unfold plain_bits in *. rewrite T in *. cbn [ty_eqb ty_num Z.eqb Pos.eqb] in *. rewrite BS in *. unfold base64_to_bytes, base64_to_bytes_dest.
      destruct (_ && _); [reflexivity|]. rewrite writes_loop. pose proof (writes_outcome (get_base64_decoded_size (v_data v)) (v_data v) 0 (get_base64_decoded_size (v_data v))) as O.
      destruct (b64_writes _ _ _ _) as [d [[]| |u|]]; cbn [rbind fst snd] in *; auto. exists d, (x_mem (vec_resize grow 1 (Z.of_nat (get_base64_decoded_size (v_data v)) / 1) x)). split; [reflexivity|].
      now rewrite write_all_data by (rewrite Y; auto).
  - assert (BS : bits_size v = length (v_data v)) by (unfold bits_size; rewrite T; reflexivity). rewrite BS in *. destruct (Nat.eqb_spec (length (v_data v)) 0) as [Z0|Z0].
    + eexists _, _. split; [reflexivity|]. rewrite write_all_data by (rewrite Y, Z0; reflexivity). destruct (v_data v); [reflexivity|discriminate].
    + unfold plain_bits. rewrite T. cbn [ty_eqb ty_num Z.eqb Pos.eqb fst snd]. eexists _, _. split; [reflexivity|]. now rewrite write_all_data by (rewrite Y; reflexivity).
Qed.
