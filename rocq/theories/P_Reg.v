(** Proofs about class registrations. *)
From Coq Require Import ZArith List Bool Lia.
From Verif Require Import Base Lemmas M_Types M_Conv M_Charset M_Tree M_HTable S_HTable P_HTable M_Reg S_Reg.
Import ListNotations.
Open Scope Z_scope.

Notation rinv := (@inv bytes nat id_hash).
Definition keq_ok : forall a b, bytes_eqb a b = true <-> a = b := bytes_eqb_eq.

Lemma get_hash (r : regs) k h : h = id_hash k -> ht_get bytes_eqb (fun _ => h) r k = ht_get bytes_eqb id_hash r k.
Proof. intros ->. reflexivity. Qed.
Lemma find_utf8 r m id : rinv r m -> reg_find r (id, EUTF8) = Ok (lookup bytes_eqb m id).
Proof.
  intros I. unfold reg_find. cbn [fst snd]. change (enc_eqb EUTF8 EUTF8) with true. cbn [rbind]. rewrite (get_hash r id _ eq_refl).
  apply (@ht_get_spec bytes nat bytes_eqb id_hash (fun n => n) keq_ok). exact I.
Qed.
Lemma registered_app a b id : registered (a ++ b) id = match registered a id with Some c => Some c | None => registered b id end.
Proof. induction a as [|[i c|i] a IH]; cbn [registered app]; [reflexivity| |exact IH]. now destruct (bytes_eqb i id). Qed.

Lemma reg_step_ok past r m op : rinv r m -> (forall id, lookup bytes_eqb m id = registered past id) ->
  exists r' m', reg_step r op = Ok (expected past op, r') /\ rinv r' m' /\ (forall id, lookup bytes_eqb m' id = registered (past ++ [op]) id).
Proof.
  intros I A. destruct op as [id c|id]; cbn [reg_step expected].
  - destruct (@table_step_spec bytes nat bytes_eqb id_hash (fun n => n) keq_ok r m (MInsert id c) I) as (t & o & E & H). cbn [table_step] in E.
    unfold reg_add. destruct (ht_insert bytes_eqb id_hash (fun n => n) r id c) as [[[b v] r']| | |]; cbn [rbind] in E |- *; try discriminate.
    injection E as -> <-. cbn [fst snd] in H |- *. cbn [spec_step] in H. rewrite A in H. destruct (registered past id) as [c'|] eqn:R; destruct H as [I' H]; injection H as -> ->.
    + exists t, m. split; [reflexivity|]. split; [exact I'|]. intros i. rewrite registered_app, A. destruct (registered past i) eqn:Ri; [reflexivity|]. cbn [registered].
      destruct (bytes_eqb id i) eqn:Ei; [|reflexivity]. apply bytes_eqb_eq in Ei. subst i. congruence.
    + exists t, ((id, c) :: m). split; [reflexivity|]. split; [exact I'|]. intros i. rewrite registered_app. cbn [lookup registered]. rewrite A.
      destruct (bytes_eqb id i) eqn:Ei; [|now destruct (registered past i)]. apply bytes_eqb_eq in Ei. subst i. now rewrite R.
  - unfold reg_create. rewrite (find_utf8 r m id I), A. cbn [rbind]. exists r, m. split; [|split; [exact I|]].
    + now destruct (registered past id).
    + intros i. rewrite registered_app, A. cbn [registered]. now destruct (registered past i).
Qed.

Lemma reg_run_ok : forall ops past r m, rinv r m -> (forall id, lookup bytes_eqb m id = registered past id) ->
  exists r', reg_run r ops = Ok (map (fun i => expected (past ++ firstn i ops) (nth i ops (RCreate []))) (seq 0 (length ops)), r') /\
  (forall id, reg_find r' (id, EUTF8) = Ok (registered (past ++ ops) id)).
Proof.
  induction ops as [|op ops IH]; intros past r m I A; cbn [reg_run length seq map].
  - exists r. split; [reflexivity|]. intros id. rewrite (find_utf8 r m id I), A, app_nil_r. reflexivity.
  - destruct (reg_step_ok past r m op I A) as (r1 & m1 & E & I1 & A1). rewrite E. cbn [rbind]. destruct (IH _ _ _ I1 A1) as (r2 & E2 & F). rewrite E2. cbn [rbind]. exists r2. split.
    + cbn [firstn nth]. rewrite app_nil_r. do 3 f_equal. rewrite <- seq_shift, map_map. apply map_ext. intros i. cbn [firstn nth]. now rewrite <- app_assoc.
    + intros id. rewrite F, <- app_assoc. reflexivity.
Qed.

(** the hash of other bytes: nothing is found *)
Lemma find_other mem k h : h <> id_hash k -> forall l p prev fuel, @seg bytes nat id_hash mem p l None -> (length l < fuel)%nat ->
  exists q, ht_find bytes_eqb fuel mem p prev h k = Ok (None, q).
Proof.
  intros NE. induction l as [|[a [k' v]] l IH]; intros p prev fuel SG L; (destruct fuel as [|fuel]; [cbn in L; lia|]); cbn [seg ht_find] in *.
  - subst p. eauto.
  - destruct SG as (-> & nx & N & SG). unfold rd. rewrite N. cbn [rbind e_hash e_key e_next]. destruct (bytes_eqb k' k) eqn:E.
    + apply bytes_eqb_eq in E. subst k'. destruct (Z.eqb_spec (id_hash k) h) as [X|X]; [congruence|]. cbn [andb]. apply IH; [exact SG|cbn in L; lia].
    + rewrite andb_false_r. apply IH; [exact SG|cbn in L; lia].
Qed.
Lemma get_foreign r m h k : rinv r m -> ht_get bytes_eqb (fun _ => h) r k = Ok (if h =? id_hash k then lookup bytes_eqb m k else None).
Proof.
  intros I. destruct (Z.eqb_spec h (id_hash k)) as [->|NE].
  - change (ht_get bytes_eqb id_hash r k = Ok (lookup bytes_eqb m k)). now apply (@ht_get_spec bytes nat bytes_eqb id_hash (fun n => n) keq_ok).
  - unfold ht_get. destruct (Z.ltb_spec (t_elems r) 1) as [E|E]; [reflexivity|].
    destruct (inv_live _ _ _ I E) as (ch & L & P). pose proof (bucket_range (t_cap r) h (lv_cap _ _ _ L)) as B.
    apply live_shape in L. destruct L as [SH _].
    assert (Hn : (Z.to_nat (get_bucket (t_cap r) h) < length ch)%nat) by (destruct SH; unfold zlen in *; lia).
    destruct (nth_error ch (Z.to_nat (get_bucket (t_cap r) h))) as [l|] eqn:En; [|apply nth_error_None in En; lia].
    apply nth_error_split in En as (ca & cc & -> & Hl). destruct (shape_slot _ r ca l cc SH) as (p & SL & SG).
    assert (Hb : zlen ca = get_bucket (t_cap r) h) by (unfold zlen; lia). rewrite Hb in SL. rewrite SL. cbn [rbind].
    destruct (find_other (t_mem r) k h NE l p None (fuel_of r) SG) as [q Hq].
    + eapply chain_fuel; [exact SH|]. apply in_or_app. right. now left.
    + rewrite Hq. reflexivity.
Qed.
Lemma find_converted ops e s c : e <> EUTF8 -> conv_charset_vec EUTF8 e s false = Ok c -> forall os r, reg_run regs_new ops = Ok (os, r) ->
  reg_find r (s, e) = Ok (if id_hash s =? id_hash c then registered ops c else None).
Proof.
  intros NE C. assert (G : forall ops past r m, rinv r m -> (forall id, lookup bytes_eqb m id = registered past id) -> forall os r', reg_run r ops = Ok (os, r') ->
    exists m', rinv r' m' /\ forall id, lookup bytes_eqb m' id = registered (past ++ ops) id).
  { clear. induction ops as [|op ops IH]; intros past r m I A os r' E; cbn [reg_run] in E.
    - injection E as <- <-. exists m. split; [exact I|]. intros id. now rewrite app_nil_r.
    - destruct (reg_step_ok past r m op I A) as (r1 & m1 & E1 & I1 & A1). rewrite E1 in E. cbn [rbind] in E.
      destruct (reg_run r1 ops) as [[os1 r2]| | |] eqn:E2; cbn [rbind] in E; try discriminate. injection E as <- <-.
      destruct (IH _ _ _ I1 A1 _ _ E2) as (m2 & I2 & A2). exists m2. split; [exact I2|]. intros id. rewrite A2, <- app_assoc. reflexivity. }
  intros os r E. destruct (G ops [] regs_new [] (@inv_new bytes nat id_hash 16) (fun _ => eq_refl) os r E) as (m & I & A).
  unfold reg_find. cbn [fst snd]. replace (enc_eqb e EUTF8) with false by (destruct e; (reflexivity || congruence)). rewrite C. cbn [rbind].
  rewrite (get_foreign r m _ _ I). now rewrite A.
Qed.
