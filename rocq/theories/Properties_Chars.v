(** Property C65: character arrays as members. *)
From Coq Require Import ZArith List Bool Lia ZifyBool ZifyNat.
From Verif Require Import Base Lemmas M_Types M_Conv M_Charset M_In S_Charset S_Doc M_Event M_PSrl M_MsgPack M_Json M_Tree M_TreeIO M_Object S_Chars S_ObjStore M_ObjIO S_ObjIO
  P_Doc P_Chars P_CharsWide P_ObjIO Properties_Object.
Import ListNotations.
Open Scope Z_scope.

(** * C65: the full statement would be: a [TChar[n]] is stored as the text before its terminator, and restoring puts this text
    into the array again, or throws if there is no room.
    Storing: for all widths, if there is a terminator *)
Theorem C65_stored : forall w hp e n mem s name tab F, holds_text e n mem s ->
  emit (S F) w hp (CChars e n) (VStr mem) name tab = Ok (DVal name (val_string s e), tab).
Proof. intros w hp e n mem s name tab F H. cbn [emit]. now rewrite (wrap_text e n mem s H). Qed.
(** if there is none, the last [char] is dropped, *)
Theorem C65_unterminated : forall w hp n mem name tab F, unterminated EUTF8 n mem ->
  emit (S F) w hp (CChars EUTF8 n) (VStr mem) name tab = Ok (DVal name (val_string (firstn (Z.to_nat (n - 1)) mem) EUTF8), tab).
Proof. intros w hp n mem name tab F H. cbn [emit]. now rewrite (wrap_narrow n mem H). Qed.
(** and arrays of wide characters are read beyond their end *)
Theorem C65_wide_overread : forall w hp e n mem name tab F, unterminated e n mem -> e = EUTF16 /\ 3 <= n \/ e = EUTF32 /\ 2 <= n ->
  emit (S F) w hp (CChars e n) (VStr mem) name tab = UB UbOob.
Proof. intros w hp e n mem name tab F H C. cbn [emit]. now rewrite (wrap_wide e n mem H C). Qed.

(** Restoring: [char] arrays hold the text afterwards, and what is behind the terminator is as it was *)
Theorem C65_restored : forall w n mem s, array_of EUTF8 n mem -> zlen s < n -> zlen s < 2 ^ 32 -> ~ In 0 s ->
  exists mem', paste_value w (CChars EUTF8 n) (VStr mem) (val_string s EUTF8) = Ok (VStr mem') /\ holds_text EUTF8 n mem' s /\
    forall i, zlen s < i < n -> char_at 1 mem' i = char_at 1 mem i.
Proof.
  intros w n mem s [A B] L L2 NI. cbn [unit_size] in B. cbn [paste_value]. rewrite (paste_narrow n mem s) by (auto; try lia; cbn; apply trunc_block_id; unfold_words; lia). cbn [rbind].
  eexists. split; [reflexivity|]. split.
  - apply text_before; [exact NI|]. rewrite zlen_app. unfold zlen in *. cbn [length]. rewrite skipn_length. lia.
  - intros i I. pose proof (zlen_nonneg s). unfold char_at. rewrite Z.mul_1_r. unfold zlen in *. rewrite skipn_app, skipn_all2 by lia. cbn [app].
    replace (Z.to_nat i - length s)%nat with (S (Z.to_nat i - length s - 1)) by lia. cbn [skipn]. rewrite skipn_skipn. do 2 f_equal. lia.
Qed.
Theorem C65_no_room : forall w n mem s, n <= zlen s < 2 ^ 32 -> paste_value w (CChars EUTF8 n) (VStr mem) (val_string s EUTF8) = Err.
Proof. intros w n mem s L. cbn [paste_value]. rewrite (paste_long n mem s) by (auto; try lia; cbn; apply trunc_block_id; unfold_words; lia). reflexivity. Qed.
(** Wide arrays: the text is put at the start, but the terminator goes where the text would end if each character took as many
    bytes as it has in UTF-8; this may be inside the text, behind it, or outside of the array *)
Theorem C65_wide : forall w e n mem cs, e = EUTF16 \/ e = EUTF32 -> Forall scalar cs -> array_of e n mem -> zlen (text e cs) <= (n - 1) * unit_size e -> zlen (text EUTF8 cs) < 2 ^ 32 ->
  let k := zlen (text EUTF8 cs) / unit_size e in let v := val_string (text EUTF8 cs) EUTF8 in
  (k < n -> exists mem', paste_value w (CChars e n) (VStr mem) v = Ok (VStr mem') /\ array_of e n mem' /\ char_at (unit_size e) mem' k = repeat 0 (Z.to_nat (unit_size e)) /\
     forall i, 0 <= i < n -> i <> k -> char_at (unit_size e) mem' i = char_at (unit_size e) (text e cs ++ skipn (length (text e cs)) mem) i) /\
  (n <= k -> paste_value w (CChars e n) (VStr mem) v = UB UbOob).
Proof.
  intros w e n mem cs W SC A R L k v. cbn [paste_value]. split; intros K.
  - destruct (paste_wide_in e n mem cs W SC A R L K) as (mem' & P & Q). exists mem'. fold v in P. rewrite P. auto.
  - unfold v. now rewrite (paste_wide_over e n mem cs W SC A R L K).
Qed.
(** so half or more of every ASCII text is lost *)
Theorem C65_wide_ascii : forall w e n mem cs, e = EUTF16 \/ e = EUTF32 -> Forall (fun c => 0 < c < 128) cs -> array_of e n mem -> zlen cs < n -> zlen cs < 2 ^ 32 ->
  exists mem', paste_value w (CChars e n) (VStr mem) (val_string (text EUTF8 cs) EUTF8) = Ok (VStr mem') /\
    holds_text e n mem' (text e (firstn (Z.to_nat (zlen cs / unit_size e)) cs)).
Proof.
  intros w e n mem cs W F A L S32. cbn [paste_value]. destruct (paste_ascii e n mem cs W F A L S32) as (mem' & P & Q). exists mem'. rewrite P. auto.
Qed.
(** and text that has room writes outside of the array *)
Theorem C65_wide_overwrite_refuted : exists n cs, Forall scalar cs /\ zlen (text EUTF16 cs) <= (n - 1) * 2 /\
  forall w mem, array_of EUTF16 n mem -> paste_value w (CChars EUTF16 n) (VStr mem) (val_string (text EUTF8 cs) EUTF8) = UB UbOob.
Proof.
  exists 4, [26085; 26412; 35486]. assert (SC : Forall scalar [26085; 26412; 35486]) by (repeat constructor; unfold scalar; lia). split; [exact SC|]. split; [vm_compute; discriminate|].
  intros w mem A. cbn [paste_value]. rewrite (paste_wide_over EUTF16 4 mem [26085; 26412; 35486]); auto; vm_compute; discriminate || reflexivity.
Qed.
Print Assumptions C65_stored.
Print Assumptions C65_unterminated.
Print Assumptions C65_wide_overread.
Print Assumptions C65_restored.
Print Assumptions C65_no_room.
Print Assumptions C65_wide.
Print Assumptions C65_wide_ascii.
Print Assumptions C65_wide_overwrite_refuted.

(** a pair of a [char[6]] and a number, there and back in all formats; see C39 for all such objects *)
Definition ch_type : ct := CPair (CChars EUTF8 6) (CNum TI32).
Definition ch_obj : cv := VList [VStr [115; 114; 108; 0; 0; 0]; VNum 7].
Example C65_ex : holds_text EUTF8 6 [115; 114; 108; 0; 88; 0] ($"srl") /\ unterminated EUTF8 3 ($"srl") /\
  storable ex_world [] (fun _ => 0%nat) (carried ex_fp (JsonP (json_init true))) 0 ch_type ch_obj /\
  io (PsrlP psrl_init) [] ch_type ch_obj = Ok (ch_obj, rs_new) /\ io (MsgpP msgp_init) [] ch_type ch_obj = Ok (ch_obj, rs_new) /\ io (JsonP (json_init true)) [] ch_type ch_obj = Ok (ch_obj, rs_new) /\
  paste_value ex_world (CChars EUTF8 6) (VStr ($"abcdef")) (val_string ($"xy") EUTF8) = Ok (VStr [120; 121; 0; 100; 101; 102]).
Proof.
  split; [|split; [|split; [|split; [vm_compute; reflexivity|split; [vm_compute; reflexivity|split; vm_compute; reflexivity]]]]].
  - split; [split; [lia|reflexivity]|]. exists 3. split; [lia|]. split; [|reflexivity]. split; [lia|]. split; [reflexivity|]. intros j J. assert (j = 0 \/ j = 1 \/ j = 2) as [-> |[-> | ->]] by lia; discriminate.
  - split; [split; [lia|reflexivity]|]. intros j J. assert (j = 0 \/ j = 1 \/ j = 2) as [-> |[-> | ->]] by lia; discriminate.
  - apply st_pair; (apply st_leaf; [exact I|reflexivity|]).
    + split; [|apply wf_bytesb_spec; reflexivity]. split; [reflexivity|]. exists ($"srl"). split; [reflexivity|]. split; [reflexivity|]. cbn. intros H. repeat (destruct H as [H|H]; [discriminate H|]). exact H.
    + split; [cbn; lia|]. exact I.
Qed.
(** u"abcd" comes back as u"ab" *)
Theorem C65_wide_roundtrip_refuted : exists bs mem, io_bytes (MsgpP msgp_init) [] (CPair (CChars EUTF16 6) (CNum TI32)) (VList [VStr [97; 0; 98; 0; 99; 0; 100; 0; 0; 0; 0; 0]; VNum 7]) = Ok bs /\
  io_back (MsgpP msgp_init) bs (CPair (CChars EUTF16 6) (CNum TI32)) = Ok (VList [VStr mem; VNum 7], rs_new) /\ mem = [97; 0; 98; 0; 0; 0; 100; 0; 0; 0; 0; 0] /\ holds_text EUTF16 6 mem [97; 0; 98; 0].
Proof.
  eexists. eexists. split; [vm_compute; reflexivity|]. split; [vm_compute; reflexivity|]. split; [reflexivity|]. split; [split; [lia|reflexivity]|]. exists 2. split; [lia|]. split; [|reflexivity].
  split; [lia|]. split; [reflexivity|]. intros j J. assert (j = 0 \/ j = 1) as [-> | ->] by lia; discriminate.
Qed.
Print Assumptions C65_wide_roundtrip_refuted.
