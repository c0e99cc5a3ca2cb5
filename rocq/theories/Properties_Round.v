(** Property C96: numbers that are restored into float, double and long double. *)
From Coq Require Import ZArith List Bool Lia ZifyBool ZifyNat.
From Verif Require Import Base M_Types M_Conv M_TpTools M_Heap M_In S_Doc M_Event M_PSrl M_MsgPack M_Json M_Object M_ObjIO S_Round M_LongDouble P_Paste P_Round P_LongDouble Properties_Conv Properties_Object.
Import ListNotations.
Open Scope Z_scope.

(** That a number is restored into a floating point type exactly or throws, as it is into an integer type (C08), is false: 2^53 + 1
    becomes 2^53 in a double, 0.1 another number in a float and 1 + 2^-63 becomes 1 in a long double. *)
Theorem C96_exact_refuted : exists n d l l', in_range TI64 n /\ (forall x, exists r, paste_num x TFP64 (val_int TI64 n) = Ok r /\ f64_scaled r = (n - 1) * 2 ^ 1074) /\
  finite64 d /\ (forall x, exists r, paste_num x TFP32 (val_f64 d) = Ok r /\ f32_scaled r <> f64_scaled d) /\
  l <> l' /\ forall x, paste_ld x (insert_ld l) = Ok l'.
Proof.
  exists (2 ^ 53 + 1), (1019 * 2 ^ 52 + 2702159776422298), (LdFin false ((2 ^ 63 + 1) * 2 ^ 16382)), (LdFin false (2 ^ 63 * 2 ^ 16382)).
  split; [split; vm_compute; discriminate|]. split; [intros x; exists (1076 * 2 ^ 52); split; vm_compute; reflexivity|].
  split; [split; [vm_compute; split; [discriminate|reflexivity]|vm_compute; discriminate]|]. split; [intros x; eexists; split; [vm_compute; reflexivity|vm_compute; discriminate]|].
  split; [apply ld_differ; [apply Z.pow_nonzero; discriminate|discriminate]|exact ld_one_more].
Qed.
Print Assumptions C96_exact_refuted.
(** Integers of every type, into float and double: never an exception, always the nearest number, ties to even ... *)
Theorem C96_integers : forall x t n, In t [TBool; TI8; TUI8; TI16; TUI16; TI32; TUI32; TI64; TUI64] -> in_range t n ->
  (exists r, paste_num x TFP64 (val_int t n) = Ok r /\ nearest64 (n * 2 ^ 1074) r) /\
  (exists r, paste_num x TFP32 (val_int t n) = Ok r /\ nearest32 (n * 2 ^ 1074) r).
Proof. exact int_nearest. Qed.
Print Assumptions C96_integers.
(** ... which is the number itself if a double (float) has this value, in particular up to 2^53 for double. *)
Theorem C96_representable : forall x t n, In t [TBool; TI8; TUI8; TI16; TUI16; TI32; TUI32; TI64; TUI64] -> in_range t n ->
  (forall y, finite64 y -> f64_scaled y = n * 2 ^ 1074 -> exists r, paste_num x TFP64 (val_int t n) = Ok r /\ f64_scaled r = n * 2 ^ 1074) /\
  (forall y, finite32 y -> f32_scaled y = n * 2 ^ 1074 -> exists r, paste_num x TFP32 (val_int t n) = Ok r /\ f32_scaled r = n * 2 ^ 1074) /\
  (Z.abs n <= 2 ^ 53 -> exists r, paste_num x TFP64 (val_int t n) = Ok r /\ finite64 r /\ f64_scaled r = n * 2 ^ 1074).
Proof.
  intros x t n Ht Hr. destruct (int_nearest x t n Ht Hr) as [(r & A & B) (r' & A' & B')]. split; [|split].
  - intros y Y E. exists r. split; [exact A|]. exact (nearest64_exact _ _ _ B Y E).
  - intros y Y E. exists r'. split; [exact A'|]. exact (nearest32_exact _ _ _ B' Y E).
  - now apply small_ints.
Qed.
Print Assumptions C96_representable.
(** Doubles into float: the nearest float with the same sign if the number is not beyond the greatest float, otherwise an exception;
    an infinity throws, no number stays none. *)
Theorem C96_double_to_float : forall x d, 0 <= d < 2 ^ 64 ->
  (finite64 d -> Z.abs (f64_scaled d) <= float_max -> exists r, paste_num x TFP32 (mkValue TFP64 d [] EUnknown) = Ok r /\ nearest32 (f64_scaled d) r /\ f32_sign r = f64_sign d) /\
  (finite64 d -> float_max < Z.abs (f64_scaled d) -> paste_num x TFP32 (mkValue TFP64 d [] EUnknown) = Err) /\
  (f64_isinf d = true -> paste_num x TFP32 (mkValue TFP64 d [] EUnknown) = Err) /\
  (f64_isnan d = true -> exists r, paste_num x TFP32 (mkValue TFP64 d [] EUnknown) = Ok r /\ f32_isnan r = true).
Proof. exact double_float_nearest. Qed.
Print Assumptions C96_double_to_float.
(** Floats into float and what Value makes of a double into double: the same bits. *)
Theorem C96_same_type : forall x, (forall f, 0 <= f < 2 ^ 32 -> paste_num x TFP32 (mkValue TFP32 f [] EUnknown) = Ok f) /\
  (forall d, 0 <= d < 2 ^ 64 -> paste_num x TFP64 (mkValue TFP64 d [] EUnknown) = Ok d) /\
  (forall f, 0 <= f < 2 ^ 32 -> f32_exp f <> 255 -> exists r, paste_num x TFP64 (mkValue TFP32 f [] EUnknown) = Ok r /\ finite64 r /\ f64_scaled r = f32_scaled f).
Proof.
  intros x. split; [intros; now apply paste_float_float|]. split; [intros d Hd; rewrite paste_double; [reflexivity|right; split; [reflexivity|exact Hd]]|].
  intros f Hf HE. exists (f32_to_f64 f). split.
  - rewrite paste_double by (left; split; [reflexivity|exact Hf]). unfold v_double, v_fp32. cbn [v_type v_raw]. change (ty_eqb TFP32 TFP64) with false. cbv iota. change two32 with (2 ^ 32). now rewrite Z.mod_small.
  - destruct (C10_widening_exact f Hf) as (_ & R & V & _). destruct (V HE) as [V1 V2]. split; [split; [exact R|exact V1]|exact V2].
Qed.
Print Assumptions C96_same_type.
(** A long double comes back as the value of the nearest double, with its sign; infinities and NaN stay what they are. *)
Theorem C96_long_double : forall x, (forall s a, 0 <= a <= (2 ^ 53 - 1) * 2 ^ 971 * 2 ^ 16445 ->
    exists r, paste_ld x (insert_ld (LdFin s a)) = Ok (LdFin s (Z.abs (f64_scaled r) * 2 ^ 15371)) /\ finite64 r /\ f64_sign r = s /\
      forall y, finite64 y -> as_near (if s then - a else a) (f64_scaled r * 2 ^ 15371) (f64_scaled y * 2 ^ 15371)) /\
  (forall s, paste_ld x (insert_ld (LdInf s)) = Ok (LdInf s)) /\ paste_ld x (insert_ld LdNan) = Ok LdNan.
Proof.
  intros x. split; [|split].
  - intros s a [H1 H2]. rewrite <- ld_bound_def in H2. destruct (finite_ld s a H1 H2) as (A & B & C). exists (ld_to_f64 (LdFin s a)). split; [|split; [exact A|split; [exact B|exact C]]].
    rewrite ld_back by exact H1. unfold f64_to_ld. destruct A as [_ A]. replace (f64_exp (ld_to_f64 (LdFin s a)) =? 2047) with false by (symmetry; now apply Z.eqb_neq). now rewrite B.
  - intros s. rewrite ld_back by exact I. destruct s; vm_compute; reflexivity.
  - rewrite ld_back by exact I. vm_compute. reflexivity.
Qed.
Print Assumptions C96_long_double.
(** a long double beyond the doubles silently becomes infinite *)
Theorem C96_long_double_overflow_refuted : exists a, forall x, paste_ld x (insert_ld (LdFin false a)) = Ok (LdInf false).
Proof. exists (2 ^ 1024 * 2 ^ 16445). intros x. rewrite ld_back by (apply Z.mul_nonneg_nonneg; apply Z.pow_nonneg; lia). rewrite <- Z.pow_add_r, <- (Z.mul_1_l (2 ^ (1024 + 16445))), ld_scaled by lia. vm_compute. reflexivity. Qed.
Print Assumptions C96_long_double_overflow_refuted.

(** ties and carries: 2^24 + 1 and 2^24 + 3 into float, 2^64 - 1 into double; 1e-45 rounds to the smallest float, a third of it to 0 *)
Example C96_ex : paste_num no_fp TFP32 (val_int TUI32 16777217) = Ok (151 * 2 ^ 23) /\ paste_num no_fp TFP32 (val_int TUI32 16777219) = Ok (151 * 2 ^ 23 + 2) /\
  paste_num no_fp TFP64 (val_int TUI64 (2 ^ 64 - 1)) = Ok (1087 * 2 ^ 52) /\ paste_num no_fp TFP64 (val_int TI64 (- 2 ^ 63)) = Ok (2 ^ 63 + 1086 * 2 ^ 52) /\
  paste_num no_fp TFP32 (mkValue TFP64 (874 * 2 ^ 52 + 5) [] EUnknown) = Ok 1 /\ paste_num no_fp TFP32 (mkValue TFP64 (2 ^ 63 + 872 * 2 ^ 52 + 5) [] EUnknown) = Ok (2 ^ 31).
Proof. repeat split; vm_compute; reflexivity. Qed.
Example C96_ex_max : paste_num no_fp TFP32 (mkValue TFP64 (1150 * 2 ^ 52 + (2 ^ 23 - 1) * 2 ^ 29) [] EUnknown) = Ok (255 * 2 ^ 23 - 1) /\
  paste_num no_fp TFP32 (mkValue TFP64 (1150 * 2 ^ 52 + (2 ^ 23 - 1) * 2 ^ 29 + 1) [] EUnknown) = Err.
Proof. split; vm_compute; reflexivity. Qed.
Example C96_ex_long : paste_ld no_fp (insert_ld (LdFin true (3 * 2 ^ 16440))) = Ok (LdFin true (3 * 2 ^ 1069 * 2 ^ 15371)) /\ paste_ld no_fp (insert_ld (LdFin true 5)) = Ok (LdFin true 0).
Proof.
  split.
  - rewrite ld_back by (apply Z.mul_nonneg_nonneg; [discriminate|apply Z.pow_nonneg; lia]). rewrite ld_scaled by lia. f_equal.
  - rewrite ld_back by discriminate. rewrite <- (Z.mul_1_r 5). change 1 with (2 ^ 0). rewrite ld_scaled by lia. f_equal.
Qed.
(** a class whose member was an integer and now is a double, through JSON *)
Definition round_world : world := mkWorld ex_fp (fun c => match c with 0%nat => [mkField ($"x") false (CNum TI64)] | _ => [mkField ($"x") false (CNum TFP64)] end) (fun _ => []) (fun _ _ => Ok None) ex_new ex_lt.
Example C96_ex_object :
  (let* (_, bs, _) := store_object ex_fp 100 round_world [] json_p (heap_init no_mem) ($"o") (CCls 0) (VList [VNum 9007199254740993]) in
   let* (r, _) := run_block (restore_object ex_fp 100 round_world json_p (CCls 1) (VList [VNum 0])) (mkBlk [] bs) in Ok (bs, fst (snd r))) =
  Ok (js ($"{'x':9007199254740993}"), VList [VNum (1076 * 2 ^ 52)]).
Proof. vm_compute. reflexivity. Qed.
