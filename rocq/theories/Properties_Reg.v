(** C50, C60: class registrations. *)
From Coq Require Import ZArith List Bool.
From Verif Require Import Base M_Types M_Charset M_Tree M_HTable M_Reg S_Reg P_HTable P_Reg.
Import ListNotations.
Open Scope Z_scope.

(** Every sequence of registrations and creations answers as [expected] from the operations before it: registering an id a
    second time throws and changes nothing, creating makes the class registered under the id and throws for others. *)
Theorem C50_registrations : forall ops, exists r,
  reg_run regs_new ops = Ok (map (fun i => expected (firstn i ops) (nth i ops (RCreate []))) (seq 0 (length ops)), r) /\
  forall id, reg_find r (id, EUTF8) = Ok (registered ops id).
Proof. intros ops. exact (reg_run_ok ops [] regs_new [] (@inv_new bytes nat id_hash 16) (fun _ => eq_refl)). Qed.
Print Assumptions C50_registrations.
Example C50_ex : reg_run regs_new [RAdd ($"circle") 1; RCreate ($"circle"); RCreate ($"Circle"); RAdd ($"square") 2; RAdd ($"circle") 3; RCreate ($"circle"); RCreate ($"square")]
  = Ok ([Added; Made 1; Thrown; Added; Thrown; Made 1; Made 2], match reg_run regs_new [RAdd ($"circle") 1; RAdd ($"square") 2] with Ok (_, r) => r | _ => regs_new end).
Proof. vm_compute. reflexivity. Qed.
(** more ids than buckets *)
Example C50_ex_growth : match reg_run regs_new (map (fun i => RAdd [97 + Z.of_nat i; 98] i) (seq 0 20) ++ [RCreate ($"cb"); RCreate ($"sb"); RCreate ($"zb")]) with
  | Ok (os, r) => skipn 20 os = [Made 2; Made 18; Thrown] /\ t_cap r = 32
  | _ => False end.
Proof. vm_compute. split; reflexivity. Qed.
(** The same id in another encoding is equal to it (String::operator==), but is not found: its hash is that of other bytes. *)
Theorem C60_other_encoding_refuted : exists id utf16 r, reg_add regs_new id 1 = Ok (false, r) /\ str_eq (id, EUTF8) (utf16, EUTF16) = Ok true /\ str_eq (utf16, EUTF16) (id, EUTF8) = Ok true /\
  reg_create r (id, EUTF8) = Ok 1%nat /\ reg_create r (utf16, EUTF16) = Err.
Proof. exists ($"ab"), [97; 0; 98; 0]. eexists. split; [vm_compute; reflexivity|]. repeat split; vm_compute; reflexivity. Qed.
Print Assumptions C60_other_encoding_refuted.
(** Exactly: the text converted to UTF-8 must be registered and its bytes must have the hash of the bytes before conversion. *)
Theorem C60_other_encoding_partial : forall ops os r e s c, e <> EUTF8 -> reg_run regs_new ops = Ok (os, r) -> conv_charset_vec EUTF8 e s false = Ok c ->
  reg_find r (s, e) = Ok (if id_hash s =? id_hash c then registered ops c else None).
Proof. intros ops os r e s c NE R C. exact (find_converted ops e s c NE C os r R). Qed.
Print Assumptions C60_other_encoding_partial.
Example C60_ex : conv_charset_vec EUTF8 EUTF16 [97; 0; 98; 0] false = Ok ($"ab") /\ id_hash [97; 0; 98; 0] = 12340099932563210358 /\ id_hash ($"ab") = 620445648566982762.
Proof. repeat split; vm_compute; reflexivity. Qed.
