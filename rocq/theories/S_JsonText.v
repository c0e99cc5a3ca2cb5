(** JSON texts: the layout PJson is meant to produce, and the grammar of RFC 8259.  Independent of the model. *)
From Coq Require Import ZArith List Bool.
From Verif Require Import Base M_Types M_Conv S_Conv S_Doc S_Json S_Charset.
Import ListNotations.
Open Scope Z_scope.

(** * The layout *)

(** decimal notation *)
Fixpoint decimal_nat (fuel : nat) (n : Z) : bytes :=
  match fuel with
  | O => []
  | S f => if n <? 10 then [48 + n] else decimal_nat f (n / 10) ++ [48 + n mod 10]
  end.
Definition decimal (n : Z) : bytes := if n <? 0 then 45 :: decimal_nat 20 (- n) else decimal_nat 20 n.

(** the characters that are escaped, and the character that stands for them behind a backslash *)
Definition escapes : list (Z * Z) := [(34, 34); (92, 92); (47, 47); (8, 98); (12, 102); (10, 110); (13, 114); (9, 116)].
Fixpoint assoc (c : Z) (l : list (Z * Z)) : option Z :=
  match l with [] => None | (a, b) :: l' => if a =? c then Some b else assoc c l' end.
Definition json_escape (c : Z) : bytes := match assoc c escapes with Some e => [92; e] | None => [c] end.
Definition quoted (s : bytes) : bytes := 34 :: s ++ [34].

Definition value_text (x : fp_text) (m : meaning) : bytes :=
  match m with
  | MeNull => $"null"
  | MeBool b => if b then $"true" else $"false"
  | MeInt n => decimal n
  | MeFloat d => match whole d with Some n => decimal n | None => x_dtoa x d end
  | MeStr s => quoted (flat_map json_escape s)
  | MeBin s => quoted (b64_text s)
  | MeObj | MeArr | MeEnd => []
  end.

Section Render.
  Variables (compact : bool) (x : fp_text).
  (** a new line, indented by tabs *)
  Definition nl (k : nat) : bytes := if compact then [] else 10 :: repeat 9 k.
  Definition key (named : bool) (n : bytes) : bytes :=
    if named then quoted n ++ [58] ++ (if compact then [] else [32]) else [].
  (** [k] is the depth *)
  Fixpoint render (named : bool) (k : nat) (d : doc) : bytes :=
    match d with
    | DVal n v => key named n ++ value_text x (meaning_of v)
    | DScope n t its =>
        key named n ++ [if ty_eqb t TArray then 91 else 123] ++
        (fix items (first : bool) (l : list doc) : bytes :=
           match l with
           | [] => []
           | y :: l' => (if first then [] else [44]) ++ nl (S k) ++ render (ty_eqb t TObject) (S k) y ++ items false l'
           end) true its ++
        nl k ++ [if ty_eqb t TArray then 93 else 125]
    end.
End Render.

(** * The grammar *)
Definition js_space (c : Z) : Prop := In c [32; 9; 10; 13].

(** [t] stands for the bytes [s] between quotation marks.  Only if [u], code points may be given in hexadecimal.
    Raw characters are seen byte by byte; that they are UTF-8 is not part of this grammar. *)
Definition hex4 (t : bytes) (n : Z) : Prop := length t = 4%nat /\ exists a b, hex_ref t = Some [a; b] /\ n = 256 * a + b.
Inductive js_chars (u : bool) : bytes -> bytes -> Prop :=
| JcNil : js_chars u [] []
| JcRaw c t s : 32 <= c -> c <> 34 -> c <> 92 -> js_chars u t s -> js_chars u (c :: t) (c :: s)
| JcEsc e c t s : In (c, e) escapes -> js_chars u t s -> js_chars u (92 :: e :: t) (c :: s)
| JcUni h n t s : u = true -> hex4 h n -> scalar n -> js_chars u t s -> js_chars u (92 :: 117 :: h ++ t) (utf8 n ++ s)
| JcPair h l n m t s : u = true -> hex4 h n -> hex4 l m -> 55296 <= n < 56320 -> 56320 <= m < 57344 -> js_chars u t s ->
    js_chars u (92 :: 117 :: h ++ 92 :: 117 :: l ++ t) (utf8 (65536 + 1024 * (n - 55296) + (m - 56320)) ++ s).

(** numbers *)
Definition js_digits (s : bytes) : Prop := digits s /\ (s = [48] \/ hd 48 s <> 48).
Definition js_int (t : bytes) (n : Z) : Prop :=
  exists s, js_digits s /\ ((t = s /\ n = dec_value s) \/ (t = 45 :: s /\ n = - dec_value s)).
Definition js_frac (t : bytes) : Prop := t = [] \/ exists s, t = 46 :: s /\ digits s.
Definition js_exp (t : bytes) : Prop :=
  t = [] \/ exists e sg s, t = e :: sg ++ s /\ (e = 101 \/ e = 69) /\ (sg = [] \/ sg = [43] \/ sg = [45]) /\ digits s.
Definition js_number (t : bytes) : Prop :=
  exists i n f e, t = i ++ f ++ e /\ js_int i n /\ js_frac f /\ js_exp e /\ f ++ e <> [].

(** [js_value nm t m]: the value [t], under the name [nm], stands for [m];
    [js_items sc t ms]: what is between the brackets of a scope of type [sc]. *)
Inductive js_key (u : bool) : ty -> bytes -> bytes -> Prop :=
| JkArr : js_key u TArray [] []
| JkObj k n w1 w2 : js_chars u k n -> Forall js_space w1 -> Forall js_space w2 -> js_key u TObject (34 :: k ++ [34] ++ w1 ++ [58] ++ w2) n.
Inductive js_value (x : fp_text) (u : bool) : bytes -> bytes -> mdoc -> Prop :=
| JvNull nm : js_value x u nm ($"null") (MVal nm MeNull)
| JvTrue nm : js_value x u nm ($"true") (MVal nm (MeBool true))
| JvFalse nm : js_value x u nm ($"false") (MVal nm (MeBool false))
| JvInt nm t n : js_int t n -> js_value x u nm t (MVal nm (MeInt n))
| JvNum nm t d : js_number t -> x_strtod x t = Some d -> 0 <= d < 2 ^ 64 -> js_value x u nm t (MVal nm (MeFloat d))
| JvStr nm t s : js_chars u t s -> js_value x u nm (quoted t) (MVal nm (MeStr s))
| JvArr nm t ms : js_items x u TArray t ms -> js_value x u nm (91 :: t ++ [93]) (MScope nm TArray ms)
| JvObj nm t ms : js_items x u TObject t ms -> js_value x u nm (123 :: t ++ [125]) (MScope nm TObject ms)
with js_items (x : fp_text) (u : bool) : ty -> bytes -> list mdoc -> Prop :=
| JiNone sc w : Forall js_space w -> js_items x u sc w []
| JiOne sc w1 k nm t w2 m : Forall js_space w1 -> js_key u sc k nm -> js_value x u nm t m -> Forall js_space w2 ->
    js_items x u sc (w1 ++ k ++ t ++ w2) [m]
| JiCons sc w1 k nm t w2 m r ms : Forall js_space w1 -> js_key u sc k nm -> js_value x u nm t m -> Forall js_space w2 ->
    js_items x u sc r ms -> ms <> [] -> js_items x u sc (w1 ++ k ++ t ++ w2 ++ 44 :: r) (m :: ms).

(** all meanings in a document *)
Fixpoint all_means (P : meaning -> Prop) (m : mdoc) : Prop :=
  match m with
  | MVal _ v => P v
  | MScope _ _ its => (fix all (l : list mdoc) : Prop := match l with [] => True | y :: l' => all_means P y /\ all l' end) its
  end.

(** characters that RFC 8259 lets pass unescaped, or that PJson escapes *)
Definition rfc_char (c : Z) : Prop := 32 <= c \/ In c [8; 9; 10; 12; 13].
Definition rfc_value (x : fp_text) (v : value) : Prop :=
  match meaning_of v with
  | MeStr s => Forall rfc_char s
  | MeFloat d => whole d = None -> js_number (x_dtoa x d)
  | _ => True
  end.
Fixpoint rfc_names (named : bool) (d : doc) : Prop :=
  match d with
  | DVal n _ => named = true -> Forall (fun c => 32 <= c) n
  | DScope n t its => (named = true -> Forall (fun c => 32 <= c) n) /\
      (fix all (l : list doc) : Prop := match l with [] => True | x :: l' => rfc_names (ty_eqb t TObject) x /\ all l' end) its
  end.
