(** Model of the vendored double printer (src/lib/fpconv/fpconv.c, src/lib/fpconv/powers.h), an implementation of Grisu2.
    Definitions only.

    A double is its 64 bits as a number.  Simplifications: loops run on fuel that the theorems show to suffice; the characters
    are appended to a list where the code writes them from left to right without gaps. *)
From Coq Require Import ZArith List Bool SpecFloat.
From Verif Require Import Base.
Import ListNotations.
Open Scope Z_scope.

(** fpconv.c:7-11 *)
Definition fracmask : Z := 4503599627370495.
Definition hiddenbit : Z := 4503599627370496.
Definition expbias : Z := 1075.

(** powers.h:11-14 *)
Record fp : Type := mkFp { frac : Z; fexp : Z }.
(** powers.h:16-61 *)
Definition powers_ten : list fp :=
  [mkFp 18054884314459144840 (-1220); mkFp 13451937075301367670 (-1193); mkFp 10022474136428063862 (-1166); mkFp 14934650266808366570 (-1140);
   mkFp 11127181549972568877 (-1113); mkFp 16580792590934885855 (-1087); mkFp 12353653155963782858 (-1060); mkFp 18408377700990114895 (-1034);
   mkFp 13715310171984221708 (-1007); mkFp 10218702384817765436 (-980); mkFp 15227053142812498563 (-954); mkFp 11345038669416679861 (-927);
   mkFp 16905424996341287883 (-901); mkFp 12595523146049147757 (-874); mkFp 9384396036005875287 (-847); mkFp 13983839803942852151 (-821);
   mkFp 10418772551374772303 (-794); mkFp 15525180923007089351 (-768); mkFp 11567161174868858868 (-741); mkFp 17236413322193710309 (-715);
   mkFp 12842128665889583758 (-688); mkFp 9568131466127621947 (-661); mkFp 14257626930069360058 (-635); mkFp 10622759856335341974 (-608);
   mkFp 15829145694278690180 (-582); mkFp 11793632577567316726 (-555); mkFp 17573882009934360870 (-529); mkFp 13093562431584567480 (-502);
   mkFp 9755464219737475723 (-475); mkFp 14536774485912137811 (-449); mkFp 10830740992659433045 (-422); mkFp 16139061738043178685 (-396);
   mkFp 12024538023802026127 (-369); mkFp 17917957937422433684 (-343); mkFp 13349918974505688015 (-316); mkFp 9946464728195732843 (-289);
   mkFp 14821387422376473014 (-263); mkFp 11042794154864902060 (-236); mkFp 16455045573212060422 (-210); mkFp 12259964326927110867 (-183);
   mkFp 18268770466636286478 (-157); mkFp 13611294676837538539 (-130); mkFp 10141204801825835212 (-103); mkFp 15111572745182864684 (-77);
   mkFp 11258999068426240000 (-50); mkFp 16777216000000000000 (-24); mkFp 12500000000000000000 3; mkFp 9313225746154785156 30;
   mkFp 13877787807814456755 56; mkFp 10339757656912845936 83; mkFp 15407439555097886824 109; mkFp 11479437019748901445 136;
   mkFp 17105694144590052135 162; mkFp 12744735289059618216 189; mkFp 9495567745759798747 216; mkFp 14149498560666738074 242;
   mkFp 10542197943230523224 269; mkFp 15709099088952724970 295; mkFp 11704190886730495818 322; mkFp 17440603504673385349 348;
   mkFp 12994262207056124023 375; mkFp 9681479787123295682 402; mkFp 14426529090290212157 428; mkFp 10748601772107342003 455;
   mkFp 16016664761464807395 481; mkFp 11933345169920330789 508; mkFp 17782069995880619868 534; mkFp 13248674568444952270 561;
   mkFp 9871031767461413346 588; mkFp 14708983551653345445 614; mkFp 10959046745042015199 641; mkFp 16330252207878254650 667;
   mkFp 12166986024289022870 694; mkFp 18130221999122236476 720; mkFp 13508068024458167312 747; mkFp 10064294952495520794 774;
   mkFp 14996968138956309548 800; mkFp 11173611982879273257 827; mkFp 16649979327439178909 853; mkFp 12405201291620119593 880;
   mkFp 9242595204427927429 907; mkFp 13772540099066387757 933; mkFp 10261342003245940623 960; mkFp 15290591125556738113 986;
   mkFp 11392378155556871081 1013; mkFp 16975966327722178521 1039; mkFp 12648080533535911531 1066].
(** powers.h:3-8 *)
Definition npowers : Z := 87.
Definition steppowers : Z := 8.
Definition firstpower : Z := -348.
Definition expmax : Z := -32.
Definition expmin : Z := -60.

(** fpconv.c:16-24; [tens + i] *)
Definition tens (i : nat) : Z := 10 ^ (19 - Z.of_nat i).

(** fpconv.c:36-53 *)
Definition build_fp (bits : Z) : fp :=
  let f := Z.land bits fracmask in
  let e := Z.land (Z.shiftr bits 52) 2047 in
  if e =? 0 then mkFp f (- expbias + 1) else mkFp (f + hiddenbit) (e - expbias).

(** while((frac & bit) == 0) { frac <<= 1; exp--; }, fpconv.c:57-60 and 72-75 *)
Fixpoint shift_up (fuel : nat) (bit : Z) (x : fp) : res fp :=
  match fuel with
  | O => Fuel
  | S f => if Z.land (frac x) bit =? 0 then shift_up f bit (mkFp (u64 (frac x * 2)) (fexp x - 1)) else Ok x
  end.
(** fpconv.c:55-65 *)
Definition normalize (x : fp) : res fp :=
  let* y := shift_up 64 hiddenbit x in
  Ok (mkFp (u64 (frac y * 2 ^ 11)) (fexp y - 11)).
(** fpconv.c:67-90: lower and upper boundary *)
Definition boundaries (x : fp) : res (fp * fp) :=
  let* u := shift_up 64 (hiddenbit * 2) (mkFp (u64 (frac x * 2 + 1)) (fexp x - 1)) in
  let upper := mkFp (u64 (frac u * 2 ^ 10)) (fexp u - 10) in
  let l_shift := if frac x =? hiddenbit then 2 else 1 in
  let lf := u64 (frac x * 2 ^ l_shift - 1) in
  let sh := fexp x - l_shift - fexp upper in
  if (sh <? 0) || (64 <=? sh) then UB UbShift
  else Ok (mkFp (u64 (lf * 2 ^ sh)) (fexp upper), upper).

(** fpconv.c:92-112 *)
Definition multiply (a b : fp) : fp :=
  let hi x := x / two32 in
  let lo x := x mod two32 in
  let ah_bl := u64 (hi (frac a) * lo (frac b)) in
  let al_bh := u64 (lo (frac a) * hi (frac b)) in
  let al_bl := u64 (lo (frac a) * lo (frac b)) in
  let ah_bh := u64 (hi (frac a) * hi (frac b)) in
  let tmp := u64 (u64 (lo ah_bl + lo al_bh + hi al_bl) + 2 ^ 31) in
  mkFp (u64 (ah_bh + hi ah_bl + hi al_bh + hi tmp)) (fexp a + fexp b + 64).

(** a double cut to an int *)
(** powers.h:67: cut to an int *)
Definition sf_trunc (x : spec_float) : res Z :=
  match x with
  | S754_zero _ => Ok 0
  | S754_finite s m e => let n := if 0 <=? e then Zpos m * 2 ^ e else Zpos m / 2 ^ (- e) in
                         if two31 <=? n then UB UbCast else Ok (if s then - n else n)
  | _ => UB UbCast
  end.
(** powers.h:67: an int as a double *)
Definition sf_of_int (n : Z) : spec_float := binary_normalize 53 1024 n 0 false.
(** powers.h:65: the double next to 0.30102999566398114 *)
Definition one_log_ten : spec_float := S754_finite false 5422874305198590 (-54).
(** powers.h:70-88 *)
Fixpoint find_loop (fuel : nat) (e idx : Z) : res (fp * Z) :=
  match fuel with
  | O => Fuel
  | S f =>
      if idx <? 0 then UB UbOob else
      match nth_error powers_ten (Z.to_nat idx) with
      | None => UB UbOob
      | Some p =>
          let current := e + fexp p + 64 in
          if current <? expmin then find_loop f e (idx + 1)
          else if expmax <? current then find_loop f e (idx - 1)
          else Ok (p, firstpower + idx * steppowers)
      end
  end.
(** powers.h:63-88 *)
Definition find_cachedpow10 (e : Z) : res (fp * Z) :=
  let* approx := sf_trunc (SFmul 53 1024 (sf_of_int (- (e + npowers))) one_log_ten) in
  find_loop 20 e (Z.quot (approx - firstpower) steppowers).

(** fpconv.c:114-122: how often the last digit is decremented *)
Fixpoint round_loop (fuel : nat) (delta rem kappa fr n : Z) : res Z :=
  match fuel with
  | O => Fuel
  | S f =>
      if (rem <? fr) && (kappa <=? u64 (delta - rem)) && ((u64 (rem + kappa) <? fr) || (u64 (rem + kappa - fr) <? u64 (fr - rem)))
      then round_loop f delta (u64 (rem + kappa)) kappa fr (n + 1) else Ok n
  end.
(** digits[ndigits - 1]-- that often.  [digits] is reversed *)
(** fpconv.c:114-122 *)
Definition round_digit (digits : bytes) (delta rem kappa fr : Z) : res bytes :=
  let* n := round_loop 12 delta rem kappa fr 0 in
  match digits with
  | d :: r => Ok (d - n :: r)
  | [] => if n =? 0 then Ok [] else UB UbOob
  end.
(** digits[idx++] = digit + '0' in an array of 18 (fpconv.c:316) *)
Definition put_digit (digits : bytes) (digit : Z) : res bytes :=
  if (negb (digit =? 0)) || negb (zlen digits =? 0)
  then if zlen digits <? 18 then Ok (digit + 48 :: digits) else UB UbOob
  else Ok digits.

(** fpconv.c:140-159: the digits before the point; [inl] the remaining state, [inr] finished: digits and kappa.
    [one] is one.frac; [i] is divp - tens. *)
Fixpoint int_digits (steps : nat) (i : nat) (one wfrac delta part1 part2 : Z) (digits : bytes) : res (bytes + bytes * Z) :=
  match steps with
  | O => Ok (inl digits)
  | S kappa =>
      let div := tens i in
      let digit := u32 (part1 / div) in
      let* digits := put_digit digits digit in
      let part1 := u64 (part1 - digit * div) in
      let tmp := u64 (u64 (part1 * one) + part2) in
      if tmp <=? delta then
        let* ds := round_digit digits delta tmp (u64 (div * one)) wfrac in Ok (inr (ds, Z.of_nat kappa))
      else int_digits kappa (S i) one wfrac delta part1 part2 digits
  end.
(** fpconv.c:161-184: the digits behind it; [i] is unit - tens *)
Fixpoint frac_digits (i : nat) (one wfrac delta part2 kappa : Z) (digits : bytes) : res (bytes * Z) :=
  let part2 := u64 (part2 * 10) in
  let delta := u64 (delta * 10) in
  let kappa := kappa - 1 in
  let digit := u32 (part2 / one) in
  let* digits := put_digit digits digit in
  let part2 := part2 mod one in
  if part2 <? delta then
    let* ds := round_digit digits delta part2 one (u64 (wfrac * tens i)) in Ok (ds, kappa)
  else match i with
       | O => UB UbOob                     (* unit-- leaves the table *)
       | S i' => frac_digits i' one wfrac delta part2 kappa digits
       end.
(** fpconv.c:124-185: digits and K *)
Definition generate_digits (w upper lower : fp) (K : Z) : res (bytes * Z) :=
  let wfrac := u64 (frac upper - frac w) in
  let delta := u64 (frac upper - frac lower) in
  if (0 <? fexp upper) || (fexp upper <=? -64) then UB UbShift else
  let one := 2 ^ (- fexp upper) in
  let part1 := frac upper / one in
  let part2 := frac upper mod one in
  let* r := int_digits 10 10 one wfrac delta part1 part2 [] in
  let* (ds, kappa) := match r with
                      | inr x => Ok x
                      | inl digits => frac_digits 18 one wfrac delta part2 0 digits
                      end in
  Ok (rev ds, K + kappa).

(** fpconv.c:187-210 *)
Definition grisu2 (bits : Z) : res (bytes * Z) :=
  let w := build_fp bits in
  let* (lower, upper) := boundaries w in
  let* w := normalize w in
  let* (cp, k) := find_cachedpow10 (fexp upper) in
  let w := multiply w cp in
  let upper := multiply upper cp in
  let lower := multiply lower cp in
  generate_digits w (mkFp (u64 (frac upper - 1)) (fexp upper)) (mkFp (u64 (frac lower + 1)) (fexp lower)) (- k).

Definition zeros (n : Z) : bytes := repeat 48 (Z.to_nat n).
(** fpconv.c:262-283: the exponent *)
Definition emit_exp (e : Z) : bytes :=
  let cent := e / 100 in
  let e1 := if 99 <? e then e - cent * 100 else e in
  (if 99 <? e then [cent + 48] else []) ++
  (if 9 <? e1 then [e1 / 10 + 48] else if 99 <? e then [48] else []) ++
  [(if 9 <? e1 then e1 - e1 / 10 * 10 else e1) mod 10 + 48].
(** fpconv.c:212-286 *)
Definition emit_digits (digits : bytes) (K : Z) (neg : bool) : res bytes :=
  let ndigits := zlen digits in
  let e := Z.abs (K + ndigits - 1) in
  let max_trailing_zeros := if neg then 6 else 7 in
  if (0 <=? K) && (e <? ndigits + max_trailing_zeros) then Ok (digits ++ zeros K)
  else if (K <? 0) && ((-7 <? K) || (e <? 4)) then
    let offset := ndigits - Z.abs K in
    if offset <=? 0 then Ok ([48; 46] ++ zeros (- offset) ++ digits)
    else Ok (firstn (Z.to_nat offset) digits ++ [46] ++ skipn (Z.to_nat offset) digits)
  else
    let n := Z.min ndigits (18 - if neg then 1 else 0) in
    match digits with
    | [] => UB UbOob
    | d :: r =>
        Ok ([d] ++ (if 1 <? n then [46] ++ firstn (Z.to_nat (n - 1)) r else []) ++ [101] ++
            [if K + n - 1 <? 0 then 45 else 43] ++ emit_exp e)
    end.

(** fpconv.c:314-338 with filter_special (288-312).  -0.0 is not equal to 0.0 by its bits only *)
Definition fpconv_dtoa (bits : Z) : res bytes :=
  let neg := negb (Z.land bits two63 =? 0) in
  let sign := if neg then [45] else [] in
  let e := Z.land (Z.shiftr bits 52) 2047 in
  let f := Z.land bits fracmask in
  if (e =? 0) && (f =? 0) then Ok (sign ++ [48])
  else if e =? 2047 then Ok (sign ++ if f =? 0 then [105; 110; 102] else [110; 97; 110])
  else
    let* (digits, K) := grisu2 bits in
    let* s := emit_digits digits K neg in
    Ok (sign ++ s).
