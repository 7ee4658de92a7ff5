(** Model of the floating point conversions of printf: printff and roundupf of
    v0100/srclib/doprint.c.  [int] overflow and accesses outside buf are [Oob]. *)
From Verif Require Import Base LexModel DoPrintModel CvtModel.

Definition maxDigs : Z := 151.   (* MAX_FLT_DIGS, line 46: FLT_MANT_DIG - FLT_MIN_EXP + 2 = 24 + 125 + 2 *)
(** an int result *)
Definition int (z : Z) : res Z := if z <? 2 ^ 31 then Ok z else Oob.

(** doprint.c 26-41 roundupf(buf, n) *)
Fixpoint roundup (n : nat) (b : list Z) : res (list Z) :=
  let! c := get b (Z.of_nat n) in
  if c =? 57 then
    let! b := set b (Z.of_nat n) 48 in
    match n with O => Ok b | S n => roundup n b end
  else set b (Z.of_nat n) (c + 1).
(** doprint.c 140-148 and 184-192; [i]: icnt + fcnt; also 1 if buf[0] was seen to be other than 0 *)
Definition roundEven (b : list Z) (i : Z) (rem : bool) : res (list Z * Z) :=
  let! l := get b (1 + i) in
  if 53 <=? l then
    let! q := get b i in
    if negb (l =? 53) || rem || Z.odd (q - 48) then
      let! b := roundup (Z.to_nat i) b in
      let! c := get b 0 in Ok (b, if c =? 48 then 0 else 1)
    else Ok (b, 0)
  else Ok (b, 0).

(** doprint.c 110-149, precision >= 0: buf, icnt, iz, fcnt, fz *)
Definition fixed (x : flt) (b : list Z) (prec : Z) : res (list Z * Z * Z * Z * Z) :=
  let! (icnt, b, rem) := cvtdif x b 1 maxDigs in
  let! (b, icnt, iz, fcnt, fz, rem) :=
    if maxDigs <=? icnt then Ok (b, maxDigs - 1, icnt - maxDigs + 1, 0, prec, rem)
    else
      let! need := int (prec + 1) in
      let avail := maxDigs - icnt in
      let fcnt := Z.min need avail - 1 in
      let! (b, _, rem) := cvtdff x b (1 + icnt) (fcnt + 1) false in
      Ok (b, icnt, 0, fcnt, prec - fcnt, rem) in
  let! (b, over) := roundEven b (icnt + fcnt) rem in
  Ok (b, icnt + over, iz, fcnt, fz).

(** doprint.c 161-182: buf with [request] digits, rem, pow10 *)
Definition sciDigits (x : flt) (b : list Z) (request : Z) : res (list Z * bool * Z) :=
  let! (icnt, b, rem) := cvtdif x b 1 request in
  let! c := get b 1 in
  if c =? 48 then
    let! (b, z, rem) := cvtdff x b 1 request true in
    let! c := get b 1 in
    Ok (b, rem, - z - (if c =? 48 then 0 else 1))
  else if request <=? icnt then Ok (b, rem, icnt - 1)
  else
    let! (b, _, rem) := cvtdff x b (1 + icnt) (request - icnt) false in
    Ok (b, rem, icnt - 1).
(** doprint.c 150-192, precision >= 0: buf, fcnt, fz, pow10; icnt is 1 and iz 0 *)
Definition scientific (x : flt) (b : list Z) (prec : Z) : res (list Z * Z * Z * Z) :=
  let! need := int (prec + 2) in
  let request := Z.min need maxDigs in
  let! (b, rem, pow10) := sciDigits x b request in
  let fcnt := request - 2 in
  let! (b, over) := roundEven b (1 + fcnt) rem in
  Ok (b, fcnt, prec - fcnt, pow10 + over).

(** doprint.c 205-212 *)
Definition expChars (upper : bool) (pow10 : Z) : list Z :=
  [if upper then 69 else 101; if pow10 <? 0 then 45 else 43; Z.abs pow10 / 10 + 48; Z.abs pow10 mod 10 + 48].
(** doprint.c 216-219: while (fcnt && buf[i--] == '0') fcnt-- *)
Fixpoint dropZeros (fcnt : nat) (b : list Z) (i : Z) : res Z :=
  match fcnt with
  | O => Ok 0
  | S n => let! c := get b i in if c =? 48 then dropZeros n b (i - 1) else Ok (Z.of_nat fcnt)
  end.
(** the characters buf[i], buf[i + 1], ... of the loops in lines 240-248 *)
Definition fetch (b : list Z) (i n : Z) : res (list Z) :=
  if (n <? 0) || (i <? 0) || (zlen b <? i + n) then Oob else Ok (firstn (Z.to_nat n) (skipn (Z.to_nat i) b)).

(** doprint.c 94-224 for a finite number: buf, icnt, iz, dot, fcnt, fz and the characters of ebuf *)
Definition finiteParts (d : dir) (x : flt) (b : list Z) : res (list Z * Z * Z * bool * Z * Z * list Z) :=
  let lower := Z.lor (conv d) 32 in
  let upper := negb (lower =? conv d) in
  let wasg := lower =? 103 in
  let prec := if precision d <? 0 then 6 else if wasg && (precision d =? 0) then 1 else precision d in
  let! (b, icnt, iz, dot, fcnt, fz, e) :=
    if lower =? 102 then
      let! (b, icnt, iz, fcnt, fz) := fixed x b prec in
      Ok (b, icnt, iz, negb (prec =? 0) || alt d, fcnt, fz, [])
    else
      let eprec := if wasg then prec - 1 else prec in
      let! (b, fcnt, fz, pow10) := scientific x b eprec in
      if wasg && (-4 <=? pow10) && (pow10 <? prec) then
        let! p := int (prec - (pow10 + 1)) in
        let! b := set b 0 48 in
        let! (b, icnt, iz, fcnt, fz) := fixed x b p in
        Ok (b, icnt, iz, negb (p =? 0) || alt d, fcnt, fz, [])
      else Ok (b, 1, 0, negb (eprec =? 0) || alt d, fcnt, fz, expChars upper pow10) in
  if wasg && negb (alt d) then
    let! c := get b 0 in
    let! n := dropZeros (Z.to_nat fcnt) b ((if c =? 48 then 1 else 0) + icnt + fcnt - 1) in
    Ok (b, icnt, iz, dot && negb (n =? 0), n, 0, e)
  else Ok (b, icnt, iz, dot, fcnt, fz, e).

(** doprint.c 51-259 printff; [w]: the bits of the float; [junk]: what buf holds at the start *)
Definition printff (junk : list Z) (d : dir) (w : Z) : res (list Z) :=
  let lower := Z.lor (conv d) 32 in
  let upper := negb (lower =? conv d) in
  let a := w mod 2 ^ 31 in
  let sg := if 2 ^ 31 <=? w then 45 else sign d in
  let! b := set junk 0 48 in
  let! (b, icnt, iz, dot, fcnt, fz, e, lz) :=
    if 2139095040 <=? a then
      let '(c1, c2, c3) := if a =? 2139095040 then (105, 110, 102) else (110, 97, 110) in
      let up c := if upper then c - 32 else c in
      let! b := set b 1 (up c1) in let! b := set b 2 (up c2) in let! b := set b 3 (up c3) in let! b := set b 4 0 in
      Ok (b, 3, 0, false, 0, 0, [], false)
    else
      let! (b, icnt, iz, dot, fcnt, fz, e) := finiteParts d (ofBits a) b in
      Ok (b, icnt, iz, dot, fcnt, fz, e, lzeroes d) in
  let! len := int ((if sg =? 0 then 0 else 1) + icnt + iz + (if dot then 1 else 0) + fcnt + fz + zlen e) in
  let! c := get b 0 in
  let p := if c =? 48 then 1 else 0 in
  let! i := fetch b p icnt in
  let! f := fetch b (p + icnt) fcnt in
  let space := width d - len in
  Ok ((if ljust d || lz then [] else pad 32 space) ++ (if sg =? 0 then [] else [sg]) ++
      (if lz then pad 48 space else []) ++
      i ++ pad 48 iz ++ (if dot then [46] else []) ++ f ++ pad 48 fz ++ e ++
      (if ljust d then pad 32 (if lz then 0 else space) else [])).
