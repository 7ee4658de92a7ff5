(** Model of v0100/srclib/cvtdf.c: the decimal digits of the integral and the fractional part of a
    float.  A finite non-negative float is a pair (m, e) that stands for m * 2^e; frexpf, modff,
    ldexpf (x87 instructions in frexp.c, modf.c, ldexp.c) and the conversion to unsigned long are
    taken as the C standard has them, and only where they are exact and defined: otherwise [Oob]. *)
From Verif Require Import Base LexModel.

Definition flt : Type := Z * Z.
(** the float with the bits [w] (IEEE binary32) *)
Definition ofBits (w : Z) : flt :=
  let f := w mod 2 ^ 23 in let x := w / 2 ^ 23 in
  if x =? 0 then (f, -149) else (f + 2 ^ 23, x - 150).
(** representable without rounding *)
Definition exact (x : flt) : bool :=
  let '(m, e) := x in
  (0 <=? m) && (m <? 2 ^ 24) && ((e + 24 <=? 128) && (-149 <=? e) || (m =? 0)).
Definition modff (x : flt) : flt * Z :=    (* fractional part, integral part *)
  let '(m, e) := x in if 0 <=? e then ((0, 0), m * 2 ^ e) else ((m mod 2 ^ (- e), e), m / 2 ^ (- e)).
Definition frexpf (x : flt) : Z := let '(m, e) := x in if m =? 0 then 0 else Z.log2 m + 1 + e.
Definition ldexpf (x : flt) (k : Z) : res flt :=
  let '(m, e) := x in if exact (m, e + k) then Ok (m, e + k) else Oob.
Definition toUlong (x : flt) : res Z := let n := snd (modff x) in if n <? 2 ^ 32 then Ok n else Oob.

Definition set (a : list Z) (i v : Z) : res (list Z) := inb (zset a i v).
Definition get (a : list Z) (i : Z) : res Z := inb (zget a i).
Definition hi (ul : Z) : Z := u16 (ul / 2 ^ 16).
Definition lo (ul : Z) : Z := u16 ul.

(** cvtdf.c 11-20 rev(buf + p1, p2 - p1) *)
Fixpoint revLoop (fuel : nat) (b : list Z) (p1 p2 : Z) : res (list Z) :=
  match fuel with
  | O => Oob
  | S fuel =>
      if p1 <? p2 then
        let! t := get b p1 in
        let! x := get b (p2 - 1) in
        let! b := set b p1 x in
        let! b := set b (p2 - 1) t in
        revLoop fuel b (p1 + 1) (p2 - 1)
      else Ok b
  end.

(** cvtdf.c 67-96: the 16-bit chunks of the integral part, least significant first, and the number
    of bits *)
Definition intChunks (x : flt) : res (list Z * Z) :=
  let a := repeat 0 8 in
  let e := frexpf x in
  if e <=? 32 then
    let! ul := toUlong x in
    let! a := set a 0 (lo ul) in
    let! a := set a 1 (hi ul) in
    Ok (a, if e <=? 0 then 1 else e)
  else
    let e2 := (e + 31) / 32 * 32 in
    let j := e2 / 16 - 1 in
    let! x := ldexpf x (32 - e2) in
    let! ul := toUlong x in
    let! a := set a j (hi ul) in
    let! a := set a (j - 1) (lo ul) in
    let! x := ldexpf (fst (modff x)) 32 in
    let! ul := toUlong x in
    let! a := set a (j - 2) (hi ul) in
    let! a := set a (j - 3) (lo ul) in
    Ok (a, e).

(** cvtdf.c 105-112: division by 10 from chunk [n - 1] down; the new chunks and the remainder *)
Fixpoint divLoop (n : nat) (a : list Z) (r : Z) : res (list Z * Z) :=
  match n with
  | O => Ok (a, r)
  | S i =>
      let! c := get a (Z.of_nat i) in
      let r := u32 (r * 2 ^ 16 + c) in
      let! a := set a (Z.of_nat i) (u16 (r / 10)) in
      divLoop i a (r mod 10)
  end.
(** cvtdf.c 103-123; [o]: index of buf[0] in the array [b], [p]: index of p; [rem]: *rem if it is
    still watched *)
Fixpoint digLoop (fuel : nat) (a : list Z) (e : Z) (b : list Z) (o p size cnt : Z) (watch rem : bool) :
  res (list Z * Z * Z * bool) :=
  match fuel with
  | O => Oob
  | S fuel =>
      let! (a, r) := divLoop (Z.to_nat (e + 1)) a 0 in
      let! b := set b (p - 1) (r + 48) in
      let p := if p - 1 =? o then p - 1 + size else p - 1 in
      let cnt := cnt + 1 in
      let rem := if (size <? cnt) && watch then rem || negb (r =? 0) else rem in
      let! t := get a e in
      let e := if t =? 0 then e - 1 else e in
      if 0 <=? e then digLoop fuel a e b o p size cnt watch rem else Ok (b, p, cnt, rem)
  end.
(** cvtdf.c 128-130 *)
Fixpoint moveLoop (t : nat) (b : list Z) (q p : Z) : res (list Z) :=
  match t with
  | O => Ok b
  | S t => let! c := get b p in let! b := set b q c in moveLoop t b (q + 1) (p + 1)
  end.
(** cvtdf.c 46-141 __cvtdif, with rem != NULL: the result, the array and *rem != 0 *)
Definition cvtdif (x : flt) (b : list Z) (o size : Z) : res (Z * list Z * bool) :=
  let rem := negb (fst (fst (modff x)) =? 0) in
  let! (a, e) := intChunks x in
  let! (b, p, cnt, rem) := digLoop 64 a ((e - 1) / 16) b o (o + size) size 0 (negb rem) rem in
  let! b :=
    if cnt <? size then moveLoop (Z.to_nat cnt) b o p
    else if (size <? cnt) && negb (p =? o + size) then
      let n := S (Z.to_nat size) in
      let! b := revLoop n b o p in
      let! b := revLoop n b p (o + size) in
      revLoop n b o (o + size)
    else Ok b in
  Ok (cnt, b, rem).

(** cvtdf.c 170-207: the chunks of the fractional part, most significant first, and the index of
    the last *)
Definition fracChunks (x : flt) : res (list Z * Z) :=
  let a := repeat 0 12 in
  let x := fst (modff x) in
  let e := - frexpf x in
  if e <=? 8 then
    let! x := ldexpf x 32 in
    let! ul := toUlong x in
    let! a := set a 0 (hi ul) in
    let! a := set a 1 (lo ul) in
    Ok (a, 1)
  else
    let e2 := e / 32 * 32 in
    let j := e2 / 16 in
    let! x := ldexpf x (32 + e2) in
    let! ul := toUlong x in
    let! a := set a j (hi ul) in
    let! a := set a (j + 1) (lo ul) in
    let! x := ldexpf (fst (modff x)) 32 in
    let! ul := toUlong x in
    let! a := set a (j + 2) (hi ul) in
    let! a := set a (j + 3) (lo ul) in
    Ok (a, j + 3).
(** cvtdf.c 212-213 and 237-238: while (e >= 0 && a[e] == 0) e--; [n] is e + 1 *)
Fixpoint trim (a : list Z) (n : nat) : res Z :=
  match n with
  | O => Ok (-1)
  | S i => let! c := get a (Z.of_nat i) in if c =? 0 then trim a i else Ok (Z.of_nat i)
  end.
(** cvtdf.c 222-231: multiplication by 10 from chunk [n - 1] down *)
Fixpoint mulLoop (n : nat) (a : list Z) (r : Z) : res (list Z * Z) :=
  match n with
  | O => Ok (a, r)
  | S i =>
      let! c := get a (Z.of_nat i) in
      let r := u32 (r + c * 10) in
      let! a := set a (Z.of_nat i) (u16 r) in
      mulLoop i a (r / 2 ^ 16)
  end.
(** cvtdf.c 220-239; [z]: zeroes != NULL, [zc]: *zeroes, [q]: index of *buf *)
Fixpoint fracLoop (fuel : nat) (a : list Z) (e : Z) (b : list Z) (q size : Z) (z : bool) (zc : Z) : res (list Z * Z * Z) :=
  if size =? 0 then Ok (b, zc, e) else
  match fuel with
  | O => Oob
  | S fuel =>
      let! (a, r) := mulLoop (Z.to_nat (e + 1)) a 0 in
      if z && (r =? 0) then
        let! e := trim a (Z.to_nat (e + 1)) in
        fracLoop fuel a e b q size z (zc + 1)
      else
        let! b := set b q (r + 48) in
        let! e := trim a (Z.to_nat (e + 1)) in
        fracLoop fuel a e b (q + 1) (size - 1) false zc
  end.
(** cvtdf.c 214-218 *)
Fixpoint zeroFill (n : nat) (b : list Z) (q : Z) : res (list Z) :=
  match n with O => Ok b | S n => let! b := set b q 48 in zeroFill n b (q + 1) end.
(** cvtdf.c 170-245 __cvtdff: the array, *zeroes and whether the result is not 0; the loop makes at
    most 64 leading zeros *)
Definition cvtdff (x : flt) (b : list Z) (o size : Z) (z : bool) : res (list Z * Z * bool) :=
  let! (a, e) := fracChunks x in
  let! e := trim a (Z.to_nat (e + 1)) in
  if e <? 0 then
    let! b := zeroFill (Z.to_nat size) b o in Ok (b, 0, false)
  else
    let! (b, zc, e) := fracLoop (Z.to_nat size + 64) a e b o size z 0 in
    Ok (b, zc, 0 <=? e).
