(** What it means for a single precision pattern to be the decimal number N * 10^e rounded to
    nearest, ties to even (IEEE 754-2008, 4.3.1 and 3.4), in integers only. *)
From Verif Require Import Base.

(** Exact value, in units of 2^-149, of the binary32 pattern [u] with a clear sign bit: biased
    exponent [u / 2^23], fraction [u mod 2^23].  The formula is also right for the pattern of
    infinity in the sense rounding needs: that pattern stands for 2^128, "the value the next
    binary32 number would have if the exponent range were larger". *)
Definition f32_value (u : Z) : Z :=
  let e := u / 2 ^ 23 in
  let m := u mod 2 ^ 23 in
  if e =? 0 then m else (2 ^ 23 + m) * 2 ^ (e - 1).

Definition f32_inf : Z := 2139095040. (* 0x7F800000 *)

(** [u] is the pattern nearest to [num / den]; of two nearest ones it is the one whose last bit
    is 0.  (Distances are multiplied by [den].) *)
Definition nearest_even (num den u : Z) : Prop :=
  0 <= u <= f32_inf /\
  forall u', 0 <= u' <= f32_inf ->
    let dist x := Z.abs (num * 2 ^ 149 - f32_value x * den) in
    dist u <= dist u' /\ (dist u = dist u' -> u = u' \/ Z.even u = true).

(** Value of a sequence of decimal digits (as numbers), most significant first. *)
Fixpoint dec_from (n : Z) (ds : list Z) : Z :=
  match ds with [] => n | d :: t => dec_from (n * 10 + d) t end.
Definition dec_value (ds : list Z) : Z := dec_from 0 ds.

(** [u] is the decimal number N * 10^e correctly rounded. *)
Definition rounds_to (N e u : Z) : Prop :=
  if e >=? 0 then nearest_even (N * 10 ^ e) 1 u else nearest_even N (10 ^ (- e)) u.
Definition rounds_decimal (ds : list Z) (e u : Z) : Prop := rounds_to (dec_value ds) e u.
