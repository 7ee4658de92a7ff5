(** Decimal digits of a binary32 number. *)
From Verif Require Import Base DoPrintSpec.

(** the number with the bits [w] (finite, not negative) is [scaled w] / 2^150 *)
Definition finite (w : Z) : Prop := 0 <= w < 255 * 2 ^ 23.
Definition scaled (w : Z) : Z :=
  let f := w mod 2 ^ 23 in let x := w / 2 ^ 23 in if x =? 0 then 2 * f else (2 ^ 23 + f) * 2 ^ x.
Definition intPart (w : Z) : Z := scaled w / 2 ^ 150.
(** the fractional part is [fracPart w] / 2^150 *)
Definition fracPart (w : Z) : Z := scaled w mod 2 ^ 150.

(** [s] is the natural number [v] in decimal, without leading zeros, at least one digit *)
Definition decimalOf (v : Z) (s : list Z) : Prop := decimal s /\ number s = v /\ s <> [] /\ (v <> 0 -> hd 48 s <> 48) /\ (v = 0 -> s = [48]).
(** [n] elements from index [o] on *)
Definition slice (o n : Z) (b : list Z) : list Z := firstn (Z.to_nat n) (skipn (Z.to_nat o) b).
(** nothing outside [n] elements from [o] on has changed *)
Definition within (o n : Z) (b b' : list Z) : Prop :=
  zlen b' = zlen b /\ forall i, i < o \/ o + n <= i -> zget b' i = zget b i.
