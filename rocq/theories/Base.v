(** Common vocabulary of all models: machine integers on [Z], arrays with explicit
    out-of-range failure, and the option monad.  Nothing here models a particular function of
    the code; the definitions say how C integer wrap-around and array accesses are written. *)
From Coq Require Export ZArith List Bool Lia.
From Coq Require Export ZifyBool.
Export ListNotations.
Global Open Scope Z_scope.

Ltac Zify.zify_post_hook ::= Z.div_mod_to_equations.

(** Unsigned reduction modulo [2^w] (C: conversion to a [w]-bit unsigned type). *)
Definition wrap (w : Z) (z : Z) : Z := z mod 2 ^ w.

(** Two's complement reinterpretation of the low [w] bits (C: conversion to a [w]-bit signed
    type, as every compiler SmallerC is built with does it). *)
Definition swrap (w : Z) (z : Z) : Z :=
  let u := z mod 2 ^ w in
  if u <? 2 ^ (w - 1) then u else u - 2 ^ w.

Definition u8  := wrap 8.
Definition u16 := wrap 16.
Definition u32 := wrap 32.
Definition s8  := swrap 8.
Definition s16 := swrap 16.
Definition s32 := swrap 32.

(** Option monad: [None] is "undefined behaviour / out of bounds / out of fuel". *)
Definition obind {A B} (o : option A) (f : A -> option B) : option B :=
  match o with Some a => f a | None => None end.
Notation "'let?' x ':=' o 'in' k" := (obind o (fun x => k))
  (at level 200, x pattern, o at level 100, k at level 200, right associativity).
Definition guard (b : bool) : option unit := if b then Some tt else None.

(** Arrays: lists indexed by [Z], out of range is [None]. *)
Definition zlen {A} (l : list A) : Z := Z.of_nat (length l).
Definition zget {A} (l : list A) (i : Z) : option A :=
  if i <? 0 then None else nth_error l (Z.to_nat i).
Fixpoint lset {A} (l : list A) (n : nat) (v : A) : list A :=
  match l, n with
  | [], _ => []
  | _ :: t, O => v :: t
  | x :: t, S n => x :: lset t n v
  end.
Definition zset {A} (l : list A) (i : Z) (v : A) : option (list A) :=
  if (i <? 0) || (zlen l <=? i) then None else Some (lset l (Z.to_nat i) v).
