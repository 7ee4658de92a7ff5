(** Model of rand.c and srand.c.  The state is the variable __Seed. *)
From Verif Require Import Base.

(** srclib/rand.c:5-12 (32-bit) and 15-33 (16-bit: the same 32-bit computation in assembly,
    the result is the upper half of the seed without its top bit). *)
Definition rand (seed : Z) : Z * Z :=
  let seed := wrap 32 (seed * 1103515245 + 12345) in
  (Z.land (Z.shiftr seed 16) 0x7FFF, seed).
(** srclib/srand.c:5-22: the seed is set to the argument, an unsigned int of [W] bytes. *)
Definition srand (W s : Z) : Z := wrap (8 * W) s.
