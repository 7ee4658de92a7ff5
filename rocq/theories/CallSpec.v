(** Passing arguments: what the callee must find. *)
From Verif Require Import Base.

(** An argument: the value of a scalar, as a word, or a structure in memory. *)
Inductive arg := AWord (v : Z) | AStruct (src sz : Z).
(** Byte [i] of an argument, given memory before the call (little endian). *)
Definition argbyte (mem : Z -> Z) (a : arg) (i : Z) : Z :=
  match a with
  | AWord v => v / 2 ^ (8 * i) mod 256
  | AStruct src _ => mem (src + i)
  end.
(** the parameter's type fits the argument: same structure type, or a scalar of at most a word *)
Definition fits (W : Z) (a : arg) (size : Z) : Prop :=
  match a with AWord _ => 1 <= size <= W | AStruct _ sz => size = sz /\ 1 <= sz end.
