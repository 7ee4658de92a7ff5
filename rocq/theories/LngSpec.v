(** Long integers as pairs of 16-bit halves, for the 16-bit library: what a pair stands for. *)
From Verif Require Import Base.

(** A memory of 16-bit halves; the pair at [p] is [p] (low) and [p + 1] (high). *)
Definition halves := Z -> Z.
Definition ok_halves (h : halves) : Prop := forall i, 0 <= h i < 65536.
(** Its value as an unsigned and as a signed long. *)
Definition ulong (h : halves) (p : Z) : Z := h p + 65536 * h (p + 1).
Definition slong (h : halves) (p : Z) : Z := if ulong h p <? 2 ^ 31 then ulong h p else ulong h p - 2 ^ 32.
(** Two pairs: the same or disjoint. *)
Definition same_or_apart (p q : Z) : Prop := p = q \/ p + 2 <= q \/ q + 2 <= p.
(** Only the pair at [p] differs. *)
Definition only_at (p : Z) (h h' : halves) : Prop := forall i, i <> p -> i <> p + 1 -> h' i = h i.
