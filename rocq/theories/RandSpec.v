(** What a pseudo-random generator should do. *)
From Verif Require Import Base.

Section Gen.
Variable state : Type.
Variable call : state -> Z * state.      (* one call of rand(): result and new state *)

(** The state after [n] calls, and the result of call number [n] (from 0). *)
Fixpoint after (n : nat) (s : state) : state := match n with O => s | S n => after n (snd (call s)) end.
Definition result (n : nat) (s : state) : Z := fst (call (after n s)).
End Gen.
Arguments after {state}. Arguments result {state}.

(** How many of the numbers below [n] satisfy [p]. *)
Fixpoint count (p : nat -> bool) (n : nat) : Z := match n with O => 0 | S n => count p n + (if p n then 1 else 0) end.
