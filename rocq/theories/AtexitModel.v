(** Model of srclib/atexit.c, and of the part of srclib/exit.c that calls the registered functions.
    Registered functions are numbers; what they do when they are called is a parameter [beh], which
    may depend on all that happened before.  They may register functions, but not call exit or leave
    with longjmp (both are undefined in C). *)
From Verif Require Import Base AtexitSpec.

(** atexit.c:7-8, exit.c:45: the array, the counter, whether __pAtExitIterator is set; and the history
    (not in the program). *)
Record ax := mkax { functions : Z -> Z; fcnt : Z; piter : bool; hist : list ev }.
Definition ax0 : ax := mkax (fun _ => 0) 0 false [].

(** Outcomes: the history; access outside of the array; out of fuel. *)
Inductive out (A : Type) := Fin (a : A) | Ub | Fuel.
Arguments Fin {A}. Arguments Ub {A}. Arguments Fuel {A}.

(** atexit.c:17-24. *)
Definition atexit (f : Z) (s : ax) : out (bool * ax) :=
  if 32 <=? fcnt s then Fin (false, mkax (functions s) (fcnt s) (piter s) (hist s ++ [ERef f]))
  else if fcnt s <? 0 then Ub
  else Fin (true, mkax (fun i => if i =? fcnt s then f else functions s i) (fcnt s + 1) true (hist s ++ [EReg f])).

(** A piece of program runs. *)
Fixpoint perform (a : act) (s : ax) : out ax :=
  match a with
  | Done => Fin s
  | Try f k => match atexit f s with Fin (b, s) => perform (k b) s | Ub => Ub | Fuel => Fuel end
  end.

Section Run.
Variable beh : list ev -> Z -> act.

(** atexit.c:10-15. *)
Fixpoint iterator (fuel : nat) (s : ax) : out ax :=
  match fuel with
  | O => Fuel
  | S fuel =>
      if fcnt s =? 0 then Fin s
      else
        let n := fcnt s - 1 in
        if (n <? 0) || (32 <=? n) then Ub
        else
          let f := functions s n in
          match perform (beh (hist s) f) (mkax (functions s) n (piter s) (hist s ++ [ECall f])) with
          | Fin s => iterator fuel s | Ub => Ub | Fuel => Fuel
          end
  end.

(** exit.c:118-121, 164-167: the program does [main], then exits. *)
Definition run (fuel : nat) (main : act) : out (list ev) :=
  match perform main ax0 with
  | Fin s => if piter s then match iterator fuel s with Fin s => Fin (hist s) | Ub => Ub | Fuel => Fuel end else Fin (hist s)
  | Ub => Ub | Fuel => Fuel
  end.
End Run.
