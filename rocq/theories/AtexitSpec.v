(** atexit and exit: what a history of registrations and calls must look like. *)
From Verif Require Import Base.

(** Events: a function was registered; its registration was refused; it was called by exit. *)
Inductive ev := EReg (f : Z) | ERef (f : Z) | ECall (f : Z).

(** C99 7.20.4.3p3: at exit the functions are called in the reverse order of their registration, each as
    often as it was registered, and one registered during that is called before those registered
    earlier and not yet called.  So registrations and calls match like brackets. *)
Inductive matched : list ev -> Prop :=
| m_nil : matched []
| m_ref f t : matched t -> matched (ERef f :: t)
| m_call f t u : matched t -> matched u -> matched (EReg f :: t ++ ECall f :: u).

(** Number of functions registered and not yet called. *)
Fixpoint pending (t : list ev) : Z :=
  match t with [] => 0 | EReg _ :: t => 1 + pending t | ECall _ :: t => -1 + pending t | ERef _ :: t => pending t end.

(** C99 7.20.4.2p3: registrations succeed as long as fewer than 32 functions are pending. *)
Definition room_for_32 (t : list ev) : Prop :=
  (forall t1 f t2, t = t1 ++ EReg f :: t2 -> pending t1 < 32) /\ (forall t1 f t2, t = t1 ++ ERef f :: t2 -> 32 <= pending t1).

(** What a piece of program does, as far as this matters: it tries to register functions, and what it does
    next may depend on whether that worked. *)
Inductive act := Done | Try (f : Z) (k : bool -> act).
