(** Conditions on function bodies. *)
From Verif Require Import Base ExprSpec MachSpec StmtSpec.

(** Words of stack space that running a statement may need (called functions excluded). *)
Definition cdepth (c : ctl) : Z := match c with CConst _ => 0 | CExpr e => depth e end.
Definition ocdepth (c : option ctl) : Z := match c with None => 0 | Some c => cdepth c end.
Definition odepth (e : option ex) : Z := match e with None => 0 | Some e => depth e end.
Fixpoint sdepth (s : stmt) : Z :=
  match s with
  | SSkip | SBreak | SContinue | SGoto _ => 0
  | SExpr e => depth e
  | SReturn e => odepth e
  | SSeq a b => Z.max (sdepth a) (sdepth b)
  | SBlock b | SCase _ b | SDefault b | SLabel _ b => sdepth b
  | SIf c a | SWhile c a | SDo a c => Z.max (cdepth c) (sdepth a)
  | SIfElse c a b => Z.max (cdepth c) (Z.max (sdepth a) (sdepth b))
  | SFor i c x b => Z.max (odepth i) (Z.max (ocdepth c) (Z.max (odepth x) (sdepth b)))
  | SSwitch e b => Z.max (depth e) (sdepth b)
  end.

(** No return statement without braces is the last thing in a function, inside a while or for
    loop. *)
Fixpoint tail_ret (loop : bool) (s : stmt) : bool :=
  match s with
  | SReturn _ => negb loop
  | SSeq _ b => tail_ret loop b
  | SIf _ a | SCase _ a | SDefault a | SLabel _ a | SSwitch _ a => tail_ret loop a
  | SIfElse _ _ b => tail_ret loop b
  | SWhile _ b | SFor _ _ _ b => tail_ret true b
  | _ => true
  end.

(** case constants and default labels that belong to a statement, not to a switch inside it. *)
Fixpoint case_values (s : stmt) : list Z :=
  match s with
  | SSeq a b | SIfElse _ a b => case_values a ++ case_values b
  | SBlock a | SIf _ a | SWhile _ a | SDo a _ | SFor _ _ _ a | SDefault a | SLabel _ a => case_values a
  | SCase v a => v :: case_values a
  | _ => []
  end.
Fixpoint defaults (s : stmt) : nat :=
  match s with
  | SSeq a b | SIfElse _ a b => defaults a + defaults b
  | SBlock a | SIf _ a | SWhile _ a | SDo a _ | SFor _ _ _ a | SCase _ a | SLabel _ a => defaults a
  | SDefault a => S (defaults a)
  | _ => 0
  end.
(** Every switch has distinct case constants and at most one default. *)
Fixpoint switches_ok (W : Z) (s : stmt) : Prop :=
  match s with
  | SSeq a b | SIfElse _ a b => switches_ok W a /\ switches_ok W b
  | SBlock a | SIf _ a | SWhile _ a | SDo a _ | SFor _ _ _ a | SCase _ a | SDefault a | SLabel _ a => switches_ok W a
  | SSwitch _ b => NoDup (map (word W) (case_values b)) /\ (defaults b <= 1)%nat /\ switches_ok W b
  | _ => True
  end.
