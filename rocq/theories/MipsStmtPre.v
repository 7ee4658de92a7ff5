(** Conditions on function bodies compiled for MIPS. *)
From Verif Require Import Base X86 CgModel ExprSpec CgTree StmtSpec StmtModel StmtLab MipsModel MipsSpec.

(** Source expressions: well-formed, and typed as the front end demands. *)
Definition mwfx (e : ex) : Prop := wfx 4 e /\ typed e.
Definition omwfx (e : option ex) : Prop := match e with None => True | Some e => mwfx e end.
Definition cmwfx (c : ctl) : Prop := match c with CConst _ => True | CExpr e => mwfx e end.
Definition ocmwfx (c : option ctl) : Prop := match c with None => True | Some c => cmwfx c end.
Fixpoint mswf (s : stmt) : Prop :=
  match s with
  | SSkip | SBreak | SContinue | SGoto _ => True
  | SExpr e => mwfx e
  | SReturn e => omwfx e
  | SSeq a b => mswf a /\ mswf b
  | SBlock b | SCase _ b | SDefault b | SLabel _ b => mswf b
  | SIf c a | SWhile c a | SDo a c => cmwfx c /\ mswf a
  | SIfElse c a b => cmwfx c /\ mswf a /\ mswf b
  | SFor i c x b => omwfx i /\ ocmwfx c /\ omwfx x /\ mswf b
  | SSwitch e b => mwfx e /\ mswf b
  end.

(** Bytes of stack space that running a statement may need (called functions excluded). *)
Definition mcdepth (c : ctl) : Z := match c with CConst _ => 0 | CExpr e => mdepth e end.
Definition mocdepth (c : option ctl) : Z := match c with None => 0 | Some c => mcdepth c end.
Definition modepth (e : option ex) : Z := match e with None => 0 | Some e => mdepth e end.
Fixpoint msdepth (s : stmt) : Z :=
  match s with
  | SSkip | SBreak | SContinue | SGoto _ => 0
  | SExpr e => mdepth e
  | SReturn e => modepth e
  | SSeq a b => Z.max (msdepth a) (msdepth b)
  | SBlock b | SCase _ b | SDefault b | SLabel _ b => msdepth b
  | SIf c a | SWhile c a | SDo a c => Z.max (mcdepth c) (msdepth a)
  | SIfElse c a b => Z.max (mcdepth c) (Z.max (msdepth a) (msdepth b))
  | SFor i c x b => Z.max (modepth i) (Z.max (mocdepth c) (Z.max (modepth x) (msdepth b)))
  | SSwitch e b => Z.max (mdepth e) (msdepth b)
  end.

(** No execution of the function evaluates an expression that has undefined behaviour. *)
Definition msafe_run (addr : Z -> Z) (bp : Z) (ext : Z -> list Z -> mem -> option (Z * mem)) (body : stmt) (main : bool) (x : state) : Prop :=
  forall n y e, ssteps 4 addr bp ext body main n x y -> next_expr y = Some e -> msafe addr bp ext e (mem_of y).

(** Running the machine for a number of steps. *)
Inductive msteps (addr : Z -> Z) (callee : Z -> mst -> option mst) (prog : list mins) : nat -> nat * mst -> nat * mst -> Prop :=
| ms_refl x : msteps addr callee prog 0 x x
| ms_step n x y z : mstep addr callee prog x = Some y -> msteps addr callee prog n y z -> msteps addr callee prog (S n) x z.
