(** Meaning of C statements, independent of the compiler.

    A state of a running function is the statement to run next, what remains to be done after
    it, and memory.  Expressions are evaluated as in ExprSpec. *)
From Verif Require Import Base ExprSpec.

(** Controlling expressions: the compiler knows the value of constant ones. *)
Inductive ctl := CConst (v : Z) | CExpr (e : ex).

Inductive stmt :=
| SSkip
| SExpr (e : ex)
| SSeq (a b : stmt)                      (* one statement after another, in a block *)
| SBlock (b : stmt)                      (* { b } *)
| SIf (c : ctl) (a : stmt)
| SIfElse (c : ctl) (a b : stmt)
| SWhile (c : ctl) (b : stmt)
| SDo (b : stmt) (c : ctl)
| SFor (i : option ex) (c : option ctl) (x : option ex) (b : stmt)
| SBreak
| SContinue
| SReturn (e : option ex)
| SSwitch (e : ex) (b : stmt)
| SCase (v : Z) (a : stmt)
| SDefault (a : stmt)
| SGoto (l : Z)                          (* labels are named by numbers *)
| SLabel (l : Z) (a : stmt).

(** What remains to be done. *)
Inductive cont :=
| KStop
| KSeq (s : stmt) (k : cont)
| KWhile (c : ctl) (b : stmt) (k : cont)                    (* inside the body of a loop *)
| KDo (b : stmt) (c : ctl) (k : cont)
| KFor (c : option ctl) (x : option ex) (b : stmt) (k : cont)
| KSwitch (k : cont).                                       (* inside the body of a switch *)

(** Where break leads: past the innermost loop or switch. *)
Fixpoint on_break (k : cont) : option cont :=
  match k with
  | KStop => None
  | KSeq _ k => on_break k
  | KWhile _ _ k | KDo _ _ k | KFor _ _ _ k | KSwitch k => Some k
  end.
(** Where continue leads: to the end of the body of the innermost loop. *)
Fixpoint on_continue (k : cont) : option cont :=
  match k with
  | KStop => None
  | KSeq _ k | KSwitch k => on_continue k
  | KWhile _ _ _ | KDo _ _ _ | KFor _ _ _ _ => Some k
  end.

(** Labelled statements: the one a jump goes to, and what remains to be done after it.  case and
    default labels inside a nested switch belong to that switch. *)
Inductive target := ToLabel (l : Z) | ToCase (v : Z) | ToDefault.

Section Spec.
Variable W : Z.
Variable addr : Z -> Z.
Variable bp : Z.
Variable ext : Z -> list Z -> mem -> option (Z * mem).
Notation word := (word W).

Fixpoint find (t : target) (s : stmt) (k : cont) : option (stmt * cont) :=
  match s with
  | SSeq a b => match find t a (KSeq b k) with Some r => Some r | None => find t b k end
  | SBlock b => find t b k
  | SIf _ a => find t a k
  | SIfElse _ a b => match find t a k with Some r => Some r | None => find t b k end
  | SWhile c b => find t b (KWhile c b k)
  | SDo b c => find t b (KDo b c k)
  | SFor _ c x b => find t b (KFor c x b k)
  | SSwitch _ b => match t with ToLabel _ => find t b (KSwitch k) | _ => None end
  | SCase n a =>
      match t with
      | ToCase v => if word n =? v then Some (a, k) else find t a k
      | _ => find t a k
      end
  | SDefault a => match t with ToDefault => Some (a, k) | _ => find t a k end
  | SLabel n a =>
      match t with
      | ToLabel l => if n =? l then Some (a, k) else find t a k
      | _ => find t a k
      end
  | _ => None
  end.

(** Evaluation of an expression, by some order of its operands. *)
Definition evals (e : ex) (m : mem) (v : Z) (m' : mem) : Prop :=
  esteps W addr bp ext (e, m) (EVal v, m').
Definition holds (c : ctl) (m : mem) (b : bool) (m' : mem) : Prop :=
  match c with
  | CConst v => b = negb (word v =? 0) /\ m' = m
  | CExpr e => exists v, evals e m v m' /\ b = negb (v =? 0)
  end.
Definition oholds (c : option ctl) (m : mem) (b : bool) (m' : mem) : Prop :=
  match c with None => b = true /\ m' = m | Some c => holds c m b m' end.
Definition oevals (e : option ex) (m m' : mem) : Prop :=
  match e with None => m' = m | Some e => exists v, evals e m v m' end.

Inductive state :=
| Run (s : stmt) (k : cont) (m : mem)
| Ret (v : option Z) (m : mem).          (* the function has returned *)

Variable body : stmt.                    (* body of the function *)
Variable is_main : bool.

Inductive sstep : state -> state -> Prop :=
| st_end m : sstep (Run SSkip KStop m) (Ret (if is_main then Some 0 else None) m)
| st_next s k m : sstep (Run SSkip (KSeq s k) m) (Run s k m)
| st_again_while c b k m : sstep (Run SSkip (KWhile c b k) m) (Run (SWhile c b) k m)
| st_again_do b c k m h m' : holds c m h m' ->
    sstep (Run SSkip (KDo b c k) m) (Run (if h then SDo b c else SSkip) k m')
| st_again_for c x b k m m' : oevals x m m' ->
    sstep (Run SSkip (KFor c x b k) m) (Run (SFor None c x b) k m')
| st_end_switch k m : sstep (Run SSkip (KSwitch k) m) (Run SSkip k m)
| st_expr e k m v m' : evals e m v m' -> sstep (Run (SExpr e) k m) (Run SSkip k m')
| st_seq a b k m : sstep (Run (SSeq a b) k m) (Run a (KSeq b k) m)
| st_block b k m : sstep (Run (SBlock b) k m) (Run b k m)
| st_if c a k m h m' : holds c m h m' ->
    sstep (Run (SIf c a) k m) (Run (if h then a else SSkip) k m')
| st_ifelse c a b k m h m' : holds c m h m' ->
    sstep (Run (SIfElse c a b) k m) (Run (if h then a else b) k m')
| st_while c b k m h m' : holds c m h m' ->
    sstep (Run (SWhile c b) k m) (if h then Run b (KWhile c b k) m' else Run SSkip k m')
| st_do b c k m : sstep (Run (SDo b c) k m) (Run b (KDo b c k) m)
| st_for_init i c x b k m v m' : evals i m v m' ->
    sstep (Run (SFor (Some i) c x b) k m) (Run (SFor None c x b) k m')
| st_for c x b k m h m' : oholds c m h m' ->
    sstep (Run (SFor None c x b) k m) (if h then Run b (KFor c x b k) m' else Run SSkip k m')
| st_break k k' m : on_break k = Some k' -> sstep (Run SBreak k m) (Run SSkip k' m)
| st_continue k k' m : on_continue k = Some k' -> sstep (Run SContinue k m) (Run SSkip k' m)
| st_return k m : sstep (Run (SReturn None) k m) (Ret None m)
| st_return_val e k m v m' : evals e m v m' -> sstep (Run (SReturn (Some e)) k m) (Ret (Some v) m')
| st_switch_case e b k m v m' s k' : evals e m v m' -> find (ToCase v) b (KSwitch k) = Some (s, k') ->
    sstep (Run (SSwitch e b) k m) (Run s k' m')
| st_switch_default e b k m v m' s k' : evals e m v m' -> find (ToCase v) b (KSwitch k) = None ->
    find ToDefault b (KSwitch k) = Some (s, k') -> sstep (Run (SSwitch e b) k m) (Run s k' m')
| st_switch_none e b k m v m' : evals e m v m' -> find (ToCase v) b (KSwitch k) = None ->
    find ToDefault b (KSwitch k) = None -> sstep (Run (SSwitch e b) k m) (Run SSkip k m')
| st_case n a k m : sstep (Run (SCase n a) k m) (Run a k m)
| st_default a k m : sstep (Run (SDefault a) k m) (Run a k m)
| st_label l a k m : sstep (Run (SLabel l a) k m) (Run a k m)
| st_goto l k m s' k' : find (ToLabel l) body KStop = Some (s', k') ->
    sstep (Run (SGoto l) k m) (Run s' k' m).

(** [ssteps n x y]: y is reached from x in n steps. *)
Inductive ssteps : nat -> state -> state -> Prop :=
| ss_refl x : ssteps 0 x x
| ss_step n x y z : sstep x y -> ssteps n y z -> ssteps (S n) x z.

(** The expression that a state evaluates next, if any. *)
Definition ctl_expr (c : ctl) : option ex := match c with CConst _ => None | CExpr e => Some e end.
Definition next_expr (x : state) : option ex :=
  match x with
  | Run SSkip (KDo _ c _) _ => ctl_expr c
  | Run SSkip (KFor _ x _ _) _ => x
  | Run (SExpr e) _ _ | Run (SReturn (Some e)) _ _ | Run (SSwitch e _) _ _ => Some e
  | Run (SIf c _) _ _ | Run (SIfElse c _ _) _ _ | Run (SWhile c _) _ _ => ctl_expr c
  | Run (SFor (Some i) _ _ _) _ _ => Some i
  | Run (SFor None (Some c) _ _) _ _ => ctl_expr c
  | _ => None
  end.
Definition mem_of (x : state) : mem := match x with Run _ _ m | Ret _ m => m end.

(** No execution of the function evaluates an expression that has undefined behaviour. *)
Definition safe_run (x : state) : Prop :=
  forall n y e, ssteps n x y -> next_expr y = Some e -> safe W addr bp ext e (mem_of y).
End Spec.
