(** How C memory and C functions are represented on the target machine. *)
From Verif Require Import Base X86 ExprSpec.

(** Words of stack space that evaluating an expression may need: saved operands and arguments
    (called functions excluded). *)
Fixpoint depth (e : ex) : Z :=
  match e with
  | EVal _ | ENum _ _ | EIdent _ | ELocal _ => 0
  | EDeref _ a | EPre _ _ a | EPost _ _ a | EPostBy _ _ _ a | EUn _ a => depth a
  | EArith _ l r | ECmp _ l r | EAssign _ l r | EAssignOp _ _ l r => Z.max (depth l) (1 + depth r)
  | EComma l r | EAnd2 _ l r | EOr2 _ l r => Z.max (depth l) (depth r)
  | ECond _ c t f => Z.max (depth c) (Z.max (depth t) (depth f))
  | ECall f args =>
      Z.max (zlen args + depth f)
        ((fix go l := match l with [] => 0 | a :: l => Z.max (go l) (zlen l + 1 + depth a) end) args)
  end.

Section MachSpec.
Variable W : Z.
Variable bp : Z.                     (* frame address of the running function *)
Variables lo top : Z.                (* addresses [lo, top) are free stack space, below the locals *)
Variable prot : Z -> Prop.           (* saved registers, return addresses: not C objects *)

(** Every byte of a C object is at its address in machine memory, and no C object lies in the
    stack space or in protected memory. *)
Definition agree (m : mem) (f : Z -> Z) : Prop :=
  forall a b, m a = Some b ->
    0 <= a < 2 ^ (8 * W) /\ f a mod 256 = b /\ ~ (lo <= a < top) /\ ~ prot a.

(** Registers hold words; ebp is the frame pointer. *)
Definition regs (s : st) : Prop :=
  0 <= ea s < 2 ^ (8 * W) /\ 0 <= eb s < 2 ^ (8 * W) /\ 0 <= ec s < 2 ^ (8 * W) /\
  0 <= ed s < 2 ^ (8 * W) /\ 0 <= esp s < 2 ^ (8 * W) /\ ebp s = bp.

(** The stack pointer is back and the memory above it, and protected memory, is untouched. *)
Definition keeps (s s' : st) : Prop :=
  esp s' = esp s /\ forall a, esp s <= a < top \/ prot a -> M s' a = M s a.

(** The words on top of the stack are the arguments, the first one topmost (cdecl). *)
Definition args_at (f : Z -> Z) (sp : Z) (vs : list Z) : Prop :=
  forall i v, nth_error vs i = Some v -> ldn W (Z.to_nat W) f (sp + W * Z.of_nat i) = v.

(** Called functions: [callee] implements [ext] with the cdecl convention, given [room] bytes of
    stack: result in eax, esp and ebp preserved, memory of the caller untouched except through
    C objects (and its own parameters). *)
Definition callee_ok (callee : Z -> st -> option st)
  (ext : Z -> list Z -> mem -> option (Z * mem)) (room : Z) : Prop :=
  forall f vs m v m' s,
    ext f vs m = Some (v, m') -> regs s -> agree m (M s) -> args_at (M s) (esp s) vs ->
    lo + room <= esp s -> esp s + W * zlen vs <= top ->
    exists s', callee f s = Some s' /\ ea s' = v /\ regs s' /\ agree m' (M s') /\ esp s' = esp s /\
      forall a, esp s + W * zlen vs <= a < top \/ prot a -> M s' a = M s a.

(** Numbered labels defined by a program. *)
Fixpoint labels (prog : list instr) : list Z :=
  match prog with [] => [] | Lab l :: t => l :: labels t | _ :: t => labels t end.

(** The situation in which generated code runs: 16- or 32-bit code, a stack area that is part of
    the address space, protected memory outside of it, and functions that follow the calling
    convention. *)
Record platform (callee : Z -> st -> option st) (ext : Z -> list Z -> mem -> option (Z * mem))
    (room : Z) : Prop := {
  pf_word : W = 2 \/ W = 4;
  pf_lo : 0 <= lo;
  pf_top : top < 2 ^ (8 * W);
  pf_prot : forall a, prot a -> ~ (lo <= a < top);
  pf_room : 0 <= room;
  pf_callee : callee_ok callee ext room
}.

(** [code] is the part of [prog] that starts at position [pc]. *)
Definition placed (prog : list instr) (pc : nat) (code : list instr) : Prop :=
  exists a b, prog = a ++ code ++ b /\ length a = pc.
End MachSpec.
