(** The target machine: the subset of x86 instructions that cgx86.c emits for expressions and
    statements, with their meaning.  This file is part of the specification side: it says what the
    emitted text means when assembled and executed (flat 32-bit code, [W = 4], or 16-bit code with
    all data in one segment, [W = 2]).  Operand and instruction names follow the X86Op... and
    X86Instr... constants of cgx86.c:300-493.
    Simplifications: the instruction stream is a list (no encodings, so the assembler is not
    modelled), a [call] is one step whose effect is given by a parameter, and the flags are
    represented by the pair of operands of the last [cmp]/[test] (after other instructions they
    are unknown, and testing unknown flags is an error). *)
From Verif Require Import Base.

(** Conditions (the token that names them in cgx86.c:397-440). *)
Inductive cond := CLt | CULt | CGt | CUGt | CLe | CULe | CGe | CUGe | CEq | CNe.

(** Operand size of a memory operand: explicit, or implied by the other operand. *)
Inductive msize := MI | MByte | MHalf | MWord.

Inductive opnd :=
| RAB | RCB                    (* al, cl *)
| RAHigh                       (* ah *)
| RAH                          (* ax in 32-bit code *)
| RA | RB | RC | RD | RBP | RSP  (* word registers *)
| XC (n : Z)                   (* constant *)
| XLab (id : Z)                (* address of a symbol *)
| XNum (l : Z)                 (* numbered code label *)
| MLab (s : msize) (id : Z)    (* [symbol] *)
| MLoc (s : msize) (ofs : Z)   (* [bp+ofs] *)
| MRB (s : msize).             (* [bx] *)

Inductive mnem :=
| Imov | Imovsx | Imovzx | Ilea | Ipush | Ipop | Iinc | Idec | Iadd | Isub | Iand | Ixor | Ior
| Icmp | Itest | Imul | Iimul | Iidiv | Idiv | Ishl | Isar | Ishr | Ineg | Inot | Icbw | Icwd | Icdq
| Isetcc (c : cond) | Ijcc (c : cond) | Ijncc (c : cond) | Icall | Ijmp.

Inductive instr :=
| I0 (i : mnem)
| I1 (i : mnem) (o : opnd)
| I2 (i : mnem) (o1 o2 : opnd)
| I3 (i : mnem) (o1 o2 o3 : opnd)
| Lab (l : Z).

Record st := mkst { ea : Z; eb : Z; ec : Z; ed : Z; esp : Z; ebp : Z; M : Z -> Z; fl : option (Z * Z) }.

Section Machine.
Variable W : Z.                      (* word size in bytes: 2 or 4 *)
Variable addr : Z -> Z.              (* address of each symbol *)
Variable callee : Z -> st -> option st.  (* effect of calling the function at an address, up to its return *)

Definition uw (z : Z) := wrap (8 * W) z.
Definition sw (z : Z) := swrap (8 * W) z.
Definition ub (n : Z) (z : Z) := wrap (8 * n) z.

(** Little-endian memory. *)
Definition upd (f : Z -> Z) (a v : Z) : Z -> Z := fun x => if x =? a then v else f x.
Fixpoint ldn (n : nat) (f : Z -> Z) (a : Z) : Z :=
  match n with O => 0 | S n => f (uw a) mod 256 + 256 * ldn n f (a + 1) end.
Fixpoint stn (n : nat) (f : Z -> Z) (a v : Z) : Z -> Z :=
  match n with O => f | S n => stn n (upd f (uw a) (v mod 256)) (a + 1) (v / 256) end.

Definition msz (s : msize) : option Z :=
  match s with MI => None | MByte => Some 1 | MHalf => Some 2 | MWord => Some W end.
Definition width (o : opnd) : option Z :=
  match o with
  | RAB | RCB | RAHigh => Some 1
  | RAH => Some 2
  | RA | RB | RC | RD | RBP | RSP => Some W
  | XC _ | XLab _ | XNum _ => None
  | MLab s _ | MLoc s _ | MRB s => msz s
  end.
Definition width2 (o1 o2 : opnd) : option Z :=
  match width o1 with Some w => Some w | None => width o2 end.

(** Address of a memory operand. *)
Definition ofsof (o : opnd) (s : st) : option Z :=
  match o with
  | MLab _ id => Some (uw (addr id))
  | MLoc _ d => Some (uw (ebp s + d))
  | MRB _ => Some (eb s)
  | _ => None
  end.

(** Read operand [o] as an [n]-byte value. *)
Definition rd (n : Z) (o : opnd) (s : st) : option Z :=
  match o with
  | RAB | RAH | RA => Some (ub n (ea s))
  | RAHigh => Some (ub n (ea s / 256))
  | RCB | RC => Some (ub n (ec s))
  | RB => Some (ub n (eb s))
  | RD => Some (ub n (ed s))
  | RBP => Some (ub n (ebp s))
  | RSP => Some (ub n (esp s))
  | XC k => Some (ub n k)
  | XLab id => Some (ub n (addr id))
  | XNum _ => None
  | MLab _ _ | MLoc _ _ | MRB _ =>
      let? a := ofsof o s in Some (ldn (Z.to_nat n) (M s) a)
  end.

Definition set_ea v s := mkst v (eb s) (ec s) (ed s) (esp s) (ebp s) (M s) (fl s).
Definition set_eb v s := mkst (ea s) v (ec s) (ed s) (esp s) (ebp s) (M s) (fl s).
Definition set_ec v s := mkst (ea s) (eb s) v (ed s) (esp s) (ebp s) (M s) (fl s).
Definition set_ed v s := mkst (ea s) (eb s) (ec s) v (esp s) (ebp s) (M s) (fl s).
Definition set_esp v s := mkst (ea s) (eb s) (ec s) (ed s) v (ebp s) (M s) (fl s).
Definition set_M v s := mkst (ea s) (eb s) (ec s) (ed s) (esp s) (ebp s) v (fl s).
Definition set_fl v s := mkst (ea s) (eb s) (ec s) (ed s) (esp s) (ebp s) (M s) v.

(** Write an [n]-byte value; byte and half-word registers leave the rest of the register alone. *)
Definition low (n old v : Z) : Z := old - ub n old + ub n v.
Definition wr (n : Z) (o : opnd) (v : Z) (s : st) : option st :=
  match o with
  | RAB | RAH | RA => Some (set_ea (low n (ea s) v) s)
  | RAHigh => Some (set_ea (uw (ea s - ub 2 (ea s) + ub 1 (ea s) + 256 * ub 1 v)) s)
  | RCB | RC => Some (set_ec (low n (ec s) v) s)
  | RB => Some (set_eb (low n (eb s) v) s)
  | RD => Some (set_ed (low n (ed s) v) s)
  | RSP => Some (set_esp (low n (esp s) v) s)
  | MLab _ _ | MLoc _ _ | MRB _ =>
      let? a := ofsof o s in Some (set_M (stn (Z.to_nat n) (M s) a v) s)
  | _ => None
  end.

Definition condv (c : cond) (a b : Z) : bool :=
  match c with
  | CLt => sw a <? sw b | CULt => uw a <? uw b
  | CGt => sw b <? sw a | CUGt => uw b <? uw a
  | CLe => sw a <=? sw b | CULe => uw a <=? uw b
  | CGe => sw b <=? sw a | CUGe => uw b <=? uw a
  | CEq => uw a =? uw b | CNe => negb (uw a =? uw b)
  end.

Definition alu (i : mnem) (a b : Z) : option Z :=
  match i with
  | Iadd => Some (a + b) | Isub => Some (a - b)
  | Iand => Some (Z.land a b) | Ixor => Some (Z.lxor a b) | Ior => Some (Z.lor a b)
  | _ => None
  end.

(** One sequential instruction. *)
Definition exec (i : instr) (s : st) : option st :=
  match i with
  | I2 Imov d x =>
      let? w := width2 d x in let? v := rd w x s in wr w d v s
  | I2 Ilea d x =>
      let? w := width d in let? a := ofsof x s in wr w d a s
  | I2 Imovsx d x =>
      let? w := width d in let? n := width x in let? v := rd n x s in wr w d (swrap (8 * n) v) s
  | I2 Imovzx d x =>
      let? w := width d in let? n := width x in let? v := rd n x s in wr w d v s
  | I2 Icmp d x =>
      let? w := width2 d x in let? a := rd w d s in let? b := rd w x s in
      if w =? W then Some (set_fl (Some (a, b)) s) else None
  | I2 Itest d x =>
      let? w := width2 d x in let? a := rd w d s in let? b := rd w x s in
      if w =? W then Some (set_fl (Some (Z.land a b, 0)) s) else None
  | I2 Ishl d x =>
      let? w := width d in let? a := rd w d s in let? b := rd 1 x s in
      wr w d (a * 2 ^ (b mod 32)) (set_fl None s)
  | I2 Ishr d x =>
      let? w := width d in let? a := rd w d s in let? b := rd 1 x s in
      wr w d (a / 2 ^ (b mod 32)) (set_fl None s)
  | I2 Isar d x =>
      let? w := width d in let? a := rd w d s in let? b := rd 1 x s in
      wr w d (swrap (8 * w) a / 2 ^ (b mod 32)) (set_fl None s)
  | I2 op d x =>
      let? w := width2 d x in let? a := rd w d s in let? b := rd w x s in
      let? v := alu op a b in wr w d v (set_fl None s)
  | I3 Iimul d x y =>
      let? w := width d in let? a := rd w x s in let? b := rd w y s in
      wr w d (a * b) (set_fl None s)
  | I1 Iinc d =>
      let? w := width d in let? a := rd w d s in wr w d (a + 1) (set_fl None s)
  | I1 Idec d =>
      let? w := width d in let? a := rd w d s in wr w d (a - 1) (set_fl None s)
  | I1 Ineg d =>
      let? w := width d in let? a := rd w d s in wr w d (- a) (set_fl None s)
  | I1 Inot d =>
      let? w := width d in let? a := rd w d s in wr w d (-1 - a) s
  | I1 Imul x =>
      let? w := width x in let? b := rd w x s in
      if w =? W then
        Some (set_fl None (set_ed (uw (uw (ea s) * b / 2 ^ (8 * W))) (set_ea (uw (uw (ea s) * b)) s)))
      else None
  | I1 Idiv x =>
      let? w := width x in let? b := rd w x s in
      let n := uw (ed s) * 2 ^ (8 * W) + uw (ea s) in
      if (w =? W) && negb (b =? 0) && (n / b <? 2 ^ (8 * W)) then
        Some (set_fl None (set_ed (n mod b) (set_ea (n / b) s)))
      else None
  | I1 Iidiv x =>
      let? w := width x in let? b0 := rd w x s in
      let b := sw b0 in
      let n := sw (ed s) * 2 ^ (8 * W) + uw (ea s) in
      let q := Z.quot n b in
      if (w =? W) && negb (b =? 0) && (- 2 ^ (8 * W - 1) <=? q) && (q <? 2 ^ (8 * W - 1)) then
        Some (set_fl None (set_ed (uw (Z.rem n b)) (set_ea (uw q) s)))
      else None
  | I1 Ipush x =>
      let? v := rd W x s in
      let p := uw (esp s - W) in
      Some (set_esp p (set_M (stn (Z.to_nat W) (M s) p v) s))
  | I1 Ipop d =>
      let? s' := wr W d (ldn (Z.to_nat W) (M s) (esp s)) s in
      Some (set_esp (uw (esp s + W)) s')
  | I1 (Isetcc c) d =>
      let? (a, b) := fl s in wr 1 d (if condv c a b then 1 else 0) s
  | I0 Icbw => if W =? 2 then wr 2 RA (swrap 8 (ea s)) s else None
  | I0 Icwd => if W =? 2 then Some (set_ed (uw (sw (ea s) / 2 ^ 16)) s) else None
  | I0 Icdq => if W =? 4 then Some (set_ed (uw (sw (ea s) / 2 ^ 32)) s) else None
  | _ => None
  end.

(** Control flow. *)
Fixpoint find_label (l : Z) (prog : list instr) : option nat :=
  match prog with
  | [] => None
  | Lab k :: t => if k =? l then Some O else option_map S (find_label l t)
  | _ :: t => option_map S (find_label l t)
  end.

Definition mstep (prog : list instr) (x : nat * st) : option (nat * st) :=
  let (pc, s) := x in
  let? i := nth_error prog pc in
  match i with
  | Lab _ => Some (S pc, s)
  | I1 Ijmp (XNum l) => let? p := find_label l prog in Some (p, s)
  | I1 (Ijcc c) (XNum l) =>
      let? (a, b) := fl s in
      if condv c a b then let? p := find_label l prog in Some (p, s) else Some (S pc, s)
  | I1 (Ijncc c) (XNum l) =>
      let? (a, b) := fl s in
      if condv c a b then Some (S pc, s) else let? p := find_label l prog in Some (p, s)
  | I1 Icall o => let? f := rd W o s in let? s' := callee f s in Some (S pc, s')
  | _ => let? s' := exec i s in Some (S pc, s')
  end.

Inductive mstar (prog : list instr) : nat * st -> nat * st -> Prop :=
| mstar_refl x : mstar prog x x
| mstar_step x y z : mstep prog x = Some y -> mstar prog y z -> mstar prog x z.
End Machine.
