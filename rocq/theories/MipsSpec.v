(** The MIPS machine on which generated code runs, and how C memory and C functions are
    represented on it.

    Instructions are those of the assembler: an instruction with a constant operand or a memory
    operand with an offset may be assembled into several, using register 1 ($at), so such an
    instruction destroys register 1.  (Delay slots are filled by the assembler.) *)
From Verif Require Import Base X86 ExprSpec MipsModel.

Record mst := mkm { R : Z -> Z; MM : Z -> Z; hi : Z; lo : Z }.
Definition w32 (z : Z) := wrap 32 z.
Definition s32 (z : Z) := swrap 32 z.

Definition reg (s : mst) (r : Z) : Z := if r =? 0 then 0 else R s r.
Definition setr (r v : Z) (s : mst) : mst :=
  if r =? 0 then s else mkm (fun x => if x =? r then v else R s x) (MM s) (hi s) (lo s).
Definition setm (f : Z -> Z) (s : mst) : mst := mkm (R s) f (hi s) (lo s).

Section Machine.
Variable addr : Z -> Z.                          (* addresses of identifiers *)
Variable callee : Z -> mst -> option mst.        (* what a called function does *)
Variable prog : list mins.

(** %hi and %lo: the upper half, rounded so that the sign-extended lower half can be added. *)
Definition hi16 (a : Z) : Z := w32 ((a + 32768) / 65536 * 65536).
Definition lo16 (a : Z) : Z := swrap 16 a.

Definition opval (s : mst) (o : mopnd) : Z := match o with OR r => reg s r | OC n => w32 n end.
Definition clob (o : mopnd) (s : mst) : mst := match o with OR _ => s | OC n => setr 1 (w32 n) s end.
Definition ea (s : mst) (a : maddr) : Z :=
  match a with AInd ofs r => w32 (reg s r + ofs) | ALo id => w32 (reg s 1 + lo16 (addr id)) end.
Definition clobA (a : maddr) (s : mst) : mst :=
  match a with AInd ofs _ => setr 1 (w32 ofs) s | ALo _ => s end.

Definition aluv (op : malu) (a b : Z) : Z :=
  match op with
  | Maddu => w32 (a + b) | Msubu => w32 (a - b) | Mmul => w32 (a * b)
  | Mand => Z.land a b | Mor => Z.lor a b | Mxor => Z.lxor a b | Mnor => w32 (-1 - Z.lor a b)
  | Msll => w32 (a * 2 ^ (b mod 32)) | Msrl => a / 2 ^ (b mod 32) | Msra => w32 (s32 a / 2 ^ (b mod 32))
  | Mslt => if s32 a <? s32 b then 1 else 0
  | Msltu => if a <? b then 1 else 0
  end.

(** [None]: a trap (unaligned access) or an unpredictable result (division). *)
Definition exec (i : mins) (s : mst) : option mst :=
  match i with
  | Mla rd id => Some (setr rd (w32 (addr id)) s)
  | Mli rd n => Some (setr rd (w32 n) s)
  | Mmove rd rs => Some (setr rd (reg s rs) s)
  | Mmflo rd => Some (setr rd (lo s) s)
  | Mmfhi rd => Some (setr rd (hi s) s)
  | Mluihi id => Some (setr 1 (hi16 (addr id)) s)
  | Mload sz rd a =>
      let n := Z.abs sz in
      if ea s a mod n =? 0 then
        let v := ldn 4 (Z.to_nat n) (MM s) (ea s a) in
        Some (setr rd (if sz <? 0 then w32 (swrap (8 * n) v) else v) (clobA a s))
      else None
  | Mstore n rs a =>
      if ea s a mod n =? 0 then
        Some (clobA a (setm (stn 4 (Z.to_nat n) (MM s) (ea s a) (reg s rs)) s))
      else None
  | Malu op rd rs o =>
      let s1 := setr rd (aluv op (reg s rs) (opval s o)) (clob o s) in
      Some (match op with Mmul => mkm (R s1) (MM s1) 0 0 | _ => s1 end)
  | Mdiv sgn rs rt =>
      let a := reg s rs in let b := reg s rt in
      if b =? 0 then None else
      if sgn : bool then
        if (s32 a =? - 2 ^ 31) && (s32 b =? -1) then None
        else Some (mkm (R s) (MM s) (w32 (Z.rem (s32 a) (s32 b))) (w32 (Z.quot (s32 a) (s32 b))))
      else Some (mkm (R s) (MM s) (a mod b) (a / b))
  | Mseb rd rs => Some (setr rd (w32 (swrap 8 (reg s rs))) s)
  | Mseh rd rs => Some (setr rd (w32 (swrap 16 (reg s rs))) s)
  | _ => None
  end.

Fixpoint find_label (l : Z) (p : list mins) : option nat :=
  match p with
  | [] => None
  | Mlab l' :: t => if l' =? l then Some O else option_map S (find_label l t)
  | _ :: t => option_map S (find_label l t)
  end.
Definition bzv (c : mbz) (a : Z) : bool :=
  match c with Bltz => s32 a <? 0 | Bgez => 0 <=? s32 a | Blez => s32 a <=? 0 | Bgtz => 0 <? s32 a end.
Definition branch (b : bool) (l : Z) (pc : nat) (s : mst) : option (nat * mst) :=
  if b then let? q := find_label l prog in Some (q, s) else Some (S pc, s).

Definition mstep (x : nat * mst) : option (nat * mst) :=
  let '(pc, s) := x in
  let? i := nth_error prog pc in
  match i with
  | Mlab _ => Some (S pc, s)
  | Mj l => branch true l pc s
  | Mbr eq r1 r2 l => branch (Bool.eqb eq (reg s r1 =? reg s r2)) l pc s
  | Mbz c r l => branch (bzv c (reg s r)) l pc s
  | Mjal id => let? s' := callee (w32 (addr id)) s in Some (S pc, s')
  | Mjalr r => let? s' := callee (reg s r) s in Some (S pc, s')
  | i => let? s' := exec i s in Some (S pc, s')
  end.
Inductive mstar : nat * mst -> nat * mst -> Prop :=
| mstar_refl x : mstar x x
| mstar_step x y z : mstep x = Some y -> mstar y z -> mstar x z.
End Machine.

Fixpoint labels (prog : list mins) : list Z :=
  match prog with [] => [] | Mlab l :: t => l :: labels t | _ :: t => labels t end.
Definition placed (prog : list mins) (pc : nat) (code : list mins) : Prop :=
  exists a b, prog = a ++ code ++ b /\ length a = pc.

(** Bytes of stack space that evaluating an expression may need: saved operands, arguments and
    the 16 bytes that every called function owns (called functions themselves excluded). *)
Fixpoint mdepth (e : ex) : Z :=
  match e with
  | EVal _ | ENum _ _ | EIdent _ | ELocal _ => 0
  | EDeref _ a | EPre _ _ a | EPost _ _ a | EUn _ a => mdepth a
  | EPostBy _ _ _ a => Z.max (mdepth a) 4
  | EArith _ l r | ECmp _ l r | EAssign _ l r | EAssignOp _ _ l r =>
      Z.max (4 + mdepth l) (4 + mdepth r)
  | EComma l r | EAnd2 _ l r | EOr2 _ l r => Z.max (mdepth l) (mdepth r)
  | ECond _ c t f => Z.max (mdepth c) (Z.max (mdepth t) (mdepth f))
  | ECall f args =>
      20 + 4 * zlen args +
      Z.max (mdepth f) ((fix go l := match l with [] => 0 | a :: l => Z.max (go l) (mdepth a) end) args)
  end.

(** ** Types that the front end enforces (smlrc.c:3120-3135 and the checks of exprval) *)

(** Expressions without a value. *)
Fixpoint isvoid (e : ex) : bool :=
  match e with
  | EUn EVoid _ => true
  | EComma _ r => isvoid r
  | ECond _ _ t f => isvoid t || isvoid f
  | _ => false
  end.
(** Operands have values; the left operand of a comma is converted to void (smlrc.c:5154). *)
Fixpoint typed (e : ex) : Prop :=
  match e with
  | EVal _ | ENum _ _ | EIdent _ | ELocal _ => True
  | EDeref _ a | EPre _ _ a | EPost _ _ a | EPostBy _ _ _ a => isvoid a = false /\ typed a
  | EUn u x => (u <> EVoid -> isvoid x = false) /\ typed x
  | EArith _ l r | ECmp _ l r | EAssign _ l r | EAssignOp _ _ l r | EAnd2 _ l r | EOr2 _ l r =>
      (isvoid l = false /\ isvoid r = false) /\ typed l /\ typed r
  | EComma l r => (exists x, l = EUn EVoid x) /\ typed l /\ typed r
  | ECond _ c t f => isvoid c = false /\ typed c /\ typed t /\ typed f
  | ECall f args =>
      (isvoid f = false /\ typed f) /\
      (fix go l := match l with [] => True | a :: l => (isvoid a = false /\ typed a) /\ go l end) args
  end.

(** ** Alignment: accesses to objects at addresses that are not multiples of their size are
    undefined in C. *)
Definition access (e : ex) : option (Z * Z) :=
  match e with
  | EDeref sz (EVal a) | EPre _ sz (EVal a) | EPost _ sz (EVal a) | EPostBy _ sz _ (EVal a)
  | EAssign sz (EVal a) (EVal _) | EAssignOp _ sz (EVal a) (EVal _) => Some (sz, a)
  | _ => None
  end.
Inductive unaligned : ex -> Prop :=
| una_here e sz a : access e = Some (sz, a) -> a mod Z.abs sz <> 0 -> unaligned e
| una_in F e : unaligned e -> unaligned (plug F e).

Section Platform.
Variable addr : Z -> Z.
Variable bp : Z.
Variables lo top : Z.                  (* addresses [lo, top) are free stack space *)
Variable prot : Z -> Prop.             (* saved registers and the like: not C objects *)
Variable ext : Z -> list Z -> mem -> option (Z * mem).

(** No evaluation order leads to undefined behaviour. *)
Definition msafe (e : ex) (m : mem) : Prop :=
  safe 4 addr bp ext e m /\
  forall e' m', esteps 4 addr bp ext (e, m) (e', m') -> ~ unaligned e'.

(** C objects are in memory at their addresses, outside the stack space and protected memory. *)
Definition agree (m : mem) (f : Z -> Z) : Prop :=
  forall a b, m a = Some b -> 0 <= a < 2 ^ 32 /\ f a mod 256 = b /\ ~ (lo <= a < top) /\ ~ prot a.

(** Registers hold words, $30 is the frame pointer, $29 the stack pointer. *)
Definition mregs (s : mst) : Prop :=
  (forall r, 0 <= R s r < 2 ^ 32) /\ R s 30 = bp /\ R s 29 mod 4 = 0.

(** Arguments: the first four in $4-$7, the others on the stack above the 16 bytes reserved
    for the first four. *)
Definition margs (s : mst) (vs : list Z) : Prop :=
  forall i v, nth_error vs i = Some v ->
    if (i <? 4)%nat then R s (4 + Z.of_nat i) = v
    else ldn 4 4 (MM s) (R s 29 + 4 * Z.of_nat i) = v.
Definition argbytes (vs : list Z) : Z := Z.max 16 (4 * zlen vs).

(** Called functions: [callee] implements [ext] with this convention, given [room] bytes of
    stack: result in $2, $29 and $30 preserved, memory of the caller untouched except through
    C objects and the argument area. *)
Definition callee_ok (callee : Z -> mst -> option mst) (room : Z) : Prop :=
  forall f vs m v m' s,
    ext f vs m = Some (v, m') -> mregs s -> agree m (MM s) -> margs s vs ->
    lo + room <= R s 29 -> R s 29 + argbytes vs <= top ->
    exists s', callee f s = Some s' /\ R s' 2 = v /\ mregs s' /\ agree m' (MM s') /\ R s' 29 = R s 29 /\
      forall a, R s 29 + argbytes vs <= a < top \/ prot a -> MM s' a = MM s a.

Record mplatform (callee : Z -> mst -> option mst) (room : Z) : Prop := {
  mp_lo : 0 <= lo;
  mp_top : top < 2 ^ 32;
  mp_prot : forall a, prot a -> ~ (lo <= a < top);
  mp_room : 0 <= room;
  mp_callee : callee_ok callee room
}.

(** The stack pointer is back and the memory above it, and protected memory, is untouched. *)
Definition mkeeps (s s' : mst) : Prop :=
  R s' 29 = R s 29 /\ forall a, R s 29 <= a < top \/ prot a -> MM s' a = MM s a.
End Platform.
