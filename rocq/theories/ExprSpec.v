(** Meaning of C expressions, independent of the compiler.

    An expression is a tree in which conversions are explicit: lvalues are address expressions,
    reading an object is [EDeref size address], operators are the signed or unsigned variant the
    operand types call for.  (This is what remains of a C expression after type analysis.)
    Evaluation is a small-step relation: any operand that C does not sequence may be evaluated
    next, so one expression has many evaluations; [&&], [||], [?:] and [,] are sequenced.
    [bad] marks undefined behaviour: some subexpression that may be evaluated next has none. *)
From Verif Require Import Base.

Inductive eunop := ENot | EPlus | EMinus | EBool | EVoid | EUChar | ESChar | EShort | EUShort.
Inductive earith :=
| EAdd | ESub | EAnd | EXor | EOr | EMul | EDiv | EUDiv | EMod | EUMod | EShl | EShr | EUShr.
Inductive ecmp := ELt | EULt | EGt | EUGt | ELe | EULe | EGe | EUGe | EEq | ENe.

Inductive ex :=
| EVal (v : Z)                                (* an evaluated operand *)
| ENum (uns : bool) (n : Z)                   (* constant *)
| EIdent (id : Z)                             (* address of an object or function with linkage *)
| ELocal (ofs : Z)                            (* address of a local variable or parameter *)
| EDeref (sz : Z) (a : ex)                    (* value of the object at [a] *)
| EPre (inc : bool) (sz : Z) (a : ex)         (* ++x, --x *)
| EPost (inc : bool) (sz : Z) (a : ex)        (* x++, x-- *)
| EPostBy (add : bool) (sz n : Z) (a : ex)    (* p++, p-- for pointers to larger types *)
| EUn (u : eunop) (e : ex)
| EArith (o : earith) (l r : ex)
| ECmp (c : ecmp) (l r : ex)
| EAssign (sz : Z) (l r : ex)
| EAssignOp (o : earith) (sz : Z) (l r : ex)
| EComma (l r : ex)
| EAnd2 (lab : Z) (l r : ex)                  (* l && r; [lab] is a label number, no meaning *)
| EOr2 (lab : Z) (l r : ex)
| ECond (lab : Z) (c t f : ex)                (* c ? t : f *)
| ECall (f : ex) (args : list ex).            (* f(args), in the order C lists them *)

(** Memory: the objects the program may access, byte by byte. *)
Definition mem := Z -> option Z.
Fixpoint mld (n : nat) (m : mem) (a : Z) : option Z :=
  match n with
  | O => Some 0
  | S n => let? b := m a in let? r := mld n m (a + 1) in Some (b + 256 * r)
  end.
Fixpoint mst (n : nat) (m : mem) (a v : Z) : option mem :=
  match n with
  | O => Some m
  | S n =>
      let? _ := m a in
      mst n (fun x => if x =? a then Some (v mod 256) else m x) (a + 1) (v / 256)
  end.

Section Spec.
Variable W : Z.                          (* bytes in a word: int, pointers *)
Variable addr : Z -> Z.                  (* addresses of objects and functions with linkage *)
Variable bp : Z.                         (* frame address: locals are at fixed offsets from it *)
(** What calling the function at an address with these arguments does: result, new memory. *)
Variable ext : Z -> list Z -> mem -> option (Z * mem).

Definition word (z : Z) := wrap (8 * W) z.
Definition sint (z : Z) := swrap (8 * W) z.

(** Conversion of a word to an object size and back: negative sizes are signed types. *)
Definition conv (sz v : Z) : Z :=
  if sz =? W then word v else if sz <? 0 then word (swrap (8 * - sz) v) else wrap (8 * sz) v.
Definition nbytes (sz : Z) : nat := Z.to_nat (Z.abs sz).
Definition valid_size (sz : Z) : Prop :=
  sz = 1 \/ sz = -1 \/ sz = W \/ (W = 4 /\ (sz = 2 \/ sz = -2)).

Definition load (sz : Z) (m : mem) (a : Z) : option Z :=
  let? v := mld (nbytes sz) m a in Some (conv sz v).
Definition store (sz : Z) (m : mem) (a v : Z) : option mem := mst (nbytes sz) m a v.

Definition unop_val (u : eunop) (v : Z) : Z :=
  match u with
  | ENot => word (-1 - v) | EPlus => v | EMinus => word (- v)
  | EBool => if v =? 0 then 0 else 1
  | EVoid => v
  | EUChar => conv 1 v | ESChar => conv (-1) v | EShort => conv (-2) v | EUShort => conv 2 v
  end.

(** Division by zero, overflowing signed division and shifts by a negative amount or by the word
    size or more are undefined. *)
Definition arith_val (o : earith) (a b : Z) : option Z :=
  match o with
  | EAdd => Some (word (a + b)) | ESub => Some (word (a - b)) | EMul => Some (word (a * b))
  | EAnd => Some (Z.land a b) | EXor => Some (Z.lxor a b) | EOr => Some (Z.lor a b)
  | EDiv => if (sint b =? 0) || ((sint a =? - 2 ^ (8 * W - 1)) && (sint b =? -1)) then None
            else Some (word (Z.quot (sint a) (sint b)))
  | EMod => if (sint b =? 0) || ((sint a =? - 2 ^ (8 * W - 1)) && (sint b =? -1)) then None
            else Some (word (Z.rem (sint a) (sint b)))
  | EUDiv => if b =? 0 then None else Some (a / b)
  | EUMod => if b =? 0 then None else Some (a mod b)
  | EShl => if b <? 8 * W then Some (word (a * 2 ^ b)) else None
  | EShr => if b <? 8 * W then Some (word (sint a / 2 ^ b)) else None
  | EUShr => if b <? 8 * W then Some (a / 2 ^ b) else None
  end.

Definition cmp_val (c : ecmp) (a b : Z) : bool :=
  match c with
  | ELt => sint a <? sint b | EULt => a <? b | EGt => sint a >? sint b | EUGt => a >? b
  | ELe => sint a <=? sint b | EULe => a <=? b | EGe => sint a >=? sint b | EUGe => a >=? b
  | EEq => a =? b | ENe => negb (a =? b)
  end.

Fixpoint values (es : list ex) : option (list Z) :=
  match es with
  | [] => Some []
  | EVal v :: es => let? vs := values es in Some (v :: vs)
  | _ => None
  end.

(** One step at the root of an expression.  [None]: nothing to do here; [Some None]: undefined
    behaviour; [Some (Some (e, m))]: the step. *)
Definition ok (e : ex) (m : mem) : option (option (ex * mem)) := Some (Some (e, m)).
Definition red (e : ex) (m : mem) : option (option (ex * mem)) :=
  match e with
  | ENum _ n => ok (EVal (word n)) m
  | EIdent id => ok (EVal (word (addr id))) m
  | ELocal o => ok (EVal (word (bp + o))) m
  | EDeref sz (EVal a) =>
      Some (let? v := load sz m a in Some (EVal v, m))
  | EPre inc sz (EVal a) =>
      Some (let? v := load sz m a in
            let v' := if inc : bool then v + 1 else v - 1 in
            let? m' := store sz m a v' in Some (EVal (conv sz v'), m'))
  | EPost inc sz (EVal a) =>
      Some (let? v := load sz m a in
            let? m' := store sz m a (if inc : bool then v + 1 else v - 1) in Some (EVal v, m'))
  | EPostBy add sz n (EVal a) =>
      Some (let? v := load sz m a in
            let? m' := store sz m a (if add : bool then v + n else v - n) in Some (EVal v, m'))
  | EUn u (EVal v) => ok (EVal (unop_val u v)) m
  | EArith o (EVal a) (EVal b) =>
      Some (let? v := arith_val o a b in Some (EVal v, m))
  | ECmp c (EVal a) (EVal b) => ok (EVal (if cmp_val c a b then 1 else 0)) m
  | EAssign sz (EVal a) (EVal b) =>
      Some (let? m' := store sz m a b in Some (EVal (conv sz b), m'))
  | EAssignOp o sz (EVal a) (EVal b) =>
      Some (let? v := load sz m a in let? r := arith_val o v b in
            let? m' := store sz m a r in Some (EVal (conv sz r), m'))
  | EComma (EVal _) r => ok r m
  | EAnd2 _ (EVal v) r => if v =? 0 then ok (EVal 0) m else ok (EUn EBool r) m
  | EOr2 _ (EVal v) r => if v =? 0 then ok (EUn EBool r) m else ok (EVal 1) m
  | ECond _ (EVal v) t f => if v =? 0 then ok f m else ok t m
  | ECall (EVal f) args =>
      match values args with
      | Some vs => Some (let? (v, m') := ext f vs m in Some (EVal v, m'))
      | None => None
      end
  | _ => None
  end.

(** Operands that may be evaluated next. *)
Inductive frame :=
| FDeref (sz : Z) | FPre (inc : bool) (sz : Z) | FPost (inc : bool) (sz : Z)
| FPostBy (add : bool) (sz n : Z) | FUn (u : eunop)
| FArithL (o : earith) (r : ex) | FArithR (o : earith) (l : ex)
| FCmpL (c : ecmp) (r : ex) | FCmpR (c : ecmp) (l : ex)
| FAssignL (sz : Z) (r : ex) | FAssignR (sz : Z) (l : ex)
| FAssignOpL (o : earith) (sz : Z) (r : ex) | FAssignOpR (o : earith) (sz : Z) (l : ex)
| FComma (r : ex) | FAnd2 (lab : Z) (r : ex) | FOr2 (lab : Z) (r : ex)
| FCond (lab : Z) (t f : ex)
| FCallF (args : list ex) | FCallA (f : ex) (before after : list ex).

Definition plug (F : frame) (e : ex) : ex :=
  match F with
  | FDeref sz => EDeref sz e | FPre i sz => EPre i sz e | FPost i sz => EPost i sz e
  | FPostBy a sz n => EPostBy a sz n e | FUn u => EUn u e
  | FArithL o r => EArith o e r | FArithR o l => EArith o l e
  | FCmpL c r => ECmp c e r | FCmpR c l => ECmp c l e
  | FAssignL sz r => EAssign sz e r | FAssignR sz l => EAssign sz l e
  | FAssignOpL o sz r => EAssignOp o sz e r | FAssignOpR o sz l => EAssignOp o sz l e
  | FComma r => EComma e r | FAnd2 k r => EAnd2 k e r | FOr2 k r => EOr2 k e r
  | FCond k t f => ECond k e t f
  | FCallF args => ECall e args | FCallA f bef aft => ECall f (bef ++ e :: aft)
  end.

Inductive estep : ex * mem -> ex * mem -> Prop :=
| estep_here e m e' m' : red e m = Some (Some (e', m')) -> estep (e, m) (e', m')
| estep_in F e m e' m' : estep (e, m) (e', m') -> estep (plug F e, m) (plug F e', m').

Inductive esteps : ex * mem -> ex * mem -> Prop :=
| esteps_refl x : esteps x x
| esteps_step x y z : estep x y -> esteps y z -> esteps x z.

(** Some operand that may be evaluated next has undefined behaviour. *)
Inductive bad : ex -> mem -> Prop :=
| bad_here e m : red e m = Some None -> bad e m
| bad_in F e m : bad e m -> bad (plug F e) m.

(** No evaluation order leads to undefined behaviour. *)
Definition safe (e : ex) (m : mem) : Prop := forall e' m', esteps (e, m) (e', m') -> ~ bad e' m'.
End Spec.
