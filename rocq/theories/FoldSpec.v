(** Meaning of typed C expressions over integers and pointers, as the ISO standard gives it,
    written on mathematical integers: the value of an expression is the number it denotes, always
    within the range of its type.  (Where the standard leaves signed overflow undefined, the value
    wraps, as C compilers for these machines do.)  Leaves other than constants are arbitrary:
    [opq x] is any computation that may read and change the program state. *)
From Verif Require Import Base.

(** int, unsigned, a narrower integer type of [sz] bytes (negative: signed), pointer to an object
    of [esz] bytes *)
Inductive ty := TInt | TUint | TSm (sz : Z) | TPtr (esz : Z).
Inductive sunop := UCompl | UPlus | UMinus.
Inductive sbinop := BAdd | BSub | BMul | BDiv | BMod | BShl | BShr | BAnd | BXor | BOr.
Inductive scmp := CLt | CGt | CLe | CGe | CEq | CNe.

Inductive src (A : Type) :=
| SNum (uns : bool) (n : Z)                   (* integer constant *)
| SOpq (t : ty) (x : A)                       (* anything that is not a constant, of type [t] *)
| SLoc (esz ofs : Z)                          (* a local array, or the address of a local *)
| SUn (u : sunop) (e : src A)
| SNot (e : src A)                            (* !e *)
| SBin (o : sbinop) (l r : src A)
| SCmp (c : scmp) (l r : src A)
| SCast (t : ty) (e : src A)
| SAnd (l r : src A) | SOr (l r : src A)      (* && and || *)
| SCond (c t f : src A)
| SComma (l r : src A).
Arguments SNum {A}. Arguments SOpq {A}. Arguments SLoc {A}. Arguments SUn {A}.
Arguments SNot {A}. Arguments SBin {A}. Arguments SCmp {A}. Arguments SCast {A}.
Arguments SAnd {A}. Arguments SOr {A}. Arguments SCond {A}. Arguments SComma {A}.

Definition isptr (t : ty) : bool := match t with TPtr _ => true | _ => false end.
Definition isuns (t : ty) : bool := match t with TUint => true | _ => false end.
Definition esize (t : ty) : Z := match t with TPtr n => n | _ => 0 end.
(** integer promotion; usual arithmetic conversions *)
Definition prom (t : ty) : ty := match t with TSm _ => TInt | _ => t end.
Definition common (a b : ty) : ty := if isuns a || isuns b then TUint else TInt.

Definition sumty (ta tb : ty) : ty :=
  if isptr ta then (if isptr tb then TInt else ta) else if isptr tb then tb else common ta tb.
Fixpoint tyof {A} (e : src A) : ty :=
  match e with
  | SNum u _ => if u : bool then TUint else TInt
  | SOpq t _ => t
  | SLoc z _ => TPtr z
  | SUn _ e => prom (tyof e)
  | SBin o a b =>
      match o with
      | BAdd | BSub => sumty (tyof a) (tyof b)
      | BShl | BShr => prom (tyof a)
      | _ => common (tyof a) (tyof b)
      end
  | SNot _ | SCmp _ _ _ | SAnd _ _ | SOr _ _ => TInt
  | SCast t _ => t
  | SCond _ a b =>
      if isptr (tyof a) then tyof a else if isptr (tyof b) then tyof b
      else common (tyof a) (tyof b)
  | SComma _ b => tyof b
  end.

(** No [?:] in the expression has a pointer on one side only. *)
Fixpoint nomix {A} (e : src A) : bool :=
  match e with
  | SNum _ _ | SOpq _ _ | SLoc _ _ => true
  | SUn _ e | SNot e | SCast _ e => nomix e
  | SBin _ a b | SCmp _ a b | SAnd a b | SOr a b | SComma a b => nomix a && nomix b
  | SCond c a b =>
      nomix c && nomix a && nomix b && negb (xorb (isptr (tyof a)) (isptr (tyof b)))
  end.

(** arithmetic expressions: no pointers *)
Fixpoint noptr {A} (e : src A) : bool :=
  match e with
  | SNum _ _ => true
  | SOpq t _ => negb (isptr t)
  | SLoc _ _ => false
  | SUn _ e | SNot e => noptr e
  | SCast t e => negb (isptr t) && noptr e
  | SBin _ a b | SCmp _ a b | SAnd a b | SOr a b | SComma a b => noptr a && noptr b
  | SCond c a b => noptr c && noptr a && noptr b
  end.
(** no << or >> *)
Fixpoint noshift {A} (e : src A) : bool :=
  match e with
  | SNum _ _ | SOpq _ _ | SLoc _ _ => true
  | SUn _ e | SNot e | SCast _ e => noshift e
  | SBin o a b => match o with BShl | BShr => false | _ => noshift a && noshift b end
  | SCmp _ a b | SAnd a b | SOr a b | SComma a b => noshift a && noshift b
  | SCond c a b => noshift c && noshift a && noshift b
  end.
(** only constants *)
Fixpoint closed {A} (e : src A) : bool :=
  match e with
  | SNum _ _ => true
  | SOpq _ _ | SLoc _ _ => false
  | SUn _ e | SNot e | SCast _ e => closed e
  | SBin _ a b | SCmp _ a b | SAnd a b | SOr a b | SComma a b => closed a && closed b
  | SCond c a b => closed c && closed a && closed b
  end.

Section Meaning.
Variable W : Z.                                (* bytes in an int and in a pointer *)
Context {A St : Type}.
Variable opq : A -> St -> option (Z * St).
Variable bp : Z.                               (* address the offsets of locals are relative to *)
Variable rtl : bool.                           (* which operand goes first where C does not say *)
(** whether adding to or subtracting from a null pointer is undefined, as it is in ISO C *)
Variable strict : bool.

(** Conversion to a type: the number in its range congruent to [z]. *)
Definition cv (t : ty) (z : Z) : Z :=
  match t with
  | TInt => swrap (8 * W) z
  | TUint | TPtr _ => wrap (8 * W) z
  | TSm sz => if sz <? 0 then swrap (8 * - sz) z else wrap (8 * sz) z
  end.

Definition wf_ty (t : ty) : bool :=
  match t with
  | TInt | TUint => true
  | TSm sz => (sz =? 1) || (sz =? -1) || ((W =? 4) && ((sz =? 2) || (sz =? -2)))
  | TPtr n => (1 <=? n) && (n <? 2 ^ (8 * W - 1))
  end.
Fixpoint wf (e : src A) : bool :=
  match e with
  | SNum _ n => (- 2 ^ 31 <=? n) && (n <? 2 ^ 31)
  | SOpq t _ => wf_ty t
  | SLoc n o => wf_ty (TPtr n) && (- 2 ^ 31 <=? o) && (o <? 2 ^ 31)
  | SUn _ e | SNot e => wf e
  | SCast t e => wf_ty t && wf e
  | SBin _ a b | SCmp _ a b | SAnd a b | SOr a b | SComma a b => wf a && wf b
  | SCond c a b => wf c && wf a && wf b
  end.

Definition both {X Y} (f : St -> option (X * St)) (g : St -> option (Y * St)) (st : St)
  : option (X * Y * St) :=
  if rtl then let? (y, st) := g st in let? (x, st) := f st in Some (x, y, st)
  else let? (x, st) := f st in let? (y, st) := g st in Some (x, y, st).

(** Operators on numbers converted to the common type [t].  Division by zero and a quotient
    that is out of range are undefined. *)
Definition arith (o : sbinop) (t : ty) (x y : Z) : option Z :=
  match o with
  | BMul => Some (cv t (x * y))
  | BAnd => Some (cv t (Z.land x y)) | BXor => Some (cv t (Z.lxor x y))
  | BOr => Some (cv t (Z.lor x y))
  | BDiv | BMod =>
      if y =? 0 then None
      else if Z.quot x y =? cv t (Z.quot x y) then
        Some (match o with BDiv => Z.quot x y | _ => Z.rem x y end)
      else None
  | BAdd => Some (cv t (x + y)) | BSub => Some (cv t (x - y))
  | _ => None
  end.

Definition binary (o : sbinop) (ta tb : ty) (x y : Z) : option Z :=
  match o with
  | BAdd =>
      if isptr ta then
        if strict && (x =? 0) then None else Some (cv ta (x + y * esize ta))
      else if isptr tb then
        if strict && (y =? 0) then None else Some (cv tb (x * esize tb + y))
      else let t := common ta tb in arith o t (cv t x) (cv t y)
  | BSub =>
      if isptr ta then
        if isptr tb then
          let d := cv TInt (x - y) in
          if d mod esize ta =? 0 then Some (d / esize ta) else None
        else if strict && (x =? 0) then None else Some (cv ta (x - y * esize ta))
      else let t := common ta tb in arith o t (cv t x) (cv t y)
  | BShl => if (0 <=? y) && (y <? 8 * W) then Some (cv (prom ta) (x * 2 ^ y)) else None
  | BShr => if (0 <=? y) && (y <? 8 * W) then Some (cv (prom ta) (x / 2 ^ y)) else None
  | _ => let t := common ta tb in arith o t (cv t x) (cv t y)
  end.

Definition compare (c : scmp) (x y : Z) : bool :=
  match c with
  | CLt => x <? y | CGt => y <? x | CLe => x <=? y | CGe => y <=? x
  | CEq => x =? y | CNe => negb (x =? y)
  end.
Definition b2z (b : bool) : Z := if b then 1 else 0.

Fixpoint seval (e : src A) (st : St) : option (Z * St) :=
  match e with
  | SNum u n => Some (cv (tyof e) n, st)
  | SOpq t x => let? (v, st) := opq x st in Some (cv t v, st)
  | SLoc n o => Some (cv (tyof e) (bp + o), st)
  | SUn u a =>
      let? (v, st) := seval a st in
      Some (cv (tyof e) (match u with UCompl => -1 - v | UPlus => v | UMinus => - v end), st)
  | SNot a => let? (v, st) := seval a st in Some (b2z (v =? 0), st)
  | SBin o a b =>
      let? (x, y, st) := both (seval a) (seval b) st in
      let? z := binary o (tyof a) (tyof b) x y in Some (z, st)
  | SCmp c a b =>
      let? (x, y, st) := both (seval a) (seval b) st in
      let t := if isptr (tyof a) then tyof a else if isptr (tyof b) then tyof b
               else common (tyof a) (tyof b) in
      Some (b2z (compare c (cv t x) (cv t y)), st)
  | SCast t a => let? (v, st) := seval a st in Some (cv t v, st)
  | SAnd a b =>
      let? (x, st) := seval a st in
      if x =? 0 then Some (0, st) else
      let? (y, st) := seval b st in Some (b2z (negb (y =? 0)), st)
  | SOr a b =>
      let? (x, st) := seval a st in
      if negb (x =? 0) then Some (1, st) else
      let? (y, st) := seval b st in Some (b2z (negb (y =? 0)), st)
  | SCond c a b =>
      let? (x, st) := seval c st in
      let? (v, st) := (if x =? 0 then seval b st else seval a st) in
      Some (cv (tyof e) v, st)
  | SComma a b => let? (_, st) := seval a st in seval b st
  end.
End Meaning.
