(** Model of the allocation of local objects and of parameters: v0100/smlrc.c, cgx86.c. *)
From Verif Require Import Base FoldModel FrameSpec.

Section F.
Variable W : Z.                       (* SizeOfWord *)
Variable L : Z.                       (* GenMaxLocalsSize(), cgx86.c 923-931 *)

(** CurFxnLocalOfs, CurFxnMinLocalOfs (smlrc.c 664-665) *)
Notation fst_ := (Z * Z)%type.

(** smlrc.c 3546-3565 AllocLocal; [None] is errorVarSize *)
Definition allocLocal (s : fst_) (size : Z) : option (fst_ * Z) :=
  let '(ofs, mn) := s in
  let n := s32 (Z.land (u32 (ofs - size)) (u32 (Z.lnot (W - 1)))) in
  if (ofs <=? n) || negb (n =? truncInt W n) || (n <? - L) then None
  else Some ((n, if n <? mn then n else mn), n).

(** smlrc.c 4919-4932 exprval, function call returning a structure: space for each, one after the
    other; 5602, 5770 ParseExpr: taken back at the end of the expression *)
Fixpoint temporaries (s : fst_) (ts : list Z) : option (fst_ * list (Z * Z)) :=
  match ts with
  | [] => Some (s, [])
  | t :: ts =>
      let? (s, o) := allocLocal s t in
      let? (s, os) := temporaries s ts in Some (s, (o, t) :: os)
  end.
Definition parseExpr (s : fst_) (ts : list Z) : option (fst_ * list (Z * Z)) :=
  let oldOfs := fst s in
  let? (s, os) := temporaries s ts in Some ((oldOfs, snd s), os).

(** smlrc.c 8280-8340 ParseDecl: a local variable, then its initialiser *)
Definition localVar (s : fst_) (size : Z) (ts : list Z) : option (fst_ * ((Z * Z) * list (Z * Z))) :=
  let? (s, o) := allocLocal s size in
  let? (s, os) := parseExpr s ts in Some (s, ((o, size), os)).
Fixpoint localVars (s : fst_) (ds : list (Z * list Z)) : option (fst_ * list ((Z * Z) * list (Z * Z))) :=
  match ds with
  | [] => Some (s, [])
  | d :: ds =>
      let? (s, o) := localVar s (fst d) (snd d) in
      let? (s, os) := localVars s ds in Some (s, o :: os)
  end.
Fixpoint exprs (s : fst_) (es : list (list Z)) : option (fst_ * list (list (Z * Z))) :=
  match es with
  | [] => Some (s, [])
  | e :: es => let? (s, o) := parseExpr s e in let? (s, os) := exprs s es in Some (s, o :: os)
  end.

(** smlrc.c 8740-9669 ParseStatement, 9673-9700 ParseBlock.  Statements other than blocks and [for]
    do not touch the allocation except through their expressions and substatements, so they are
    sequences of those here. *)
Fixpoint parseItem (s : fst_) (i : item Z) : option (fst_ * item (Z * Z)) :=
  match i with
  | IVar size ts => let? (s, (o, os)) := localVar s size ts in Some (s, IVar o os)
  | IExpr ts => let? (s, os) := parseExpr s ts in Some (s, IExpr os)
  | IBlock l =>
      (* 8781-8797 *)
      let undoLocalOfs := fst s in
      let? (s, os) :=
        (fix go s l :=
           match l with
           | [] => Some (s, [])
           | i :: l => let? (s, o) := parseItem s i in let? (s, os) := go s l in Some (s, o :: os)
           end) s l in
      Some ((undoLocalOfs, snd s), IBlock os)
  | IFor ds es b =>
      (* 9279-9437 *)
      let undoLocalOfs := fst s in
      let? (s, ods) := localVars s ds in
      let? (s, oes) := exprs s es in
      let? (s, ob) := parseItem s b in
      Some ((if zlen ds =? 0 then fst s else undoLocalOfs, snd s), IFor ods oes ob)
  end.

(** smlrc.c 8629-8630 (start of a function), cgx86.c 845-882 GenWriteFrameSize: what the prologue
    subtracts from the stack pointer *)
Definition parseFunction (l : list (item Z)) : option (Z * list (item (Z * Z))) :=
  let? (s, i) := parseItem (0, 0) (IBlock l) in
  match i with IBlock os => Some (u32 (- snd s), os) | _ => None end.
End F.
