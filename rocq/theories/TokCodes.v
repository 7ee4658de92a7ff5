(** Token codes used by the compiler (smlrc.c:218-330). *)
From Verif Require Import Base.

Definition tokEof := 0.
Definition tokNumInt := 1.      Definition tokNumUint := 2.
Definition tokLShift := 4.      Definition tokRShift := 5.
Definition tokLogAnd := 6.      Definition tokLogOr := 7.
Definition tokEQ := 8.          Definition tokNEQ := 9.
Definition tokLEQ := 10.        Definition tokGEQ := 11.
Definition tokInc := 12.        Definition tokDec := 13.
Definition tokArrow := 14.      Definition tokIdent := 16.
Definition tokSizeof := 27.
Definition tokAssignMul := 65.  Definition tokAssignDiv := 66.  Definition tokAssignMod := 67.
Definition tokAssignAdd := 68.  Definition tokAssignSub := 69.
Definition tokAssignLSh := 70.  Definition tokAssignRSh := 71.
Definition tokAssignAnd := 72.  Definition tokAssignXor := 73.  Definition tokAssignOr := 74.
Definition tokComma := 48.      (* the comma operator; the separator is the character *)
Definition tokUnaryAnd := 77.   Definition tokUnaryStar := 78.
Definition tokUnaryPlus := 79.  Definition tokUnaryMinus := 80.
Definition tokPostInc := 81.    Definition tokPostDec := 82.
Definition tokNumFloat := 149.  Definition tokNumCharWide := 150.

(** Single-character tokens. *)
Definition cNot := 33.    Definition cMod := 37.    Definition cAnd := 38.
Definition cLPar := 40.   Definition cRPar := 41.   Definition cMul := 42.
Definition cAdd := 43.    Definition cComma := 44.  Definition cSub := 45.
Definition cDot := 46.    Definition cDiv := 47.    Definition cColon := 58.
Definition cSemi := 59.   Definition cLess := 60.   Definition cAssign := 61.
Definition cGreater := 62. Definition cQuest := 63. Definition cLBrk := 91.
Definition cRBrk := 93.   Definition cXor := 94.    Definition cOr := 124.
Definition cRBrace := 125. Definition cCompl := 126.

(** Three codes that are not in the program.  A string literal (or several adjacent ones) is one
    token here, whose value is the identifier of the generated array; a type name in parentheses
    is one token, whose value is the identifier the compiler makes up for it; that identifier on
    the expression stack is a tokIdent whose name is <something#> (operand of sizeof) or
    (something#) (cast). *)
Definition tokString := 256.
Definition tokTypeName := 257.
Definition tokIdType := 258.
Definition tokIdCast := 259.
