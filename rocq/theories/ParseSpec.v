(** The expression grammar of C (ISO C 6.5), independent of the parser, and the postfix form. *)
From Verif Require Import Base TokCodes.

(** Expressions.  As the compiler does, !a is written a == 0, a[b] is written *(a + b) and a.b is
    written (&a)->b, where -> is a binary operator followed by a dereference. *)
Inductive ast :=
| ELeaf (k v : Z)               (* constant, identifier or string *)
| ESizeT (v : Z)                (* sizeof (type) *)
| EUn (k : Z) (e : ast)
| ECast (v : Z) (e : ast)
| EBin (k : Z) (a b : ast)
| ECond (c a b : ast)           (* c ? a : b *)
| ECall (f : ast) (l : list ast).

(** 6.5.5 - 6.5.14: binary operators and the level of the rule, multiplicative = 13 ... logical OR = 4 *)
Definition binops : list (Z * Z) :=
  [(cMul, 13); (cDiv, 13); (cMod, 13); (cAdd, 12); (cSub, 12); (tokLShift, 11); (tokRShift, 11);
   (cLess, 10); (cGreater, 10); (tokLEQ, 10); (tokGEQ, 10); (tokEQ, 9); (tokNEQ, 9);
   (cAnd, 8); (cXor, 7); (cOr, 6); (tokLogAnd, 5); (tokLogOr, 4)].
(** 6.5.16 *)
Definition assignops : list Z :=
  [cAssign; tokAssignMul; tokAssignDiv; tokAssignMod; tokAssignAdd; tokAssignSub; tokAssignLSh;
   tokAssignRSh; tokAssignAnd; tokAssignXor; tokAssignOr].
(** 6.5.3: prefix operators and what they are in the tree *)
Definition prefixops : list (Z * Z) :=
  [(cAnd, tokUnaryAnd); (cMul, tokUnaryStar); (cAdd, tokUnaryPlus); (cSub, tokUnaryMinus);
   (cCompl, cCompl); (tokInc, tokInc); (tokDec, tokDec); (tokSizeof, tokSizeof)].
Definition consts : list Z := [tokNumInt; tokNumUint; tokNumFloat; tokNumCharWide].

(** [derives n toks e]: toks is an expression of level n and e its tree.  17 primary,
    16 postfix, 15 unary, 14 cast, 13..4 binary, 3 conditional, 2 assignment, 1 expression. *)
Inductive derives : Z -> list (Z * Z) -> ast -> Prop :=
| d_up n t e : 1 <= n <= 16 -> derives (n + 1) t e -> derives n t e
| d_const k v : In k consts -> derives 17 [(k, v)] (ELeaf k v)
| d_ident v : derives 17 [(tokIdent, v)] (ELeaf tokIdent v)
| d_string v : derives 17 [(tokString, v)] (ELeaf tokIdent v)
| d_paren v w t e : derives 1 t e -> derives 17 ((cLPar, v) :: t ++ [(cRPar, w)]) e
| d_index v w t1 a t2 b : derives 16 t1 a -> derives 1 t2 b ->
    derives 16 (t1 ++ (cLBrk, v) :: t2 ++ [(cRBrk, w)]) (EUn tokUnaryStar (EBin cAdd a b))
| d_call0 v w t f : derives 16 t f -> derives 16 (t ++ [(cLPar, v); (cRPar, w)]) (ECall f [])
| d_call v w t f ta l : derives 16 t f -> dargs ta l ->
    derives 16 (t ++ (cLPar, v) :: ta ++ [(cRPar, w)]) (ECall f l)
| d_dot v t e m : derives 16 t e ->
    derives 16 (t ++ [(cDot, v); (tokIdent, m)])
               (EUn tokUnaryStar (EBin tokArrow (EUn tokUnaryAnd e) (ELeaf tokIdent m)))
| d_arrow v t e m : derives 16 t e ->
    derives 16 (t ++ [(tokArrow, v); (tokIdent, m)]) (EUn tokUnaryStar (EBin tokArrow e (ELeaf tokIdent m)))
| d_postinc v t e : derives 16 t e -> derives 16 (t ++ [(tokInc, v)]) (EUn tokPostInc e)
| d_postdec v t e : derives 16 t e -> derives 16 (t ++ [(tokDec, v)]) (EUn tokPostDec e)
| d_prefix o k v t e : In (o, k) prefixops -> derives (if (o =? tokInc) || (o =? tokDec) || (o =? tokSizeof) then 15 else 14) t e ->
    derives 15 ((o, v) :: t) (EUn k e)
| d_not v t e : derives 14 t e -> derives 15 ((cNot, v) :: t) (EBin tokEQ e (ELeaf tokNumInt 0))
| d_sizeof_type v w x n : derives 15 [(tokSizeof, v); (cLPar, w); (tokTypeName, n); (cRPar, x)] (ESizeT n)
| d_cast v n w t e : derives 14 t e ->
    derives 14 ((cLPar, v) :: (tokTypeName, n) :: (cRPar, w) :: t) (ECast n e)
| d_binary o n v t1 a t2 b : In (o, n) binops -> derives n t1 a -> derives (n + 1) t2 b ->
    derives n (t1 ++ (o, v) :: t2) (EBin o a b)
| d_cond v w tc c t1 a t2 b : derives 4 tc c -> derives 1 t1 a -> derives 3 t2 b ->
    derives 3 (tc ++ (cQuest, v) :: t1 ++ (cColon, w) :: t2) (ECond c a b)
| d_assign o v t1 a t2 b : In o assignops -> derives 15 t1 a -> derives 2 t2 b ->
    derives 2 (t1 ++ (o, v) :: t2) (EBin o a b)
| d_comma v t1 a t2 b : derives 1 t1 a -> derives 2 t2 b ->
    derives 1 (t1 ++ (cComma, v) :: t2) (EBin tokComma a b)
with dargs : list (Z * Z) -> list ast -> Prop :=
| da_one t e : derives 2 t e -> dargs t [e]
| da_more v t e ta l : derives 2 t e -> dargs ta l -> dargs (t ++ (cComma, v) :: ta) (e :: l).

(** The postfix form: operands, then the operator.  The operands of ?: come in the order
    condition, third, second.  A call is bracketed and the arguments come last to first, before
    the function. *)
Fixpoint postfix (e : ast) : list (Z * Z) :=
  match e with
  | ELeaf k v => [(k, v)]
  | ESizeT v => [(tokIdType, v); (tokSizeof, 0)]
  | EUn k e => postfix e ++ [(k, 0)]
  | ECast v e => postfix e ++ [(tokIdCast, v)]
  | EBin k a b => postfix a ++ postfix b ++ [(k, 0)]
  | ECond c a b => postfix c ++ postfix b ++ postfix a ++ [(cQuest, 0)]
  | ECall f l =>
      (cLPar, 0) ::
      (fix args l := match l with
                     | [] => []
                     | [a] => postfix a
                     | a :: l => args l ++ (cComma, 0) :: postfix a
                     end) l ++ postfix f ++ [(cRPar, 0)]
  end.
