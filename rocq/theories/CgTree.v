(** The expression stack that the front end hands to the code generator, as a function of the
    analysed expression tree, and the trees it can hand over. *)
From Verif Require Import Base X86 CgModel ExprSpec.

Definition tok_un (u : eunop) : unop :=
  match u with
  | ENot => UNot | EPlus => UPlus | EMinus => UMinus | EBool => UBool | EVoid => UVoid
  | EUChar => UUChar | ESChar => USChar | EShort => UShort | EUShort => UUShort
  end.
Definition tok_arith (o : earith) : arith :=
  match o with
  | EAdd => BAdd | ESub => BSub | EAnd => BAnd | EXor => BXor | EOr => BOr | EMul => BMul
  | EDiv => BDiv | EUDiv => BUDiv | EMod => BMod | EUMod => BUMod
  | EShl => BShl | EShr => BShr | EUShr => BUShr
  end.
Definition tok_cmp (c : ecmp) : cond :=
  match c with
  | ELt => CLt | EULt => CULt | EGt => CGt | EUGt => CUGt | ELe => CLe | EULe => CULe
  | EGe => CGe | EUGe => CUGe | EEq => CEq | ENe => CNe
  end.

Section W.
Variable W : Z.

(** smlrc.c:2385-2440 (push/ins), 2800-2900 (calls: '(' then the arguments, last first, each
    followed by ',', then the function, then ')' with the size of the arguments), 4807-4870
    (&& and ||: operand, short-circuit jump, operand, jump target), 5319-5500 (?:, in the order
    condition, third operand, second operand), 4370-4480 (pointer ++/--: step size, operator). *)
Fixpoint rpn (e : ex) : stack :=
  match e with
  | EVal _ => []
  | ENum u n => [if u then TNumU n else TNum n]
  | EIdent id => [TIdent id]
  | ELocal o => [TLocal o]
  | EDeref sz a => rpn a ++ [TStar sz]
  | EPre inc sz a => rpn a ++ [if inc then TInc sz else TDec sz]
  | EPost inc sz a => rpn a ++ [if inc then TPostInc sz else TPostDec sz]
  | EPostBy add sz n a => rpn a ++ [TNum n; if add then TPostAdd sz else TPostSub sz]
  | EUn u x => rpn x ++ [TUn (tok_un u)]
  | EArith o l r => rpn l ++ rpn r ++ [TArith (tok_arith o) 0]
  | ECmp c l r => rpn l ++ rpn r ++ [TCmp (tok_cmp c) 0]
  | EAssign sz l r => rpn l ++ rpn r ++ [TAssign sz]
  | EAssignOp o sz l r => rpn l ++ rpn r ++ [TAssignOp (tok_arith o) sz]
  | EComma l r => rpn l ++ rpn r ++ [TComma]
  | EAnd2 k l r => rpn l ++ TShortCirc k :: rpn r ++ [TLogAnd k]
  | EOr2 k l r => rpn l ++ TShortCirc (- k) :: rpn r ++ [TLogOr k]
  | ECond k c t f =>
      rpn c ++ TShortCirc (- k) :: rpn f ++ TGoto (k + 1) :: TLogAnd k :: rpn t ++ [TLogAnd (k + 1)]
  | ECall f args =>
      TLParen (W * zlen args) ::
      (fix go l := match l with [] => [] | a :: l => go l ++ rpn a ++ [TArgSep] end) args ++
      rpn f ++ [TRParen (W * zlen args)]
  end.
Definition rpn_args := fix go l := match l with [] => [] | a :: l => go l ++ rpn a ++ [TArgSep] end.

(** Expressions whose value is 0 or 1 by construction: comparisons, conversions to _Bool. *)
Definition boolish (e : ex) : bool :=
  match e with
  | ECmp _ _ _ | EUn EBool _ | EAnd2 _ _ _ | EOr2 _ _ _ => true
  | ENum _ n => (n =? 0) || (n =? 1)
  | _ => false
  end.

(** The trees that expression analysis (smlrc.c:3600-5600, exprval) produces: objects are
    accessed in the sizes of the scalar types (smlrc.c:6343, GetDeclSize), conversions to and
    from short exist only when int is wider than short, short-circuit labels are positive, and
    the operands of && and || have been converted to _Bool (smlrc.c:4822-4865). *)
Fixpoint wf (e : ex) : Prop :=
  match e with
  | EVal _ => False
  | ENum _ _ | EIdent _ | ELocal _ => True
  | EDeref sz a | EPre _ sz a | EPost _ sz a | EPostBy _ sz _ a => valid_size W sz /\ wf a
  | EUn u x => (match u with EShort | EUShort => W = 4 | _ => True end) /\ wf x
  | EArith _ l r | ECmp _ l r | EComma l r => wf l /\ wf r
  | EAssign sz l r | EAssignOp _ sz l r => valid_size W sz /\ wf l /\ wf r
  | EAnd2 k l r | EOr2 k l r => 0 < k /\ boolish l = true /\ boolish r = true /\ wf l /\ wf r
  | ECond k c t f => 0 < k /\ wf c /\ wf t /\ wf f
  | ECall f args =>
      wf f /\ (fix go l := match l with [] => True | a :: l => wf a /\ go l end) args
  end.
Definition wf_args := fix go l := match l with [] => True | a :: l => wf a /\ go l end.

(** ** What fusion turns the stack into, tree by tree (used by the proofs only) *)

(** Unary plus leaves no trace. *)
Fixpoint core (e : ex) : ex := match e with EUn EPlus x => core x | _ => e end.

(** How an operand is accessed, and the access size. *)
Definition kind (e : ex) : tok :=
  match core e with
  | ENum u n => if u then OpNumU n else OpNum n
  | EIdent n => OpIdent n
  | ELocal n => OpLocal n
  | EDeref _ y =>
      match core y with EIdent n => OpIndIdent n | ELocal n => OpIndLocal n | _ => OpIndAcc end
  | _ => OpAcc
  end.
Definition ksize (e : ex) : Z := match core e with EDeref sz _ => sz | _ => W end.
Definition is_var (e : ex) : option tok :=
  match core e with EIdent n => Some (OpIdent n) | ELocal n => Some (OpLocal n) | _ => None end.
Definition indk (e : ex) : tok :=
  match core e with EIdent n => OpIndIdent n | ELocal n => OpIndLocal n | _ => OpIndAcc end.
Definition stk (kl kr : tok) : tok :=
  if is_acc kr then match kl with OpAcc => OpStack | OpIndAcc => OpIndStack | k => k end else kl.
Definition szv (szl szr : Z) := (szl + 8) * 16 + (szr + 8).

Definition fbin (bl : stack) (kl : tok) (szl : Z) (br : stack) (kr : tok) (szr : Z) (t : tok) : stack :=
  bl ++ (if is_acc kl && is_acc kr then [TPushAcc] else []) ++ br ++
  [set_tval t (szv szl szr); stk kl kr; kr].

(** Fused form of an expression, and of the part of an operand that is computed beforehand. *)
Fixpoint FB (e : ex) : stack * stack :=
  let F x := fst (FB x) in
  let same s := (s, s) in
  match e with
  | EVal _ => same []
  | ENum u n => ([if u then TNumU n else TNum n], [])
  | EIdent id => ([TIdent id], [])
  | ELocal o => ([TLocal o], [])
  | EDeref sz a =>
      match is_var a with
      | Some k => ([TStar sz; k], [])
      | None => (F a ++ [TStar sz; OpAcc], F a)
      end
  | EPre inc sz a =>
      same ((match is_var a with Some _ => [] | None => F a end) ++
            [if inc then TInc sz else TDec sz; indk a])
  | EPost inc sz a =>
      same ((match is_var a with Some _ => [] | None => F a end) ++
            [if inc then TPostInc sz else TPostDec sz; indk a])
  | EPostBy add sz n a =>
      same ((match is_var a with Some _ => [] | None => F a end) ++
            [if add then TPostAdd sz else TPostSub sz; indk a; OpNum n])
  | EUn EPlus x => FB x
  | EUn u x => same (F x ++ [TUn (tok_un u)])
  | EArith o l r =>
      same (fbin (snd (FB l)) (kind l) (ksize l) (snd (FB r)) (kind r) (ksize r) (TArith (tok_arith o) 0))
  | ECmp c l r =>
      same (fbin (snd (FB l)) (kind l) (ksize l) (snd (FB r)) (kind r) (ksize r) (TCmp (tok_cmp c) 0))
  | EAssign sz l r =>
      same (fbin (match is_var l with Some _ => [] | None => F l end) (indk l) sz
                 (snd (FB r)) (kind r) (ksize r) (TAssign sz))
  | EAssignOp o sz l r =>
      same (fbin (match is_var l with Some _ => [] | None => F l end) (indk l) sz
                 (snd (FB r)) (kind r) (ksize r) (TAssignOp (tok_arith o) sz))
  | EComma l r => same (F l ++ F r ++ [TComma])
  | EAnd2 k l r => same (F l ++ TShortCirc k :: F r ++ [TLogAnd k])
  | EOr2 k l r => same (F l ++ TShortCirc (- k) :: F r ++ [TLogOr k])
  | ECond k c t f =>
      same (F c ++ TShortCirc (- k) :: F f ++ TGoto (k + 1) :: TLogAnd k :: F t ++ [TLogAnd (k + 1)])
  | ECall f args =>
      same (TLParen (W * zlen args) ::
            (fix go l := match l with [] => [] | a :: l => go l ++ fst (FB a) ++ [TArgSep] end) args ++
            F f ++ [TRParen (W * zlen args)])
  end.
Definition F e := fst (FB e).
Definition B e := snd (FB e).
Definition BL e := match is_var e with Some _ => [] | None => F e end.
Definition F_args := fix go l := match l with [] => [] | a :: l => go l ++ F a ++ [TArgSep] end.
End W.
