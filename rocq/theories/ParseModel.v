(** Model of the expression parser of smlrc.c: tokens to the postfix expression stack. *)
From Verif Require Import Base TokCodes.

(** smlrc.c:346-347, 618 *)
Definition STACK_SIZE := 129.
Definition OPERATOR_STACK_SIZE := STACK_SIZE.

(** A token and its value (TokenValueInt or the identifier's index). *)
Notation token := (Z * Z)%type.

(** What a call of the parser does: return, or stop the compiler with a message.
    [Fuel] is not an outcome of the program: the recursion bound of the model was too small. *)
Inductive res (A : Type) := Ok (a : A) | TooLong | Unexpected | Internal | Fuel.
Arguments Ok {A}. Arguments TooLong {A}. Arguments Unexpected {A}. Arguments Internal {A}. Arguments Fuel {A}.
Definition rbind {A B} (r : res A) (k : A -> res B) : res B :=
  match r with Ok a => k a | TooLong => TooLong | Unexpected => Unexpected | Internal => Internal | Fuel => Fuel end.
Notation "'do' x <- a ; b" := (rbind a (fun x => b)) (at level 200, x pattern, a at level 100, b at level 200, right associativity).

(** The expression stack, bottom first (smlrc.c:615); the operator stack, top first (619). *)
Notation stack_t := (list token).

(** smlrc.c:2387-2395 push2 *)
Definition push2 (stk : stack_t) (v v2 : Z) : res stack_t :=
  if zlen stk >=? STACK_SIZE then TooLong else Ok (stk ++ [(v, v2)]).
(** smlrc.c:2397-2401 push *)
Definition push (stk : stack_t) (v : Z) : res stack_t := push2 stk v 0.
(** smlrc.c:2403-2425 stacktop, pop2 *)
Definition pop2 (stk : stack_t) : res (token * stack_t) :=
  match rev stk with [] => Internal | t :: r => Ok (t, rev r) end.
(** smlrc.c:2427-2443 ins2, ins *)
Definition ins2 (stk : stack_t) (pos : Z) (v v2 : Z) : res stack_t :=
  if zlen stk >=? STACK_SIZE then TooLong
  else Ok (firstn (Z.to_nat pos) stk ++ (v, v2) :: skipn (Z.to_nat pos) stk).
(** smlrc.c:2479-2493 pushop2, pushop *)
Definition pushop2 (ops : stack_t) (v v2 : Z) : res stack_t :=
  if zlen ops >=? OPERATOR_STACK_SIZE then TooLong else Ok ((v, v2) :: ops).
(** smlrc.c:2495-2518 opstacktop, popop2 *)
Definition popop2 (ops : stack_t) : res (token * stack_t) :=
  match ops with [] => Internal | t :: r => Ok (t, r) end.

(** smlrc.c:2520-2554 isop *)
Definition op_toks : list Z :=
  [cNot; cCompl; cAnd; cMul; cDiv; cMod; cAdd; cSub; cOr; cXor; cLess; cGreater; cAssign;
   tokLogOr; tokLogAnd; tokEQ; tokNEQ; tokLEQ; tokGEQ; tokLShift; tokRShift; tokInc; tokDec;
   tokSizeof; tokAssignMul; tokAssignDiv; tokAssignMod; tokAssignAdd; tokAssignSub;
   tokAssignLSh; tokAssignRSh; tokAssignAnd; tokAssignXor; tokAssignOr; tokComma; cQuest].
Definition isop (tok : Z) : bool := existsb (Z.eqb tok) op_toks.
(** smlrc.c:2556-2560 isunary *)
Definition isunary (tok : Z) : bool :=
  (tok =? cNot) || (tok =? cCompl) || (tok =? tokInc) || (tok =? tokDec) || (tok =? tokSizeof).
(** smlrc.c:2562-2588 preced *)
Definition preced (tok : Z) : Z :=
  if (tok =? cMul) || (tok =? cDiv) || (tok =? cMod) then 13
  else if (tok =? cAdd) || (tok =? cSub) then 12
  else if (tok =? tokLShift) || (tok =? tokRShift) then 11
  else if (tok =? cLess) || (tok =? cGreater) || (tok =? tokLEQ) || (tok =? tokGEQ) then 10
  else if (tok =? tokEQ) || (tok =? tokNEQ) then 9
  else if tok =? cAnd then 8
  else if tok =? cXor then 7
  else if tok =? cOr then 6
  else if tok =? tokLogAnd then 5
  else if tok =? tokLogOr then 4
  else if (tok =? cQuest) || (tok =? cColon) then 3
  else if existsb (Z.eqb tok)
            [cAssign; tokAssignMul; tokAssignDiv; tokAssignMod; tokAssignAdd; tokAssignSub;
             tokAssignLSh; tokAssignRSh; tokAssignAnd; tokAssignXor; tokAssignOr] then 2
  else if tok =? tokComma then 1
  else 0.
(** smlrc.c:2590-2604 precedGEQ *)
Definition precedGEQ (lfttok rhttok : Z) : bool :=
  let pl := preced lfttok in
  let pr := preced rhttok in
  let pl := if (pl =? 3) && (pr >=? 3) then 0 else pl in
  let pl := if (pl =? 2) && (pr >=? 2) then 0 else pl in
  pl >=? pr.

(** The current token is the head of the list; the end of the input is tokEof for ever. *)
Definition kind (ts : list token) : Z := match ts with [] => tokEof | (k, _) :: _ => k end.
Definition tval (ts : list token) : Z := match ts with [] => 0 | (_, v) :: _ => v end.

(** smlrc.c:2924-2925, end of exprUnary: a comma is the operator unless arguments are parsed *)
Definition conv (commaSep : bool) (ts : list token) : list token :=
  if (kind ts =? cComma) && negb commaSep then (tokComma, tval ts) :: tl ts else ts.

(** smlrc.c:2945-2954, 3016-3025: the expression between ? and : back to the expression stack *)
Fixpoint move_back (n : nat) (stk ops : stack_t) : res (stack_t * stack_t) :=
  match n with
  | O => Ok (stk, ops)
  | S n => do ((v, v2), ops) <- popop2 ops; do stk <- push2 stk v v2; move_back n stk ops
  end.
(** smlrc.c:2940-2957 body of both popping loops *)
Definition pop_one (stk ops : stack_t) : res (stack_t * stack_t) :=
  do ((v, v2), ops) <- popop2 ops;
  if v =? cQuest then
    do (stk, ops) <- move_back (Z.to_nat v2) stk ops;
    do stk <- push2 stk cQuest 0; Ok (stk, ops)
  else do stk <- push2 stk v v2; Ok (stk, ops).
(** smlrc.c:2938-2958; [n] bounds the iterations by the size of the operator stack *)
Fixpoint pop_geq (n : nat) (tok : Z) (stk ops : stack_t) : res (stack_t * stack_t) :=
  do ((t, _), _) <- popop2 ops;
  if precedGEQ t tok then
    match n with
    | O => Internal
    | S n => do (stk, ops) <- pop_one stk ops; pop_geq n tok stk ops
    end
  else Ok (stk, ops).
(** smlrc.c:3010-3026 *)
Fixpoint pop_all (n : nat) (stk ops : stack_t) : res (stack_t * stack_t) :=
  do ((t, _), _) <- popop2 ops;
  if t =? tokEof then Ok (stk, ops)
  else
    match n with
    | O => Internal
    | S n => do (stk, ops) <- pop_one stk ops; pop_all n stk ops
    end.
(** smlrc.c:2973-2980: the expression between ? and : to the operator stack *)
Fixpoint move_mid (n : nat) (stk ops : stack_t) : res (stack_t * stack_t) :=
  match n with
  | O => Ok (stk, ops)
  | S n => do ((v, v2), stk) <- pop2 stk; do ops <- pushop2 ops v v2; move_mid n stk ops
  end.
(** smlrc.c:2838-2845: a parsed argument moves below what was parsed before *)
Fixpoint move_arg (n : nat) (inspos : Z) (stk : stack_t) : res stack_t :=
  match n with
  | O => Ok stk
  | S n => do ((v, v2), stk) <- pop2 stk; do stk <- ins2 stk (inspos + 1) v v2; move_arg n inspos stk
  end.

(** smlrc.c:2663-2688: what a prefix operator leaves on the stack *)
Definition push_prefix (stk : stack_t) (lastTok : Z) : res stack_t :=
  if lastTok =? cAnd then push stk tokUnaryAnd
  else if lastTok =? cMul then push stk tokUnaryStar
  else if lastTok =? cAdd then push stk tokUnaryPlus
  else if lastTok =? cSub then push stk tokUnaryMinus
  else if lastTok =? cNot then do stk <- push stk tokNumInt; push stk tokEQ
  else push stk lastTok.

(** smlrc.c:2626-2928 exprUnary, 2930-3030 expr.  String literals and type names are single
    tokens (see TokCodes); what sizeof does to string data is not modelled.
    [unary] is exprUnary and returns gotUnary; [postl] is the loop over postfix operators
    (2815-2919; gotUnary is always set there), [args] the loop over arguments (2826-2871),
    [eloop] the main loop of expr (2937-3007) followed by the final popping. *)
Fixpoint unary (f : nat) (commaSep argOfSizeOf : bool) (stk ops : stack_t) (ts : list token) {struct f}
  : res (stack_t * stack_t * list token * bool) :=
  match f with O => Fuel | S f =>
    let tok := kind ts in
    if isop tok && (isunary tok || (tok =? cAnd) || (tok =? cMul) || (tok =? cAdd) || (tok =? cSub)) then
      do (stk, ops, ts, got) <- unary f commaSep (tok =? tokSizeof) stk ops (tl ts);
      if negb got then Unexpected else
      do stk <- push_prefix stk tok; Ok (stk, ops, conv commaSep ts, true)
    else
      let inspos := zlen stk in
      if (tok =? tokNumInt) || (tok =? tokNumFloat) || (tok =? tokNumCharWide) || (tok =? tokNumUint) then
        do stk <- push2 stk tok (tval ts);
        do (stk, ops, ts) <- postl f inspos stk ops (tl ts); Ok (stk, ops, conv commaSep ts, true)
      else if (tok =? tokString) || (tok =? tokIdent) then
        do stk <- push2 stk tokIdent (tval ts);
        do (stk, ops, ts) <- postl f inspos stk ops (tl ts); Ok (stk, ops, conv commaSep ts, true)
      else if tok =? cLPar then
        let ts := tl ts in
        if kind ts =? tokTypeName then
          let v := tval ts in
          let ts := tl ts in
          if negb (kind ts =? cRPar) then Unexpected else
          let ts := tl ts in
          if argOfSizeOf then
            do stk <- push2 stk tokIdType v; Ok (stk, ops, conv commaSep ts, true)
          else
            do (stk, ops, ts, got) <- unary f commaSep false stk ops ts;
            if negb got then Unexpected else
            do stk <- push2 stk tokIdCast v;
            do (stk, ops, ts) <- postl f inspos stk ops ts; Ok (stk, ops, conv commaSep ts, true)
        else
          do (stk, ops, ts, got) <- expr f false stk ops ts;
          if negb (kind ts =? cRPar) then Unexpected else
          if negb got then Unexpected else
          do (stk, ops, ts) <- postl f inspos stk ops (tl ts); Ok (stk, ops, conv commaSep ts, true)
      else Ok (stk, ops, conv commaSep ts, false)
  end
with postl (f : nat) (inspos : Z) (stk ops : stack_t) (ts : list token) {struct f}
  : res (stack_t * stack_t * list token) :=
  match f with O => Fuel | S f =>
    let tok := kind ts in
    if tok =? cLPar then
      do stk <- ins2 stk inspos cLPar 0;
      do (stk, ops, ts) <- args f inspos false stk ops ts;
      do stk <- push stk cRPar;
      postl f inspos stk ops (tl ts)
    else if tok =? cLBrk then
      do (stk, ops, ts, got) <- expr f false stk ops (tl ts);
      if negb got then Unexpected else
      if negb (kind ts =? cRBrk) then Unexpected else
      do stk <- push stk cAdd; do stk <- push stk tokUnaryStar;
      postl f inspos stk ops (tl ts)
    else if tok =? tokInc then do stk <- push stk tokPostInc; postl f inspos stk ops (tl ts)
    else if tok =? tokDec then do stk <- push stk tokPostDec; postl f inspos stk ops (tl ts)
    else if (tok =? cDot) || (tok =? tokArrow) then
      do stk <- (if tok =? cDot then push stk tokUnaryAnd else Ok stk);
      let ts := tl ts in
      if negb (kind ts =? tokIdent) then Unexpected else
      do stk <- push2 stk tokIdent (tval ts);
      do stk <- push stk tokArrow; do stk <- push stk tokUnaryStar;
      postl f inspos stk ops (tl ts)
    else Ok (stk, ops, ts)
  end
with args (f : nat) (inspos : Z) (more : bool) (stk ops : stack_t) (ts : list token) {struct f}
  : res (stack_t * stack_t * list token) :=
  match f with O => Fuel | S f =>
    let pos2 := zlen stk in
    do (stk, ops, ts, got) <- expr f true stk ops (tl ts);
    do stk <- move_arg (Z.to_nat (zlen stk - pos2)) inspos stk;
    let tok := kind ts in
    if tok =? cComma then
      if negb got then Unexpected else
      do stk <- ins2 stk (inspos + 1) cComma 0;
      args f inspos true stk ops ts
    else if tok =? cRPar then
      if more && negb got then Unexpected else Ok (stk, ops, ts)
    else Unexpected
  end
with expr (f : nat) (commaSep : bool) (stk ops : stack_t) (ts : list token) {struct f}
  : res (stack_t * stack_t * list token * bool) :=
  match f with O => Fuel | S f =>
    do ops <- pushop2 ops tokEof 0;
    do (stk, ops, ts, got) <- unary f commaSep false stk ops ts;
    eloop f commaSep stk ops ts got
  end
with eloop (f : nat) (commaSep : bool) (stk ops : stack_t) (ts : list token) (got : bool) {struct f}
  : res (stack_t * stack_t * list token * bool) :=
  match f with O => Fuel | S f =>
    let tok := kind ts in
    if negb (tok =? tokEof) &&
       negb (existsb (Z.eqb tok) [cComma; cSemi; cColon; cRPar; cRBrk; cRBrace]) && got then
      if isop tok && negb (isunary tok) then
        do (stk, ops) <- pop_geq (length ops) tok stk ops;
        do (stk, ops, ts) <-
          (if tok =? cQuest then
             let ssp := zlen stk in
             do (stk, ops, ts, got) <- expr f false stk ops (tl ts);
             if negb got || negb (kind ts =? cColon) then Unexpected else
             let cnt := zlen stk - ssp in
             do (stk, ops) <- move_mid (Z.to_nat cnt) stk ops;
             do ops <- pushop2 ops cQuest cnt; Ok (stk, ops, ts)
           else do ops <- pushop2 ops tok 0; Ok (stk, ops, ts));
        do (stk, ops, ts, got) <- unary f commaSep false stk ops (tl ts);
        if negb got then Unexpected else eloop f commaSep stk ops ts got
      else Unexpected
    else
      do (stk, ops) <- pop_all (length ops) stk ops;
      do (_, ops) <- popop2 ops;
      Ok (stk, ops, ts, got)
  end.
