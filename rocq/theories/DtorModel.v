(** Model of the parsing of declarations: type specifiers, declarators, parameter lists and what
    they leave in the declaration table: v0100/smlrc.c.

    A program is a list of tokens; an array dimension (a constant expression, ParseExpr) is one
    token, and so is a struct or union specifier (the table place of the structure).  The words
    const, volatile, auto, register and restrict are dropped by GetToken (smlrc.c 2047-2051) and do
    not occur.  Names are numbers; -1 is the name "<something>" of what has none.  Not modelled:
    enum, __interrupt functions (7136-7147), the space in the table of names, the names declared in
    a declarator hiding typedef names in the rest of it. *)
From Coq Require Import NArith.
From Verif Require Import Base DeclSpec DeclModel DtorSpec.

Section P.
Variable W : Z.                                 (* SizeOfWord *)
Variable tdf : N -> option Z.                   (* smlrc.c 6309-6338 FindTypedef *)

(** smlrc.c 6126-6156 TokenStartsDeclaration(tok, 1) *)
Definition startsDecl (t : tok) : bool :=
  match t with
  | TW WLong => negb (W =? 2)
  | TW _ | TStruct _ => true
  | TId n => match tdf n with Some _ => true | None => false end
  | _ => false
  end.
Definition hdIs (f : tok -> bool) (l : list tok) : bool := match l with t :: _ => f t | [] => false end.
Definition isRp (t : tok) : bool := match t with TRp => true | _ => false end.

(** smlrc.c 6757-6783 ParseBase: the masks of a word *)
Definition wordMask (w : word) : Z * Z :=
  match w with
  | WChar => (1, 78)                            (* 0x01, 0x4E *)
  | WShort => (2, 73)                           (* 0x02, 0x49 *)
  | WInt => (4, 65)                             (* 0x04, 0x41 *)
  | WLong => (8, 3)                             (* 0x08, 0x03 *)
  | WSigned => (16, 96)                         (* 0x10, 0x60 *)
  | WUnsigned => (32, 80)                       (* 0x20, 0x50 *)
  | WDouble => (64, 55)                         (* 0x40, 0x37 *)
  | _ => (0, 0)
  end.
(** smlrc.c 6755-6791: the loop [lcont] *)
Fixpoint wordLoop (allowed mask : Z) (toks : list tok) : Z * list tok :=
  match toks with
  | TW w :: r =>
      let '(m, d) := wordMask w in
      if Z.land allowed m =? 0 then (mask, toks)
      else wordLoop (Z.land allowed (Z.lnot (Z.lor d m))) (Z.lor mask m) r
  | _ => (mask, toks)
  end.
(** smlrc.c 6793-6812 *)
Definition maskType (m : Z) : option scal :=
  if m =? 1 then Some SChar
  else if m =? 17 then Some SSChar
  else if m =? 33 then Some SUChar
  else if (m =? 2) || (m =? 18) || (m =? 6) || (m =? 22) then Some SShort
  else if (m =? 34) || (m =? 38) then Some SUShort
  else if (m =? 4) || (m =? 16) || (m =? 20) then Some SInt
  else if (m =? 32) || (m =? 36) then Some SUns
  else if (m =? 8) || (m =? 24) || (m =? 12) || (m =? 28) then Some SLong
  else if (m =? 40) || (m =? 44) then Some SULong
  else if (m =? 64) || (m =? 72) then Some SFloat
  else None.

(** what ParseBase leaves in base[]: a table entry, or the place of a typedef *)
Inductive pbase := PTok (k : kind) (v : Z) | PTdef (p : Z).
(** smlrc.c 7076-7100: long is refused when an int has 2 bytes, long and short are mapped
    ([scalTok]); the end of the program is refused *)
Definition endBase (s : scal) (r : list tok) : res (pbase * list tok) :=
  match s with
  | SLong | SULong => if W =? 2 then Bad else Ok (PTok (scalTok W s) 0, r)
  | _ => Ok (PTok (scalTok W s) 0, r)
  end.
(** smlrc.c 6720-7104 ParseBase *)
Definition baseOf (toks : list tok) : res (pbase * list tok) :=
  match toks with
  | TW WVoid :: r => endBase SVoid r
  | TW WFloat :: r => endBase SFloat r
  | TW _ :: _ =>
      let '(m, r) := wordLoop 127 0 toks in
      match maskType m with Some s => endBase s r | None => Bad end
  | TStruct j :: r => Ok (PTok KStructPtr j, r)
  | TId n :: r => match tdf n with Some p => Ok (PTdef p, r) | None => Bad end
  | _ => Bad
  end.
Definition parseSpec (toks : list tok) : res (pbase * list tok) :=
  match baseOf toks with Ok (_, []) => Bad | r => r end.

(** smlrc.c 6174-6207 DeleteSyntax(pos, 1), InsertSyntax(pos, t) *)
Definition delete (st : stk) (i : Z) : stk := firstn (Z.to_nat i) st ++ skipn (S (Z.to_nat i)) st.
Definition insert (st : stk) (i : Z) (e : kind * Z) : res stk :=
  if symax <=? zlen st then Full
  else Ok (firstn (Z.to_nat i) st ++ e :: skipn (Z.to_nat i) st).
(** [SyntaxStack0[SyntaxStackCnt - 1]] *)
Definition topk (st : stk) : option kind :=
  match zget st (zlen st - 1) with Some (k, _) => Some k | None => None end.

(** smlrc.c 7190-7212 ParseDerived, array dimensions, with 6667-6715 ParseArrayDimension *)
Fixpoint dims (st : stk) (toks : list tok) (allow : bool) : res (stk * list tok) :=
  match toks with
  | TLb :: r =>
      let oldsp := zlen st in
      let! st := push st [(KVoid, 0)] in
      let! st := push st [(KLb, 0)] in
      match r with
      | TRb :: r =>
          if allow then
            let! st := push st [(KNum, 0)] in
            let! st := push st [(KRb, 0)] in
            dims (delete st oldsp) r false
          else Bad
      | TDim n :: TRb :: r =>
          if n <? 1 then Bad
          else
            let! st := push st [(KNum, n)] in
            let! st := push st [(KRb, 0)] in
            dims (delete st oldsp) r false
      | _ => Bad
      end
  | _ => Ok (st, toks)
  end.

(** smlrc.c 7126-7130 *)
Fixpoint starsOf (toks : list tok) : nat * list tok :=
  match toks with TStar :: r => let '(n, r) := starsOf r in (S n, r) | _ => (O, toks) end.
(** smlrc.c 7214-7215 *)
Fixpoint pushStars (n : nat) (st : stk) : res stk :=
  match n with O => Ok st | S n => let! st := push st [(KStar, 0)] in pushStars n st end.
(** smlrc.c 7217-7219: [strchr(",;{=)", tok)] *)
Definition follows (t : tok) : bool :=
  match t with TComma | TSemi | TLc | TEq | TRp => true | _ => false end.

(** smlrc.c 7232-7284 PushBase *)
Definition isScalar (k : kind) : bool :=
  match k with
  | KVoid | KChar | KSChar | KUChar | KShort | KUShort | KInt | KUns | KFloat | KStructPtr => true
  | _ => false
  end.
Definition clash (t k : kind) : bool :=
  ((kind_eqb t KRp || kind_eqb t KRb) && kind_eqb k KLp) || (kind_eqb t KRp && kind_eqb k KLb).
Definition level (k : kind) : Z := match k with KLp | KLb => 1 | KRp | KRb => -1 | _ => 0 end.
Fixpoint copyType (f : nat) (st : stk) (ptr c : Z) : res stk :=
  match f with
  | O => Internal
  | S f =>
      match zget st (ptr + 1), topk st with
      | Some (k, v), Some t =>
          if clash t k then Bad
          else
            let! st := push st [(k, v)] in
            let c := c + level k in
            if (c =? 0) && isScalar k then Ok st else copyType f st (ptr + 1) c
      | _, _ => Internal
      end
  end.
Definition pushBase (st : stk) (b : pbase) : res stk :=
  let! st := match b with
             | PTok k v => push st [(k, v)]
             | PTdef p => copyType (length st) st p 0
             end in
  match topk st, zget st (zlen st - 2) with
  | Some KVoid, Some (KRb, _) => Bad
  | _, _ => Ok st
  end.

(** smlrc.c 8560-8577 ParseFxnParams: arrays and functions become pointers; [i]: the place after
    the name *)
Definition decay (st : stk) (i : Z) : res stk :=
  match zget st i with
  | Some (KLb, _) =>
      let st := delete st i in
      let st := match zget st i with Some (KNum, _) => delete st i | _ => st end in
      match zget st i with Some (_, v) => Ok (lset st (Z.to_nat i) (KStar, v)) | None => Internal end
  | Some (KLp, _) => insert st i (KStar, 0)
  | _ => Ok st
  end.
(** smlrc.c 8583-8594: void parameters are refused, but for a single one without a name *)
Definition voidParam (st : stk) (cnt : Z) (last : bool) : bool :=
  match topk st, zget st (zlen st - 2) with
  | Some KVoid, Some (KIdent, n) => negb ((n =? -1) && (cnt =? 1) && last)
  | _, _ => false
  end.

(** smlrc.c 7113-7222 ParseDerived and 8504-8620 ParseFxnParams.  [f]: fuel.  The first token of the
    list is [tok] of the code. *)
Fixpoint derived (f : nat) (st : stk) (toks : list tok) {struct f} : res (stk * list tok) :=
  match f with
  | O => Internal
  | S f =>
      let '(s, toks) := starsOf toks in
      let! (params, st, toks) :=
        match toks with
        | TLp :: r =>
            if hdIs isRp r || hdIs startsDecl r then Ok (true, st, r)
            else let! (st, r) := derived f st r in
                 match r with TRp :: r => Ok (false, st, r) | _ => Bad end
        | TId n :: r => let! st := push st [(KIdent, Z.of_N n)] in Ok (false, st, r)
        | _ => let! st := push st [(KIdent, -1)] in Ok (false, st, toks)
        end in
      let! (st, toks) :=
        if params || hdIs (fun t => match t with TLp => true | _ => false end) toks then
          match topk st with
          | Some KRp | Some KRb => Bad
          | None => Internal
          | _ =>
              let! (st, toks) := if (params : bool) then let! st := push st [(KIdent, -1)] in Ok (st, toks)
                                 else Ok (st, tl toks) in
              let! st := push st [(KLp, 0)] in
              let! (st, toks) := fxnParams f st toks 0 false in
              let! st := push st [(KRp, 0)] in
              Ok (st, tl toks)
          end
        else if hdIs (fun t => match t with TLb => true | _ => false end) toks then
          match topk st with
          | Some KRp => Bad
          | None => Internal
          | _ => dims st toks true
          end
        else Ok (st, toks) in
      let! st := pushStars s st in
      if hdIs follows toks then Ok (st, toks) else Bad
  end
with fxnParams (f : nat) (st : stk) (toks : list tok) (cnt : Z) (ell : bool) {struct f}
  : res (stk * list tok) :=
  match f with
  | O => Internal
  | S f =>
      if hdIs isRp toks then Ok (st, toks)
      else
        let last := zlen st in
        let! (st, b, toks, ell) :=
          if negb (hdIs startsDecl toks) then
            match toks with
            | TEll :: r =>
                if (cnt =? 0) || ell then Bad
                else let! st := push st [(KIdent, -1)] in Ok (st, PTok KEllipsis 0, r, true)
            | _ => Bad
            end
          else if ell then Bad
          else
            let! (b, r) := parseSpec toks in
            let! (st, r) := derived f st r in
            Ok (st, b, r, ell) in
        let! st := pushBase st b in
        let! st := decay st (last + 1) in
        let cnt := cnt + 1 in
        match toks with
        | TRp :: _ => if voidParam st cnt true then Bad else Ok (st, toks)
        | TComma :: r => if voidParam st cnt false then Bad else fxnParams f st r cnt ell
        | _ => Bad
        end
  end.

(** smlrc.c 7900-8105 ParseDecl and the callers' TokenStartsDeclaration, for declarations without
    storage class, initialisers and function bodies, [obj]: of objects and functions (void objects
    and nameless declarators are refused), otherwise typedefs (nameless ones are refused).
    Gives the table and the rest of the program. *)
Fixpoint declList (f : nat) (obj : bool) (st : stk) (b : pbase) (toks : list tok)
  : res (stk * list tok) :=
  match f with
  | O => Internal
  | S f =>
      let last := zlen st in
      let! (st, toks) := derived (S (length toks)) st toks in
      let! st := pushBase st b in
      if obj && voidParam st 0 false then Bad
      else
        match zget st last with
        | Some (KIdent, n) =>
            if n =? -1 then Bad
            else
              match toks with
              | TComma :: r => declList f obj st b r
              | TSemi :: r => Ok (st, r)
              | _ => Bad
              end
        | _ => Internal
        end
  end.
Definition parseDecl (obj : bool) (st : stk) (toks : list tok) : res (stk * list tok) :=
  if hdIs startsDecl toks then
    let! (b, r) := parseSpec toks in declList (S (length r)) obj st b r
  else Bad.

(** smlrc.c 2766-2800 (ParseExpr's exprval for casts and sizeof) with ParseDecl called with
    ExprLevel: a type name, up to the closing parenthesis; names are refused (8099-8101), and so is
    void (7952-7962) except in casts *)
Definition typeName (cast : bool) (st : stk) (toks : list tok) : res (stk * list tok) :=
  if hdIs startsDecl toks then
    let last := zlen st in
    let! (b, r) := parseSpec toks in
    let! (st, r) := derived (S (length r)) st r in
    let! st := pushBase st b in
    if negb cast && voidParam st 0 false then Bad
    else
      match zget st last, r with
      | Some (KIdent, n), TRp :: r => if n =? -1 then Ok (st, r) else Bad
      | _, _ => Bad
      end
  else Bad.
End P.
