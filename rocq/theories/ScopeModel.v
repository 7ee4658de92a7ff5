(** Model of the symbol table: v0100/smlrc.c.  SyntaxStack0/1 is the list of its (token, value)
    pairs from the top (index SyntaxStackCnt - 1) to the bottom; an index is the number of
    elements under it.  Identifiers are compared as numbers (their indices in the identifier
    table; that equal indices are equal names is C16).  The limit of the table (SyntaxStackMax)
    is not modelled. *)
From Verif Require Import Base LexModel ScopeSpec.

(** 217-327 *)
Definition tokNumInt : Z := 1.
Definition tokIdent : Z := 16.
Definition tokTypedef : Z := 111.
Definition tokEnum : Z := 112.
Definition tokLocalOfs : Z := 89.
Definition tokTag : Z := 145.
Definition cL : Z := 40.
Definition cR : Z := 41.
Definition cHash : Z := 35.

Definition paren (t : Z) : Z := (if t =? cL then 1 else 0) - (if t =? cR then 1 else 0).

(** 6209-6240 FindSymbol; [c <> 0]: inside the loop that skips over the function params *)
Fixpoint findSymbol (c : Z) (s : Z) (st : stack) : res Z :=
  match st with
  | [] => if c =? 0 then Ok (-1) else Oob
  | (t, v) :: r =>
      if negb (c =? 0) then findSymbol (c + paren t) s r
      else if (t =? tokIdent) && (v =? s) then Ok (zlen r)
      else if t =? cR then findSymbol (-1) s r
      else findSymbol 0 s r
  end.
(** 6309-6341 FindTypedef *)
Fixpoint findTypedef (c : Z) (s : Z) (st : stack) : res Z :=
  match st with
  | [] => if c =? 0 then Ok (-1) else Oob
  | (t, v) :: r =>
      if negb (c =? 0) then findTypedef (c + paren t) s r
      else if ((t =? tokTypedef) || (t =? tokIdent)) && (v =? s) then Ok (if t =? tokIdent then -1 else zlen r)
      else if t =? cR then findTypedef (-1) s r
      else findTypedef 0 s r
  end.
(** 6272-6305 FindTaggedDecl: the index and CurScope *)
Fixpoint findTaggedDecl (c : Z) (s : Z) (scope : bool) (st : stack) : res (Z * bool) :=
  match st with
  | [] => if c =? 0 then Ok (-1, scope) else Oob
  | (t, v) :: r =>
      if negb (c =? 0) then findTaggedDecl (c + paren t) s scope r
      else if (t =? tokTag) && (v =? s) then Ok (zlen r - 1, scope)
      else if t =? cR then findTaggedDecl (-1) s scope r
      else if t =? cHash then findTaggedDecl 0 s false r
      else findTaggedDecl 0 s scope r
  end.

(** 7740-7892 CheckRedecl (without the case of structure members).  [compat] is compatCheck2 on
    two indices; [lvl] is ParseLevel.  The loop of 7798-7891: [nx] is the token at i + 1; [other]:
    tid is tokEnumPtr or tokTypedef *)
Section redecl.
Context (compat : Z -> Z -> bool) (lvl last id : Z) (other external : bool).
Fixpoint redecl (c level nx : Z) (st : stack) : res unit :=
  match st with
  | [] => if c =? 0 then Ok tt else Oob
  | (t, v) :: r =>
      if negb (c =? 0) then redecl (c + paren t) level t r
      else if t =? cR then redecl (-1) level t r
      else if t =? cHash then if other || negb external then Ok tt else redecl 0 (level - 1) t r
      else if ((t =? tokTypedef) || (t =? tokIdent)) && (v =? id) then
        let plain := (t =? tokIdent) && negb (nx =? tokNumInt) in
        let own := (nx =? tokLocalOfs) || (nx =? tokIdent) in
        if level =? lvl then
          if other || negb plain then Err else
          if negb (level =? 0) && (own || negb external) then Err else
          if compat last (zlen r) then Ok tt else Err
        else
          if plain && negb own then if compat last (zlen r) then Ok tt else Err
          else redecl 0 level t r
      else redecl 0 level t r
  end.
End redecl.
(** SyntaxStack0[i], SyntaxStack1[i] *)
Definition atp (st : stack) (i : Z) : res (Z * Z) := inb (zget st (zlen st - 1 - i)).
Definition checkRedecl (compat : Z -> Z -> bool) (lvl : Z) (st : stack) (last : Z) : res unit :=
  let! (tid, id) := atp st last in
  let! (nx, _) := atp st (last + 1) in
  let enum := (tid =? tokIdent) && (nx =? tokNumInt) in
  let own := (nx =? tokLocalOfs) || (nx =? tokIdent) in
  redecl compat lvl last id (negb (tid =? tokIdent) || enum) ((tid =? tokIdent) && negb enum && negb own) 0 lvl tid
    (skipn (Z.to_nat (zlen st - last)) st).

(** What is declared, as ParseDecl, ParseBase and the statements push it *)
Inductive undo := UFxn (cnt last : Z) | UBlock (cnt : Z) | UFor (cnt : Z).
Record state := State { stk : stack; level : Z; undos : list undo }.
(** PushSyntax2 of a sequence *)
Definition pushAll (st : stack) (l : stack) : stack := rev l ++ st.
(** SyntaxStackCnt = cnt *)
Definition cutTo (st : stack) (cnt : Z) : stack := skipn (Z.to_nat (zlen st - cnt)) st.
Definition declared (compat : Z -> Z -> bool) (s : state) (l : stack) : res state :=
  let st := pushAll (stk s) l in
  let! _ := checkRedecl compat (level s) st (zlen (stk s)) in
  Ok (State st (level s) (undos s)).
Definition step (compat : Z -> Z -> bool) (s : state) (o : op) : res state :=
  match o with
  | ODecl sto fn name num ofs body =>
      (* 8079-8081, 8166-8186: a local variable, a static one in a function, or a global one *)
      let loc := negb (level s =? 0) in
      match sto with
      | SStatic => if loc && fn then Err else declared compat s ((tokIdent, name) :: (if loc then [(tokIdent, num)] else []) ++ body)
      | SExtern => declared compat s ((tokIdent, name) :: body)
      | SNone => declared compat s ((tokIdent, name) :: (if loc && negb fn then [(tokLocalOfs, ofs)] else []) ++ body)
      end
  | OTypedef name body => declared compat s ((tokTypedef, name) :: body)
  | OEnum name value => declared compat s [(tokIdent, name); (tokNumInt, value)]  (* 6935-6946 *)
  | OTag what name => Ok (State (pushAll (stk s) [(what, 0); (tokTag, name)]) (level s) (undos s))
  | OToks body => Ok (State (pushAll (stk s) body) (level s) (undos s))
  | OFxn name body =>  (* 8075-8077, 8355-8404 *)
      if negb (level s =? 0) then Err else
      let st := pushAll (stk s) ((tokIdent, name) :: body) in
      Ok (State (pushAll st [(cHash, 0)]) 1 (UFxn (zlen st) (zlen (stk s)) :: undos s))
  | OOpen =>  (* 8781-8789, 9685: blocks are only found in functions *)
      if level s =? 0 then Err else
      Ok (State (pushAll (stk s) [(cHash, 0)]) (level s + 1) (UBlock (zlen (stk s)) :: undos s))
  | OFor =>  (* 9281-9291 *)
      if level s =? 0 then Err else
      Ok (State (pushAll (stk s) [(cHash, 0)]) (level s) (UFor (zlen (stk s)) :: undos s))
  | OClose =>
      match undos s with
      | [] => Err
      | UBlock cnt :: us => Ok (State (cutTo (stk s) cnt) (level s - 1) us)  (* 8790-8797 *)
      | UFor cnt :: us => Ok (State (cutTo (stk s) cnt) (level s) us)
      | UFxn cnt last :: us =>  (* 8414-8486 *)
          let st := cutTo (stk s) cnt in
          let! _ := checkRedecl compat (level s - 1) st last in
          Ok (State st (level s - 1) us)
      end
  end.
(** 9722-9751 and 9685 (the scope of the file): SyntaxStackInit; the values of types are not
    looked at.  [dummy]: DummyIdent, the name of __func__ outside of functions *)
Definition start (dummy : Z) : state :=
  State (pushAll [] [(17, 0); (19, 0); (101, 0); (17, 0); (97, 0); (tokIdent, dummy); (91, 0); (2, 0); (93, 0); (18, 0); (cHash, 0)]) 0 [].
