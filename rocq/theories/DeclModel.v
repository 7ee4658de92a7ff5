(** Model of the declaration table ("syntax stack") of the compiler, of the size and alignment
    computations on it and of struct/union definitions: v0100/smlrc.c.

    The table is a list of (token, value) pairs (SyntaxStack0/SyntaxStack1); values are kept as
    unsigned 32-bit numbers, which is the same bits as the [int] array of the code holds. *)
From Verif Require Import Base DeclSpec FoldModel.

(** tokens that occur in the table (smlrc.c 170-370) *)
Inductive kind :=
| KIdent | KMember | KOfs | KTag | KSize | KStar | KLp | KRp | KLb | KRb | KNum
| KVoid | KChar | KSChar | KUChar | KShort | KUShort | KInt | KUns | KFloat
| KStructPtr | KStruct | KUnion | KLc | KRc | KScope | KTypedef | KEllipsis.
Definition kind_eqb (a b : kind) : bool :=
  match a, b with
  | KIdent, KIdent | KMember, KMember | KOfs, KOfs | KTag, KTag | KSize, KSize | KStar, KStar
  | KLp, KLp | KRp, KRp | KLb, KLb | KRb, KRb | KNum, KNum | KVoid, KVoid | KChar, KChar
  | KSChar, KSChar | KUChar, KUChar | KShort, KShort | KUShort, KUShort | KInt, KInt | KUns, KUns
  | KFloat, KFloat | KStructPtr, KStructPtr | KStruct, KStruct | KUnion, KUnion | KLc, KLc
  | KRc, KRc | KScope, KScope | KTypedef, KTypedef | KEllipsis, KEllipsis => true
  | _, _ => false
  end.
Notation stk := (list (kind * Z)).

(** Outcome: a value, errorVarSize ("Variable too big"), errorDecl and other refusals of the
    declaration, "Symbol table exhausted", errorInternal or running out of fuel. *)
Inductive res (A : Type) := Ok (a : A) | TooBig | Bad | Full | Internal.
Arguments Ok {A}. Arguments TooBig {A}. Arguments Bad {A}. Arguments Full {A}. Arguments Internal {A}.
Definition rbind {A B} (r : res A) (f : A -> res B) : res B :=
  match r with Ok a => f a | TooBig => TooBig | Bad => Bad | Full => Full | Internal => Internal end.
Notation "'let!' x ':=' o 'in' k" := (rbind o (fun x => k))
  (at level 200, x pattern, o at level 100, k at level 200, right associativity).

Section D.
Variable W : Z.                                 (* SizeOfWord *)
Variable charSigned : bool.                     (* CharIsSigned *)

(** smlrc.c 6368-6376, 6384-6391, 6395-6404, 6412-6418: [if (n && size * n / n != size) error;
    size *= n; if (size != truncUint(size)) error] in unsigned arithmetic *)
Definition mulSize (size n : Z) : res Z :=
  let p := u32 (size * n) in
  if negb (n =? 0) && negb (p / n =? size) then TooBig
  else if negb (p =? truncUint W p) then TooBig else Ok p.

(** smlrc.c 6342-6431 GetDeclSize *)
Fixpoint gds (fuel : nat) (st : stk) (i size : Z) (arr deref : bool) : res Z :=
  match fuel with
  | O => Internal
  | S fuel =>
      match zget st i with
      | None => Internal
      | Some (k, v) =>
          match k with
          | KIdent | KOfs => gds fuel st (i + 1) size arr deref
          | KChar | KSChar =>
              if negb arr && (kind_eqb k KSChar || charSigned) && deref then Ok (-1)
              else Ok (s32 size)
          | KUChar => Ok (s32 size)
          | KShort => if negb arr && deref then Ok (-2) else let! s := mulSize size 2 in Ok (s32 s)
          | KUShort => let! s := mulSize size 2 in Ok (s32 s)
          | KInt | KUns | KFloat | KStar | KLp => let! s := mulSize size W in Ok (s32 s)
          | KLb =>
              match zget st (i + 1) with
              | Some (KNum, n) =>
                  let! s := mulSize size (u32 n) in gds fuel st (i + 3) s true deref
              | _ => Internal
              end
          | KStructPtr => gds fuel st v size arr deref
          | KStruct | KUnion =>
              match zget st (i + 2) with
              | Some (KSize, s) =>
                  if deref then Ok 0 else let! s := mulSize size (u32 s) in Ok (s32 s)
              | _ => Ok 0
              end
          | KVoid => Ok 0
          | _ => Internal
          end
      end
  end.
Definition getDeclSize (st : stk) (i : Z) (deref : bool) : res Z :=
  if i <? 0 then Ok W else gds (S (length st)) st i 1 false deref.

(** smlrc.c 6433-6497 GetDeclAlignment *)
Fixpoint gda (fuel : nat) (st : stk) (i : Z) : res Z :=
  match fuel with
  | O => Internal
  | S fuel =>
      match zget st i with
      | None => Internal
      | Some (k, v) =>
          match k with
          | KIdent | KOfs => gda fuel st (i + 1)
          | KChar | KSChar | KUChar => Ok 1
          | KShort | KUShort => Ok 2
          | KInt | KUns | KFloat | KStar | KLp => Ok W
          | KLb => match zget st (i + 1) with Some (KNum, _) => gda fuel st (i + 3) | _ => Internal end
          | KStructPtr => gda fuel st v
          | KStruct | KUnion =>
              match zget st (i + 2), zget st (i + 3) with
              | Some (KSize, _), Some (_, a) => Ok a
              | _, _ => Ok 1
              end
          | KVoid => Ok 1
          | _ => Internal
          end
      end
  end.
Definition getDeclAlignment (st : stk) (i : Z) : res Z :=
  if i <? 0 then Ok W else gda (S (length st)) st i.

(** smlrc.c 6737-6822, 7079-7100 ParseBase, scalar types: the token stored; long is not
    available and short means int when an int has 2 bytes *)
Definition scalTok (s : scal) : kind :=
  match s with
  | SVoid => KVoid | SChar => KChar | SSChar => KSChar | SUChar => KUChar
  | SShort => if W =? 2 then KInt else KShort
  | SUShort => if W =? 2 then KUns else KUShort
  | SInt | SLong => KInt | SUns | SULong => KUns | SFloat => KFloat
  end.

Definition symax : Z := 2048 + 1024.            (* smlrc.c 194-196 SYNTAX_STACK_MAX *)
(** smlrc.c 6160-6172 PushSyntax2, several in a row *)
Definition push (st l : stk) : res stk :=
  let st := st ++ l in if symax <? zlen st then Full else Ok st.

(** [(x + a - 1) & ~(a - 1)] in unsigned arithmetic *)
Definition roundUp (x a : Z) : Z := Z.land (u32 (x + a - 1)) (u32 (Z.lnot (a - 1))).

(** smlrc.c 7137-7264 ParseDerived: what a declarator leaves in the table after the name, and
    7266-7316 PushBase ([e]: the base type) *)
Definition dtokens (d : dcl stk) (e : kind * Z) : stk :=
  flat_map (fun n => [(KLb, 0); (KNum, u32 n); (KRb, 0)]) (d_dims d) ++
  match d_ptr d with Some l => (KStar, 0) :: l | None => [] end ++ [e].

(** smlrc.c 7927-8012 ParseDecl: one declarator is entered in the table after its name; void
    objects (7306-7310, 7952-7962) and objects of size 0 are refused.  Gives the table and the size. *)
Definition declarator (st : stk) (e : kind * Z) (d : dcl stk) : res (stk * Z) :=
  let last := zlen st in
  let! st1 := push st ((KIdent, d_name d) :: dtokens d e) in
  let! _ := match d_ptr d, fst e with None, KVoid => Bad | _, _ => Ok tt end in
  let isArray := match d_dims d with [] => false | _ => true end in
  let! sz := getDeclSize st1 last false in
  let! _ := if sz =? 0 then Bad else Ok tt in
  let! _ := if isArray then
              let! s := getDeclSize st1 (last + 4) false in if s =? 0 then Bad else Ok tt
            else Ok tt in
  Ok (st1, sz).

(** smlrc.c 8013-8165 ParseDecl for a declarator in a struct/union definition.
    [info]: structInfo[1..3] = alignment, offset, largest member.  PragmaPackValue is [d_pack d]. *)
Definition member (u : bool) (st : stk) (info : Z * Z * Z) (e : kind * Z) (d : dcl stk)
  : res (stk * (Z * Z * Z)) :=
  let! (st1, sz) := declarator st e d in
  let! alignment := getDeclAlignment st1 (zlen st) in
  let '(al, o, mx) := info in
  let na := if d_pack d <? alignment then d_pack d else alignment in
  let al := if al <? na then na else al in
  let o1 := roundUp o na in
  let! _ := if (o1 <? o) || negb (o1 =? truncUint W o1) then TooBig else Ok tt in
  let! st2 := push st ((KMember, d_name d) :: (KOfs, o1) :: dtokens d e) in
  if u then
    (* 8161-8164 *)
    Ok (st2, (al, o1, if mx <? u32 sz then u32 sz else mx))
  else
    (* 8153-8159 *)
    let o2 := u32 (o1 + sz) in
    let! _ := if (o2 <? o1) || negb (o2 =? truncUint W o2) then TooBig else Ok tt in
    Ok (st2, (al, o2, mx)).

Fixpoint members (u : bool) (st : stk) (info : Z * Z * Z) (e : kind * Z) (ds : list (dcl stk))
  : res (stk * (Z * Z * Z)) :=
  match ds with
  | [] => Ok (st, info)
  | d :: ds => let! (st, info) := member u st info e d in members u st info e ds
  end.

(** smlrc.c 6720-7056 ParseBase: leaves its definitions in the table and returns base[].
    Simplifications: references to structures are by place in the table (the search by tag is
    FindTaggedDecl); a reference to a structure not defined yet, and the completion of such
    references (7035-7054), are not modelled; nor are enum and typedef. *)
Definition set (st : stk) (i : Z) (x : kind * Z) : stk := lset st (Z.to_nat i) x.
Fixpoint parseBase (st : stk) (b : base stk) : res (stk * (kind * Z)) :=
  match b with
  | BSc s => Ok (st, (scalTok s, 0))
  | BRef j => Ok (st, (KStructPtr, j))
  | BDef u tag ms =>
      let tp := zlen st in
      let! st := push st [(if u then KUnion else KStruct, 0); (KTag, tag); (KSize, 0); (KSize, 1); (KLc, 0)] in
      let! (st, info) :=
        (fix go ms st info :=
           match ms with
           | [] => Ok (st, info)
           | (b, ds) :: ms =>
               let! (st, e) := parseBase st b in
               let! (st, info) := members u st info e ds in
               go ms st info
           end) ms st (1, 0, 0) in
      match ms with
      | [] => Bad
      | _ =>
          let! st := push st [(KRc, 0)] in
          let '(al, o, mx) := info in
          let st := set st (tp + 3) (KSize, al) in
          let sz := u32 (o + mx) in
          let sz' := roundUp sz al in
          if (sz' <? sz) || negb (sz' =? truncUint W sz') then TooBig
          else Ok (set st (tp + 2) (KSize, sz'), (KStructPtr, tp))
      end
  end.

(** smlrc.c 5541-5562 exprval, case tokArrow: look the member up in the structure at place [j];
    gives its offset and the place of its type *)
Fixpoint lookup (l : stk) (pos c name : Z) : option (Z * Z) :=
  match l with
  | [] => None
  | (k, v) :: l =>
      let c := c + match k with KLp | KLc => 1 | KRp | KRc => -1 | _ => 0 end in
      match l with
      | (KOfs, o) :: _ =>
          if (c =? 1) && kind_eqb k KMember && (v =? name) then Some (o, pos + 2)
          else if c =? 0 then None else lookup l (pos + 1) c name
      | _ => if c =? 0 then None else lookup l (pos + 1) c name
      end
  end.
Definition findMember (st : stk) (j name : Z) : option (Z * Z) :=
  lookup (skipn (Z.to_nat (j + 5)) st) (j + 5) 1 name.

(** smlrc.c 7590-7599, 7633-7641 InitStruct: the next member from place [pos] on, at depth [c] of
    brackets; [Some None]: the structure is closed, [None]: outside of the table, or a member
    without its offset, which is not checked by the code *)
Fixpoint scanM (l : stk) (pos c : Z) : option (option (Z * Z)) :=
  match l with
  | [] => None
  | (k, v) :: l =>
      let c := c + match k with KLp | KLc => 1 | KRp | KRc => -1 | _ => 0 end in
      if (c =? 1) && kind_eqb k KMember then
        match l with (KOfs, o) :: _ => Some (Some (o, pos + 2)) | _ => None end
      else if c =? 0 then Some None else scanM l (pos + 1) c
  end.

(** smlrc.c 7900-8500 ParseDecl at file scope, object declarations: the base type, then one
    declarator after the other.  References [BRef i] are to the base type of the [i]-th declaration
    (the code finds it by its tag).  Gives the table, and the places of the objects' types.
    Simplification: what the code does with the object (defining a label, initialisers) does not
    touch what is in the table. *)
Fixpoint vars (st : stk) (e : kind * Z) (ds : list (dcl stk)) : res (stk * list Z) :=
  match ds with
  | [] => Ok (st, [])
  | d :: ds =>
      let! (st1, _) := declarator st e d in
      let! (st2, qs) := vars st1 e ds in Ok (st2, (zlen st + 1) :: qs)
  end.
Definition resolveref (pl : list Z) (i : Z) : Z := match zget pl i with Some j => j | None => -1 end.
Fixpoint resolve (pl : list Z) (b : base stk) : base stk :=
  match b with
  | BSc s => BSc s
  | BRef i => BRef (resolveref pl i)
  | BDef u tag ms => BDef u tag (map (fun bd => (resolve pl (fst bd), snd bd)) ms)
  end.
Fixpoint parseProg (st : stk) (pl : list Z) (p : prog stk) : res (stk * list Z) :=
  match p with
  | [] => Ok (st, [])
  | (b, ds) :: p =>
      let! (st, e) := parseBase st (resolve pl b) in
      let! (st, qs) := vars st e ds in
      let! (st, qs') := parseProg st (pl ++ [if kind_eqb (fst e) KStructPtr then snd e else -1]) p in
      Ok (st, qs ++ qs')
  end.

(** smlrc.c exprval 5523-5575 (member), 3977-4065 (indexing, which is a sum with [i] multiplied
    by the size of the element: GetDeclSize of the type after the dimension): the offset the compiler uses for a part of an object
    whose type is at place [q], and the place of the part's type *)
Fixpoint walk (st : stk) (q : Z) (p : list step) : option (Z * Z) :=
  match p with
  | [] => Some (0, q)
  | PMem name :: p =>
      match zget st q with
      | Some (KStructPtr, j) =>
          match findMember st j name with
          | Some (o, q') => match walk st q' p with Some (o', r) => Some (o + o', r) | None => None end
          | None => None
          end
      | _ => None
      end
  | PIdx i :: p =>
      match zget st q with
      | Some (KLb, _) =>
          match getDeclSize st (q + 3) false with
          | Ok s => match walk st (q + 3) p with Some (o', r) => Some (i * u32 s + o', r) | None => None end
          | _ => None
          end
      | _ => None
      end
  end.
End D.
