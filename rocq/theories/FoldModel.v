(** Model of the type analysis and constant folding of expressions, [exprval] in
    v0100/smlrc.c 3570-5595, for the integer and pointer operators.

    The compiler works on an array holding the expression in postfix order and rewrites it in
    place; here the same rewriting is done on the tree that array is the postfix form of (each
    [stack[top][0] = ...] changes the root, each [del] of an operand's range drops that subtree).
    Whatever is not one of these operators (variables, calls, assignments, member selection,
    floating point) is a leaf [TOpq].  [None] is a compile-time error. *)
From Verif Require Import Base ExprSpec FoldSpec.

(** smlrc.c: the expression after [exprval]; operator tokens are the ones the code generators
    take (e.g. tokUDiv for unsigned division). *)
Inductive te (A : Type) :=
| TNum (uns : bool) (n : Z)                    (* tokNumInt, tokNumUint *)
| TLoc (n : Z)                                 (* tokLocalOfs *)
| TOpq (t : ty) (x : A)
| TUn (u : eunop) (e : te A)
| TBin (o : earith) (l r : te A)
| TCmp (c : ecmp) (l r : te A)
| TAnd (l r : te A) | TOr (l r : te A)         (* with their tokShortCirc *)
| TCond (c t f : te A)
| TComma (l r : te A).
Arguments TNum {A}. Arguments TLoc {A}. Arguments TOpq {A}. Arguments TUn {A}.
Arguments TBin {A}. Arguments TCmp {A}. Arguments TAnd {A}. Arguments TOr {A}.
Arguments TCond {A}. Arguments TComma {A}.

Section Fold.
Variable W : Z.                                (* SizeOfWord: 2 or 4 *)
Context {A : Type}.

(** smlrc.c 684-696 truncUint; the argument is an [unsigned] of 32 bits *)
Definition truncUint (n : Z) : Z := if W =? 2 then u32 n mod 2 ^ 16 else u32 n.
(** smlrc.c 698-718 truncInt *)
Definition truncInt (n : Z) : Z :=
  if W =? 2 then
    let un := u32 n mod 2 ^ 16 in
    let un := un + (un / 2 ^ 15 mod 2) * (2 ^ 32 - 2 ^ 16) in
    s32 un
  else s32 (u32 n).

(** smlrc.c 3528-3545 simplifyConstExpr; [c] is the value when the expression is constant *)
Definition simp (t : te A) (y : ty) (c : option Z) : te A :=
  match c with
  | None => t
  | Some s => match t with TNum _ _ => t | _ => TNum (isuns y) s end
  end.

(** smlrc.c 3411-3441 promoteType(&t, &other) *)
Definition promoteType (t other : ty) : ty :=
  let t := match t with TSm _ => TInt | _ => t end in
  match t, other with TInt, TUint => TUint | _, _ => t end.

(** smlrc.c 3329-3347 shiftCountCheck: the count, and whether it was replaced on the stack *)
Definition shiftCount (uns : bool) (sr : Z) : Z * bool :=
  if (negb uns && (sr <? 0)) || (32 <=? u32 sr) || (8 * W <=? u32 sr)
  then (sr mod (8 * W), true) else (sr, false).

(** smlrc.c 3349-3408 divCheckAndCalc: result (!div0, sl) *)
Definition divCalc (mod_ : bool) (sl sr : Z) (uns : bool) (cl cr : bool) : bool * Z :=
  if negb cr then (true, sl) else
  let sl' := if uns then s32 (truncUint sl) else truncInt sl in
  let sr := if uns then s32 (truncUint sr) else truncInt sr in
  if sr =? 0 then (false, sl)
  else if negb cl then (true, sl)
  else if negb uns &&
          (((sl' =? - 2 ^ 31) && (sr =? -1)) ||
           negb (Z.quot sl' sr =? truncInt (Z.quot sl' sr))) then (false, sl)
  else if uns then
    (true, if mod_ then s32 (u32 sl' mod u32 sr) else s32 (u32 sl' / u32 sr))
  else (true, if mod_ then Z.rem sl' sr else Z.quot sl' sr).

Definition host (c : option Z) : Z := match c with Some s => s | None => 0 end.
Definition isc (c : option Z) : bool := match c with Some _ => true | None => false end.

(** Result of [exprval]: rewritten expression, type, value if constant *)
Definition fres := option (te A * ty * option Z).

(** smlrc.c 4345-4389: ~ + - *)
Definition foldUn (u : sunop) (r : te A * ty * option Z) : fres :=
  let '(t, y, c) := r in
  if isptr y then None else                    (* numericTypeCheck *)
  let y := promoteType y y in
  let c := option_map (fun s => match u with
                                | UCompl => -1 - s
                                | UPlus => s
                                | UMinus => s32 (-1 - s32 (s - 1))
                                end) c in
  let o := match u with UCompl => ENot | UPlus => EPlus | UMinus => EMinus end in
  Some (simp (TUn o t) y c, y, c).

(** smlrc.c 4391-4576: * / % << >> & ^ | *)
Definition foldMul (o : sbinop) (l r : te A * ty * option Z) : fres :=
  let '(tl, yl, cl) := l in
  let '(tr, yr, cr) := r in
  if isptr yl || isptr yr then None else       (* numericTypeCheck *)
  let cst := isc cl && isc cr in
  let uns := isuns yl || isuns yr in
  let sl := host cl in
  let sr := host cr in
  match o with
  | BDiv | BMod =>
      let m := match o with BMod => true | _ => false end in
      let '(ok, s) := divCalc m sl sr uns (isc cl) (isc cr) in
      let y := promoteType yl yr in
      let c := if cst && ok then Some s else None in
      let t := TBin (match m, uns with
                     | false, false => EDiv | false, true => EUDiv
                     | true, false => EMod | true, true => EUMod
                     end) tl tr in
      Some (simp t y c, y, c)
  | BShl | BShr =>
      let sr := if isc cr
                then (if isuns yr then s32 (truncUint sr) else truncInt sr) else sr in
      let '(sr, rep) := if isc cr then shiftCount (isuns yr) sr else (sr, false) in
      let tr := if rep then match tr with TNum u _ => TNum u sr | _ => tr end else tr in
      let s :=
        match o with
        | BShl => s32 (u32 sl * 2 ^ sr)
        | _ =>
            if isuns yl then s32 (truncUint sl / 2 ^ sr)
            else if sr =? 0 then sl
            else let sl := truncInt sl in
                 s32 (Z.lor (truncUint sl / 2 ^ sr)
                            (if sl <? 0 then u32 ((2 ^ 32 - 1) * 2 ^ (8 * W - sr)) else 0))
        end in
      let y := promoteType yl TInt in
      let c := if cst then Some s else None in
      let t := TBin (match o with
                     | BShl => EShl
                     | _ => if isuns yl then EUShr else EShr
                     end) tl tr in
      Some (simp t y c, y, c)
  | _ =>
      let s := match o with
               | BMul => s32 (u32 sl * u32 sr)
               | BAnd => Z.land sl sr
               | BXor => Z.lxor sl sr
               | _ => Z.lor sl sr
               end in
      let y := promoteType yl yr in
      let c := if cst then Some s else None in
      let t := TBin (match o with
                     | BMul => EMul | BAnd => EAnd | BXor => EXor | _ => EOr end) tl tr in
      Some (simp t y c, y, c)
  end.

(** smlrc.c 4012-4027, 4045-4062: add [s] to the constant or local address at the end of the
    pointer operand, looking through '+' and tokUnaryPlus.  ([i] cannot run off the array: the
    loop goes down to the last leaf.) *)
Fixpoint mergeAdd (t : te A) (s : Z) : option (te A) :=
  match t with
  | TNum u n => Some (TNum u (s32 (n + s)))
  | TLoc n => Some (TLoc (s32 (n + s)))
  | TUn EPlus a => option_map (TUn EPlus) (mergeAdd a s)
  | TBin EAdd a b => option_map (TBin EAdd a) (mergeAdd b s)
  | _ => None
  end.
(** [stack[...][1] = s] on an operand that is a number *)
Definition setNum (t : te A) (s : Z) : te A := match t with TNum u _ => TNum u s | _ => t end.

(** smlrc.c 3967-4173: + and - *)
Definition foldAdd (sub : bool) (l r : te A * ty * option Z) : fres :=
  let '(tl, yl, cl) := l in
  let '(tr, yr, cr) := r in
  let o := if sub then ESub else EAdd in
  let pl := isptr yl in
  let pr := isptr yr in
  (* the value returned when both operands are constant; not scaled for pointers *)
  let c := if isc cl && isc cr
           then Some (if sub then s32 (u32 (host cl) - host cr) else s32 (u32 (host cl) + host cr))
           else None in
  if pr && negb pl && negb sub then
    let inc := esize yr in
    let t :=
      match cl with
      | Some sl =>
          let s := s32 (sl * inc) in
          match mergeAdd tr s with Some t => t | None => TBin o (setNum tl s) tr end
      | None => TBin o (if inc =? 1 then tl else TBin EMul tl (TNum false inc)) tr
      end in
    Some (simp t yr c, yr, c)
  else if pl && negb pr then
    let inc := esize yl in
    let t :=
      match cr with
      | Some sr =>
          let s := s32 (sr * inc) in
          match mergeAdd tl (if sub then s32 (-1 - s32 (s - 1)) else s) with
          | Some t => t
          | None => TBin o tl (setNum tr s)
          end
      | None => TBin o tl (if inc =? 1 then tr else TBin EMul tr (TNum false inc))
      end in
    Some (simp t yl c, yl, c)
  else if pl && pr && sub then
    let inc := esize yl in
    if inc =? esize yr then
      let t := TBin ESub tl tr in
      let t := if inc =? 1 then t else TBin EDiv t (TNum false inc) in
      Some (simp t TInt c, TInt, c)
    else None
  else if pl || pr then None
  else
    let y := promoteType yl yr in
    Some (simp (TBin o tl tr) y c, y, c).

(** smlrc.c 4579-4767: < > <= >= == != *)
Definition foldCmp (o : scmp) (l r : te A * ty * option Z) : fres :=
  let '(tl, yl, cl) := l in
  let '(tr, yr, cr) := r in
  let pl := isptr yl in
  let pr := isptr yr in
  let null c := match c with Some s => truncInt s =? 0 | None => false end in
  if match o with
     | CEq | CNe => (pr && negb pl && negb (null cl)) || (pl && negb pr && negb (null cr))
     | _ => xorb pl pr
     end then None else
  let uns := isuns yl || isuns yr in
  let b :=
    if negb uns then
      let sl := truncInt (host cl) in
      let sr := truncInt (host cr) in
      match o with
      | CLt => sl <? sr | CGt => sr <? sl | CLe => sl <=? sr | CGe => sr <=? sl
      | CEq => sl =? sr | CNe => negb (sl =? sr)
      end
    else
      let sl := s32 (truncUint (host cl)) in
      let sr := s32 (truncUint (host cr)) in
      match o with
      | CLt => u32 sl <? u32 sr | CGt => u32 sr <? u32 sl
      | CLe => u32 sl <=? u32 sr | CGe => u32 sr <=? u32 sl
      | CEq => sl =? sr | CNe => negb (sl =? sr)
      end in
  let u := pl || pr || uns in
  let t := TCmp (match o with
                 | CLt => if u then EULt else ELt | CGt => if u then EUGt else EGt
                 | CLe => if u then EULe else ELe | CGe => if u then EUGe else EGe
                 | CEq => EEq | CNe => ENe
                 end) tl tr in
  let c := if isc cl && isc cr then Some (b2z b) else None in
  Some (simp t TInt c, TInt, c).

(** smlrc.c 3751-3779: reduction of a constant to a narrower type; [sg] is 0 or the sign bit *)
Definition small (m sg s : Z) : Z :=
  let s := s mod m in if (0 <? sg) && (sg <=? s) then s - m else s.

(** smlrc.c 3672-3836: a cast.  A non-constant operand that is a number is a constant pointer.
    A variable ends in a dereference, which casts to a word-sized type hide under tokUnaryPlus. *)
Definition foldCast (y : ty) (r : te A * ty * option Z) : fres :=
  let '(t, _, c) := r in
  let c := match c, t with None, TNum _ n => Some n | _, _ => c end in
  let '(t1, c1) :=
    match y with
    | TSm sz =>
        if sz =? 1 then (TUn EUChar t, option_map (small 256 0) c)
        else if sz =? -1 then (TUn ESChar t, option_map (small 256 128) c)
        else if sz =? 2 then (TUn EUShort t, option_map (small 65536 0) c)
        else (TUn EShort t, option_map (small 65536 32768) c)
    | _ => (match t with TOpq _ _ => TUn EPlus t | _ => t end, c)
    end in
  let t2 := match c1 with Some s => TNum (isuns y) s | None => t1 end in
  Some (t2, y, if isptr y then None else c1).

(** smlrc.c 4770-4804: tok_Bool *)
Definition foldBool (r : te A * ty * option Z) : te A * ty * option Z :=
  let '(t, y, c) := r in
  let c := option_map (fun s => b2z (negb (truncInt s =? 0))) c in
  (simp (TUn EBool t) TInt c, TInt, c).

(** smlrc.c 4824-4839, 4850-4865: operands that are comparisons get no tok_Bool *)
Definition iscmp (e : src A) : bool :=
  match e with SCmp _ _ _ | SNot _ => true | _ => false end.

(** smlrc.c 4807-4893: && and || *)
Definition foldLog (isor : bool) (l r : te A * ty * option Z) : te A * ty * option Z :=
  let '(tl, _, cl) := l in
  let '(tr, _, cr) := r in
  let t := if isor then TOr tl tr else TAnd tl tr in
  let lz := host cl =? 0 in
  let s := if isor then negb lz || negb (host cr =? 0) else negb lz && negb (host cr =? 0) in
  let c := if isc cl && isc cr then Some (b2z s) else None in
  let c := if isc cl then
             if isor then (if lz then c else Some 1) else (if lz then Some 0 else c)
           else c in
  (simp t TInt c, TInt, c).

(** smlrc.c 3197-3325 compatCheck on the two results of ?: (already promoted).  Pointers to
    different types are told apart by size only; void pointers are not modelled. *)
Definition compat (yl yr : ty) (cl cr : option Z) : option ty :=
  let null c := match c with Some s => truncInt s =? 0 | None => false end in
  match isptr yl, isptr yr with
  | false, false => Some yl
  | true, false => if null cr then Some yl else None
  | false, true => if null cl then Some yr else None
  | true, true => if esize yl =? esize yr then Some yl else None
  end.

(** smlrc.c 5319-5516: ?: *)
Definition foldCond (cnd l r : te A * ty * option Z) : fres :=
  let '(tc, _, cc) := cnd in
  let '(tl, yl, cl) := l in
  let '(tr, yr, cr) := r in
  let yr := promoteType yr yl in
  let yl := promoteType yl yr in
  match compat yl yr cl cr with
  | None => None
  | Some y =>
      let plus t := match t with TOpq _ _ => TUn EPlus t | _ => t end in
      match cc with
      | None => Some (TCond tc tl tr, y, None)
      | Some s =>
          if negb (truncUint s =? 0) then
            match cl with
            | Some v => Some (TNum (isuns y) v, y, Some v)
            | None => Some (plus tl, y, None)
            end
          else
            match cr with
            | Some v => Some (TNum (isuns y) v, y, Some v)
            | None => Some (plus tr, y, None)
            end
      end
  end.

(** smlrc.c 5145-5190: the comma operator *)
Definition foldComma (l r : te A * ty * option Z) : te A * ty * option Z :=
  let '(tl, _, cl) := l in
  let '(tr, yr, cr) := r in
  match cl, cr with
  | Some _, Some s => (TNum (isuns yr) s, yr, Some s)
  | Some _, None => (TUn EPlus tr, yr, None)
  | None, _ => (TComma (TUn EVoid tl) tr, yr, None)
  end.

(** smlrc.c 3570-5595 exprval.  "!e" reaches it as "e == 0" (smlrc.c 2659-2663). *)
Fixpoint fold (e : src A) : fres :=
  match e with
  | SNum u n => Some (TNum u n, (if u : bool then TUint else TInt), Some n)
  | SOpq t x => Some (TOpq t x, t, None)
  | SLoc z n => Some (TLoc n, TPtr z, None)
  | SUn u a => let? r := fold a in foldUn u r
  | SNot a => let? r := fold a in foldCmp CEq r (TNum false 0, TInt, Some 0)
  | SBin o a b =>
      let? r := fold b in let? l := fold a in
      match o with
      | BAdd => foldAdd false l r
      | BSub => foldAdd true l r
      | _ => foldMul o l r
      end
  | SCmp c a b => let? r := fold b in let? l := fold a in foldCmp c l r
  | SCast t a => let? r := fold a in foldCast t r
  | SAnd a b =>
      let? r := fold b in let? l := fold a in
      let r := if iscmp b then r else foldBool r in
      let l := if iscmp a then l else foldBool l in
      Some (foldLog false l r)
  | SOr a b =>
      let? r := fold b in let? l := fold a in
      let r := if iscmp b then r else foldBool r in
      let l := if iscmp a then l else foldBool l in
      Some (foldLog true l r)
  | SCond c a b =>
      let? l := fold a in let? r := fold b in let? k := fold c in foldCond k l r
  | SComma a b => let? r := fold b in let? l := fold a in Some (foldComma l r)
  end.

(** What the code generated for the rewritten expression computes (C04 is that the code computes
    this): operators on words, [TAnd]/[TOr] pass the right operand's value on as it is. *)
Context {St : Type}.
Variable opq : A -> St -> option (Z * St).
Variable bp : Z.
Variable rtl : bool.
Definition cmpv := cmp_val W.
Fixpoint teval (t : te A) (st : St) : option (Z * St) :=
  match t with
  | TNum _ n => Some (word W n, st)
  | TLoc n => Some (word W (bp + n), st)
  | TOpq y x => let? (v, st) := opq x st in Some (word W (cv W y v), st)
  | TUn u a => let? (v, st) := teval a st in Some (unop_val W u v, st)
  | TBin o a b =>
      let? (x, y, st) := both rtl (teval a) (teval b) st in
      let? z := arith_val W o x y in Some (z, st)
  | TCmp c a b =>
      let? (x, y, st) := both rtl (teval a) (teval b) st in
      Some (b2z (cmpv c x y), st)
  | TAnd a b =>
      let? (x, st) := teval a st in if x =? 0 then Some (0, st) else teval b st
  | TOr a b =>
      let? (x, st) := teval a st in if x =? 0 then teval b st else Some (x, st)
  | TCond c a b =>
      let? (x, st) := teval c st in if x =? 0 then teval b st else teval a st
  | TComma a b => let? (_, st) := teval a st in teval b st
  end.
End Fold.
