(** What the C standard says printf prints (7.21.6.1), for the conversions of doprint.c except the
    floating point ones, whose text is left to a relation [fl] here. *)
From Verif Require Import Base DoPrintModel.

(** ** the format *)
Inductive size := SNone | SHH | SH | SL | SLD | SJ | SZ | ST.
Inductive cv := CD | CI | CU | CO | CX | CUX | CP | CC | CS | CN | CE | CUE | CF | CUF | CG | CUG.
Inductive field := FNone | FDigits (s : list Z) | FStar.
Record directive := Directive { flags : list Z; fwidth : field; fprec : field; fsize : size; fconv : cv }.
Inductive item := Lit (c : Z) | Percent | Conv (d : directive).

Definition sizeText (s : size) : list Z :=
  match s with SNone => [] | SHH => [104; 104] | SH => [104] | SL => [108] | SLD => [76] | SJ => [106] | SZ => [122] | ST => [116] end.
Definition cvText (c : cv) : Z :=
  match c with CD => 100 | CI => 105 | CU => 117 | CO => 111 | CX => 120 | CUX => 88 | CP => 112 | CC => 99 | CS => 115
  | CN => 110 | CE => 101 | CUE => 69 | CF => 102 | CUF => 70 | CG => 103 | CUG => 71 end.
Definition text (i : item) : list Z :=
  match i with
  | Lit c => [c]
  | Percent => [37; 37]
  | Conv d =>
      [37] ++ flags d ++
      match fwidth d with FNone => [] | FDigits s => s | FStar => [42] end ++
      match fprec d with FNone => [] | FDigits s => 46 :: s | FStar => [46; 42] end ++
      sizeText (fsize d) ++ [cvText (fconv d)]
  end.
Fixpoint format (l : list item) : list Z := match l with [] => [] | i :: l => text i ++ format l end.

Definition decimal (s : list Z) : Prop := Forall (fun c => 48 <= c <= 57) s.
Fixpoint valueOf (base : Z) (digit : Z -> Z) (acc : Z) (s : list Z) : Z :=
  match s with [] => acc | c :: s => valueOf base digit (acc * base + digit c) s end.
Definition number (s : list Z) : Z := valueOf 10 (fun c => c - 48) 0 s.

(** a valid directive: flags among [-+ #0]; a width is a number that does not begin with 0; a
    precision is a dot and a possibly empty number; modifiers only where they have a meaning *)
Definition isFloat (c : cv) : Prop := match c with CE | CUE | CF | CUF | CG | CUG => True | _ => False end.
Definition legal (i : item) : Prop :=
  match i with
  | Lit c => 0 < c < 256 /\ c <> 37
  | Percent => True
  | Conv d =>
      Forall (fun c => In c [45; 43; 32; 35; 48]) (flags d) /\
      match fwidth d with FDigits s => decimal s /\ s <> [] /\ hd 0 s <> 48 /\ number s < 2 ^ 31 | _ => True end /\
      match fprec d with FDigits s => decimal s /\ number s < 2 ^ 31 | _ => True end /\
      match fconv d with
      | CC | CS | CP => fsize d = SNone
      | CE | CUE | CF | CUF | CG | CUG => fsize d = SNone \/ fsize d = SL \/ fsize d = SLD
      | _ => fsize d <> SLD
      end
  end.

(** ** the meaning of a directive once its stars have been read *)
Record settings := Settings { left : bool; plus : bool; space : bool; hash : bool; zero : bool;
                              minw : Z; prec : option Z; siz : size; con : cv }.
Definition flag (c : Z) (d : directive) : bool := existsb (Z.eqb c) (flags d).
(** a negative width argument is a - flag and a positive width; a negative precision argument is
    as no precision at all *)
Inductive settled (d : directive) : list arg -> settings -> list arg -> Prop :=
| Settled : forall args args1 args2 w neg p,
    match fwidth d with
    | FNone => w = 0 /\ neg = false /\ args1 = args
    | FDigits s => w = number s /\ neg = false /\ args1 = args
    | FStar => exists a, args = AInt a :: args1 /\ s32 a <> - 2 ^ 31 /\ w = Z.abs (s32 a) /\ neg = (s32 a <? 0)
    end ->
    match fprec d with
    | FNone => p = None /\ args2 = args1
    | FDigits s => p = Some (number s) /\ args2 = args1
    | FStar => exists a, args1 = AInt a :: args2 /\ p = (if s32 a <? 0 then None else Some (s32 a))
    end ->
    settled d args
      (Settings (flag 45 d || neg) (flag 43 d) (flag 32 d) (flag 35 d) (flag 48 d) w p (fsize d) (fconv d)) args2.

(** ** padding to the field width: spaces before, spaces after (-), or zeros after sign and base
    prefix (0, unless - is given or [nozero]) *)
Definition padded (s : settings) (nozero : bool) (prefix body : list Z) : list Z :=
  let n := Z.to_nat (minw s - zlen (prefix ++ body)) in
  if left s then prefix ++ body ++ repeat 32 n
  else if zero s && negb nozero then prefix ++ repeat 48 n ++ body
  else repeat 32 n ++ prefix ++ body.

(** ** integers *)
Definition digitValue (c : Z) : Z :=
  if (48 <=? c) && (c <=? 57) then c - 48 else if (97 <=? c) && (c <=? 102) then c - 87
  else if (65 <=? c) && (c <=? 70) then c - 55 else -1.
(** [s] is [v] in base [base], without leading zeros (no digit at all for 0), in the right case *)
Definition numeral (base : Z) (upper : bool) (v : Z) (s : list Z) : Prop :=
  Forall (fun c => 0 <= digitValue c < base /\ (if upper then c <= 70 else c <= 57 \/ 97 <= c)) s /\
  valueOf base digitValue 0 s = v /\ hd 49 s <> 48.
Definition signed (c : cv) : bool := match c with CD | CI => true | _ => false end.
Definition base (c : cv) : Z := match c with CO => 8 | CX | CUX | CP => 16 | _ => 10 end.
(** the argument converted to the type the length modifier names; int, long, size_t, ptrdiff_t,
    intmax_t and pointers are 32 bits wide *)
Definition operand (s : settings) (w : Z) : Z :=
  match siz s with
  | SHH => if signed (con s) then s8 w else u8 w
  | SH => if signed (con s) then s16 w else u16 w
  | _ => if signed (con s) then s32 w else u32 w
  end.
Definition intText (s : settings) (w : Z) (out : list Z) : Prop :=
  let v := operand s w in
  exists core,
    numeral (base (con s)) (match con s with CUX => true | _ => false end) (Z.abs v) core /\
    let min := match prec s with Some p => p | None => 1 end in
    let ds := repeat 48 (Z.to_nat (min - zlen core)) ++ core in
    let ds := match con s with CO => if hash s && negb (hd 0 ds =? 48) then 48 :: ds else ds | _ => ds end in
    let prefix :=
      if signed (con s) then if v <? 0 then [45] else if plus s then [43] else if space s then [32] else []
      else match con s with
           | CX => if hash s && negb (v =? 0) then [48; 120] else []
           | CUX => if hash s && negb (v =? 0) then [48; 88] else []
           | _ => []
           end in
    out = padded s (match prec s with Some _ => true | None => false end) prefix ds.

(** ** strings: up to a NUL, and not beyond the precision; [m] is what may be read at the address *)
Definition stringAt (m : list Z) (p : option Z) (s : list Z) : Prop :=
  Forall (fun c => c <> 0) s /\
  ((exists r, m = s ++ 0 :: r) /\ match p with Some n => zlen s <= n | None => True end \/
   (exists r, m = s ++ r) /\ p = Some (zlen s)).

(** ** one item: the characters it prints, what it stores, the arguments left.  [n]: characters
    printed before it; [ok]: a restriction on the integer arguments; a null %s prints (null) *)
Definition outSize (s : size) : Z := match s with SHH => 1 | SH => 2 | _ => 4 end.
Inductive prints (fl : settings -> Z -> list Z -> Prop) (ok : settings -> Z -> Prop) (n : Z) :
  item -> list arg -> list Z -> list (Z * Z * Z) -> list arg -> Prop :=
| PLit c args : prints fl ok n (Lit c) args [c] [] args
| PPercent args : prints fl ok n Percent args [37] [] args
| PInt d args s w args' out : settled d args s (AInt w :: args') ->
    match fconv d with CD | CI | CU | CO | CX | CUX | CP => True | _ => False end ->
    0 <= w < 2 ^ 32 -> ok s w -> intText s w out -> prints fl ok n (Conv d) args out [] args'
| PChar d args s w args' : settled d args s (AInt w :: args') -> fconv d = CC ->
    prints fl ok n (Conv d) args (padded s true [] [u8 w]) [] args'
| PStr d args s m args' t : settled d args s (AStr m :: args') -> fconv d = CS ->
    stringAt match m with Some m => m | None => [40; 110; 117; 108; 108; 41; 0] end (prec s) t ->
    prints fl ok n (Conv d) args (padded s true [] t) [] args'
| PCount d args s p args' : settled d args s (AOut p :: args') -> fconv d = CN ->
    prints fl ok n (Conv d) args [] [(p, outSize (fsize d), swrap (8 * outSize (fsize d)) n)] args'
| PFloat d args s w args' out : settled d args s (AFlt w :: args') -> isFloat (fconv d) -> 0 <= w < 2 ^ 32 ->
    fl s w out -> prints fl ok n (Conv d) args out [] args'.
Inductive printsAll fl ok (n : Z) : list item -> list arg -> list Z -> list (Z * Z * Z) -> Prop :=
| ANil args : printsAll fl ok n [] args [] []
| ACons i l args out st args' out' st' : prints fl ok n i args out st args' ->
    printsAll fl ok (n + zlen out) l args' out' st' -> printsAll fl ok n (i :: l) args (out ++ out') (st ++ st').

Definition any : settings -> Z -> Prop := fun _ _ => True.
(** the case doprint.c gets wrong: with # and h or hh, a hexadecimal argument that is not 0 but
    becomes 0 in the narrow type *)
Definition tame (s : settings) (w : Z) : Prop :=
  match con s with CX | CUX => hash s = true -> operand s w = 0 -> w = 0 | _ => True end.
