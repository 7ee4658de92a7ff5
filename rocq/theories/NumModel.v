(** Model of smlrc.c:1557-1798 GetNumber (the build with floating point and with
    CAN_COMPILE_32BIT).  The source is the list of the characters (0..255) not yet read; reading
    past its end gives 0, as ShiftChar does at end of file.  Lines are joined and counted
    elsewhere.  The host's int and unsigned have 32 bits. *)
From Verif Require Import Base FpModel.

Inductive num_error := TooBig | BadHex | BadFloat | BadOctal | TooBigForType | TooBigForSigned.
Inductive num_token := TokNumInt | TokNumUint | TokNumFloat.
(** error() ends the compilation; otherwise the token, TokenValueInt and the rest of the source. *)
Inductive num_result := NErr (e : num_error) | NTok (t : num_token) (value : Z) (rest : list Z).

Definition MAX_CONST_DIGITS : Z := 112.   (* fp.c:22 *)

Definition peek (s : list Z) : Z := match s with c :: _ => c | [] => 0 end.
Definition peek1 (s : list Z) : Z := match s with _ :: c :: _ => c | _ => 0 end.

Definition is_dec (c : Z) : bool := (48 <=? c) && (c <=? 57).
(** isdigit(ch) || strchr("abcdefABCDEF", ch) *)
Definition is_hex (c : Z) : bool :=
  is_dec c || ((97 <=? c) && (c <=? 102)) || ((65 <=? c) && (c <=? 70)).
(** smlrc.c:1586-1588 *)
Definition hex_digit (c : Z) : Z := if c >=? 97 then c - 87 else if c >=? 65 then c - 55 else c - 48.

(** smlrc.c:1589, 1699: [n * base / base != n || n * base + ch < n * base] in unsigned. *)
Definition overflows (n base ch : Z) : bool :=
  negb (u32 (n * base) / base =? n) || (u32 (u32 (n * base) + ch) <? u32 (n * base)).

(** smlrc.c:1584-1594: hexadecimal digits; [None] is error(eTooBig). *)
Fixpoint hex_loop (prep : bool) (s : list Z) (n cnt : Z) : option (list Z * Z * Z) :=
  match s with
  | c :: t =>
      if is_hex c then
        let ch := hex_digit c in
        if prep && overflows n 16 ch then None
        else hex_loop prep t (u32 (u32 (n * 16) + ch)) (cnt + 1)
      else Some (s, n, cnt)
  | [] => Some (s, n, cnt)
  end.

(** smlrc.c:1606-1607 *)
Fixpoint skip_zeros (s : list Z) : list Z :=
  match s with c :: t => if c =? 48 then skip_zeros t else s | [] => s end.

(** smlrc.c:1609-1616: digits of the integral part; [ds] is ConstDigits[0..mcnt-1]. *)
Fixpoint int_digits (s ds : list Z) (mexp : Z) : list Z * list Z * Z :=
  match s with
  | c :: t =>
      if is_dec c then
        if zlen ds <? MAX_CONST_DIGITS then int_digits t (ds ++ [c - 48]) mexp
        else int_digits t ds (mexp + 1)
      else (s, ds, mexp)
  | [] => (s, ds, mexp)
  end.

(** smlrc.c:1623-1625: leading zeros of the fraction. *)
Fixpoint frac_zeros (s : list Z) (mexp : Z) : list Z * Z :=
  match s with c :: t => if c =? 48 then frac_zeros t (mexp - 1) else (s, mexp) | [] => (s, mexp) end.

(** smlrc.c:1626-1632: digits of the fraction; mexp is decremented for every digit, also for
    those that are not stored. *)
Fixpoint frac_digits (s ds : list Z) (mexp : Z) : list Z * list Z * Z :=
  match s with
  | c :: t =>
      if is_dec c then
        if zlen ds <? MAX_CONST_DIGITS then frac_digits t (ds ++ [c - 48]) (mexp - 1)
        else frac_digits t ds (mexp - 1)
      else (s, ds, mexp)
  | [] => (s, ds, mexp)
  end.

(** smlrc.c:1641-1655: digits of the exponent; [None] is error(eTooBig). *)
Fixpoint exp_digits (prep : bool) (s : list Z) (n ecnt : Z) : option (list Z * Z * Z) :=
  match s with
  | c :: t =>
      if is_dec c then
        let ch := c - 48 in
        if overflows n 10 ch || (u32 (u32 (n * 10) + ch) >? (2 ^ 32 - 1) / 2) then
          if prep then None
          else exp_digits prep t (u32 (u32 (0 * 10) + ch)) (ecnt + 1)
        else exp_digits prep t (u32 (u32 (n * 10) + ch)) (ecnt + 1)
      else Some (s, n, ecnt)
  | [] => Some (s, n, ecnt)
  end.

(** smlrc.c:1670-1676: drop trailing zeros; on the reversed digits. *)
Fixpoint drop_zeros (rds : list Z) (mexp : Z) : list Z * Z :=
  match rds with
  | d :: t => if d =? 0 then drop_zeros t (mexp + 1) else (rds, mexp)
  | [] => ([], mexp)
  end.

Definition fits_int (z : Z) : bool := (- 2 ^ 31 <=? z) && (z <? 2 ^ 31).
Definition INT_MAX : Z := 2 ^ 31 - 1.
Definition INT_MIN : Z := - 2 ^ 31.

(** smlrc.c:1694-1702: value of the stored digits as an integer. *)
Fixpoint fold_int (prep : bool) (base : Z) (ds : list Z) (n : Z) : num_error + Z :=
  match ds with
  | [] => inr n
  | ch :: t =>
      if ch >=? base then inl BadOctal
      else if prep && overflows n base ch then inl TooBig
      else fold_int prep base t (u32 (u32 (n * base) + ch))
  end.

Definition is_u (c : Z) : bool := (c =? 117) || (c =? 85).
Definition is_l (c : Z) : bool := (c =? 108) || (c =? 76).

(** smlrc.c:1722-1749: integer suffixes: u, l, ul, lu in any case.  Result: rest, uSuffix,
    lSuffix. *)
Definition int_suffix (s : list Z) : list Z * bool * bool :=
  let '(s, u) := if is_u (peek s) then (tl s, true) else (s, false) in
  if is_l (peek s) then
    let s := tl s in
    if negb u && is_u (peek s) then (tl s, true, true) else (s, u, true)
  else (s, u, false).

(** smlrc.c:1751-1756 and 1766-1797: suffix, range checks and type of an integer constant.
    [decimal] is type == 'd'. *)
Definition finish_int (prep : bool) (sw : Z) (s : list Z) (n : Z) (decimal : bool) : num_result :=
  let '(s, u, l) := int_suffix s in
  if negb prep then NTok TokNumInt 0 s else
  if ((sw =? 2) && negb (Z.shiftr (Z.shiftr n 8) 8 =? 0)) || ((sw =? 2) && l)
     || ((sw =? 4) && negb (Z.shiftr (Z.shiftr (Z.shiftr n 8) 12) 12 =? 0))
  then NErr TooBigForType else
  if negb u && (((sw =? 2) && (Z.shiftr n 15 =? 0))
                || ((sw =? 4) && (Z.shiftr (Z.shiftr (Z.shiftr n 8) 12) 11 =? 0)))
  then NTok TokNumInt (s32 n) s else
  if negb u && decimal then NErr TooBigForSigned else NTok TokNumUint (s32 n) s.

(** smlrc.c:1662-1687, 1751-1763: exponent, suffix and value of a floating constant. *)
Definition finish_float (prep : bool) (s ds : list Z) (mexp eexp : Z) : option num_result :=
  let s := if (peek s =? 102) || (peek s =? 70) || is_l (peek s) then tl s else s in
  let '(rds, mexp) := drop_zeros (rev ds) mexp in
  let ds := rev rds in
  let '(ds, mexp) := if zlen ds =? 0 then ([0], 0) else (ds, mexp) in
  if ((mexp >=? 0) && (eexp >? INT_MAX - mexp)) || ((mexp <? 0) && (eexp <=? INT_MIN - (mexp + 1)))
  then if prep then Some (NErr TooBig) else Some (NTok TokNumInt 0 s)
  else
    if negb prep then Some (NTok TokNumInt 0 s)
    else let? u := d2f ds (eexp + mexp) in Some (NTok TokNumFloat (s32 u) s).

(** smlrc.c:1557-1798 GetNumber; [prep] is PrepDontSkipTokens, [sw] is SizeOfWord (2 or 4).
    Counters that overflow int are [None]. *)
Definition get_number (prep : bool) (sw : Z) (s : list Z) : option num_result :=
  let leadingZero := peek s =? 48 in
  if leadingZero && ((peek1 s =? 120) || (peek1 s =? 88)) then
    match hex_loop prep (tl (tl s)) 0 0 with
    | None => Some (NErr TooBig)
    | Some (s, n, cnt) =>
        let? _ := guard (fits_int cnt) in
        if cnt =? 0 then Some (NErr BadHex) else Some (finish_int prep sw s n false)
    end
  else
    let s := skip_zeros s in
    let '(s, ds, mexp) := int_digits s [] 0 in
    let? _ := guard (fits_int mexp) in
    let dot := peek s =? 46 in
    let '(s, ds, mexp) :=
      if dot then
        let s := tl s in
        let '(s, mexp) := if zlen ds =? 0 then frac_zeros s mexp else (s, mexp) in
        frac_digits s ds mexp
      else (s, ds, mexp) in
    let? _ := guard (fits_int mexp) in
    if (peek s =? 101) || (peek s =? 69) then
      let s := tl s in
      let esign := peek s in
      let s := if (peek s =? 43) || (peek s =? 45) then tl s else s in
      match exp_digits prep s 0 0 with
      | None => Some (NErr TooBig)
      | Some (s, n, ecnt) =>
          let? _ := guard (fits_int ecnt) in
          if ecnt =? 0 then Some (NErr BadFloat) else
          let eexp := s32 n in
          let eexp := if esign =? 45 then - eexp else eexp in
          finish_float prep s ds mexp eexp
      end
    else if dot then finish_float prep s ds mexp 0
    else
      let base := if leadingZero then 8 else 10 in
      match fold_int prep base ds 0 with
      | inl e => Some (NErr e)
      | inr n => Some (finish_int prep sw s n (negb leadingZero))
      end.
