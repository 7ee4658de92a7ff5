(** Model of srclib/strtof.c; strtod.c and atof.c only call it (double is float).  The string is the
    list of its bytes from the pointer on; a pointer into it is what is left of the list; reading past
    the end is [None].  Floats are bit patterns 0..2^32-1. *)
From Verif Require Import Base CtypeModel FpModel NumModel.

(** [*nptr] *)
Definition at0 (s : list Z) : option Z := match s with c :: _ => Some c | [] => None end.

(** strtof.c:14-25 match; [pat] without its terminator.  At the end of the pattern c2 is 0 and the
    function returns 1 whether or not c1 is 0 too. *)
Fixpoint match_ (s pat : list Z) : option bool :=
  match s with
  | [] => None
  | c :: t =>
      let? c1 := toupper c in
      match pat with
      | [] => Some true
      | c2 :: pt => if c1 =? c2 then match_ t pt else Some false
      end
  end.

(** strtof.c:33-34 *)
Fixpoint sf_space (s : list Z) : option (list Z) :=
  match s with
  | [] => None
  | c :: t => let? b := isspace c in if b =? 0 then Some s else sf_space t
  end.

(** strtof.c:36-39; also 106-109 for the exponent. *)
Definition sf_sign (s : list Z) : option (bool * list Z) :=
  let? c := at0 s in
  Some (if c =? 45 then (true, tl s) else if c =? 43 then (false, tl s) else (false, s)).

(** strtof.c:63-67 and 81-86: zeros; whether there was one, and how many. *)
Fixpoint sf_zeros (s : list Z) (n : Z) : option (list Z * Z) :=
  match s with
  | [] => None
  | c :: t => if c =? 48 then sf_zeros t (n + 1) else Some (s, n)
  end.

(** strtof.c:68-76: digits of the integral part; [cnt] of them were seen. *)
Fixpoint sf_int (s ds : list Z) (mexp cnt : Z) : option (list Z * list Z * Z * Z) :=
  match s with
  | [] => None
  | c :: t =>
      let? d := isdigit c in
      if d =? 0 then Some (s, ds, mexp, cnt)
      else if zlen ds <? MAX_CONST_DIGITS then sf_int t (ds ++ [c - 48]) mexp (cnt + 1)
      else sf_int t ds (mexp + 1) (cnt + 1)
  end.

(** strtof.c:87-94: digits of the fraction. *)
Fixpoint sf_frac (s ds : list Z) (mexp cnt : Z) : option (list Z * list Z * Z * Z) :=
  match s with
  | [] => None
  | c :: t =>
      let? d := isdigit c in
      if d =? 0 then Some (s, ds, mexp, cnt)
      else sf_frac t (if zlen ds <? MAX_CONST_DIGITS then ds ++ [c - 48] else ds) (mexp - 1) (cnt + 1)
  end.

(** strtof.c:110-125: digits of the exponent; [inr] of rest, eexp and gotexp, or [inl] for the jump to
    lend. *)
Fixpoint sf_exp (s : list Z) (eexp : Z) (got : bool) : option (unit + list Z * Z * bool) :=
  match s with
  | [] => None
  | c :: t =>
      let? b := isdigit c in
      if b =? 0 then Some (inr (s, eexp, got)) else
      let d := c - 48 in
      let ex10 := u32 (eexp * 10) in
      if negb (ex10 / 10 =? eexp) || (u32 (ex10 + d) <? ex10) || (u32 (ex10 + d) >? (2 ^ 32 - 1) / 2)
      then Some (inl tt)
      else sf_exp t (u32 (ex10 + d)) true
  end.

(** strtof.c:131-149: [e], trailing zeros, the saturating sum, the conversion; [None] where an int
    would overflow. *)
Definition sf_finish (ds : list Z) (mexp : Z) (esign : bool) (eexp : Z) : option Z :=
  let e := if esign then - s32 eexp else s32 eexp in
  let '(rds, mexp) := drop_zeros (rev ds) mexp in
  let? _ := guard (fits_int mexp) in
  let ds := rev rds in
  let '(ds, mexp) := if zlen ds =? 0 then ([0], 0) else (ds, mexp) in
  let mexp :=
    if (mexp >=? 0) && (e >? INT_MAX - mexp) then INT_MAX
    else if (mexp <? 0) && (e <? INT_MIN - mexp) then INT_MIN
    else mexp + e in
  let? _ := guard (fits_int mexp) in
  d2f ds mexp.

(** The values of NAN and INFINITY (include/math.h:10-11). *)
Definition NAN : Z := 2143289344.       (* 0x7FC00000 *)
Definition INFINITY : Z := 2139095040.  (* 0x7F800000 *)
Definition fneg (b : Z) : Z := Z.lxor b (2 ^ 31).

(** strtof.c:54-151: a number; value, ERANGE and the rest, or [inl] for the jump to lend with nptr0. *)
Definition sf_number (s : list Z) : option (unit + Z * bool * list Z) :=
  let? (s, nz) := sf_zeros s 0 in
  let? (s, ds, mexp, nint) := sf_int s [] 0 0 in
  let? _ := guard (fits_int mexp) in
  let gotint := if nint >? 0 then 2 else if nz >? 0 then 1 else 0 in
  let? c := at0 s in
  let? (s, ds, mexp, gotfrct) :=
    if c =? 46 then
      let s := tl s in
      let? (s, fz) := if gotint <? 2 then sf_zeros s 0 else Some (s, 0) in
      let? (s, ds, mexp, nf) := sf_frac s ds (mexp - fz) 0 in
      Some (s, ds, mexp, if nf >? 0 then 2 else if fz >? 0 then 1 else 0)
    else Some (s, ds, mexp, 0) in
  let? _ := guard (fits_int mexp) in
  if Z.lor gotint gotfrct =? 0 then Some (inl tt) else
  let? c := at0 s in
  let? r :=
    if (c =? 69) || (c =? 101) then
      let? (esign, s1) := sf_sign (tl s) in
      let? r := sf_exp s1 0 false in
      Some (match r with
            | inl _ => inl tt
            | inr (s2, eexp, got) => inr (if (got : bool) then s2 else s, esign, eexp)
            end)
    else Some (inr (s, false, 0)) in
  match r with
  | inl _ => Some (inl tt)
  | inr (s, esign, eexp) =>
      let? u := sf_finish ds mexp esign eexp in
      Some (inr (u, u =? INFINITY, s))
  end.

(** strtof.c:27-158: the value, whether errno was set to ERANGE, and what *endptr points to. *)
Definition strtof (nptr0 : list Z) : option (Z * bool * list Z) :=
  let? s := sf_space nptr0 in
  let? (neg, s) := sf_sign s in
  let? nan := match_ s [78; 65; 78] in
  let? r :=
    if nan then Some (inr (NAN, false, skipn 3 s))
    else
      let? inf := match_ s [73; 78; 70] in
      if inf then
        let s := skipn 3 s in
        let? inity := match_ s [73; 78; 73; 84; 89] in
        Some (inr (INFINITY, false, if inity then skipn 5 s else s))
      else sf_number s in
  Some (match r with
        | inl _ => (0, false, nptr0)
        | inr (val, erange, s) => (if (neg : bool) then fneg val else val, erange, s)
        end).

(** strtod.c:9-12, atof.c:9-12: double and float are the same type; a null endptr stores nothing. *)
Definition strtod (nptr : list Z) : option (Z * bool * list Z) := strtof nptr.
Definition atof (nptr : list Z) : option Z := let? (val, _, _) := strtod nptr in Some val.
