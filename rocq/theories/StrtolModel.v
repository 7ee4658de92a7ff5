(** Model of srclib/strtol.c, srclib/strtoul.c and srclib/atoi.c (32-bit [long] and [int]).
    A C string is the list of its bytes (0..255) from the pointer on; a pointer into it is an
    index; reading past the end of the list is [None]. *)
From Verif Require Import Base CtypeModel.

Definition ULONG_MAX : Z := 2 ^ 32 - 1.

(** strtol.c:17-18: [while (isspace((unsigned char)*nptr)) nptr++;] *)
Fixpoint skip_space (fuel : nat) (s : list Z) (p : Z) : option Z :=
  match fuel with
  | O => None
  | S fuel =>
      let? c := zget s p in
      let? t := isspace c in
      if t =? 0 then Some p else skip_space fuel s (p + 1)
  end.

(** strtol.c:20-23: optional sign; returns [neg] and the new pointer. *)
Definition get_sign (s : list Z) (p : Z) : option (Z * Z) :=
  let? c := zget s p in
  Some (if c =? 45 (* '-' *) then (1, p + 1) else if c =? 43 (* '+' *) then (0, p + 1) else (0, p)).

(** strtol.c:25-32: optional 0x prefix; returns base, pointer, hexpfx. *)
Definition get_prefix (s : list Z) (p base : Z) : option (Z * Z * bool) :=
  if (base =? 0) || (base =? 16) then
    let? c := zget s p in
    if c =? 48 then
      let? c1 := zget s (p + 1) in
      if (c1 =? 120) || (c1 =? 88) then Some (16, p + 2, true) else Some (base, p, false)
    else Some (base, p, false)
  else Some (base, p, false).

(** strtol.c:33-36: base 0 selects octal or decimal. *)
Definition get_base (s : list Z) (p base : Z) : option Z :=
  if base =? 0 then let? c := zget s p in Some (if c =? 48 then 8 else 10) else Some base.

(** strtol.c:42-49: value of a digit character; [None] inside = "break". *)
Definition digit_char (c base : Z) : option (option Z) :=
  let? d := isdigit c in
  let? a := isalpha c in
  let v := if negb (d =? 0) then Some (c - 48)
           else if negb (a =? 0) then Some (Z.land c (-33) - 55) else None in
  Some (match v with Some v => if v >=? base then None else Some v | None => None end).

(** strtol.c:40-61: the digit loop; [n] is unsigned long, [base] is converted to unsigned long. *)
Fixpoint digits (fuel : nat) (s : list Z) (p base preMulMax n : Z) (toobig : bool) (cnt : Z)
  : option (Z * Z * bool * Z) :=
  match fuel with
  | O => None
  | S fuel =>
      let? c := zget s p in
      if c =? 0 then Some (p, n, toobig, cnt) else
      let? dv := digit_char c base in
      match dv with
      | None => Some (p, n, toobig, cnt)
      | Some c =>
          let toobig := toobig || (n >? preMulMax) in
          let n := u32 (n * base) in
          let toobig := toobig || (n >? ULONG_MAX - c) in
          let n := u32 (n + c) in
          digits fuel s (p + 1) base preMulMax n toobig (u32 (cnt + 1))
      end
  end.

(** Result: returned value, whether errno was set to ERANGE, offset stored through endptr. *)
(** strtol.c:9-83 (file lines), strtol with endptr non-null. *)
Definition strtol (s : list Z) (base : Z) : option (Z * bool * Z) :=
  let fuel := S (length s) in
  let? p := skip_space fuel s 0 in
  let? (neg, p) := get_sign s p in
  let? (base, p, hexpfx) := get_prefix s p base in
  let? base := get_base s p base in
  let? _ := guard (negb (base =? 0)) in
  let preMulMax := ULONG_MAX / base in
  let? (p, n, toobig, cnt) := digits fuel s p base preMulMax 0 false 0 in
  let toobig := toobig || (n >? ULONG_MAX / 2 + neg) in
  let n := if neg =? 0 then n else u32 (- n) in
  let n := if toobig then ULONG_MAX / 2 + neg else n in
  let (cnt, p) := if (cnt =? 0) && hexpfx then (1, p - 1) else (cnt, p) in
  Some (s32 n, toobig, if cnt =? 0 then 0 else p).

(** strtoul.c:9-80 (file lines), strtoul with endptr non-null. *)
Definition strtoul (s : list Z) (base : Z) : option (Z * bool * Z) :=
  let fuel := S (length s) in
  let? p := skip_space fuel s 0 in
  let? (neg, p) := get_sign s p in
  let? (base, p, hexpfx) := get_prefix s p base in
  let? base := get_base s p base in
  let? _ := guard (negb (base =? 0)) in
  let preMulMax := ULONG_MAX / base in
  let? (p, n, toobig, cnt) := digits fuel s p base preMulMax 0 false 0 in
  let n := if neg =? 0 then n else u32 (- n) in
  let n := if toobig then ULONG_MAX else n in
  let (cnt, p) := if (cnt =? 0) && hexpfx then (1, p - 1) else (cnt, p) in
  Some (n, toobig, if cnt =? 0 then 0 else p).

(** atoi.c:20-30 (file lines): the digit loop; [None] inside = "return 0". *)
Fixpoint atoi_loop (fuel : nat) (s : list Z) (p n : Z) : option (option Z) :=
  match fuel with
  | O => None
  | S fuel =>
      let? c := zget s p in
      let? d := isdigit c in
      if d =? 0 then Some (Some n) else
      if n >? ULONG_MAX / 10 then Some None else
      let n := u32 (n * 10) in
      let c := c - 48 in
      if n >? ULONG_MAX - c then Some None else
      atoi_loop fuel s (p + 1) (u32 (n + c))
  end.

(** atoi.c:7-39 (file lines). *)
Definition atoi (s : list Z) : option Z :=
  let fuel := S (length s) in
  let? p := skip_space fuel s 0 in
  let? (neg, p) := get_sign s p in
  let? r := atoi_loop fuel s p 0 in
  match r with
  | None => Some 0
  | Some n =>
      if n >? ULONG_MAX / 2 + neg then Some 0
      else Some (s32 (if neg =? 0 then n else u32 (- n)))
  end.
