(** Model of srclib/mem*.c and srclib/str*.c (the C code of the 32-bit libraries; the inline
    assembly of the 16-bit ones is not modelled).  Pointers are addresses; address arithmetic
    does not wrap around; access outside of objects is [None].  Plain char is signed.  Loops that
    run until a byte is found take fuel; [None] also when it runs out. *)
From Verif Require Import Base StrSpec.

Definition ld (m : mem) (a : Z) : option Z := m a.                   (* unsigned char *)
Definition ldc (m : mem) (a : Z) : option Z := let? b := m a in Some (s8 b).   (* char *)
Definition st (m : mem) (a v : Z) : option mem :=
  let? _ := m a in Some (fun x => if x =? a then Some (u8 v) else m x).

(** memmove.c:36-37: while (n--) *--d = *--s; *)
Fixpoint down (n : nat) (m : mem) (d s : Z) : option mem :=
  match n with
  | O => Some m
  | S n => let? v := ldc m (s - 1) in let? m := st m (d - 1) v in down n m (d - 1) (s - 1)
  end.
(** memmove.c:41-42, memcpy.c:20-21: while (n--) *d++ = *s++; *)
Fixpoint up (n : nat) (m : mem) (d s : Z) : option mem :=
  match n with
  | O => Some m
  | S n => let? v := ldc m s in let? m := st m d v in up n m (d + 1) (s + 1)
  end.
(** memmove.c:5-46 *)
Definition memmove (m : mem) (dst src n : Z) : option (Z * mem) :=
  let? m := if src <? dst then down (Z.to_nat n) m (dst + n) (src + n) else up (Z.to_nat n) m dst src in
  Some (dst, m).
(** memcpy.c:5-24 *)
Definition memcpy (m : mem) (dst src n : Z) : option (Z * mem) :=
  let? m := up (Z.to_nat n) m dst src in Some (dst, m).
(** memset.c:5-24 *)
Fixpoint fill (n : nat) (m : mem) (p c : Z) : option mem :=
  match n with O => Some m | S n => let? m := st m p c in fill n m (p + 1) c end.
Definition memset (m : mem) (s c n : Z) : option (Z * mem) :=
  let? m := fill (Z.to_nat n) m s c in Some (s, m).
(** memcmp.c:5-17 *)
Fixpoint memcmp_loop (n : nat) (m : mem) (p1 p2 : Z) : option Z :=
  match n with
  | O => Some 0
  | S n =>
      let? a := ld m p1 in let? b := ld m p2 in
      if negb (a =? b) then Some (a - b) else memcmp_loop n m (p1 + 1) (p2 + 1)
  end.
Definition memcmp (m : mem) (s1 s2 n : Z) : option Z :=
  if n =? 0 then Some 0 else memcmp_loop (Z.to_nat n) m s1 s2.
(** memchr.c:5-17 *)
Fixpoint memchr_loop (n : nat) (m : mem) (s c : Z) : option Z :=
  match n with
  | O => Some 0
  | S n => let? a := ldc m s in if a =? c then Some s else memchr_loop n m (s + 1) c
  end.
Definition memchr (m : mem) (s c n : Z) : option Z := memchr_loop (Z.to_nat n) m s (s8 c).

(** strlen.c:19-20, strcat.c:8: while ( *s) s++; the address of the terminator. *)
Fixpoint skip_str (fuel : nat) (m : mem) (s : Z) : option Z :=
  match fuel with
  | O => None
  | S fuel => let? a := ldc m s in if a =? 0 then Some s else skip_str fuel m (s + 1)
  end.
(** strlen.c:5-24 *)
Definition strlen (fuel : nat) (m : mem) (str : Z) : option Z :=
  let? s := skip_str fuel m str in Some (s - str).
(** strcpy.c:20, strcat.c:9: while (( *p++ = *src++) != 0); *)
Fixpoint copy_str (fuel : nat) (m : mem) (p src : Z) : option mem :=
  match fuel with
  | O => None
  | S fuel =>
      let? v := ldc m src in let? m := st m p v in
      if v =? 0 then Some m else copy_str fuel m (p + 1) (src + 1)
  end.
(** strcpy.c:5-24 *)
Definition strcpy (fuel : nat) (m : mem) (dst src : Z) : option (Z * mem) :=
  let? m := copy_str fuel m dst src in Some (dst, m).
(** strcat.c:5-11 *)
Definition strcat (fuel : nat) (m : mem) (s1 s2 : Z) : option (Z * mem) :=
  let? e := skip_str fuel m s1 in let? m := copy_str fuel m e s2 in Some (s1, m).
(** strncpy.c:9-14; returns the memory, the next address and the remaining count. *)
Fixpoint ncopy (n : nat) (m : mem) (s1 s2 : Z) : option (mem * Z * nat) :=
  match n with
  | O => Some (m, s1, O)
  | S n =>
      let? v := ldc m s2 in let? m := st m s1 v in
      if v =? 0 then Some (m, s1 + 1, n) else ncopy n m (s1 + 1) (s2 + 1)
  end.
(** strncpy.c:5-19 *)
Definition strncpy (m : mem) (s1 s2 n : Z) : option (Z * mem) :=
  let? (m, p, k) := ncopy (Z.to_nat n) m s1 s2 in
  let? m := fill k m p 0 in Some (s1, m).
(** strncat.c:13-19 *)
Fixpoint ncat (n : nat) (m : mem) (s1 s2 : Z) : option (mem * Z) :=
  match n with
  | O => Some (m, s1)
  | S n =>
      let? c := ldc m s2 in
      if c =? 0 then Some (m, s1) else
      let? m := st m s1 c in ncat n m (s1 + 1) (s2 + 1)
  end.
(** strncat.c:5-23 *)
Definition strncat (fuel : nat) (m : mem) (s1 s2 n : Z) : option (Z * mem) :=
  let? e := skip_str fuel m s1 in
  let? (m, p) := ncat (Z.to_nat n) m e s2 in
  let? m := st m p 0 in Some (s1, m).
(** strcmp.c:5-32 *)
Fixpoint strcmp (fuel : nat) (m : mem) (s1 s2 : Z) : option Z :=
  match fuel with
  | O => None
  | S fuel =>
      let? a := ldc m s1 in let? b := ldc m s2 in
      if a =? b then if a =? 0 then Some 0 else strcmp fuel m (s1 + 1) (s2 + 1)
      else Some (u8 a - u8 b)
  end.
(** strncmp.c:28-36 *)
Fixpoint strncmp_loop (n : nat) (m : mem) (s1 s2 : Z) : option Z :=
  match n with
  | O => Some 0
  | S n =>
      let? a := ldc m s1 in let? b := ldc m s2 in
      if negb (a =? b) then Some (u8 a - u8 b) else
      if a =? 0 then Some 0 else strncmp_loop n m (s1 + 1) (s2 + 1)
  end.
(** strncmp.c:5-38 *)
Definition strncmp (m : mem) (s1 s2 n : Z) : option Z :=
  if n =? 0 then Some 0 else strncmp_loop (Z.to_nat n) m s1 s2.
(** strchr.c:5-37 *)
Fixpoint strchr_loop (fuel : nat) (m : mem) (s c : Z) : option Z :=
  match fuel with
  | O => None
  | S fuel =>
      let? a := ldc m s in
      if a =? 0 then if c =? 0 then Some s else Some 0
      else if a =? c then Some s else strchr_loop fuel m (s + 1) c
  end.
Definition strchr (fuel : nat) (m : mem) (s c : Z) : option Z := strchr_loop fuel m s (s8 c).
(** strrchr.c:5-18 *)
Fixpoint strrchr_loop (fuel : nat) (m : mem) (s c res : Z) : option Z :=
  match fuel with
  | O => None
  | S fuel =>
      let? a := ldc m s in
      if a =? 0 then if c =? 0 then Some s else Some res
      else strrchr_loop fuel m (s + 1) c (if a =? c then s else res)
  end.
Definition strrchr (fuel : nat) (m : mem) (s c : Z) : option Z := strrchr_loop fuel m s (s8 c) 0.
(** strstr.c:12-23: the comparison at one position; [None] of the inner option: go on with the
    next position. *)
Fixpoint match_at (fuel : nat) (m : mem) (s p1 p2 : Z) : option (option Z) :=
  match fuel with
  | O => None
  | S fuel =>
      let? a := ldc m p1 in let? b := ldc m p2 in
      if a =? b then if b =? 0 then Some (Some s) else match_at fuel m s (p1 + 1) (p2 + 1)
      else if b =? 0 then Some (Some s) else
      if a =? 0 then Some (Some 0) else Some None
  end.
(** strstr.c:10-24 *)
Fixpoint strstr_loop (fuel : nat) (m : mem) (s sub : Z) : option Z :=
  match fuel with
  | O => None
  | S f =>
      let? r := match_at fuel m s s sub in
      match r with Some r => Some r | None => strstr_loop f m (s + 1) sub end
  end.
(** strstr.c:5-25 *)
Definition strstr (fuel : nat) (m : mem) (s sub : Z) : option Z :=
  let? b := ldc m sub in if b =? 0 then Some s else strstr_loop fuel m s sub.
(** strspn.c:12-15, strpbrk.c:10-13, strtok.c:18-21 and 32-34:
    p = set; while ((c2 = *p++) != 0) if (c2 == c) found; *)
Fixpoint in_set (fuel : nat) (m : mem) (p c : Z) : option bool :=
  match fuel with
  | O => None
  | S fuel =>
      let? c2 := ldc m p in
      if c2 =? 0 then Some false else if c2 =? c then Some true else in_set fuel m (p + 1) c
  end.
(** strspn.c:5-18 *)
Fixpoint strspn_loop (fuel : nat) (m : mem) (s s1 s2 : Z) : option Z :=
  match fuel with
  | O => None
  | S f =>
      let? c := ldc m s1 in
      let? r := in_set fuel m s2 c in
      if r : bool then strspn_loop f m s (s1 + 1) s2 else Some (s1 - s)
  end.
Definition strspn (fuel : nat) (m : mem) (s1 s2 : Z) : option Z := strspn_loop fuel m s1 s1 s2.
(** strcspn.c:13-18: do if ((c2 = *p++) == c) found; while (c2); *)
Fixpoint in_set0 (fuel : nat) (m : mem) (p c : Z) : option bool :=
  match fuel with
  | O => None
  | S fuel =>
      let? c2 := ldc m p in
      if c2 =? c then Some true else if c2 =? 0 then Some false else in_set0 fuel m (p + 1) c
  end.
(** strcspn.c:5-20 *)
Fixpoint strcspn_loop (fuel : nat) (m : mem) (s s1 s2 : Z) : option Z :=
  match fuel with
  | O => None
  | S f =>
      let? c := ldc m s1 in
      let? r := in_set0 fuel m s2 c in
      if r : bool then Some (s1 - s) else strcspn_loop f m s (s1 + 1) s2
  end.
Definition strcspn (fuel : nat) (m : mem) (s1 s2 : Z) : option Z := strcspn_loop fuel m s1 s1 s2.
(** strpbrk.c:5-16 *)
Fixpoint strpbrk (fuel : nat) (m : mem) (s1 s2 : Z) : option Z :=
  match fuel with
  | O => None
  | S f =>
      let? c := ldc m s1 in
      if c =? 0 then Some 0 else
      let? r := in_set fuel m s2 c in
      if r : bool then Some s1 else strpbrk f m (s1 + 1) s2
  end.

(** strtok.c:16-21: the first byte that is not a delimiter, and its address. *)
Fixpoint skip_delims (fuel : nat) (m : mem) (s delims : Z) : option (Z * Z) :=
  match fuel with
  | O => None
  | S f =>
      let? c := ldc m s in
      let? r := in_set fuel m delims c in
      if r : bool then skip_delims f m (s + 1) delims else Some (c, s)
  end.
(** strtok.c:30-43; [s] is the address of the byte that is read next. *)
Fixpoint end_field (fuel : nat) (m : mem) (s delims res : Z) : option (Z * Z * mem) :=
  match fuel with
  | O => None
  | S f =>
      let? c := ldc m s in
      if c =? 0 then Some (res, 0, m) else
      let? r := in_set fuel m delims c in
      if r : bool then let? m := st m s 0 in Some (res, s + 1, m)
      else end_field f m (s + 1) delims res
  end.
(** strtok.c:5-44; [last] is __strtoklast.  Result, new __strtoklast, memory. *)
Definition strtok (fuel : nat) (m : mem) (last s delims : Z) : option (Z * Z * mem) :=
  let s := if s =? 0 then last else s in
  if s =? 0 then Some (0, last, m) else
  let? (c, s) := skip_delims fuel m s delims in
  if c =? 0 then Some (0, 0, m) else end_field fuel m (s + 1) delims s.

(** A program that calls strtok for a string and then goes on with null. *)
Fixpoint strtoks (fuel : nat) (m : mem) (last s : Z) (delims : list Z) : option (list Z * mem) :=
  match delims with
  | [] => Some ([], m)
  | d :: ds =>
      let? (r, last, m) := strtok fuel m last s d in
      let? (rs, m) := strtoks fuel m last 0 ds in
      Some (r :: rs, m)
  end.
