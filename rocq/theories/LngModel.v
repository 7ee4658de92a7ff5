(** Model of srclib/lng*.c: arithmetic on pairs of 16-bit halves.  [W] is the size of int: 2 or 4 bytes.
    Unsigned short becomes unsigned int in expressions if [W] is 2 and int if it is 4; the values
    that occur are the same either way, but for the wrap at the size of int. *)
From Verif Require Import Base LngSpec.

Definition b2z (b : bool) : Z := if b then 1 else 0.
(** Assignment to an unsigned short. *)
Definition seth (h : halves) (p v : Z) : halves := fun i => if i =? p then v mod 65536 else h i.

(** lngadd.c:5-9. *)
Definition lng_add (W acc addend : Z) (h : halves) : halves :=
  let h := seth h (acc + 1) ((h (acc + 1) + (h (addend + 1) + b2z (h addend >? 65535 - h acc)) mod 2 ^ (8 * W)) mod 2 ^ (8 * W)) in
  seth h acc ((h acc + h addend) mod 2 ^ (8 * W)).
(** lngsub.c:5-9. *)
Definition lng_sub (W acc subtrahend : Z) (h : halves) : halves :=
  let h := seth h (acc + 1) ((h (acc + 1) - (h (subtrahend + 1) + b2z (h acc <? h subtrahend)) mod 2 ^ (8 * W)) mod 2 ^ (8 * W)) in
  seth h acc ((h acc - h subtrahend) mod 2 ^ (8 * W)).
(** lngeq.c:5-8. *)
Definition lng_eq (a b : Z) (h : halves) : bool := (h a =? h b) && (h (a + 1) =? h (b + 1)).
(** lngltz.c:5-8. *)
Definition lng_ltz (l : Z) (h : halves) : bool := h (l + 1) >? 65535 / 2.
(** lngul.c:5-9. *)
Definition lng_ul (a b : Z) (h : halves) : bool := (h (a + 1) <? h (b + 1)) || ((h (a + 1) =? h (b + 1)) && (h a <? h b)).
(** lngsl.c:5-20. *)
Definition lng_sl (a b : Z) (h : halves) : bool :=
  if h (a + 1) >? 65535 / 2 then
    if h (b + 1) <=? 65535 / 2 then true else lng_ul a b h
  else if h (b + 1) >? 65535 / 2 then false else lng_ul a b h.
(** lngfs.c:5-25: from int; for 4 bytes through a union. *)
Definition lng_fs (W l n : Z) (h : halves) : halves :=
  if W =? 2 then seth (seth h l n) (l + 1) (- b2z (n <? 0)) else seth (seth h l (n mod 2 ^ 32)) (l + 1) (n mod 2 ^ 32 / 65536).
(** lngfu.c:5-25: from unsigned. *)
Definition lng_fu (W l n : Z) (h : halves) : halves :=
  if W =? 2 then seth (seth h l n) (l + 1) 0 else seth (seth h l n) (l + 1) (n / 65536).
(** lngts.c:5-25: to int. *)
Definition lng_ts (W l : Z) (h : halves) : Z :=
  if W =? 2 then if h l <? 32768 then h l else h l - 65536
  else let u := h l + 65536 * h (l + 1) in if u <? 2 ^ 31 then u else u - 2 ^ 32.
(** lngtu.c:5-25: to unsigned. *)
Definition lng_tu (W l : Z) (h : halves) : Z := if W =? 2 then h l else h l + 65536 * h (l + 1).

(** fseek16.c:32-41: whether a relative seek stays within the buffer, and by how much the pointer then
    moves.  The pairs at [po] and [pt] are the parameter and the local variable; [cnt] bytes are left
    in the buffer, [back] bytes of it are behind the pointer. *)
Definition seek_cur (po pt cnt back : Z) (h : halves) : option Z :=
  let ltz := lng_ltz po h in
  if (negb ltz && negb (lng_ul pt po (lng_fu 2 pt cnt h))) || (ltz && negb (lng_sl po pt (lng_fs 2 pt (- back) h)))
  then Some (lng_ts 2 po h) else None.
(** Assignment of a pair. *)
Definition copyh (p q : Z) (h : halves) : halves := seth (seth h p (h q)) (p + 1) (h (q + 1)).
(** fseek16.c:60-74: the same for an absolute seek; the pair at [pp] is the current position, [pd] is dist. *)
Definition seek_set (po pp pd pt cnt back : Z) (h : halves) : option Z :=
  let h1 := lng_fu 2 pt cnt (lng_sub 2 pd pp (copyh pd po h)) in
  let h2 := lng_fu 2 pt back (lng_sub 2 pd po (copyh pd pp h)) in
  if (negb (lng_sl po pp h) && negb (lng_ul pt pd h1)) || (negb (lng_ltz po h) && lng_sl po pp h && negb (lng_ul pt pd h2))
  then Some (lng_ts 2 pd (lng_sub 2 pd pp (copyh pd po h))) else None.
