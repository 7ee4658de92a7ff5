(** Model of srclib/malloc.c, free.c, realloc.c, calloc.c and mm.h: the boundary-tag heap of the
    DOS (16-bit and DPMI) and Linux libraries.  Memory is byte-addressed ([StrSpec.mem]); access to
    a byte that is not mapped is [None].  [unsigned] and pointers have [cW] bytes (2 or 4), little
    endian.  The Windows and huge/unreal DOS variants only call the system and are not modelled;
    neither is the Mac OS one (a static buffer). *)
From Verif Require Import Base StrSpec StrModel.

Inductive port := DosTiny | Dpmi | Linux.
(** [cW]: sizeof(unsigned); [clo], [chi]: _stop_alldata__ and _start_stack__ or __dpmi_heap_start
    and __dpmi_heap_stop.  Linux: [clo] is the initial program break, [chi] the highest break that
    the system allows, [cgrant i a] says whether it grants the [i]-th request, for break [a]. *)
Record cfg := { cW : Z; cport : port; clo : Z; chi : Z; cgrant : nat -> Z -> bool }.

(** Static variables of malloc.c (99-100: __heap_start, __heap_stop; 53: CurBreak; 239:
    uninitialized), memory, and the state of the system: its break, the number of requests. *)
Record heap := { hm : mem; hstart : Z; hstop : Z; hbreak : Z; hinit : bool; kbrk : Z; ktick : nat }.

(** Words *)
Fixpoint ldn (n : nat) (m : mem) (a : Z) : option Z :=
  match n with O => Some 0 | S n => let? b := m a in let? v := ldn n m (a + 1) in Some (b + 256 * v) end.
Fixpoint stn (n : nat) (m : mem) (a v : Z) : option mem :=
  match n with O => Some m | S n => let? m := st m a v in stn n m (a + 1) (v / 256) end.

Section P.
Context (c : cfg).
Definition WB : Z := 8 * cW c.
Definition uw (x : Z) : Z := wrap WB x.
Definition sw (x : Z) : Z := swrap WB x.
(** mm.h:13 *)
Definition HF : Z := 2 * cW c.
Definition ldw (m : mem) (a : Z) : option Z := ldn (Z.to_nat (cW c)) m a.
Definition stw (m : mem) (a v : Z) : option mem := stn (Z.to_nat (cW c)) m a v.
(** p[i] for unsigned* p *)
Definition ldx (m : mem) (p i : Z) : option Z := ldw m (uw (p + i * cW c)).
Definition stx (m : mem) (p i v : Z) : option mem := stw m (uw (p + i * cW c)) v.

(** The system call brk (malloc.c:46-51): the new break if it is granted, else the old one.  Memory
    is mapped in pages of 4096 bytes. *)
Definition page_up (a : Z) : Z := (a + 4095) / 4096 * 4096.
Definition sys_brk (h : heap) (a : Z) : heap * Z :=
  let t := S (ktick h) in
  if (clo c <=? a) && (a <=? chi c) && cgrant c (ktick h) a then
    let o := page_up (kbrk h) in let n := page_up a in
    let m := fun x => if (o <=? x) && (x <? n) then Some 0
                      else if (n <=? x) && (x <? o) then None else hm h x in
    ({| hm := m; hstart := hstart h; hstop := hstop h; hbreak := hbreak h; hinit := hinit h; kbrk := a; ktick := t |}, a)
  else
    ({| hm := hm h; hstart := hstart h; hstop := hstop h; hbreak := hbreak h; hinit := hinit h; kbrk := kbrk h; ktick := t |}, kbrk h).
Definition set_break (h : heap) (b : Z) : heap :=
  {| hm := hm h; hstart := hstart h; hstop := hstop h; hbreak := b; hinit := hinit h; kbrk := kbrk h; ktick := ktick h |}.
Definition set_mem (h : heap) (m : mem) : heap :=
  {| hm := m; hstart := hstart h; hstop := hstop h; hbreak := hbreak h; hinit := hinit h; kbrk := kbrk h; ktick := ktick h |}.
Definition set_stop (h : heap) (s : Z) : heap :=
  {| hm := hm h; hstart := hstart h; hstop := s; hbreak := hbreak h; hinit := hinit h; kbrk := kbrk h; ktick := ktick h |}.

(** malloc.c:69-88; [inc] is an int *)
Definition sbrk_to (h : heap) (inc : Z) : heap * Z :=
  let cb := hbreak h in
  if (if 0 <=? inc then uw (cb + inc) <? cb else cb <=? uw (cb + inc)) then (h, uw (-1)) else
  let (h, p) := sys_brk h (uw (cb + inc)) in
  if negb (p =? uw (cb + inc)) then (h, uw (-1)) else
  let h := set_break h (uw (cb + inc)) in (h, uw (hbreak h - inc)).
(** malloc.c:55-89 *)
Definition sbrk (h : heap) (inc : Z) : heap * Z :=
  if hbreak h =? 0 then
    let (h, b) := sys_brk h 0 in
    if uw (b + 1) <=? 1 then (set_break h 0, uw (-1)) else sbrk_to (set_break h b) inc
  else sbrk_to h inc.

(** ((x + HEADER_FOOTER_SZ - 1) & -HEADER_FOOTER_SZ) | HEADER_FOOTER_SZ (malloc.c:156, 195) *)
Definition odd_up (x : Z) : Z := Z.lor (Z.land (uw (uw (x + HF) - 1)) (uw (- HF))) HF.
(** ((x - HEADER_FOOTER_SZ) & -HEADER_FOOTER_SZ) | HEADER_FOOTER_SZ (malloc.c:157) *)
Definition odd_down (x : Z) : Z := Z.lor (Z.land (uw (x - HF)) (uw (- HF))) HF.

(** malloc.c:170-173, 201-204: one free block *)
Definition one_block (m : mem) (start stop sz : Z) : option mem :=
  let? m := stx m start 0 sz in
  let? m := stx m start 1 0 in
  let? m := stx m stop (-2) 0 in
  stx m stop (-1) sz.
Definition ready (h : heap) (m : mem) (start stop : Z) : heap :=
  {| hm := m; hstart := start; hstop := stop; hbreak := hbreak h; hinit := true; kbrk := kbrk h; ktick := ktick h |}.
(** malloc.c:105-178 and 185-210: init; the flag [hinit] is set if it succeeds. *)
Definition init (h : heap) : option heap :=
  match cport c with
  | Linux =>
      let (h, start0) := sbrk h 0 in
      if sw start0 =? -1 then Some h else
      let start := odd_up start0 in
      let stop := uw (start + 2 * HF) in
      let (h, r) := sbrk h (sw (uw (uw (start - start0) + 2 * HF))) in
      if sw r =? -1 then Some h else
      let? m := one_block (hm h) start stop 0 in
      Some (ready h m start stop)
  | p =>
      let start := odd_up (clo c) in
      let stop := odd_down (chi c) in
      if (match p with DosTiny => (start <? clo c) || (chi c <? stop) | _ => false end) ||
         (stop <? start) || (uw (stop - start) <? 2 * HF) then Some h else
      let heapsz := uw (uw (stop - start) - 2 * HF) in
      let? m := one_block (hm h) start stop heapsz in
      Some (ready h m start stop)
  end.

(** malloc.c:253, realloc.c:86: too small or too large *)
Definition bad_size (size : Z) : bool := (size =? 0) || (uw (-2 * HF) <? size).
(** malloc.c:256, realloc.c:95 *)
Definition round (size : Z) : Z := Z.land (uw (uw (size + 2 * HF) - 1)) (uw (-2 * HF)).

(** malloc.c:263-295: first fit.  [inl]: the memory and the block found; [inr]: the last block. *)
Fixpoint find_fit (fuel : nat) (m : mem) (stop size last blk : Z) : option ((mem * Z) + Z) :=
  match fuel with
  | O => None
  | S fuel =>
      if stop <=? blk then Some (inr last) else
      let? sz := ldx m blk 0 in
      let nxt := uw (blk + 2 * HF + sz) in
      let? al := ldx m blk 1 in
      if (size <=? sz) && (al =? 0) then
        if sz =? size then
          let? m := stx m blk 1 1 in
          let? m := stx m nxt (-2) 1 in
          Some (inl (m, blk))
        else
          let mid := uw (blk + 2 * HF + size) in
          let? m := stx m blk 0 size in
          let? m := stx m blk 1 1 in
          let? m := stx m mid (-2) 1 in
          let? m := stx m mid (-1) size in
          let sz := uw (sz - uw (size + 2 * HF)) in
          let? m := stx m mid 0 sz in
          let? m := stx m mid 1 0 in
          let? m := stx m nxt (-1) sz in
          Some (inl (m, blk))
      else find_fit fuel m stop size blk nxt
  end.

(** malloc.c:298-320 *)
Definition grow (h : heap) (size last : Z) : option (heap * Z) :=
  let? al := ldx (hm h) last 1 in
  let? sz := ldx (hm h) last 0 in
  let togrow := if al =? 0 then uw (size - sz) else uw (size + 2 * HF) in
  if negb (al =? 0) && (sw togrow <=? 0) then Some (h, 0) else
  let blk := if al =? 0 then last else hstop h in
  let (h, r) := sbrk h (sw togrow) in
  if sw r =? -1 then Some (h, 0) else
  let nxt := uw (blk + 2 * HF + size) in
  let? m := stx (hm h) blk 0 size in
  let? m := stx m blk 1 1 in
  let? m := stx m nxt (-2) 1 in
  let? m := stx m nxt (-1) size in
  Some (set_stop (set_mem h m) (uw (hstop h + togrow)), uw (blk + HF)).

(** malloc.c:237-324 *)
Definition malloc (fuel : nat) (h : heap) (size : Z) : option (heap * Z) :=
  let? h := if hinit h then Some h else init h in
  if negb (hinit h) then Some (h, 0) else
  if bad_size size then Some (h, 0) else
  let size := round size in
  let? r := find_fit fuel (hm h) (hstop h) size (hstart h) (hstart h) in
  match r with
  | inl (m, blk) => Some (set_mem h m, uw (blk + HF))
  | inr last => match cport c with Linux => grow h size last | _ => Some (h, 0) end
  end.

(** free.c:57-67: join with the previous block. *)
Definition join_prev (m : mem) (start blk nxt sz : Z) : option (mem * Z * Z) :=
  if start <? blk then
    let? psz := ldx m blk (-1) in
    let prv := uw (blk - psz - 2 * HF) in
    let? pal := ldx m prv 1 in
    if pal =? 0 then
      let? p0 := ldx m prv 0 in
      let sz := uw (sz + uw (p0 + 2 * HF)) in
      let? m := stx m prv 0 sz in
      let? m := stx m nxt (-1) sz in
      Some (m, prv, sz)
    else Some (m, blk, sz)
  else Some (m, blk, sz).
(** free.c:69-75: join with the next block. *)
Definition join_next (m : mem) (stop blk nxt sz : Z) : option mem :=
  if nxt <? stop then
    let? nal := ldx m nxt 1 in
    if nal =? 0 then
      let? n0 := ldx m nxt 0 in
      let nn := uw (nxt + n0 + 2 * HF) in
      let sz := uw (sz + uw (n0 + 2 * HF)) in
      let? m := stx m blk 0 sz in
      stx m nn (-1) sz
    else Some m
  else Some m.
(** free.c:44-76 *)
Definition free (h : heap) (ptr : Z) : option heap :=
  if ptr =? 0 then Some h else
  let blk := uw (ptr - HF) in
  let? sz := ldx (hm h) blk 0 in
  let nxt := uw (ptr + sz + HF) in
  let? m := stx (hm h) blk 1 0 in
  let? m := stx m nxt (-2) 0 in
  let? (m, blk, sz) := join_prev m (hstart h) blk nxt sz in
  let? m := join_next m (hstop h) blk nxt sz in
  Some (set_mem h m).

(** realloc.c:84-129 *)
Definition realloc (fuel : nat) (h : heap) (ptr size : Z) : option (heap * Z) :=
  if bad_size size then Some (h, 0) else
  if ptr =? 0 then malloc fuel h size else
  let size := round size in
  let blk := uw (ptr - HF) in
  let? sz := ldx (hm h) blk 0 in
  let nxt := uw (blk + 2 * HF + sz) in
  if size <=? sz then
    if size <? sz then
      let mid := uw (blk + 2 * HF + size) in
      let? m := stx (hm h) blk 0 size in
      let? m := stx m mid (-2) 1 in
      let? m := stx m mid (-1) size in
      let sz := uw (sz - uw (size + 2 * HF)) in
      let? m := stx m mid 0 sz in
      let? m := stx m mid 1 0 in
      let? m := stx m nxt (-2) 0 in
      let? m := stx m nxt (-1) sz in
      Some (set_mem h m, ptr)
    else Some (h, ptr)
  else
    let? (h, ptr2) := malloc fuel h size in
    if ptr2 =? 0 then Some (h, 0) else
    let? (_, m) := memcpy (hm h) ptr2 ptr sz in
    let? h := free (set_mem h m) ptr in
    Some (h, ptr2).

(** calloc.c:8-18 *)
Definition calloc (fuel : nat) (h : heap) (ecnt esize : Z) : option (heap * Z) :=
  let size := uw (ecnt * esize) in
  if size =? 0 then Some (h, 0) else
  if negb (size / esize =? ecnt) then Some (h, 0) else
  let? (h, p) := malloc fuel h size in
  if p =? 0 then Some (h, 0) else
  let? (_, m) := memset (hm h) p 0 size in
  Some (set_mem h m, p).
End P.
