(** Programs that use the heap: the states that a program can reach which calls malloc, calloc,
    realloc and free, gives only live pointers to the latter two, and stores bytes in live blocks
    or outside of the heap. *)
From Verif Require Import Base StrSpec StrModel HeapModel.

(** Supported configurations: 16-bit DOS, 32-bit DPMI, 32-bit Linux. *)
Definition cfg_ok (c : cfg) : Prop :=
  match cport c with
  | DosTiny => cW c = 2 /\ 0 <= clo c < 65536 /\ 0 <= chi c < 65536
  | Dpmi => cW c = 4 /\ 0 <= clo c < 2 ^ 32 - 16 /\ 16 <= chi c < 2 ^ 32
  | Linux => cW c = 4 /\ 0 < clo c <= chi c /\ chi c <= 2 ^ 32 - 4096
  end.

(** When the program starts: memory from [clo] on is mapped, and contains bytes. *)
Definition fresh (c : cfg) (h : heap) : Prop :=
  hinit h = false /\ hbreak h = 0 /\ kbrk h = clo c /\
  (forall x, clo c <= x < match cport c with Linux => page_up (clo c) | _ => chi c end -> hm h x <> None) /\
  (forall x v, hm h x = Some v -> 0 <= v < 256).

(** Requests: any size_t; on Linux at most 2 GB - 16 (see C24). *)
Definition request (c : cfg) (n : Z) : Prop :=
  0 <= n < 2 ^ (8 * cW c) /\ (cport c = Linux -> n <= 2 ^ 31 - 16).

(** The live blocks: address and requested size. *)
Definition live := list (Z * Z).

(** [shr]: whether the program may shrink blocks with realloc. *)
Inductive reach (c : cfg) (fuel : nat) (shr : Prop) : heap -> live -> Prop :=
| r_fresh h : fresh c h -> reach c fuel shr h []
| r_malloc h lv n h' r : reach c fuel shr h lv -> request c n -> malloc c fuel h n = Some (h', r) ->
    reach c fuel shr h' (if r =? 0 then lv else (r, n) :: lv)
| r_calloc h lv k n h' r : reach c fuel shr h lv -> 0 <= k < 2 ^ (8 * cW c) -> 0 <= n < 2 ^ (8 * cW c) ->
    request c ((k * n) mod 2 ^ (8 * cW c)) -> calloc c fuel h k n = Some (h', r) ->
    reach c fuel shr h' (if r =? 0 then lv else (r, k * n) :: lv)
| r_realloc_null h lv n h' r : reach c fuel shr h lv -> request c n -> realloc c fuel h 0 n = Some (h', r) ->
    reach c fuel shr h' (if r =? 0 then lv else (r, n) :: lv)
| r_realloc h l1 p n l2 n' h' r : reach c fuel shr h (l1 ++ (p, n) :: l2) -> request c n' -> shr \/ n <= n' ->
    realloc c fuel h p n' = Some (h', r) ->
    reach c fuel shr h' (if r =? 0 then l1 ++ (p, n) :: l2 else l1 ++ (r, n') :: l2)
| r_free_null h lv h' : reach c fuel shr h lv -> free c h 0 = Some h' -> reach c fuel shr h' lv
| r_free h l1 p n l2 h' : reach c fuel shr h (l1 ++ (p, n) :: l2) -> free c h p = Some h' ->
    reach c fuel shr h' (l1 ++ l2)
| r_store h lv x v m : reach c fuel shr h lv ->
    (exists p n, In (p, n) lv /\ p <= x < p + n) \/ x < clo c \/ chi c <= x ->
    st (hm h) x v = Some m -> reach c fuel shr (set_mem h m) lv.

(** [n] rounded up to the allocator's granularity. *)
Definition rounded (c : cfg) (n : Z) : Z := (n + 4 * cW c - 1) / (4 * cW c) * (4 * cW c).

(** The bytes of a block are the same in two memories. *)
Definition kept (m m' : mem) (p n : Z) : Prop := forall x, p <= x < p + n -> m' x = m x.
