(** Model of srclib/qsort.c and srclib/bsearch.c at the byte level.
    The array is the list of its bytes; a pointer into it is its byte offset from [base], computed
    in 32-bit unsigned arithmetic; accesses outside the array are [None].
    The comparison function is an arbitrary function of the bytes of the two elements it is given
    and of the history of earlier calls (so it may be stateful); the pairs of offsets it was called
    with are recorded in a trace (latest first). *)
From Verif Require Import Base.

Definition trace := list (Z * Z).
Definition cmpfn := trace -> list Z -> list Z -> Z.

(** The [n] bytes an element pointer designates. *)
Definition slice (arr : list Z) (off n : Z) : option (list Z) :=
  if (0 <=? off) && (off + n <=? zlen arr)
  then Some (firstn (Z.to_nat n) (skipn (Z.to_nat off) arr)) else None.

(** qsort.c:5-13, exchange. *)
Fixpoint exchange (arr : list Z) (p1 p2 : Z) (size : nat) : option (list Z) :=
  match size with
  | O => Some arr
  | S size =>
      let? t := zget arr p1 in
      let? v := zget arr p2 in
      let? arr := zset arr p1 v in
      let? arr := zset arr p2 t in
      exchange arr (p1 + 1) (p2 + 1) size
  end.

Section WithCmp.
Variable fcmp : cmpfn.
Variable esize : Z.

(** [fcmp(base + a * esize, base + b * esize)] *)
Definition call (arr : list Z) (tr : trace) (a b : Z) : option (Z * trace) :=
  let? x := slice arr (u32 (a * esize)) esize in
  let? y := slice arr (u32 (b * esize)) esize in
  Some (fcmp tr x y, (u32 (a * esize), u32 (b * esize)) :: tr).

(** [exchange(base + a * esize, base + b * esize, esize)] *)
Definition xchg (arr : list Z) (a b : Z) : option (list Z) :=
  exchange arr (u32 (a * esize)) (u32 (b * esize)) (Z.to_nat esize).

(** qsort.c:27-32, the sift-up loop. *)
Fixpoint siftup (fuel : nat) (arr : list Z) (tr : trace) (i parent : Z) : option (list Z * trace) :=
  match fuel with
  | O => None
  | S fuel =>
      if i =? 0 then Some (arr, tr) else
      let? (c, tr) := call arr tr parent i in
      if c <? 0 then
        let? arr := xchg arr parent i in
        siftup fuel arr tr parent (Z.shiftr (u32 (parent - 1)) 1)
      else Some (arr, tr)
  end.

(** qsort.c:23-34: build the heap; [n] counts the remaining iterations of [while (ecount--)]. *)
Fixpoint build (n : nat) (arr : list Z) (tr : trace) (heapsz : Z) : option (list Z * trace) :=
  match n with
  | O => Some (arr, tr)
  | S n =>
      let? (arr, tr) := siftup (S (Z.to_nat heapsz)) arr tr heapsz (Z.shiftr (u32 (heapsz - 1)) 1) in
      build n arr tr (u32 (heapsz + 1))
  end.

(** qsort.c:42-54, the sift-down loop. *)
Fixpoint siftdown (fuel : nat) (arr : list Z) (tr : trace) (heapsz i : Z) : option (list Z * trace) :=
  match fuel with
  | O => None
  | S fuel =>
      if negb (i <? Z.shiftr heapsz 1) then Some (arr, tr) else
      let left := u32 (u32 (Z.shiftl i 1) + 1) in
      let right := u32 (left + 1) in
      let? (candidate, tr) :=
        (if right <? heapsz then
           let? (c, tr) := call arr tr right left in
           Some (if c >? 0 then right else left, tr)
         else Some (left, tr)) in
      let? (c, tr) := call arr tr i candidate in
      if c >=? 0 then Some (arr, tr) else
      let? arr := xchg arr i candidate in
      siftdown fuel arr tr heapsz candidate
  end.

(** qsort.c:38-55: [while (heapsz--)]. *)
Fixpoint drain (heapsz : nat) (arr : list Z) (tr : trace) : option (list Z * trace) :=
  match heapsz with
  | O => Some (arr, tr)
  | S h =>
      let? arr := xchg arr 0 (Z.of_nat h) in
      let? (arr, tr) := siftdown (S h) arr tr (Z.of_nat h) 0 in
      drain h arr tr
  end.

(** qsort.c:15-56.  [ecount] elements. *)
Definition qsort (arr : list Z) (ecount : nat) : option (list Z * trace) :=
  let? (arr, tr) := build ecount arr [] 0 in
  drain ecount arr tr.

(** bsearch.c:5-29 (file lines): [base] is the offset of the part still searched.  The key lives
    outside the array, so the comparison is a function of the element only.  Result: outer
    [None] = undefined, inner [None] = null pointer, otherwise the offset of the element found. *)
Variable kcmp : list Z -> Z.
Fixpoint bsearch (fuel : nat) (arr : list Z) (base ecount : Z) : option (option Z) :=
  match fuel with
  | O => None
  | S fuel =>
      if ecount =? 0 then Some None else
      let mid := Z.shiftr ecount 1 in
      let p := u32 (base + u32 (mid * esize)) in
      let? x := slice arr p esize in
      let t := kcmp x in
      if t =? 0 then Some (Some p)
      else if t <? 0 then bsearch fuel arr base mid
      else bsearch fuel arr (u32 (p + esize)) (u32 (ecount - u32 (mid + 1)))
  end.
End WithCmp.
