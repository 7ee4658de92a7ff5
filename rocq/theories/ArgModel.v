(** Model of __ArgParser__ of srclib/c0.c, which splits the command line under DOS and Windows.

    Memory is a function from addresses to characters.  The pointers that are stored to argv are kept as a
    list, last first.  The counter of backslashes is not reduced: a line is shorter than 2^16. *)
From Verif Require Import Base.

Inductive mode := WHITE | QUOT | PLAIN.              (* c0.c:36-41 *)
Record ast := mka { a_in : Z; a_out : Z; a_st : mode; a_sl : Z; a_argv : list Z; a_mem : Z -> Z }.

Definition wr (m : Z -> Z) (a c : Z) : Z -> Z := fun x => if x =? a then c else m x.
(** [while (n--) *out++ = '\\'] *)
Definition fill (m : Z -> Z) (a n : Z) : Z -> Z := fun x => if (a <=? x) && (x <? a + n) then 92 else m x.

(** c0.c:45-112, one iteration of the loop after [c = *in++]. *)
Definition step (c : Z) (s : ast) : ast :=
  let '(mka i o st sl av m) := s in
  match st with
  | WHITE =>
      if c =? 34 then mka i o QUOT 0 (o :: av) m
      else if negb (c =? 32) && negb (c =? 9) then mka (i - 1) o PLAIN 0 (o :: av) m
      else s
  | _ =>
      if c =? 92 then mka i o st (sl + 1) av m
      else if c =? 34 then
        let scnt := sl / 2 in
        let m := fill m o scnt in
        let o := o + scnt in
        if sl mod 2 =? 1 then mka i (o + 1) st 0 av (wr m o 34)
        else match st with
             | QUOT => if m i =? 34 then mka (i + 1) (o + 1) QUOT 0 av (wr m o (m i)) else mka i o PLAIN 0 av m
             | _ => mka i o QUOT 0 av m
             end
      else if negb (sl =? 0) then mka (i - 1) (o + sl) st 0 av (fill m o sl)
      else if match st with PLAIN => (c =? 32) || (c =? 9) | _ => false end then mka i (o + 1) WHITE sl av (wr m o 0)
      else mka i (o + 1) st sl av (wr m o c)
  end.
Fixpoint loop (fuel : nat) (s : ast) : option ast :=
  match fuel with
  | O => None
  | S fuel =>
      let c := a_mem s (a_in s) in
      if c =? 0 then Some s
      else loop fuel (step c (mka (a_in s + 1) (a_out s) (a_st s) (a_sl s) (a_argv s) (a_mem s)))
  end.
(** c0.c:113-118. *)
Definition finish (s : ast) : Z -> Z :=
  match a_st s with
  | WHITE => a_mem s
  | _ => wr (fill (a_mem s) (a_out s) (a_sl s)) (a_out s + a_sl s) 0
  end.
(** c0.c:33-123: the pointers (the returned count is their number) and the memory. *)
Definition arg_parser (fuel : nat) (m : Z -> Z) (i o : Z) : option (list Z * (Z -> Z)) :=
  match loop fuel (mka i o WHITE 0 [] m) with
  | Some s => Some (rev (a_argv s), finish s)
  | None => None
  end.
