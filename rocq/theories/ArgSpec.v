(** How a command line is split into arguments (the rules of the Microsoft C run-time library).
    Characters: 92 is the backslash, 34 the double quote, 32 and 9 the blanks. *)
From Verif Require Import Base.

Definition blank (c : Z) : Prop := c = 32 \/ c = 9.
Definition slashes (n : nat) : list Z := repeat 92 n.

(** [body q s v r]: reading [s] from within an argument, inside of quotes if [q], gives the characters
    [v] up to the end of the argument; [r] is what follows. *)
Inductive body : bool -> list Z -> list Z -> list Z -> Prop :=
| b_end q : body q [] [] []
| b_blank c r : blank c -> body false (c :: r) [] r
| b_char q c s v r : c <> 34 -> c <> 92 -> (q = false -> ~ blank c) -> body q s v r -> body q (c :: s) (c :: v) r
    (* backslashes that no quote follows stand for themselves *)
| b_slashes q n s v r : (0 < n)%nat -> hd 0 s <> 34 -> hd 0 s <> 92 -> body q s v r ->
    body q (slashes n ++ s) (slashes n ++ v) r
    (* 2n+1 backslashes and a quote: n backslashes and a quote *)
| b_escaped q n s v r : body q s v r -> body q (slashes (2 * n + 1) ++ 34 :: s) (slashes n ++ 34 :: v) r
    (* 2n backslashes and a quote: n backslashes, and the quote begins or ends a quoted part ... *)
| b_open n s v r : body true s v r -> body false (slashes (2 * n) ++ 34 :: s) (slashes n ++ v) r
| b_close n s v r : hd 0 s <> 34 -> body false s v r -> body true (slashes (2 * n) ++ 34 :: s) (slashes n ++ v) r
    (* ... but two quotes within a quoted part stand for one *)
| b_double n s v r : body true s v r -> body true (slashes (2 * n) ++ 34 :: 34 :: s) (slashes n ++ 34 :: v) r.

(** [args s l]: the arguments on the line [s] are [l]. *)
Inductive args : list Z -> list (list Z) -> Prop :=
| a_end : args [] []
| a_blank c s l : blank c -> args s l -> args (c :: s) l
| a_arg c s v r l : ~ blank c -> body false (c :: s) v r -> args r l -> args (c :: s) (v :: l).

(** How to write any arguments on a command line: each in quotes, with a backslash before every quote and
    before every backslash of a run that a quote follows.  [n]: backslashes just before. *)
Fixpoint escape (n : nat) (a : list Z) : list Z :=
  match a with
  | [] => slashes (2 * n)
  | c :: a => if c =? 92 then escape (S n) a
              else if c =? 34 then slashes (2 * n + 1) ++ 34 :: escape 0 a
              else slashes n ++ c :: escape 0 a
  end.
Definition quoted (a : list Z) : list Z := 34 :: escape 0 a ++ [34].
Fixpoint line_of (l : list (list Z)) : list Z :=
  match l with [] => [] | a :: l => quoted a ++ match l with [] => [] | _ => 32 :: line_of l end end.

(** The string [s] at address [a]. *)
Fixpoint str (m : Z -> Z) (a : Z) (s : list Z) : Prop :=
  match s with [] => m a = 0 | c :: s => m a = c /\ c <> 0 /\ str m (a + 1) s end.
