(** Source lines as the preprocessor sees them, independent of the compiler's code. *)
From Verif Require Import Base.
From Coq Require Import String Ascii.

Definition str (s : string) : list Z := map (fun a => Z.of_N (N_of_ascii a)) (list_ascii_of_string s).

(** characters of a line: no newline and no end of file *)
Definition okline (l : list Z) : Prop := Forall (fun c => c <> 0 /\ c <> 10 /\ c <> 13) l.

(** White space: blanks and comments.  [blanks w last]: [last] tells that it ends with a [//]
    comment, so that nothing can follow it on the line. *)
Definition blankchar (c : Z) : Prop := c = 32 \/ c = 9 \/ c = 12 \/ c = 11.
(** text with no [*/] in it, also when followed by [*/] *)
Definition inside (t : list Z) : Prop := ~ exists a b, t ++ [42] = a ++ [42; 47] ++ b.
Inductive blanks : list Z -> bool -> Prop :=
| bl_nil : blanks [] false
| bl_char c w b : blankchar c -> blanks w b -> blanks (c :: w) b
| bl_comment t w b : inside t -> blanks w b -> blanks ([47; 42] ++ t ++ [42; 47] ++ w) b
| bl_line t : blanks ([47; 47] ++ t) true.

(** Identifiers. *)
Definition letter (c : Z) : Prop := 65 <= c <= 90 \/ 97 <= c <= 122 \/ c = 95.
Definition namechar (c : Z) : Prop := letter c \/ 48 <= c <= 57.
Definition isname (n : list Z) : Prop :=
  match n with c :: t => letter c /\ Forall namechar t | [] => False end.
Definition nostart (P : Z -> Prop) (t : list Z) : Prop := match t with c :: _ => ~ P c | [] => True end.
Definition blankstart (t : list Z) : Prop :=
  match t with
  | c :: t' => blankchar c \/ (c = 47 /\ match t' with d :: _ => d = 47 \/ d = 42 | [] => False end)
  | [] => False
  end.
