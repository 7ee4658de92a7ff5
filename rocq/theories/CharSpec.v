(** Characters in character constants and string literals, independent of the compiler's code:
    C99 6.4.4.4 and 6.4.5.  A source character is its code; the character type has [size] bytes
    ([wide]: the constant has the prefix L). *)
From Verif Require Import Base LexSpec.

Definition octdigit (c : Z) : Prop := 48 <= c <= 55.
Definition hexdigit (c : Z) : Prop := 48 <= c <= 57 \/ 65 <= c <= 70 \/ 97 <= c <= 102.
Definition digit (c : Z) : Z := if c <=? 57 then c - 48 else if c <=? 70 then c - 55 else c - 87.
Definition number (base : Z) (ds : list Z) : Z := fold_left (fun v c => v * base + digit c) ds 0.

(** the letter or mark after the backslash, and the character that it stands for *)
Definition simple : list (Z * Z) :=
  [(97, 7); (98, 8); (102, 12); (110, 10); (114, 13); (116, 9); (118, 11); (39, 39); (34, 34); (63, 63); (92, 92)].

(** [cchar wide size next e v]: the text [e], followed by [next], is one character, of value [v] *)
Inductive cchar (wide : bool) (size : Z) (next : list Z) : list Z -> Z -> Prop :=
| cc_plain c : c <> 92 -> c <> 0 -> c <> 10 -> c <> 13 -> (wide = true -> c <= 127) -> cchar wide size next [c] c
| cc_simple k v : In (k, v) simple -> cchar wide size next [92; k] v
| cc_octal ds : 1 <= zlen ds <= 3 -> Forall octdigit ds -> (zlen ds < 3 -> nostart octdigit next) ->
    number 8 ds < 256 ^ size -> cchar wide size next (92 :: ds) (number 8 ds)
| cc_hex ds : ds <> [] -> Forall hexdigit ds -> nostart hexdigit next ->
    number 16 ds < 256 ^ size -> cchar wide size next (92 :: 120 :: ds) (number 16 ds).

(** What the compiler accepts beyond and short of this: a backslash before any other character
    stands for nothing; octal escapes in wide characters only go up to 255. *)
Inductive accepted (wide : bool) (size : Z) (next : list Z) : list Z -> Z -> Prop :=
| ac_c e v : cchar wide size next e v -> (forall d, nth_error e 1 = Some d -> octdigit d -> v < 256) -> accepted wide size next e v
| ac_other k : k <> 0 -> k <> 10 -> k <> 13 -> k <> 120 -> ~ octdigit k -> ~ In k (map fst simple) -> (wide = true -> k <= 127) ->
    accepted wide size next [92; k] k.

(** [literal A q l vs rest]: the text [l] is characters of values [vs], then the quote [q], then [rest] *)
Inductive literal (A : list Z -> list Z -> Z -> Prop) (q : Z) : list Z -> list Z -> list Z -> Prop :=
| li_end rest : literal A q (q :: rest) [] rest
| li_char e t v vs rest : nostart (eq q) e -> A t e v -> literal A q t vs rest -> literal A q (e ++ t) (v :: vs) rest.

(** the bytes of a character in memory, lowest first *)
Fixpoint bytes (n : nat) (v : Z) : list Z := match n with O => [] | S n => v mod 256 :: bytes n (v / 256) end.

(** the value of a character constant, as a 32-bit pattern read as a signed number *)
Definition constant (wide csigned wsigned : bool) (W wsz : Z) (vs : list Z) : Z :=
  match vs with
  | [v] => if wide then s32 (if wsigned then swrap (8 * wsz) v else v) else if csigned then s8 v else v
  | _ => swrap (8 * W) (fold_left (fun a v => a * 256 + v) vs 0)
  end.

(** Reading the operands of the assembler's [db], up to the end of the line: strings in double
    quotes and decimal numbers, separated by commas. *)
Inductive rmode := Item | Quoted | Closed | Number (n : Z).
Fixpoint operands (m : rmode) (l : list Z) : option (list Z) :=
  match l with
  | [] => None
  | c :: t =>
      match m with
      | Item => if c =? 34 then operands Quoted t else if (48 <=? c) && (c <=? 57) then operands (Number (c - 48)) t else None
      | Quoted => if c =? 34 then operands Closed t else if c =? 10 then None else option_map (cons c) (operands Quoted t)
      | Closed => if c =? 44 then operands Item t else if c =? 10 then match t with [] => Some [] | _ => None end else None
      | Number n =>
          if (48 <=? c) && (c <=? 57) then operands (Number (n * 10 + (c - 48))) t
          else if n <? 256 then
            if c =? 44 then option_map (cons n) (operands Item t) else if c =? 10 then match t with [] => Some [n] | _ => None end else None
          else None
      end
  end.
(** the bytes that a text of the assembler defines: nothing, or one line "db ..." *)
Definition defines (text : list Z) : option (list Z) :=
  match text with
  | [] => Some []
  | 9 :: 100 :: 98 :: 9 :: t => operands Item t
  | _ => None
  end.
