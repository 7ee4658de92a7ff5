(** Integer and floating constants of C (ISO C 6.4.4.1, 6.4.4.2), independent of the lexer. *)
From Verif Require Import Base StrtolSpec FloatSpec.

(** Suffixes.  [has_u] says whether there is a u, [has_l] whether there is an l. *)
Definition u_char (c : Z) : Prop := c = 117 \/ c = 85.   (* u U *)
Definition l_char (c : Z) : Prop := c = 108 \/ c = 76.   (* l L *)
Inductive int_suffix_text : list Z -> bool -> bool -> Prop :=
| sfx_none : int_suffix_text [] false false
| sfx_u a : u_char a -> int_suffix_text [a] true false
| sfx_l a : l_char a -> int_suffix_text [a] false true
| sfx_ul a b : u_char a -> l_char b -> int_suffix_text [a; b] true true
| sfx_lu a b : l_char a -> u_char b -> int_suffix_text [a; b] true true.

(** The text of an integer constant, its radix and its mathematical value. *)
Inductive int_body : list Z -> Z -> Z -> Prop :=
| body_dec c ds v : 49 <= c <= 57 -> Forall (is_digit 10) ds -> value 10 (c :: ds) v ->
    int_body (c :: ds) 10 v
| body_oct ds v : Forall (is_digit 8) ds -> value 8 ds v -> int_body (48 :: ds) 8 v
| body_hex x ds v : x = 120 \/ x = 88 -> ds <> [] -> Forall (is_digit 16) ds -> value 16 ds v ->
    int_body (48 :: x :: ds) 16 v.

(** What the next character must not be for the constant to end here: a letter, digit,
    underscore or dot (a preprocessing number would go on). *)
Definition pp_char (c : Z) : Prop :=
  48 <= c <= 57 \/ 65 <= c <= 90 \/ 97 <= c <= 122 \/ c = 95 \/ c = 46.
Definition ends (rest : list Z) : Prop := ~ starts_with pp_char rest.

(** What a compiler whose only integer types are [int] and [unsigned] of [w] bits must do
    (6.4.4.1 para 5, with no type left when neither fits): [Some unsigned?] or reject. *)
Definition int_type (w radix v : Z) (has_u has_l : bool) : option bool :=
  if (w =? 16) && has_l then None                       (* long has at least 32 bits *)
  else if negb has_u && (v <? 2 ^ (w - 1)) then Some false
  else if (v <? 2 ^ w) && (has_u || negb (radix =? 10)) then Some true
  else None.

(** The text of a decimal floating constant: digits, optional dot and digits, optional exponent,
    optional suffix; at least one digit and a dot or an exponent.  Its value is
    (digits of ip ++ fp) * 10^(ex - length fp). *)
Definition dec_text (ds : list Z) : Prop := Forall (is_digit 10) ds.
Inductive exp_text : list Z -> Z -> Prop :=
| exp_pos e sg ds v : e = 101 \/ e = 69 -> sg = [] \/ sg = [43] -> ds <> [] -> dec_text ds ->
    value 10 ds v -> exp_text (e :: sg ++ ds) v
| exp_neg e ds v : e = 101 \/ e = 69 -> ds <> [] -> dec_text ds -> value 10 ds v ->
    exp_text (e :: 45 :: ds) (- v).
Inductive float_suffix_text : list Z -> Prop :=
| fsfx_none : float_suffix_text []
| fsfx a : a = 102 \/ a = 70 \/ l_char a -> float_suffix_text [a].
Inductive float_text : list Z -> list Z -> list Z -> Z -> Prop :=
| float_dot ip fp sf : dec_text ip -> dec_text fp -> ip ++ fp <> [] -> float_suffix_text sf ->
    float_text (ip ++ 46 :: fp ++ sf) ip fp 0
| float_dot_exp ip fp et ex sf : dec_text ip -> dec_text fp -> ip ++ fp <> [] -> exp_text et ex ->
    float_suffix_text sf -> float_text (ip ++ 46 :: fp ++ et ++ sf) ip fp ex
| float_exp ip et ex sf : dec_text ip -> ip <> [] -> exp_text et ex -> float_suffix_text sf ->
    float_text (ip ++ et ++ sf) ip [] ex.

(** The decimal digits of the text as numbers, and how many of them are significant (the zeros
    in front do not count). *)
Definition digit_nums (ds : list Z) : list Z := map (fun c => c - 48) ds.
Fixpoint significant (ds : list Z) : Z :=
  match ds with c :: t => if c =? 48 then significant t else zlen ds | [] => 0 end.
