(** What ISO C (7.22.1.3) asks of strtof for decimal numbers, infinities and NaNs, independent of
    the implementation.  Left out: hexadecimal numbers and NAN(characters), which the library does
    not know. *)
From Verif Require Import Base StrtolSpec FloatSpec NumSpec.

(** A decimal number is (value of the digits) * 10^e. *)
Inductive fval := FNan | FInf | FNum (digits : list Z) (e : Z).

(** [c] is the letter [u] (an upper case letter) in either case. *)
Definition letter (u c : Z) : Prop := c = u \/ c = u + 32.

(** The expected form: NAN, INF or INFINITY in any case; or digits with an optional decimal point
    (at least one digit) and an optional exponent. *)
Inductive fform : list Z -> fval -> Prop :=
| ff_nan t : Forall2 letter [78; 65; 78] t -> fform t FNan
| ff_inf t : Forall2 letter [73; 78; 70] t -> fform t FInf
| ff_infinity t : Forall2 letter [73; 78; 70; 73; 78; 73; 84; 89] t -> fform t FInf
| ff_int ip et ex : dec_text ip -> ip <> [] -> et = [] /\ ex = 0 \/ exp_text et ex ->
    fform (ip ++ et) (FNum (digit_nums ip) ex)
| ff_frac ip fp et ex : dec_text ip -> dec_text fp -> ip ++ fp <> [] -> et = [] /\ ex = 0 \/ exp_text et ex ->
    fform (ip ++ 46 :: fp ++ et) (FNum (digit_nums (ip ++ fp)) (ex - zlen fp)).

(** White space, an optional sign, the form, and the rest of the string. *)
Definition fsubject (s : list Z) (neg : bool) (body : list Z) (v : fval) (rest : list Z) : Prop :=
  exists ws sg, s = ws ++ sg ++ body ++ rest /\ Forall is_space ws /\
    ((sg = [] /\ neg = false) \/ (sg = [43] /\ neg = false) \/ (sg = [45] /\ neg = true)) /\ fform body v.

(** "The longest initial subsequence of the input string that is of the expected form." *)
Definition flongest (s : list Z) (neg : bool) (body : list Z) (v : fval) (rest : list Z) : Prop :=
  fsubject s neg body v rest /\
  forall neg' body' v' rest', fsubject s neg' body' v' rest' -> zlen rest <= zlen rest'.

(** The bit pattern [b] (0 .. 2^32-1) returned and whether errno is set to ERANGE: the correctly
    rounded value with its sign; ERANGE if that is infinite (overflow).  (On underflow whether errno
    is set is implementation-defined.) *)
Definition sign_bit (neg : bool) : Z := if neg then 2 ^ 31 else 0.
Definition is_nan (b : Z) : Prop := f32_inf < b mod 2 ^ 31.
Definition converted (neg : bool) (v : fval) (b : Z) (erange : bool) : Prop :=
  match v with
  | FNan => is_nan b /\ erange = false
  | FInf => b = sign_bit neg + f32_inf /\ erange = false
  | FNum ds e => exists u, rounds_decimal ds e u /\ b = sign_bit neg + u /\ (erange = true <-> u = f32_inf)
  end.

(** How many digits count: those from the first one that is not 0. *)
Fixpoint sig_digits (ds : list Z) : Z :=
  match ds with d :: t => if d =? 0 then sig_digits t else zlen ds | [] => 0 end.
