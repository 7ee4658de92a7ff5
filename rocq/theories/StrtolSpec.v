(** What ISO C says about strtol/strtoul/atoi (7.22.1.4) and <ctype.h> in the "C" locale,
    independent of the implementation. *)
From Verif Require Import Base.

Definition byte (c : Z) : Prop := 0 <= c < 256.

(** Saturation to the range of a 32-bit long. *)
Definition clamp_signed (v : Z) : Z :=
  if v >? 2 ^ 31 - 1 then 2 ^ 31 - 1 else if v <? - 2 ^ 31 then - 2 ^ 31 else v.

(** A C string stored in a 32-bit address space. *)
Definition c_string (s : list Z) : Prop := Forall byte s /\ In 0 s /\ zlen s < 2 ^ 32.

(** Bases ISO C defines. *)
Definition valid_base (base : Z) : Prop := base = 0 \/ 2 <= base <= 36.

Definition is_space (c : Z) : Prop := c = 32 \/ 9 <= c <= 13.

(** Value of a digit or letter. *)
Inductive digit_val : Z -> Z -> Prop :=
| dv_dec c : 48 <= c <= 57 -> digit_val c (c - 48)          (* '0'..'9' *)
| dv_upper c : 65 <= c <= 90 -> digit_val c (c - 65 + 10)   (* 'A'..'Z' *)
| dv_lower c : 97 <= c <= 122 -> digit_val c (c - 97 + 10). (* 'a'..'z' *)

Definition is_digit (b c : Z) : Prop := exists v, digit_val c v /\ v < b.

(** Positional value of a digit sequence. *)
Inductive value (b : Z) : list Z -> Z -> Prop :=
| value_nil : value b [] 0
| value_snoc ds c n v : value b ds n -> digit_val c v -> value b (ds ++ [c]) (n * b + v).

Definition starts_with (P : Z -> Prop) (l : list Z) : Prop :=
  match l with [] => False | c :: _ => P c end.

(** The subject sequence: white space, optional sign, optional 0x for base 16 (or 0), then the
    longest run of digits [ds] of the effective base [b]; [rest] is what follows. *)
Definition subject (base : Z) (s : list Z) (neg : bool) (b : Z) (ds rest : list Z) : Prop :=
  exists ws sg pfx,
    s = ws ++ sg ++ pfx ++ ds ++ rest /\
    Forall is_space ws /\
    ((sg = [] /\ neg = false) \/ (sg = [43] /\ neg = false) \/ (sg = [45] /\ neg = true)) /\
    ds <> [] /\ Forall (is_digit b) ds /\ ~ starts_with (is_digit b) rest /\
    ((exists x, (x = 120 \/ x = 88) /\ pfx = [48; x] /\ (base = 0 \/ base = 16) /\ b = 16)
     \/
     (pfx = [] /\
      ((base <> 0 /\ b = base) \/
       (base = 0 /\ starts_with (fun c => c = 48) ds /\ b = 8) \/
       (base = 0 /\ ~ starts_with (fun c => c = 48) ds /\ b = 10)) /\
      (* a 0x prefix followed by a hexadecimal digit is always taken as a prefix *)
      ~ ((base = 0 \/ base = 16) /\ ds = [48] /\
         exists x h r, rest = x :: h :: r /\ (x = 120 \/ x = 88) /\ is_digit 16 h))).

(** The decimal subject of atoi: as above with digits 0-9 only, and possibly no digit at all. *)
Definition dec_subject (s : list Z) (neg : bool) (ds rest : list Z) : Prop :=
  exists ws sg,
    s = ws ++ sg ++ ds ++ rest /\
    Forall is_space ws /\ ~ (sg = [] /\ starts_with (fun c => is_space c \/ c = 43 \/ c = 45) (ds ++ rest)) /\
    ((sg = [] /\ neg = false) \/ (sg = [43] /\ neg = false) \/ (sg = [45] /\ neg = true)) /\
    Forall (is_digit 10) ds /\ ~ starts_with (is_digit 10) rest.
