(** What asctime is to produce (C99 7.23.3.1): the day and the month by their first three letters, and
    numbers of two digits, as in

      Sun Sep 16 01:03:52 1973\n\0

    Texts are lists of characters. *)
From Coq Require Import String Ascii.
From Verif Require Import Base TimeModel StrftimeSpec.
From Verif Require DoPrintSpec.

Definition two (n : Z) : list Z := [48 + n / 10; 48 + n mod 10].
Definition four (n : Z) : list Z := two (n / 100) ++ two (n mod 100).
Definition short (l : list string) (i : Z) : list Z := firstn 3 (nth_name l i).

(** The text of a year: a sign if it is negative, and the digits (at least one). *)
Definition year_text (y : Z) (s : list Z) : Prop :=
  exists core, DoPrintSpec.numeral 10 false (Z.abs y) core /\
    s = (if y <? 0 then [ch "-"] else []) ++ repeat 48 (Z.to_nat (1 - zlen core)) ++ core.

(** Everything before the year. *)
Definition asctime_head (t : tm) : list Z :=
  short day_names (tm_wday t) ++ text " " ++ short month_names (tm_mon t) ++ text " " ++
  (if tm_mday t <? 10 then [ch " "; 48 + tm_mday t] else two (tm_mday t)) ++ text " " ++
  two (tm_hour t) ++ text ":" ++ two (tm_min t) ++ text ":" ++ two (tm_sec t) ++ text " ".
Definition asctime_text (t : tm) : list Z := asctime_head t ++ four (1900 + tm_year t) ++ [10].

(** A broken-down time whose members other than the year are in their ranges (a leap second allowed). *)
Record in_range (t : tm) : Prop := {
  r_sec : 0 <= tm_sec t <= 60; r_min : 0 <= tm_min t <= 59; r_hour : 0 <= tm_hour t <= 23;
  r_mday : 1 <= tm_mday t <= 31; r_mon : 0 <= tm_mon t <= 11; r_wday : 0 <= tm_wday t <= 6
}.
