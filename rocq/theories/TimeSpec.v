(** Specification of calendar time: the Gregorian calendar by counting days, independent of the
    tables and shortcuts of the code. *)
From Verif Require Import Base.

Definition leap_year (y : Z) : Prop :=
  (4 | y) /\ (~ (100 | y) \/ (400 | y)).

Definition leap_yearb (y : Z) : bool :=
  (y mod 4 =? 0) && (negb (y mod 100 =? 0) || (y mod 400 =? 0)).

(** Months are numbered from 0 (January). *)
Definition month_len (y m : Z) : Z :=
  match m with
  | 0 | 2 | 4 | 6 | 7 | 9 | 11 => 31
  | 3 | 5 | 8 | 10 => 30
  | 1 => if leap_yearb y then 29 else 28
  | _ => 0
  end.

(** Days in the first [n] months of year [y]. *)
Fixpoint months_days (y : Z) (n : nat) : Z :=
  match n with O => 0 | S n => months_days y n + month_len y (Z.of_nat n) end.

Definition year_len (y : Z) : Z := months_days y 12.

(** Days in the [n] years that start in year 1970. *)
Fixpoint years_days (n : nat) : Z :=
  match n with O => 0 | S n => years_days n + year_len (1970 + Z.of_nat n) end.

Definition day_of_year (y m d : Z) : Z := months_days y (Z.to_nat m) + (d - 1).

(** Days from 1970-01-01 to day [d] of month [m] of year [y] ([y >= 1970]). *)
Definition day_number (y m d : Z) : Z := years_days (Z.to_nat (y - 1970)) + day_of_year y m d.

Definition valid_date (y m d : Z) : Prop := 0 <= m <= 11 /\ 1 <= d <= month_len y m.

Definition valid_clock (h mi s : Z) : Prop := 0 <= h <= 23 /\ 0 <= mi <= 59 /\ 0 <= s <= 59.

(** Seconds from 1970-01-01 00:00:00 UTC. *)
Definition seconds (y m d h mi s : Z) : Z := ((day_number y m d * 24 + h) * 60 + mi) * 60 + s.

(** 1970-01-01 was a Thursday; 0 is Sunday. *)
Definition weekday (daynum : Z) : Z := (daynum + 4) mod 7.
