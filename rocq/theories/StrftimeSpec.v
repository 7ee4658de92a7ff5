(** What strftime is to produce (C99 7.23.3.5, in the C locale).  Texts are lists of characters. *)
From Coq Require Import String Ascii.
From Verif Require Import Base TimeModel TimeSpec.

Fixpoint text (s : string) : list Z :=
  match s with EmptyString => [] | String a s => Z.of_nat (nat_of_ascii a) :: text s end.
Definition ch (a : ascii) : Z := Z.of_nat (nat_of_ascii a).

(** [l] is the decimal representation of [n]: digits, no superfluous leading zero, the value [n]. *)
Definition value (l : list Z) : Z := fold_left (fun v d => 10 * v + (d - 48)) l 0.
Definition decimal (n : Z) (l : list Z) : Prop :=
  Forall (fun d => 48 <= d <= 57) l /\ value l = n /\ (hd_error l = Some 48 -> l = [48]) /\ l <> [].
(** ... extended on the left with [pad] to at least [w] characters. *)
Definition number (w : nat) (pad n : Z) (l : list Z) : Prop :=
  exists d, decimal n d /\ l = repeat pad (w - List.length d) ++ d.

Definition day_names := ["Sunday"; "Monday"; "Tuesday"; "Wednesday"; "Thursday"; "Friday"; "Saturday"]%string.
Definition month_names :=
  ["January"; "February"; "March"; "April"; "May"; "June"; "July"; "August"; "September"; "October"; "November"; "December"]%string.
Definition nth_name (l : list string) (i : Z) : list Z := text (nth (Z.to_nat i) l EmptyString).

(** Days of the year, from January 1st to day [yday], that are the weekday [k], if day [yday]
    is the weekday [wday]. *)
Definition count_weekday (k yday wday : Z) : Z :=
  zlen (filter (fun i => (wday - (yday - Z.of_nat i)) mod 7 =? k) (seq 0 (Z.to_nat (yday + 1)))).

(** ISO 8601: a week starts on Monday and belongs to the year in which its Thursday is; the
    weeks of a year are numbered from 1. *)
Definition thursday (yday wday : Z) : Z := yday - (wday - 1) mod 7 + 3.
Definition iso_week (y yday wday g v : Z) : Prop :=
  let th := thursday yday wday in          (* days from January 1st of y to that Thursday *)
  (th < 0 /\ g = y - 1 /\ v = (th + year_len (y - 1)) / 7 + 1) \/
  (0 <= th < year_len y /\ g = y /\ v = th / 7 + 1) \/
  (year_len y <= th /\ g = y + 1 /\ v = (th - year_len y) / 7 + 1).

(** A broken-down time whose members are in their ranges (a leap second allowed). *)
Record normal (t : tm) : Prop := {
  n_sec : 0 <= tm_sec t <= 60; n_min : 0 <= tm_min t <= 59; n_hour : 0 <= tm_hour t <= 23;
  n_mday : 1 <= tm_mday t <= 31; n_mon : 0 <= tm_mon t <= 11; n_wday : 0 <= tm_wday t <= 6;
  n_year : 1 <= tm_year t + 1900; n_yday : 0 <= tm_yday t < year_len (tm_year t + 1900)
}.

Inductive conv (t : tm) : ascii -> list Z -> Prop :=
| cv_a : conv t "a" (firstn 3 (nth_name day_names (tm_wday t)))
| cv_A : conv t "A" (nth_name day_names (tm_wday t))
| cv_b : conv t "b" (firstn 3 (nth_name month_names (tm_mon t)))
| cv_B : conv t "B" (nth_name month_names (tm_mon t))
| cv_h l : conv t "b" l -> conv t "h" l
| cv_C l : number 2 (ch "0") ((tm_year t + 1900) / 100) l -> conv t "C" l
| cv_d l : number 2 (ch "0") (tm_mday t) l -> conv t "d" l
| cv_e l : number 2 (ch " ") (tm_mday t) l -> conv t "e" l
| cv_g l g v : iso_week (tm_year t + 1900) (tm_yday t) (tm_wday t) g v -> number 2 (ch "0") (g mod 100) l -> conv t "g" l
| cv_G l g v : iso_week (tm_year t + 1900) (tm_yday t) (tm_wday t) g v -> number 0 (ch "0") g l -> conv t "G" l
| cv_V l g v : iso_week (tm_year t + 1900) (tm_yday t) (tm_wday t) g v -> number 2 (ch "0") v l -> conv t "V" l
| cv_H l : number 2 (ch "0") (tm_hour t) l -> conv t "H" l
| cv_I l h : 1 <= h <= 12 -> h mod 12 = tm_hour t mod 12 -> number 2 (ch "0") h l -> conv t "I" l
| cv_j l : number 3 (ch "0") (tm_yday t + 1) l -> conv t "j" l
| cv_m l : number 2 (ch "0") (tm_mon t + 1) l -> conv t "m" l
| cv_M l : number 2 (ch "0") (tm_min t) l -> conv t "M" l
| cv_n : conv t "n" [10]
| cv_p : conv t "p" (text (if tm_hour t <? 12 then "AM" else "PM"))
| cv_S l : number 2 (ch "0") (tm_sec t) l -> conv t "S" l
| cv_t : conv t "t" [9]
| cv_u l d : 1 <= d <= 7 -> d mod 7 = tm_wday t -> number 1 (ch "0") d l -> conv t "u" l
| cv_U l : number 2 (ch "0") (count_weekday 0 (tm_yday t) (tm_wday t)) l -> conv t "U" l
| cv_w l : number 1 (ch "0") (tm_wday t) l -> conv t "w" l
| cv_W l : number 2 (ch "0") (count_weekday 1 (tm_yday t) (tm_wday t)) l -> conv t "W" l
| cv_y l : number 2 (ch "0") ((tm_year t + 1900) mod 100) l -> conv t "y" l
| cv_Y l : number 0 (ch "0") (tm_year t + 1900) l -> conv t "Y" l
| cv_z : conv t "z" []                       (* no time zone is determinable *)
| cv_Z : conv t "Z" []
| cv_D l : all t "%m/%d/%y" l -> conv t "D" l
| cv_F l : all t "%Y-%m-%d" l -> conv t "F" l
| cv_r l : all t "%I:%M:%S %p" l -> conv t "r" l
| cv_R l : all t "%H:%M" l -> conv t "R" l
| cv_T l : all t "%H:%M:%S" l -> conv t "T" l
| cv_c l : all t "%a %b %e %T %Y" l -> conv t "c" l
| cv_x l : all t "%m/%d/%y" l -> conv t "x" l
| cv_X l : all t "%T" l -> conv t "X" l
(** A format and the text it stands for. *)
with all (t : tm) : string -> list Z -> Prop :=
| all_nil : all t "" []
| all_lit a f l : a <> "%"%char -> a <> Ascii.zero -> all t f l -> all t (String a f) (ch a :: l)
| all_percent f l : all t f l -> all t (String "%" (String "%" f)) (ch "%" :: l)
| all_conv a f l1 l2 : conv t a l1 -> all t f l2 -> all t (String "%" (String a f)) (l1 ++ l2)
| all_E a f l1 l2 : In a ["c"; "C"; "x"; "X"; "y"; "Y"]%char -> conv t a l1 -> all t f l2 ->
    all t (String "%" (String "E" (String a f))) (l1 ++ l2)
| all_O a f l1 l2 : In a ["d"; "e"; "H"; "I"; "m"; "M"; "S"; "u"; "U"; "V"; "w"; "W"; "y"]%char -> conv t a l1 -> all t f l2 ->
    all t (String "%" (String "O" (String a f))) (l1 ++ l2).

(** Formats that C defines. *)
Definition conversions : list ascii :=
  ["a"; "A"; "b"; "B"; "c"; "C"; "d"; "D"; "e"; "F"; "g"; "G"; "h"; "H"; "I"; "j"; "m"; "M"; "n"; "p"; "r"; "R"; "S"; "t"; "T";
   "u"; "U"; "V"; "w"; "W"; "x"; "X"; "y"; "Y"; "z"; "Z"]%char.
(** (A string of C ends at its first null character.) *)
Inductive format : string -> Prop :=
| f_nil : format ""
| f_lit a f : a <> "%"%char -> a <> Ascii.zero -> format f -> format (String a f)
| f_percent f : format f -> format (String "%" (String "%" f))
| f_conv a f : In a conversions -> format f -> format (String "%" (String a f))
| f_E a f : In a ["c"; "C"; "x"; "X"; "y"; "Y"]%char -> format f -> format (String "%" (String "E" (String a f)))
| f_O a f : In a ["d"; "e"; "H"; "I"; "m"; "M"; "S"; "u"; "U"; "V"; "w"; "W"; "y"]%char -> format f ->
    format (String "%" (String "O" (String a f))).
