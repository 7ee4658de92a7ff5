(** Model of the 32-bit calendar functions of the C library:
    srclib/time1.c, srclib/brktime.c, srclib/bldtime.c, srclib/gmtime.c, srclib/mktime.c and
    srclib/localtim.c (DOS and Linux variants).
    [time_t] is [unsigned long] (include/time.h:20), 32 bits; [int] is 32 bits. *)
From Verif Require Import Base.

(** include/time.h:55-66, struct tm.  All fields are [int]. *)
Record tm := mkTm { tm_sec : Z; tm_min : Z; tm_hour : Z; tm_mday : Z; tm_mon : Z;
                    tm_year : Z; tm_wday : Z; tm_yday : Z; tm_isdst : Z }.

(** srclib/itime.h:10-13. *)
Definition SECONDS_PER_MINUTE := 60.
Definition SECONDS_PER_HOUR := 60 * SECONDS_PER_MINUTE.
Definition SECONDS_PER_DAY := 24 * SECONDS_PER_HOUR.
Definition SECONDS_PER_YEAR := 365 * SECONDS_PER_DAY.

(** srclib/time1.c:5-9, __DaysSinceJan1st. *)
Definition DaysSinceJan1st : list (list Z) :=
  [ [0;31;59;90;120;151;181;212;243;273;304;334;365];
    [0;31;60;91;121;152;182;213;244;274;305;335;366] ].

(** srclib/time1.c:11-23, __isleap; [year] is a 32-bit unsigned. *)
Definition isleap (year : Z) : Z :=
  if negb (Z.land year 3 =? 0) then 0 else
  let year := year mod 400 in
  let year := u32 (year - 100) in
  if year =? 0 then 0 else
  let year := u32 (year - 100) in
  if year =? 0 then 0 else
  let year := u32 (year - 100) in
  if year =? 0 then 0 else 1.

(** srclib/brktime.c:8-28, DaysSinceEpoch (literal table). *)
Definition DaysSinceEpoch : list Z :=
  [     0;  365;  730; 1096; 1461; 1826; 2191;
     2557; 2922; 3287; 3652; 4018; 4383; 4748; 5113;
     5479; 5844; 6209; 6574; 6940; 7305; 7670; 8035;
     8401; 8766; 9131; 9496; 9862;10227;10592;10957;
    11323;11688;12053;12418;12784;13149;13514;13879;
    14245;14610;14975;15340;15706;16071;16436;16801;
    17167;17532;17897;18262;18628;18993;19358;19723;
    20089;20454;20819;21184;21550;21915;22280;22645;
    23011;23376;23741;24106;24472;24837;25202;25567;
    25933;26298;26663;27028;27394;27759;28124;28489;
    28855;29220;29585;29950;30316;30681;31046;31411;
    31777;32142;32507;32872;33238;33603;33968;34333;
    34699;35064;35429;35794;36160;36525;36890;37255;
    37621;37986;38351;38716;39082;39447;39812;40177;
    40543;40908;41273;41638;42004;42369;42734;43099;
    43465;43830;44195;44560;44926;45291;45656;46021;
    46387;46752;47117;47482;47847;48212;48577;48942;
    49308;49673 ].

(** srclib/brktime.c:68-77 and 85-94: the binary search loop.  [None] = out of bounds or out of
    fuel (the C loop has no bound). *)
Fixpoint bin_search (fuel : nat) (tab : list Z) (d lidx ridx : Z) : option Z :=
  match fuel with
  | O => None
  | S fuel =>
      let idx := Z.shiftr (u32 (lidx + ridx)) 1 in
      let? a := zget tab idx in
      if d <? a then bin_search fuel tab d lidx idx else
      let? b := zget tab (idx + 1) in
      if d >=? b then bin_search fuel tab d idx ridx else Some idx
  end.

Definition search_fuel : nat := 200.

(** Result of a function that may return NULL: the outer [option] is the model's "undefined",
    the inner one C's null pointer. *)
(** srclib/brktime.c:42-103, __breaktime; also gmtime (srclib/gmtime.c:10-13) and the DOS
    localtime (srclib/localtim.c:18-22), which call it unchanged.  The static result object is
    returned by value.  The year test of lines 65-67 precedes the stores of tm_year.. only. *)
Definition breaktime (t : Z) : option (option tm) :=
  if t =? u32 (-1) then Some None else
  let days := t / SECONDS_PER_DAY in
  let trem := u32 (t - u32 (days * SECONDS_PER_DAY)) in
  let wday := (u32 (days + 4)) mod 7 in
  let hour := trem / SECONDS_PER_HOUR in
  let trem := u32 (trem - hour * SECONDS_PER_HOUR) in
  let min := trem / SECONDS_PER_MINUTE in
  let trem := u32 (trem - min * SECONDS_PER_MINUTE) in
  let sec := trem in
  let n := zlen DaysSinceEpoch in
  let? last := zget DaysSinceEpoch (n - 1) in
  if days >=? last then Some None else
  let? idx := bin_search search_fuel DaysSinceEpoch days 0 (n - 1) in
  let year := 70 + idx in
  let leap := isleap (1970 + idx) in
  let? d0 := zget DaysSinceEpoch idx in
  let days := u32 (days - d0) in
  let yday := days in
  let? mtab := zget DaysSinceJan1st leap in
  let? idx := bin_search search_fuel mtab days 0 12 in
  let? d0 := zget mtab idx in
  let days := u32 (days - d0) in
  Some (Some (mkTm sec min hour (1 + days) idx year wday yday 0)).

(** srclib/bldtime.c:8-53 (file lines), __buildtime: returns the time and the updated struct. *)
Definition buildtime (t : tm) : option (Z * tm) :=
  if (tm_sec t <? 0) || (tm_sec t >? 59) || (tm_min t <? 0) || (tm_min t >? 59)
     || (tm_hour t <? 0) || (tm_hour t >? 23) || (tm_mday t <? 1) || (tm_mday t >? 31)
     || (tm_mon t <? 0) || (tm_mon t >? 11) || (tm_year t <? 70) || (tm_year t >? 70 + 135)
  then Some (u32 (-1), t) else
  let leap := isleap (1900 + tm_year t) in
  let daysInMonth := if tm_mon t =? 1 then 28 + leap
                     else 30 + Z.land (Z.shiftr 2773 (tm_mon t)) 1 (* 0xAD5 *) in
  if tm_mday t >? daysInMonth then Some (u32 (-1), t) else
  let? mtab := zget DaysSinceJan1st leap in
  let? d0 := zget mtab (tm_mon t) in
  let yday := d0 + tm_mday t - 1 in
  let res := u32 (tm_sec t + tm_min t * SECONDS_PER_MINUTE + tm_hour t * SECONDS_PER_HOUR
                  + yday * SECONDS_PER_DAY + (tm_year t - 70) * SECONDS_PER_YEAR) in
  let res := u32 (res + (Z.shiftr (tm_year t - 69) 2 * SECONDS_PER_DAY
                         - (Z.quot (tm_year t - 1) 100) * SECONDS_PER_DAY
                         + (Z.quot (tm_year t + 299) 400) * SECONDS_PER_DAY)) in
  let wday := u32 (res / SECONDS_PER_DAY + 4) mod 7 in
  Some (res, mkTm (tm_sec t) (tm_min t) (tm_hour t) (tm_mday t) (tm_mon t) (tm_year t)
                  wday yday (tm_isdst t)).

(** srclib/mktime.c:84-97 (_LINUX): [tz] is tz[0] as filled in by gettimeofday, [None] if the
    system call fails. *)
Definition mktime_linux (tz : option Z) (t : tm) : option (Z * tm) :=
  let? (res, t') := buildtime t in
  Some (match tz with Some m => u32 (res + m * 60) | None => res end, t').

(** srclib/localtim.c:87-101 (_LINUX). *)
Definition localtime_linux (tz : option Z) (t : Z) : option (option tm) :=
  breaktime (match tz with Some m => u32 (t - m * 60) | None => t end).
