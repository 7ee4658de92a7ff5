(** Properties C29, C30, C31: calendar time. *)
From Verif Require Import Base BaseLemmas TimeModel TimeSpec TimeProof.

(** C29.  gmtime: for every 32-bit time value before 2106 the result is the unique valid Gregorian
    date and time of day that lies [t] seconds after the epoch, with matching weekday and day of
    the year; from 2106 on the result is the null pointer. *)
Theorem C29_gmtime_calendar : forall t, 0 <= t < 2 ^ 32 ->
  if t <? seconds 2106 0 1 0 0 0 then
    exists r, breaktime t = Some (Some r) /\
      let y := 1900 + tm_year r in
      1970 <= y /\
      valid_date y (tm_mon r) (tm_mday r) /\
      valid_clock (tm_hour r) (tm_min r) (tm_sec r) /\
      seconds y (tm_mon r) (tm_mday r) (tm_hour r) (tm_min r) (tm_sec r) = t /\
      tm_wday r = weekday (day_number y (tm_mon r) (tm_mday r)) /\
      tm_yday r = day_of_year y (tm_mon r) (tm_mday r) /\
      tm_isdst r = 0 /\
      (forall y' m' d' h' mi' s', 1970 <= y' -> valid_date y' m' d' -> valid_clock h' mi' s' ->
         seconds y' m' d' h' mi' s' = t ->
         (y', m', d', h', mi', s') =
         (y, tm_mon r, tm_mday r, tm_hour r, tm_min r, tm_sec r))
  else breaktime t = Some None.
Proof.
  intros t Ht. change (seconds 2106 0 1 0 0 0) with (last_day * 86400).
  destruct (Z.ltb_spec t (last_day * 86400)).
  - destruct (breaktime_ok t ltac:(lia)) as (r & E & P). exists r. split; [exact E|].
    cbv zeta in P |- *. destruct P as (A & B & C & D & F & G & K).
    repeat (split; [first [assumption | apply A]|]).
    intros y' m' d' h' mi' s' Hy' V' C' S'. rewrite <- D in S'.
    exact (seconds_inj _ _ _ _ _ _ _ _ _ _ _ _ Hy' (proj1 A) V' B C' C S').
  - apply breaktime_null. lia.
Qed.
Print Assumptions C29_gmtime_calendar.

(** The leap-year test used by the specification is the Gregorian rule. *)
Theorem C29_leap_rule : forall y, leap_yearb y = true <-> leap_year y.
Proof. exact leap_yearb_spec. Qed.
Print Assumptions C29_leap_rule.

(** 2000-02-29 23:59:59 was a Tuesday. *)
Example C29_case : breaktime 951868799 = Some (Some (mkTm 59 59 23 29 1 100 2 59 0)).
Proof. vm_compute. reflexivity. Qed.

(** C30.  mktime (DOS; the UTC core on the other systems): accepted exactly for valid dates of
    the years 1970..2105, and then the result is the number of seconds since the epoch and only
    weekday and day of year are rewritten; otherwise -1 and the structure is unchanged. *)
Theorem C30_mktime_calendar : forall t : tm,
  let y := 1900 + tm_year t in
  (1970 <= y <= 2105 /\ valid_date y (tm_mon t) (tm_mday t) /\
   valid_clock (tm_hour t) (tm_min t) (tm_sec t) ->
   buildtime t =
     Some (seconds y (tm_mon t) (tm_mday t) (tm_hour t) (tm_min t) (tm_sec t),
           mkTm (tm_sec t) (tm_min t) (tm_hour t) (tm_mday t) (tm_mon t) (tm_year t)
                (weekday (day_number y (tm_mon t) (tm_mday t)))
                (day_of_year y (tm_mon t) (tm_mday t)) (tm_isdst t))) /\
  (~ (1970 <= y <= 2105 /\ valid_date y (tm_mon t) (tm_mday t) /\
      valid_clock (tm_hour t) (tm_min t) (tm_sec t)) ->
   buildtime t = Some (2 ^ 32 - 1, t)).
Proof. intros t. split; [exact (buildtime_ok t) | exact (buildtime_reject t)]. Qed.
Print Assumptions C30_mktime_calendar.

(** C30.  Round trips. *)
Theorem C30_mktime_inverts_gmtime : forall t r,
  0 <= t < 2 ^ 32 -> breaktime t = Some (Some r) -> buildtime r = Some (t, r).
Proof. exact buildtime_breaktime. Qed.
Print Assumptions C30_mktime_inverts_gmtime.

Theorem C30_gmtime_inverts_mktime : forall t r s,
  1970 <= 1900 + tm_year r <= 2105 -> valid_date (1900 + tm_year r) (tm_mon r) (tm_mday r) ->
  valid_clock (tm_hour r) (tm_min r) (tm_sec r) ->
  buildtime r = Some (t, s) ->
  breaktime t = Some (Some (mkTm (tm_sec r) (tm_min r) (tm_hour r) (tm_mday r) (tm_mon r)
     (tm_year r) (tm_wday s) (tm_yday s) 0)).
Proof.
  intros t r s Y V C HB.
  pose proof (breaktime_buildtime t r s (conj Y (conj V C)) HB) as E.
  pose proof (buildtime_ok r (conj Y (conj V C))) as BO. cbv zeta in BO.
  rewrite BO in HB. apply some_inj, pair_inj in HB as [_ <-]. exact E.
Qed.
Print Assumptions C30_gmtime_inverts_mktime.

(** 2104-02-29 12:34:56, a Friday, day 59. *)
Example C30_case : buildtime (mkTm 56 34 12 29 1 204 0 0 7)
  = Some (4233731696, mkTm 56 34 12 29 1 204 5 59 7).
Proof. vm_compute. reflexivity. Qed.

(** C31 is false for the Linux variant: an invalid date in a zone one hour west of Greenwich is
    not reported (mktime returns 3599 instead of -1). *)
Theorem C31_mktime_linux_error_refuted :
  exists (tz : option Z) (t t' : tm) (res : Z),
    ~ (1970 <= 1900 + tm_year t <= 2105 /\
       valid_date (1900 + tm_year t) (tm_mon t) (tm_mday t) /\
       valid_clock (tm_hour t) (tm_min t) (tm_sec t)) /\
    mktime_linux tz t = Some (res, t') /\ res <> 2 ^ 32 - 1.
Proof.
  exists (Some 60), (mkTm 0 0 0 30 1 121 0 0 0), (mkTm 0 0 0 30 1 121 0 0 0), 3599.
  split; [|split; [vm_compute; reflexivity | lia]].
  cbn [tm_year tm_mon tm_mday tm_hour tm_min tm_sec]. intros (_ & (_ & H) & _).
  vm_compute in H. destruct H as [_ H]. apply H. reflexivity.
Qed.
Print Assumptions C31_mktime_linux_error_refuted.

(** What does hold: the error is reported when the zone offset is zero or unknown. *)
Theorem C31_mktime_linux_error_partial : forall tz t,
  tz = None \/ tz = Some 0 ->
  ~ (1970 <= 1900 + tm_year t <= 2105 /\
     valid_date (1900 + tm_year t) (tm_mon t) (tm_mday t) /\
     valid_clock (tm_hour t) (tm_min t) (tm_sec t)) ->
  mktime_linux tz t = Some (2 ^ 32 - 1, t).
Proof.
  intros tz t Htz NA. unfold mktime_linux. rewrite (buildtime_reject t NA).
  destruct Htz as [->| ->]; reflexivity.
Qed.
Print Assumptions C31_mktime_linux_error_partial.

(** On Linux, mktime inverts localtime for every zone offset, as long as the shifted time stays
    inside the supported years. *)
Theorem C30_linux_mktime_inverts_localtime : forall tz t r,
  0 <= t < 2 ^ 32 -> localtime_linux tz t = Some (Some r) -> mktime_linux tz r = Some (t, r).
Proof.
  intros tz t r Ht H. unfold localtime_linux, mktime_linux in *.
  destruct tz as [m|].
  - rewrite (buildtime_breaktime (u32 (t - m * 60)) r); auto.
    + cbn [obind]. do 2 f_equal. unfold u32. rewrite wrap_add_l.
      replace (t - m * 60 + m * 60) with t by lia. apply wrap_small. lia.
    + apply wrap_range. lia.
  - rewrite (buildtime_breaktime t r); auto.
Qed.
Print Assumptions C30_linux_mktime_inverts_localtime.

Example C31_case : mktime_linux (Some (-60)) (mkTm 0 0 1 1 0 70 0 0 0)
  = Some (0, mkTm 0 0 1 1 0 70 4 0 0).
Proof. vm_compute. reflexivity. Qed.
