From Verif Require Import Base BaseLemmas TimeModel TimeSpec.

Lemma leap_yearb_spec y : leap_yearb y = true <-> leap_year y.
Proof.
  unfold leap_yearb, leap_year. rewrite andb_true_iff, orb_true_iff, negb_true_iff.
  rewrite !Z.eqb_eq, Z.eqb_neq.
  rewrite <- !Z.mod_divide by lia. tauto.
Qed.

Lemma land3 y : Z.land y 3 = y mod 4.
Proof. change 3 with (Z.ones 2). rewrite Z.land_ones by lia. reflexivity. Qed.

Lemma isleap_spec y : 0 <= y < 2 ^ 32 -> isleap y = if leap_yearb y then 1 else 0.
Proof.
  intros Hy. unfold isleap, leap_yearb. rewrite land3.
  destruct (Z.eqb_spec (y mod 4) 0); simpl; [|reflexivity].
  assert (R : 0 <= y mod 400 < 400) by (apply Z.mod_pos_bound; lia).
  assert (H100 : y mod 100 = (y mod 400) mod 100).
  { lia. }
  rewrite H100. set (r := y mod 400) in *.
  assert (W : forall a b, 0 <= a < 400 -> (u32 (a - b) =? 0) = ((a - b) mod 2 ^ 32 =? 0)) by reflexivity.
  destruct (Z.eqb_spec (u32 (r - 100)) 0) as [E1|E1].
  { unfold u32, wrap in E1. assert (r = 100) by lia. rewrite H. reflexivity. }
  assert (r <> 100). { intros ->. apply E1. reflexivity. }
  assert (A2 : u32 (u32 (r - 100) - 100) = u32 (r - 200)).
  { unfold u32. rewrite wrap_sub_l. f_equal. lia. }
  rewrite A2.
  destruct (Z.eqb_spec (u32 (r - 200)) 0) as [E2|E2].
  { unfold u32, wrap in E2. assert (r = 200) by lia. rewrite H0. reflexivity. }
  assert (r <> 200). { intros ->. apply E2. reflexivity. }
  assert (A3 : u32 (u32 (r - 200) - 100) = u32 (r - 300)).
  { unfold u32. rewrite wrap_sub_l. f_equal. lia. }
  rewrite A3.
  destruct (Z.eqb_spec (u32 (r - 300)) 0) as [E3|E3].
  { unfold u32, wrap in E3. assert (r = 300) by lia. rewrite H1. reflexivity. }
  assert (r <> 300). { intros ->. apply E3. reflexivity. }
  destruct (Z.eqb_spec r 0) as [E4|E4].
  { rewrite E4. reflexivity. }
  destruct (Z.eqb_spec (r mod 100) 0); [exfalso; lia | reflexivity].
Qed.

(** The tables agree with the calendar (finite check, once for each entry). *)
Lemma epoch_table i : 0 <= i <= 136 -> zget DaysSinceEpoch i = Some (years_days (Z.to_nat i)).
Proof.
  intros Hi.
  assert (H : forallb (fun n => match zget DaysSinceEpoch (Z.of_nat n) with
                                | Some v => v =? years_days n | None => false end) (seq 0 137) = true)
    by (vm_compute; reflexivity).
  rewrite forallb_forall in H.
  specialize (H (Z.to_nat i)). rewrite Z2Nat.id in H by lia.
  destruct (zget DaysSinceEpoch i).
  - f_equal. apply Z.eqb_eq, H. apply in_seq. lia.
  - discriminate H. apply in_seq. lia.
Qed.

Lemma months_days_leap y1 y2 n :
  leap_yearb y1 = leap_yearb y2 -> months_days y1 n = months_days y2 n.
Proof. intros E. induction n; simpl; auto. unfold month_len. rewrite E, IHn. reflexivity. Qed.

Lemma month_table y m : 0 <= m <= 12 ->
  exists tab, zget DaysSinceJan1st (if leap_yearb y then 1 else 0) = Some tab /\
              zget tab m = Some (months_days y (Z.to_nat m)).
Proof.
  intros Hm. destruct (leap_yearb y) eqn:E.
  - eexists; split; [reflexivity|].
    rewrite (months_days_leap y 2000) by (rewrite E; reflexivity).
    assert (H : forallb (fun n => match zget (nth 1 DaysSinceJan1st []) (Z.of_nat n) with
                 | Some v => v =? months_days 2000 n | None => false end) (seq 0 13) = true)
      by (vm_compute; reflexivity).
    rewrite forallb_forall in H. specialize (H (Z.to_nat m)). rewrite Z2Nat.id in H by lia.
    cbn [nth DaysSinceJan1st] in H.
    destruct (zget _ m).
    + f_equal. apply Z.eqb_eq, H. apply in_seq. lia.
    + discriminate H. apply in_seq. lia.
  - eexists; split; [reflexivity|].
    rewrite (months_days_leap y 1999) by (rewrite E; reflexivity).
    assert (H : forallb (fun n => match zget (nth 0 DaysSinceJan1st []) (Z.of_nat n) with
                 | Some v => v =? months_days 1999 n | None => false end) (seq 0 13) = true)
      by (vm_compute; reflexivity).
    rewrite forallb_forall in H. specialize (H (Z.to_nat m)). rewrite Z2Nat.id in H by lia.
    cbn [nth DaysSinceJan1st] in H.
    destruct (zget _ m).
    + f_equal. apply Z.eqb_eq, H. apply in_seq. lia.
    + discriminate H. apply in_seq. lia.
Qed.

Arguments DaysSinceEpoch : simpl never.
Arguments DaysSinceJan1st : simpl never.

(** Binary search: for any table whose entries are [f 0, f 1, ...] it returns the interval. *)
Lemma bin_search_spec fuel tab (f : Z -> Z) d l r n :
  (forall i, 0 <= i <= n -> zget tab i = Some (f i)) ->
  n < 2 ^ 30 ->
  0 <= l < r -> r <= n -> f l <= d < f r -> r - l <= Z.of_nat fuel ->
  exists idx, bin_search fuel tab d l r = Some idx /\ l <= idx < r /\ f idx <= d < f (idx + 1).
Proof.
  intros Hf Hn. revert l r. induction fuel; intros l r Hlr Hr Hd Hfu; [lia|].
  cbn [bin_search].
  assert (E : Z.shiftr (u32 (l + r)) 1 = (l + r) / 2).
  { rewrite Z.shiftr_div_pow2 by lia. unfold u32. rewrite wrap_small; [reflexivity|lia]. }
  rewrite E. set (m := (l + r) / 2). assert (l <= m < r) by (unfold m; lia).
  rewrite Hf by lia. cbn [obind].
  destruct (Z.ltb_spec d (f m)).
  - assert (m <> l) by (intros ->; lia).
    destruct (IHfuel l m) as (idx & ? & ? & ?); try lia.
    exists idx; repeat split; auto; lia.
  - rewrite Hf by lia. cbn [obind].
    destruct (Z.geb_spec d (f (m + 1))).
    + assert (m + 1 <> r) by (intros HH; rewrite HH in *; lia).
      assert (l <> m).
      { intros HH. unfold m in *. assert (r = l + 1) by lia. lia. }
      destruct (IHfuel m r) as (idx & ? & ? & ?); try lia.
      exists idx; repeat split; auto; lia.
    + exists m. repeat split; auto; lia.
Qed.

Lemma month_len_pos y m : 0 <= m <= 11 -> 28 <= month_len y m <= 31.
Proof.
  intros. unfold month_len.
  assert (m = 0 \/ m = 1 \/ m = 2 \/ m = 3 \/ m = 4 \/ m = 5 \/ m = 6 \/ m = 7 \/ m = 8 \/
          m = 9 \/ m = 10 \/ m = 11) by lia.
  destruct (leap_yearb y);
  repeat match goal with H : _ \/ _ |- _ => destruct H as [->|H] end; subst; lia.
Qed.

Lemma month_len_nonneg y m : 0 <= month_len y m <= 31.
Proof. unfold month_len. destruct m as [|p|p]; try lia.
  all: repeat match goal with |- context [match ?p with _ => _ end] => destruct p end; lia.
Qed.

Lemma months_days_mono y n m : (n <= m)%nat -> months_days y n <= months_days y m.
Proof.
  induction 1; [lia|]. cbn [months_days]. pose proof (month_len_nonneg y (Z.of_nat m)). lia.
Qed.

Lemma year_len_365 y : 365 <= year_len y <= 366.
Proof. unfold year_len. cbn. destruct (leap_yearb y); lia. Qed.

Lemma years_days_mono n m : (n <= m)%nat -> years_days n <= years_days m.
Proof.
  induction 1; [lia|]. cbn [years_days]. pose proof (year_len_365 (1970 + Z.of_nat m)). lia.
Qed.

(** Range of supported years: 1970..2105. *)
Definition last_day : Z := years_days 136.
Lemma last_day_val : last_day = 49673. Proof. reflexivity. Qed.

Lemma breaktime_ok t : 0 <= t < last_day * 86400 ->
  exists r, breaktime t = Some (Some r) /\
    let y := 1900 + tm_year r in
    1970 <= y <= 2105 /\
    valid_date y (tm_mon r) (tm_mday r) /\
    valid_clock (tm_hour r) (tm_min r) (tm_sec r) /\
    seconds y (tm_mon r) (tm_mday r) (tm_hour r) (tm_min r) (tm_sec r) = t /\
    tm_wday r = weekday (day_number y (tm_mon r) (tm_mday r)) /\
    tm_yday r = day_of_year y (tm_mon r) (tm_mday r) /\
    tm_isdst r = 0.
Proof.
  rewrite last_day_val. intros Ht. unfold breaktime.
  change (u32 (-1)) with 4294967295.
  destruct (Z.eqb_spec t 4294967295); [lia|].
  change SECONDS_PER_DAY with 86400. change SECONDS_PER_HOUR with 3600.
  change SECONDS_PER_MINUTE with 60.
  set (D := t / 86400).
  assert (HD : 0 <= D < 49673) by (unfold D; lia).
  assert (E0 : u32 (D * 86400) = D * 86400) by (apply wrap_small; lia).
  rewrite E0.
  assert (HR : 0 <= t - D * 86400 < 86400) by (unfold D; lia).
  set (R := t - D * 86400) in *.
  assert (E1 : u32 R = R) by (apply wrap_small; lia). rewrite E1.
  assert (E2 : u32 (R - R / 3600 * 3600) = R mod 3600).
  { unfold u32. rewrite wrap_small; lia. }
  rewrite E2.
  assert (E3 : u32 (R mod 3600 - R mod 3600 / 60 * 60) = (R mod 3600) mod 60).
  { unfold u32. rewrite wrap_small; lia. }
  rewrite E3.
  assert (E4 : u32 (D + 4) = D + 4) by (apply wrap_small; lia). rewrite E4.
  change (zlen DaysSinceEpoch - 1) with 136.
  rewrite epoch_table by lia. cbn [obind].
  destruct (Z.geb_spec D (years_days (Z.to_nat 136))) as [H|H];
    [change (years_days (Z.to_nat 136)) with 49673 in H; lia|].
  destruct (bin_search_spec search_fuel DaysSinceEpoch (fun i => years_days (Z.to_nat i)) D 0 136 136)
    as (yi & Hs & Hyi & HyD); try (unfold search_fuel; lia).
  { intros. apply epoch_table. lia. }
  { change (years_days (Z.to_nat 0)) with 0. lia. }
  rewrite Hs. cbn [obind]. rewrite epoch_table by lia. cbn [obind].
  rewrite isleap_spec by lia.
  set (Y := 1970 + yi).
  assert (EY : years_days (Z.to_nat (yi + 1)) = years_days (Z.to_nat yi) + year_len Y).
  { replace (Z.to_nat (yi + 1)) with (S (Z.to_nat yi)) by lia. cbn [years_days].
    rewrite Z2Nat.id by lia. reflexivity. }
  cbv beta in HyD. rewrite EY in HyD. pose proof (year_len_365 Y) as HL.
  set (D1 := D - years_days (Z.to_nat yi)) in *.
  assert (HD1 : 0 <= D1 < year_len Y) by (unfold D1; lia).
  assert (E5 : u32 D1 = D1) by (apply wrap_small; lia). rewrite E5.
  destruct (month_table Y 0 ltac:(lia)) as (tab & Ht1 & _).
  rewrite Ht1. cbn [obind].
  assert (Htab : forall i, 0 <= i <= 12 -> zget tab i = Some (months_days Y (Z.to_nat i))).
  { intros i Hi. destruct (month_table Y i Hi) as (tab' & Ht1' & Ht2'). congruence. }
  destruct (bin_search_spec search_fuel tab (fun i => months_days Y (Z.to_nat i)) D1 0 12 12)
    as (mi & Hms & Hmi & HmD); try (unfold search_fuel; lia).
  { exact Htab. }
  { change (months_days Y (Z.to_nat 0)) with 0. unfold year_len in HD1.
    change (Z.to_nat 12) with 12%nat. lia. }
  rewrite Hms. cbn [obind]. rewrite Htab by lia. cbn [obind].
  cbv beta in HmD.
  assert (EM : months_days Y (Z.to_nat (mi + 1)) = months_days Y (Z.to_nat mi) + month_len Y mi).
  { replace (Z.to_nat (mi + 1)) with (S (Z.to_nat mi)) by lia. cbn [months_days].
    rewrite Z2Nat.id by lia. reflexivity. }
  rewrite EM in HmD.
  set (D2 := D1 - months_days Y (Z.to_nat mi)) in *.
  assert (HD2 : 0 <= D2 < month_len Y mi) by (unfold D2; lia).
  pose proof (month_len_pos Y mi ltac:(lia)).
  assert (E6 : u32 D2 = D2) by (apply wrap_small; lia). rewrite E6.
  eexists; split; [reflexivity|].
  cbn [tm_sec tm_min tm_hour tm_mday tm_mon tm_year tm_wday tm_yday tm_isdst].
  replace (1900 + (70 + yi)) with Y by (unfold Y; lia).
  assert (EDN : day_number Y mi (1 + D2) = D).
  { unfold day_number, day_of_year. replace (Y - 1970) with yi by (unfold Y; lia).
    unfold D2, D1. lia. }
  split; [unfold Y; lia|].
  split; [unfold valid_date; lia|].
  split; [unfold valid_clock; lia|].
  split. { unfold seconds. rewrite EDN. assert (Et : t = D * 86400 + R) by (unfold R; lia). clear - Et. lia. }
  split. { unfold weekday. rewrite EDN. reflexivity. }
  split; [|reflexivity].
  unfold day_of_year. unfold D2. lia.
Qed.

Lemma breaktime_null t : last_day * 86400 <= t < 2 ^ 32 -> breaktime t = Some None.
Proof.
  rewrite last_day_val. intros Ht. unfold breaktime.
  destruct (t =? u32 (-1)); [reflexivity|].
  change SECONDS_PER_DAY with 86400.
  change (zlen DaysSinceEpoch - 1) with 136.
  rewrite epoch_table by lia. cbn [obind].
  destruct (Z.geb_spec (t / 86400) (years_days (Z.to_nat 136))) as [H|H]; [reflexivity|].
  change (years_days (Z.to_nat 136)) with 49673 in H. lia.
Qed.

(** Dates are determined by their day numbers. *)
Lemma day_of_year_range y m d : valid_date y m d -> 0 <= day_of_year y m d < year_len y.
Proof.
  intros [Hm Hd]. unfold day_of_year.
  assert (E : months_days y (Z.to_nat (m + 1)) = months_days y (Z.to_nat m) + month_len y m).
  { replace (Z.to_nat (m + 1)) with (S (Z.to_nat m)) by lia. cbn [months_days].
    rewrite Z2Nat.id by lia. reflexivity. }
  pose proof (months_days_mono y (Z.to_nat (m + 1)) 12 ltac:(lia)).
  pose proof (months_days_mono y 0 (Z.to_nat m) ltac:(lia)).
  unfold year_len. change (months_days y 0) with 0 in *. lia.
Qed.

Lemma day_of_year_inj y m d m' d' : valid_date y m d -> valid_date y m' d' ->
  day_of_year y m d = day_of_year y m' d' -> m = m' /\ d = d'.
Proof.
  intros [Hm Hd] [Hm' Hd']. unfold day_of_year.
  assert (E : forall m, 0 <= m -> months_days y (Z.to_nat (m + 1)) = months_days y (Z.to_nat m) + month_len y m).
  { intros k Hk. replace (Z.to_nat (k + 1)) with (S (Z.to_nat k)) by lia. cbn [months_days].
    rewrite Z2Nat.id by lia. reflexivity. }
  intros Heq. assert (m = m').
  { destruct (Z.lt_total m m') as [L|[L|L]]; auto; exfalso.
    - pose proof (months_days_mono y (Z.to_nat (m + 1)) (Z.to_nat m') ltac:(lia)).
      pose proof (E m ltac:(lia)). lia.
    - pose proof (months_days_mono y (Z.to_nat (m' + 1)) (Z.to_nat m) ltac:(lia)).
      pose proof (E m' ltac:(lia)). lia. }
  subst m'. lia.
Qed.

Lemma day_number_inj y m d y' m' d' : 1970 <= y -> 1970 <= y' ->
  valid_date y m d -> valid_date y' m' d' ->
  day_number y m d = day_number y' m' d' -> y = y' /\ m = m' /\ d = d'.
Proof.
  intros Hy Hy' V V'. unfold day_number.
  pose proof (day_of_year_range _ _ _ V) as R. pose proof (day_of_year_range _ _ _ V') as R'.
  assert (E : forall y, 1970 <= y ->
    years_days (Z.to_nat (y + 1 - 1970)) = years_days (Z.to_nat (y - 1970)) + year_len y).
  { intros k Hk. replace (Z.to_nat (k + 1 - 1970)) with (S (Z.to_nat (k - 1970))) by lia.
    cbn [years_days]. rewrite Z2Nat.id by lia. do 2 f_equal. lia. }
  intros Heq. assert (y = y').
  { destruct (Z.lt_total y y') as [L|[L|L]]; auto; exfalso.
    - pose proof (years_days_mono (Z.to_nat (y + 1 - 1970)) (Z.to_nat (y' - 1970)) ltac:(lia)).
      pose proof (E y Hy). lia.
    - pose proof (years_days_mono (Z.to_nat (y' + 1 - 1970)) (Z.to_nat (y - 1970)) ltac:(lia)).
      pose proof (E y' Hy'). lia. }
  subst y'. split; auto. eapply day_of_year_inj; eauto. lia.
Qed.

Lemma seconds_inj y m d h mi s y' m' d' h' mi' s' : 1970 <= y -> 1970 <= y' ->
  valid_date y m d -> valid_date y' m' d' -> valid_clock h mi s -> valid_clock h' mi' s' ->
  seconds y m d h mi s = seconds y' m' d' h' mi' s' ->
  (y, m, d, h, mi, s) = (y', m', d', h', mi', s').
Proof.
  intros Hy Hy' V V' [A [B C]] [A' [B' C']] E. unfold seconds in E.
  assert (day_number y m d = day_number y' m' d' /\ h = h' /\ mi = mi' /\ s = s') by lia.
  destruct H as (HD & -> & -> & ->).
  apply day_number_inj in HD as (-> & -> & ->); auto.
Qed.

Definition accepted (t : tm) : Prop :=
  let y := 1900 + tm_year t in
  1970 <= y <= 2105 /\ valid_date y (tm_mon t) (tm_mday t) /\
  valid_clock (tm_hour t) (tm_min t) (tm_sec t).

Lemma daysInMonth_ok y m : 0 <= m <= 11 ->
  (if m =? 1 then 28 + (if leap_yearb y then 1 else 0)
   else 30 + Z.land (Z.shiftr 2773 m) 1) = month_len y m.
Proof.
  intros. unfold month_len.
  assert (m = 0 \/ m = 1 \/ m = 2 \/ m = 3 \/ m = 4 \/ m = 5 \/ m = 6 \/ m = 7 \/ m = 8 \/
          m = 9 \/ m = 10 \/ m = 11) by lia.
  destruct (leap_yearb y);
  repeat match goal with H : _ \/ _ |- _ => destruct H as [->|H] end; subst; reflexivity.
Qed.

Lemma day_number_bound y m d : 1970 <= y <= 2105 -> valid_date y m d ->
  0 <= day_number y m d < last_day.
Proof.
  intros Hy V. unfold day_number, last_day. pose proof (day_of_year_range _ _ _ V).
  pose proof (years_days_mono 0 (Z.to_nat (y - 1970)) ltac:(lia)).
  change (years_days 0) with 0 in *.
  pose proof (years_days_mono (S (Z.to_nat (y - 1970))) 136 ltac:(lia)).
  assert (YS : forall n, years_days (S n) = years_days n + year_len (1970 + Z.of_nat n)) by reflexivity.
  rewrite YS, Z2Nat.id in H1 by lia.
  replace (1970 + (y - 1970)) with y in H1 by lia. lia.
Qed.

Lemma leap_correction n : (n <= 135)%nat ->
  years_days n = Z.of_nat n * 365 + (Z.shiftr (Z.of_nat n + 1) 2
     - Z.quot (Z.of_nat n + 69) 100 + Z.quot (Z.of_nat n + 369) 400).
Proof.
  intros Hn.
  assert (H : forallb (fun n => years_days n =? Z.of_nat n * 365 + (Z.shiftr (Z.of_nat n + 1) 2
     - Z.quot (Z.of_nat n + 69) 100 + Z.quot (Z.of_nat n + 369) 400)) (seq 0 136) = true)
    by (vm_compute; reflexivity).
  rewrite forallb_forall in H. apply Z.eqb_eq, H, in_seq. lia.
Qed.

Lemma buildtime_ok t : accepted t ->
  let y := 1900 + tm_year t in
  buildtime t = Some (seconds y (tm_mon t) (tm_mday t) (tm_hour t) (tm_min t) (tm_sec t),
     mkTm (tm_sec t) (tm_min t) (tm_hour t) (tm_mday t) (tm_mon t) (tm_year t)
          (weekday (day_number y (tm_mon t) (tm_mday t)))
          (day_of_year y (tm_mon t) (tm_mday t)) (tm_isdst t)).
Proof.
  intros (Hy & V & C). cbv zeta. cbv zeta in Hy, V. pose proof V as (Hm & Hd). pose proof C as (Hh & Hmi & Hs).
  unfold buildtime.
  pose proof (month_len_pos (1900 + tm_year t) (tm_mon t) Hm) as HL.
  destruct (Z.ltb_spec (tm_sec t) 0); [lia|]. destruct (Z.gtb_spec (tm_sec t) 59); [lia|].
  destruct (Z.ltb_spec (tm_min t) 0); [lia|]. destruct (Z.gtb_spec (tm_min t) 59); [lia|].
  destruct (Z.ltb_spec (tm_hour t) 0); [lia|]. destruct (Z.gtb_spec (tm_hour t) 23); [lia|].
  destruct (Z.ltb_spec (tm_mday t) 1); [lia|]. destruct (Z.gtb_spec (tm_mday t) 31); [lia|].
  destruct (Z.ltb_spec (tm_mon t) 0); [lia|]. destruct (Z.gtb_spec (tm_mon t) 11); [lia|].
  destruct (Z.ltb_spec (tm_year t) 70); [lia|]. destruct (Z.gtb_spec (tm_year t) (70+135)); [lia|].
  cbn [orb]. rewrite isleap_spec by lia. rewrite daysInMonth_ok by lia.
  destruct (Z.gtb_spec (tm_mday t) (month_len (1900 + tm_year t) (tm_mon t))); [lia|].
  destruct (month_table (1900 + tm_year t) (tm_mon t) ltac:(lia)) as (tab & T1 & T2).
  rewrite T1. cbn [obind]. rewrite T2. cbn [obind].
  set (Y := 1900 + tm_year t) in *.
  pose proof (leap_correction (Z.to_nat (Y - 1970)) ltac:(lia)) as LC.
  rewrite !Z2Nat.id in LC by lia.
  pose proof (day_number_bound Y _ _ Hy V) as HB. rewrite last_day_val in HB.
  replace (Y - 1970 + 1) with (tm_year t - 69) in LC by (unfold Y; lia).
  replace (Y - 1970 + 69) with (tm_year t - 1) in LC by (unfold Y; lia).
  replace (Y - 1970 + 369) with (tm_year t + 299) in LC by (unfold Y; lia).
  replace (Y - 1970) with (tm_year t - 70) in LC by (unfold Y; lia).
  set (A := Z.shiftr (tm_year t - 69) 2) in *.
  set (B := Z.quot (tm_year t - 1) 100) in *. set (Cc := Z.quot (tm_year t + 299) 400) in *.
  set (md := months_days Y (Z.to_nat (tm_mon t))) in *.
  change SECONDS_PER_DAY with 86400. change SECONDS_PER_HOUR with 3600.
  change SECONDS_PER_MINUTE with 60. change SECONDS_PER_YEAR with (365 * 86400).
  assert (UU : forall a b, u32 (u32 a + b) = u32 (a + b)) by (intros; apply wrap_add_l).
  rewrite UU.
  assert (ES : tm_sec t + tm_min t * 60 + tm_hour t * 3600 + (md + tm_mday t - 1) * 86400 +
    (tm_year t - 70) * (365 * 86400) + (A * 86400 - B * 86400 + Cc * 86400)
    = seconds Y (tm_mon t) (tm_mday t) (tm_hour t) (tm_min t) (tm_sec t)).
  { unfold seconds, day_number, day_of_year. replace (Y - 1970) with (tm_year t - 70) by (unfold Y; lia).
    rewrite LC. fold md. lia. }
  rewrite ES.
  assert (HSB : 0 <= seconds Y (tm_mon t) (tm_mday t) (tm_hour t) (tm_min t) (tm_sec t) < 2 ^ 32 - 1).
  { unfold seconds. lia. }
  assert (US : u32 (seconds Y (tm_mon t) (tm_mday t) (tm_hour t) (tm_min t) (tm_sec t)) =
     seconds Y (tm_mon t) (tm_mday t) (tm_hour t) (tm_min t) (tm_sec t)) by (apply wrap_small; lia).
  rewrite US.
  repeat f_equal.
  - unfold weekday. unfold u32.
    assert (ED : seconds Y (tm_mon t) (tm_mday t) (tm_hour t) (tm_min t) (tm_sec t) / 86400
       = day_number Y (tm_mon t) (tm_mday t)).
    { unfold seconds. lia. }
    rewrite ED. rewrite wrap_small by lia. reflexivity.
  - unfold day_of_year. fold md. lia.
Qed.

Lemma buildtime_reject t : ~ accepted t -> buildtime t = Some (u32 (-1), t).
Proof.
  intros NA. unfold buildtime.
  destruct (_ || _) eqn:EB; [reflexivity|].
  repeat (apply orb_false_iff in EB as [EB ?]).
  assert (0 <= tm_mon t <= 11) by lia.
  rewrite isleap_spec by lia. rewrite daysInMonth_ok by lia.
  destruct (Z.gtb_spec (tm_mday t) (month_len (1900 + tm_year t) (tm_mon t))); [reflexivity|].
  exfalso. apply NA. unfold accepted, valid_date, valid_clock. lia.
Qed.

Lemma buildtime_breaktime t r : 0 <= t < 2 ^ 32 -> breaktime t = Some (Some r) ->
  buildtime r = Some (t, r).
Proof.
  intros Ht HB.
  destruct (Z_lt_ge_dec t (last_day * 86400)) as [L|L].
  - destruct (breaktime_ok t ltac:(lia)) as (r' & E & P). rewrite E in HB. injection HB as ->.
    cbv zeta in P. destruct P as (Hy & V & C & S & W & YD & DST).
    pose proof (buildtime_ok r) as BO. cbv zeta in BO. rewrite BO.
    + rewrite S. rewrite <- W, <- YD. destruct r; reflexivity.
    + split; [lia|]. split; auto.
  - rewrite breaktime_null in HB by lia. discriminate.
Qed.

Lemma breaktime_buildtime t r s : accepted r -> buildtime r = Some (t, s) ->
  breaktime t = Some (Some (mkTm (tm_sec s) (tm_min s) (tm_hour s) (tm_mday s) (tm_mon s)
     (tm_year s) (tm_wday s) (tm_yday s) 0)).
Proof.
  intros A HB. pose proof (buildtime_ok r A) as BO. cbv zeta in BO. rewrite BO in HB.
  apply some_inj, pair_inj in HB as [HT <-]. destruct A as (Hy & V & C).
  pose proof (day_number_bound _ _ _ Hy V) as DB.
  assert (Ht : 0 <= t < last_day * 86400).
  { rewrite <- HT. unfold seconds. unfold valid_clock in C. rewrite last_day_val in *.
    cbv zeta in DB. lia. }
  destruct (breaktime_ok t Ht) as (r' & E & P). cbv zeta in P.
  destruct P as (Hy' & V' & C' & S & W & YD & DST).
  rewrite E. do 2 f_equal.
  rewrite <- HT in S. apply seconds_inj in S; auto; try lia.
  repeat (let S' := fresh "S" in apply pair_inj in S as [S S']). cbn [tm_sec tm_min tm_hour tm_mday tm_mon tm_year tm_wday tm_yday].
  assert (E1 : tm_year r = tm_year r') by lia. assert (E2 : tm_mon r = tm_mon r') by lia.
  assert (E3 : tm_mday r = tm_mday r') by lia. assert (E4 : tm_hour r = tm_hour r') by lia.
  assert (E5 : tm_min r = tm_min r') by lia. assert (E6 : tm_sec r = tm_sec r') by lia.
  rewrite E1, E2, E3, E4, E5, E6, <- W, <- YD. clear - DST.
  destruct r' as [a b c d e f g h i]. cbn [tm_isdst] in DST. subst i. reflexivity.
Qed.
