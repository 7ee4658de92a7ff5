(** Proofs about strftime. *)
From Coq Require Import String Ascii.
From Verif Require Import Base BaseLemmas TimeModel TimeSpec TimeProof StrftimeModel StrftimeSpec.
Ltac Zify.zify_post_hook ::= idtac.
Local Notation length := List.length.

Definition byte (c : Z) : Prop := 0 <= c < 256.

Lemma chars_text s : chars s = text s.
Proof. induction s; cbn; congruence. Qed.
Lemma ch_byte a : byte (ch a).
Proof. unfold byte, ch. pose proof (nat_ascii_bounded a). lia. Qed.
Lemma text_bytes s : Forall byte (text s).
Proof. induction s; constructor; auto. apply ch_byte. Qed.
Lemma ch_inj a b : ch a = ch b -> a = b.
Proof. unfold ch. intros H. rewrite <- (ascii_nat_embedding a), <- (ascii_nat_embedding b). f_equal. lia. Qed.

Section P.
Variable W : Z.
Hypothesis HW : W = 2 \/ W = 4.
Notation putc := (putc W).
Notation puts := (puts W).

Lemma puts_app b l1 l2 : puts b (l1 ++ l2) = puts (puts b l1) l2.
Proof. revert b. induction l1; intros b; cbn; auto. Qed.
Lemma padn_ok k pad b : padn W k pad b = puts b (repeat pad k).
Proof. revert b. induction k; intros b; cbn; auto. Qed.

(** ** Numbers *)
Lemma value_snoc l d : value (l ++ [d]) = 10 * value l + (d - 48).
Proof. unfold value. rewrite fold_left_app. reflexivity. Qed.
Lemma putn_loop_ok fuel : forall n p acc k, 0 <= n -> 0 < p -> n < 10 ^ p -> p < Z.of_nat fuel ->
  exists d, putn_loop fuel n p acc k = Some (d ++ acc, k + zlen d) /\ decimal n d.
Proof.
  induction fuel as [|fuel IH]; intros n p acc k H0 H1 H2 H3; [lia|]. cbn [putn_loop].
  destruct (Z.ltb_spec (p - 1) 0); [lia|].
  pose proof (Z.mod_pos_bound n 10 ltac:(lia)) as Hm. pose proof (Z.div_mod n 10 ltac:(lia)) as Hd.
  destruct (Z.eqb_spec (n / 10) 0) as [E|E].
  - exists [48 + n mod 10]. split; [reflexivity|]. split; [constructor; [lia|constructor]|]. split; [unfold value; cbn [fold_left]; lia|]. split; [|discriminate].
    cbn [hd_error]. intros H4. assert (H5 : 48 + n mod 10 = 48) by congruence. now rewrite H5.
  - assert (0 <= n / 10) by (apply Z.div_pos; lia).
    destruct (IH (n / 10) (p - 1) (48 + n mod 10 :: acc) (k + 1)) as (d & -> & D1 & D2 & D3 & D4); try lia.
    { destruct (Z.eq_dec p 1) as [->|]; [exfalso; apply E; apply Z.div_small; change (10 ^ 1) with 10 in H2; lia|lia]. }
    { replace p with (p - 1 + 1) in H2 by lia. rewrite Z.pow_add_r in H2 by lia. change (10 ^ 1) with 10 in H2. apply Z.div_lt_upper_bound; lia. }
    exists (d ++ [48 + n mod 10]). split; [rewrite <- app_assoc; replace (k + zlen (d ++ [48 + n mod 10])) with (k + 1 + zlen d) by (unfold zlen; rewrite app_length; cbn [length]; lia); reflexivity|].
    split; [apply Forall_app; split; [exact D1|constructor; [lia|constructor]]|]. split; [rewrite value_snoc; lia|].
    split; [|destruct d; discriminate]. destruct d as [|a d]; [congruence|]. cbn [hd_error app]. intros H5. injection H5 as ->.
    specialize (D3 eq_refl). injection D3 as ->. exfalso. apply E. rewrite <- D2. reflexivity.
Qed.
Lemma pw : 2 ^ (8 * W) = 65536 \/ 2 ^ (8 * W) = 4294967296.
Proof. destruct HW as [-> | ->]; [left|right]; reflexivity. Qed.
Lemma ci_ok z : - 2 ^ (8 * W - 1) <= z < 2 ^ (8 * W - 1) -> ci W z = Some z.
Proof. intros H. unfold ci. destruct (Z.leb_spec (- 2 ^ (8 * W - 1)) z), (Z.ltb_spec z (2 ^ (8 * W - 1))); try lia. reflexivity. Qed.
Lemma pw1 : 2 ^ (8 * W - 1) = 32768 \/ 2 ^ (8 * W - 1) = 2147483648.
Proof. destruct HW as [-> | ->]; [left|right]; reflexivity. Qed.
Lemma pw2 : 2 ^ (8 * W) = 2 * 2 ^ (8 * W - 1).
Proof. destruct HW as [-> | ->]; reflexivity. Qed.
Lemma putn_ok n w pad : 0 <= n < 2 ^ (8 * W) -> byte pad -> 0 <= w ->
  exists l, number (Z.to_nat w) pad n l /\ Forall byte l /\ forall b, putn W b n w pad = Some (puts b l).
Proof.
  intros Hn Hp Hw. unfold putn. unfold wrap. rewrite Z.mod_small by exact Hn.
  destruct (putn_loop_ok 12 n 10 [] 0) as (d & E & D); try lia. { pose proof pw. change (10 ^ 10) with 10000000000. lia. }
  rewrite app_nil_r in E. rewrite E. cbn [obind]. exists (repeat pad (Z.to_nat w - length d) ++ d). split; [exists d; auto|]. split.
  - apply Forall_app. split; [apply Forall_forall; intros x Hx; apply repeat_spec in Hx; now subst|].
    eapply Forall_impl; [|apply D]. unfold byte. intros; lia.
  - intros b. rewrite padn_ok, puts_app. do 4 f_equal. unfold zlen. lia.
Qed.

(** ** The calendar *)
Lemma sisleap_ok y : 0 <= y < 2 ^ (8 * W) -> sisleap W y = if leap_yearb y then 1 else 0.
Proof.
  intros Hy. unfold sisleap. cbv zeta. assert (Ew : wrap (8 * W) y = y) by (apply Z.mod_small; exact Hy). rewrite !Ew.
  change (Z.land y 3) with (Z.land y (Z.ones 2)). rewrite Z.land_ones by lia. change (2 ^ 2) with 4. unfold leap_yearb.
  destruct (Z.eqb_spec (y mod 4) 0) as [E4|E4]; cbn [negb andb]; [|reflexivity].
  pose proof (Z.mod_pos_bound y 400 ltac:(lia)) as B. pose proof (Z.div_mod y 400 ltac:(lia)) as D. set (r := y mod 400) in *. set (q := y / 400) in *. clearbody r q.
  assert (E100 : y mod 100 = r mod 100). { rewrite D. replace (400 * q + r) with (r + (4 * q) * 100) by lia. apply Z.mod_add. lia. }
  rewrite E100. cbv zeta. rewrite !wrap_sub_l. replace (r - 100 - 100) with (r - 200) by lia. rewrite ?wrap_sub_l. replace (r - 200 - 100) with (r - 300) by lia.
  assert (K : forall c, 0 <= c <= 300 -> (wrap (8 * W) (r - c) =? 0) = (r =? c)).
  { intros c Hc. pose proof pw as P. unfold wrap. set (m := 2 ^ (8 * W)) in *. destruct (Z.eqb_spec r c) as [->|Hn]; [rewrite Z.sub_diag; reflexivity|].
    apply Z.eqb_neq. intros E. pose proof (Z.div_mod (r - c) m ltac:(lia)) as D2. rewrite E in D2. destruct P as [P|P]; rewrite P in D2; lia. }
  rewrite !K by lia.
  destruct (Z.eqb_spec r 100) as [->|]; [reflexivity|]. destruct (Z.eqb_spec r 200) as [->|]; [reflexivity|]. destruct (Z.eqb_spec r 300) as [->|]; [reflexivity|].
  destruct (Z.eqb_spec r 0); [now rewrite orb_true_r|].
  destruct (Z.eqb_spec (r mod 100) 0); [|reflexivity]. pose proof (Z.div_mod r 100 ltac:(lia)). lia.
Qed.
Lemma year_len_eq y : year_len y = if leap_yearb y then 366 else 365.
Proof. unfold year_len. cbn [months_days Z.of_nat]. unfold month_len. cbn. destruct (leap_yearb y); reflexivity. Qed.
Lemma isoweek_ok t : normal t -> tm_year t + 1901 < 2 ^ (8 * W - 1) ->
  exists g v, isoweek W t = Some (g, v - 1) /\ iso_week (tm_year t + 1900) (tm_yday t) (tm_wday t) g v /\ 1 <= v <= 53 /\ 0 <= g < 2 ^ (8 * W - 1).
Proof.
  intros N Hy. pose proof pw1 as P1. pose proof pw2 as P2. destruct N as [_ _ _ _ _ Nw Ny Nd]. unfold isoweek.
  set (y := tm_year t + 1900) in *. set (yd := tm_yday t) in *. set (wd := tm_wday t) in *.
  replace (tm_year t + 1901) with (y + 1) in Hy by (unfold y; lia). clearbody y yd wd.
  rewrite year_len_eq in Nd. assert (B : yd < 366) by (destruct (leap_yearb y); lia).
  pose proof (Z.div_mod yd 7 ltac:(lia)) as D. pose proof (Z.mod_pos_bound yd 7 ltac:(lia)) as Br.
  rewrite !ci_ok by lia. cbn [obind]. rewrite Z.rem_mod_nonneg by lia.
  rewrite !ci_ok by lia. cbn [obind].
  rewrite (Z.rem_mod_nonneg (6 + wd - yd mod 7) 7) by lia.
  pose proof (Z.mod_pos_bound (6 + wd - yd mod 7) 7 ltac:(lia)) as Bj. set (j := (6 + wd - yd mod 7) mod 7) in *.
  rewrite ci_ok by lia. cbn [obind]. rewrite Z.quot_div_nonneg by lia.
  assert (Et : thursday yd wd = 7 * ((yd + j) / 7) + 3 - j).
  { unfold thursday, j. set (q := yd / 7) in *. set (r := yd mod 7) in *. clearbody q r. clear j Bj. subst yd.
    assert (Hr : r = 0 \/ r = 1 \/ r = 2 \/ r = 3 \/ r = 4 \/ r = 5 \/ r = 6) by lia.
    assert (Hw : wd = 0 \/ wd = 1 \/ wd = 2 \/ wd = 3 \/ wd = 4 \/ wd = 5 \/ wd = 6) by lia. clear - Hr Hw.
    destruct Hr as [->|[->|[->|[->|[->|[->| ->]]]]]], Hw as [->|[->|[->|[->|[->|[->| ->]]]]]];
    match goal with |- context [(7 * q + ?r + ?x mod 7) / 7] => let v := eval vm_compute in (r + x mod 7) in
        let h := eval vm_compute in ((r + x mod 7) / 7) in let x7 := eval vm_compute in (x mod 7) in change (x mod 7) with x7;
        replace ((7 * q + r + x7) / 7) with (q + h) by (replace (7 * q + r + x7) with (v + q * 7) by lia; rewrite Z.div_add by lia; change (v / 7) with h; lia) end;
    match goal with |- context [?x mod 7] => let v := eval vm_compute in (x mod 7) in change (x mod 7) with v end; lia. }
  replace (yd - - j) with (yd + j) by lia.
  pose proof (Z.div_mod (yd + j) 7 ltac:(lia)) as Dw. pose proof (Z.mod_pos_bound (yd + j) 7 ltac:(lia)) as Bw. set (w := (yd + j) / 7) in *. clearbody w.
  unfold iso_week. rewrite Et. rewrite !year_len_eq. clearbody j. clear Et D Br.
  assert (Sl : forall y, 0 <= y < 2 ^ (8 * W) -> negb (sisleap W y =? 0) = leap_yearb y) by (intros z Hz; rewrite sisleap_ok by exact Hz; destruct (leap_yearb z); reflexivity).
  assert (L1 : leap_yearb y = true -> leap_yearb (y - 1) = false).
  { unfold leap_yearb. intros H. apply andb_prop in H as [H _]. apply Z.eqb_eq in H. apply andb_false_iff. left. apply Z.eqb_neq.
    pose proof (Z.div_mod y 4 ltac:(lia)). pose proof (Z.div_mod (y - 1) 4 ltac:(lia)). pose proof (Z.mod_pos_bound (y - 1) 4 ltac:(lia)). lia. }
  set (ly := leap_yearb y) in *. set (lp := leap_yearb (y - 1)) in *. cbv zeta.
  assert (Hj : j = 0 \/ j = 1 \/ j = 2 \/ j = 3 \/ j = 4 \/ j = 5 \/ j = 6) by lia.
  destruct (Z.ltb_spec (w - (if j >=? 4 then 1 else 0)) 0) as [Wn|Wn].
  - assert (Hj4 : 4 <= j /\ w = 0) by (destruct Hj as [->|[->|[->|[->|[->|[->| ->]]]]]]; cbn in Wn; lia). destruct Hj4 as [Hj4 ->].
    try (rewrite ci_ok by lia). cbn [obind]. rewrite Sl by lia. fold lp.
    exists (y - 1), ((7 * 0 + 3 - j + (if lp then 366 else 365)) / 7 + 1).
    destruct Hj as [->|[->|[->|[->|[->|[->| ->]]]]]]; try lia; destruct lp; (split; [reflexivity|]); (split; [left; split; [lia|]; split; reflexivity|]); (split; [split; intros Hc; discriminate Hc|]); lia.
  - destruct (Z.eqb_spec (w - (if j >=? 4 then 1 else 0)) 52) as [We|We].
    + rewrite (Z.rem_mod_nonneg (7 - j) 7) by lia. rewrite Sl by lia. fold ly.
      assert (Hw : w = if j >=? 4 then 53 else 52) by (destruct (j >=? 4); lia).
      rewrite ?ci_ok by lia. cbn [obind].
      destruct Hj as [->|[->|[->|[->|[->|[->| ->]]]]]];
      (match type of Hw with w = ?x => let v := eval vm_compute in x in change (w = v) in Hw end); subst w; destruct ly; cbv iota in Nd;
      first [exfalso; lia
        | exists (y + 1), 1; split; [reflexivity|]; split; [right; right; split; [intros Hc; discriminate Hc|]; split; reflexivity|]; lia
        | exists y, 53; split; [reflexivity|]; split; [right; left; split; [split; [intros Hc; discriminate Hc|reflexivity]|split; reflexivity]|]; lia].
    + set (bb := if j >=? 4 then 1 else 0) in *. assert (Hbb : (4 <= j /\ bb = 1) \/ (j < 4 /\ bb = 0)) by (unfold bb; rewrite Z.geb_leb; destruct (Z.leb_spec 4 j); lia). clearbody bb.
      exists y, (w - bb + 1). split; [replace (w - bb + 1 - 1) with (w - bb) by lia; reflexivity|].
      assert (Hw : 0 <= w - bb <= 51) by lia.
      split; [|split; lia]. right. left.
      assert (Ew : (7 * w + 3 - j) / 7 = w - bb). { symmetry. apply Z.div_unique with (7 * bb + 3 - j); lia. }
      rewrite Ew. split; [|split; reflexivity]. split; [lia|]. destruct ly; lia.
Qed.
Lemma count_ok k a n : 0 <= k < 7 -> zlen (filter (fun i => (a + Z.of_nat i) mod 7 =? k) (seq 0 n)) = (a + Z.of_nat n - 1 - k) / 7 - (a - 1 - k) / 7.
Proof.
  intros Hk. induction n as [|n IH].
  - cbn [seq filter]. replace (a + Z.of_nat 0 - 1 - k) with (a - 1 - k) by lia. unfold zlen. cbn. lia.
  - rewrite seq_S, filter_app. unfold zlen in *. rewrite app_length, Nat2Z.inj_add, IH. cbn [filter plus].
    set (x := a + Z.of_nat n). replace (a + Z.of_nat (S n) - 1 - k) with (x - k) by (unfold x; lia). replace (x - 1 - k) with (x - k - 1) by lia. clearbody x.
    pose proof (Z.div_mod x 7 ltac:(lia)). pose proof (Z.mod_pos_bound x 7 ltac:(lia)).
    pose proof (Z.div_mod (x - k) 7 ltac:(lia)). pose proof (Z.mod_pos_bound (x - k) 7 ltac:(lia)).
    pose proof (Z.div_mod (x - k - 1) 7 ltac:(lia)). pose proof (Z.mod_pos_bound (x - k - 1) 7 ltac:(lia)).
    destruct (Z.eqb_spec (x mod 7) k); cbn [length]; lia.
Qed.
Lemma count_weekday_ok k yd wd : 0 <= k < 7 -> 0 <= yd -> count_weekday k yd wd = (wd - k) / 7 - (wd - yd - 1 - k) / 7.
Proof.
  intros Hk Hy. unfold count_weekday. erewrite filter_ext; [rewrite (count_ok k (wd - yd)) by exact Hk|].
  - f_equal; f_equal; lia.
  - intros i. cbn beta. do 2 f_equal. lia.
Qed.

(** ** Conversions *)
Variable t : tm.
Hypothesis N : normal t.
Hypothesis Hy : tm_year t + 1901 < 2 ^ (8 * W - 1).

Definition does (fuel : nat) (c : ascii) : Prop :=
  exists l, conv t c l /\ Forall byte l /\ forall b, doformat W fuel b (ch c) t = Some (puts b l).

Lemma yd_rng : 0 <= tm_yday t < 366.
Proof. pose proof (n_yday _ N) as H. rewrite year_len_eq in H. destruct (leap_yearb _); lia. Qed.

Ltac num n w pad := destruct (putn_ok n w pad) as (l & Hl & Hb & El);
  [pose proof pw2; pose proof pw1; pose proof yd_rng; destruct N; lia|unfold byte; lia|lia|].

Lemma name_ok tab (names : list string) x : tab = map chars names -> 0 <= x < zlen names -> name tab x = Some (nth_name names x).
Proof.
  intros -> H. unfold name. unfold zlen in *. rewrite map_length. destruct (Z.ltb_spec x 0); [lia|]. destruct (x >=? _) eqn:E; [lia|]. cbn [orb].
  unfold zget. destruct (Z.ltb_spec x 0); [lia|]. unfold nth_name. rewrite nth_error_map.
  rewrite (nth_error_nth' names EmptyString) by lia. cbn. now rewrite chars_text.
Qed.
Lemma abbr_ok tab (names : list string) x : tab = map (firstn 3) (map chars names) -> 0 <= x < zlen names -> name tab x = Some (firstn 3 (nth_name names x)).
Proof.
  intros -> H. unfold name. unfold zlen in *. rewrite !map_length. destruct (Z.ltb_spec x 0); [lia|]. destruct (x >=? _) eqn:E; [lia|]. cbn [orb].
  unfold zget. destruct (Z.ltb_spec x 0); [lia|]. unfold nth_name. rewrite !nth_error_map.
  rewrite (nth_error_nth' names EmptyString) by lia. cbn. now rewrite chars_text.
Qed.
Lemma Forall_firstn {A} (P : A -> Prop) n l : Forall P l -> Forall P (firstn n l).
Proof. intros H. rewrite <- (firstn_skipn n l) in H. apply Forall_app in H. apply H. Qed.

Definition simple : list ascii :=
  ["a"; "A"; "b"; "B"; "C"; "d"; "e"; "g"; "G"; "h"; "H"; "I"; "j"; "m"; "M"; "n"; "p"; "S"; "t"; "u"; "U"; "V"; "w"; "W"; "y"; "Y"; "z"; "Z"]%char.
Lemma simple_ok fuel c : In c simple -> does (S fuel) c.
Proof.
  pose proof pw2 as P1. pose proof pw1 as P2. pose proof yd_rng as Yd.
  assert (Nm := n_mon _ N). assert (Nw := n_wday _ N). assert (Nh := n_hour _ N). assert (Ny := n_year _ N).
  assert (Ci : forall z, 0 <= z < 32768 -> ci W z = Some z) by (intros z Hz; apply ci_ok; lia).
  assert (Cy : ci W (tm_year t + 1900) = Some (tm_year t + 1900)) by (apply ci_ok; lia).
  assert (D100 : 0 <= (tm_year t + 1900) / 100 <= tm_year t + 1900) by (split; [apply Z.div_pos; lia|apply Z.div_le_upper_bound; lia]).
  pose proof (Z.mod_pos_bound (tm_year t + 1900) 100 ltac:(lia)) as M100.
  pose proof (Z.mod_pos_bound (tm_hour t) 12 ltac:(lia)) as M12.
  destruct (isoweek_ok t N Hy) as (g & v & Ei & Iw & Bv & Bg).
  pose proof (Z.mod_pos_bound g 100 ltac:(lia)) as G100.
  intros H. unfold simple in H. repeat (destruct H as [<-|H]); [..|destruct H]; unfold does; cbn [doformat].
  - eexists. split; [apply cv_a|]. split; [apply Forall_firstn, text_bytes|]. intros b. change (ch "a") with 97. cbn iota. rewrite (abbr_ok DayAbbr day_names) by (reflexivity || (cbn; lia)). reflexivity.
  - eexists. split; [apply cv_A|]. split; [apply text_bytes|]. intros b. change (ch "A") with 65. cbn iota. rewrite (name_ok DayFull day_names) by (reflexivity || (cbn; lia)). reflexivity.
  - eexists. split; [apply cv_b|]. split; [apply Forall_firstn, text_bytes|]. intros b. change (ch "b") with 98. cbn iota. rewrite (abbr_ok MonthAbbr month_names) by (reflexivity || (cbn; lia)). reflexivity.
  - eexists. split; [apply cv_B|]. split; [apply text_bytes|]. intros b. change (ch "B") with 66. cbn iota. rewrite (name_ok MonthFull month_names) by (reflexivity || (cbn; lia)). reflexivity.
  - num ((tm_year t + 1900) / 100) 2 48. exists l. split; [now apply cv_C|]. split; [auto|]. intros b. change (ch "C") with 67. cbn iota. rewrite Cy. cbn [obind]. rewrite Z.quot_div_nonneg by lia. apply El.
  - num (tm_mday t) 2 48. exists l. split; [now apply cv_d|]. split; [auto|]. intros b. apply El.
  - num (tm_mday t) 2 32. exists l. split; [now apply cv_e|]. split; [auto|]. intros b. apply El.
  - num (g mod 100) 2 48. exists l. split; [eapply cv_g; eassumption|]. split; [auto|]. intros b. change (ch "g") with 103. cbn iota. rewrite Ei. cbn [obind]. rewrite Z.rem_mod_nonneg by lia. apply El.
  - num g 0 48. exists l. split; [eapply cv_G; eassumption|]. split; [auto|]. intros b. change (ch "G") with 71. cbn iota. rewrite Ei. apply El.
  - eexists. split; [apply cv_h, cv_b|]. split; [apply Forall_firstn, text_bytes|]. intros b. change (ch "h") with 104. cbn iota. rewrite (abbr_ok MonthAbbr month_names) by (reflexivity || (cbn; lia)). reflexivity.
  - num (tm_hour t) 2 48. exists l. split; [now apply cv_H|]. split; [auto|]. intros b. apply El.
  - set (h := if Z.rem (tm_hour t) 12 =? 0 then 12 else Z.rem (tm_hour t) 12). assert (Hh : 1 <= h <= 12 /\ h mod 12 = tm_hour t mod 12).
    { unfold h. rewrite Z.rem_mod_nonneg by lia. destruct (Z.eqb_spec (tm_hour t mod 12) 0) as [->|]; [split; [lia|reflexivity]|]. split; [lia|]. apply Z.mod_small. lia. }
    destruct Hh as [H1 H2]. num h 2 48. exists l. split; [now apply cv_I with h|]. split; [auto|]. intros b. apply El.
  - num (tm_yday t + 1) 3 48. exists l. split; [now apply cv_j|]. split; [auto|]. intros b. change (ch "j") with 106. cbn iota. rewrite Ci by lia. apply El.
  - num (tm_mon t + 1) 2 48. exists l. split; [now apply cv_m|]. split; [auto|]. intros b. change (ch "m") with 109. cbn iota. rewrite Ci by lia. apply El.
  - num (tm_min t) 2 48. exists l. split; [now apply cv_M|]. split; [auto|]. intros b. apply El.
  - eexists. split; [apply cv_n|]. split; [constructor; [unfold byte; lia|constructor]|]. intros b. reflexivity.
  - eexists. split; [apply cv_p|]. split; [apply text_bytes|]. intros b. change (ch "p") with 112. cbn iota. rewrite Z.geb_leb, Z.leb_antisym. destruct (tm_hour t <? 12); reflexivity.
  - num (tm_sec t) 2 48. exists l. split; [now apply cv_S|]. split; [auto|]. intros b. apply El.
  - eexists. split; [apply cv_t|]. split; [constructor; [unfold byte; lia|constructor]|]. intros b. reflexivity.
  - set (d := if tm_wday t =? 0 then 7 else tm_wday t). assert (Hd : 1 <= d <= 7 /\ d mod 7 = tm_wday t).
    { unfold d. destruct (Z.eqb_spec (tm_wday t) 0) as [->|]; [split; [lia|reflexivity]|]. split; [lia|]. apply Z.mod_small. lia. }
    destruct Hd as [H1 H2]. num d 1 48. exists l. split; [now apply cv_u with d|]. split; [auto|]. intros b. apply El.
  - pose proof (count_weekday_ok 0 (tm_yday t) (tm_wday t) ltac:(lia) ltac:(lia)) as Ec.
    assert (E2 : count_weekday 0 (tm_yday t) (tm_wday t) = (tm_yday t + 7 - tm_wday t) / 7).
    { rewrite Ec. rewrite (Z.div_small (tm_wday t - 0)) by lia.
      pose proof (Z.div_mod (tm_wday t - tm_yday t - 1 - 0) 7 ltac:(lia)). pose proof (Z.mod_pos_bound (tm_wday t - tm_yday t - 1 - 0) 7 ltac:(lia)).
      pose proof (Z.div_mod (tm_yday t + 7 - tm_wday t) 7 ltac:(lia)). pose proof (Z.mod_pos_bound (tm_yday t + 7 - tm_wday t) 7 ltac:(lia)). lia. }
    assert (B2 : 0 <= (tm_yday t + 7 - tm_wday t) / 7 <= 53).
    { split; [apply Z.div_pos; lia|]. apply Z.lt_succ_r. apply Z.div_lt_upper_bound; lia. }
    num ((tm_yday t + 7 - tm_wday t) / 7) 2 48. exists l. split; [apply cv_U; now rewrite E2|]. split; [auto|]. intros b. change (ch "U") with 85. cbn iota.
    rewrite Ci by lia. cbn [obind]. rewrite Ci by lia. cbn [obind]. rewrite Z.quot_div_nonneg by lia. apply El.
  - num v 2 48. exists l. split; [eapply cv_V; eassumption|]. split; [auto|]. intros b. change (ch "V") with 86. cbn iota. rewrite Ei. cbn [obind]. replace (v - 1 + 1) with v by lia. apply El.
  - num (tm_wday t) 1 48. exists l. split; [now apply cv_w|]. split; [auto|]. intros b. apply El.
  - set (d := if tm_wday t =? 0 then 6 else tm_wday t - 1). assert (Hd : 0 <= d <= 6) by (unfold d; destruct (Z.eqb_spec (tm_wday t) 0); lia).
    pose proof (count_weekday_ok 1 (tm_yday t) (tm_wday t) ltac:(lia) ltac:(lia)) as Ec.
    assert (E2 : count_weekday 1 (tm_yday t) (tm_wday t) = (tm_yday t + 7 - d) / 7).
    { rewrite Ec. unfold d.
      pose proof (Z.div_mod (tm_wday t - tm_yday t - 1 - 1) 7 ltac:(lia)). pose proof (Z.mod_pos_bound (tm_wday t - tm_yday t - 1 - 1) 7 ltac:(lia)).
      destruct (Z.eqb_spec (tm_wday t) 0) as [E0|E0].
      - rewrite E0 in *. change ((0 - 1) / 7) with (-1). pose proof (Z.div_mod (tm_yday t + 7 - 6) 7 ltac:(lia)). pose proof (Z.mod_pos_bound (tm_yday t + 7 - 6) 7 ltac:(lia)). lia.
      - rewrite (Z.div_small (tm_wday t - 1)) by lia.
        pose proof (Z.div_mod (tm_yday t + 7 - (tm_wday t - 1)) 7 ltac:(lia)). pose proof (Z.mod_pos_bound (tm_yday t + 7 - (tm_wday t - 1)) 7 ltac:(lia)). lia. }
    assert (B2 : 0 <= (tm_yday t + 7 - d) / 7 <= 53).
    { split; [apply Z.div_pos; lia|]. apply Z.lt_succ_r. apply Z.div_lt_upper_bound; lia. }
    num ((tm_yday t + 7 - d) / 7) 2 48. exists l. split; [apply cv_W; now rewrite E2|]. split; [auto|]. intros b. change (ch "W") with 87. cbn iota. fold d.
    rewrite Ci by lia. cbn [obind]. rewrite Ci by lia. cbn [obind]. rewrite Z.quot_div_nonneg by lia. apply El.
  - num ((tm_year t + 1900) mod 100) 2 48. exists l. split; [now apply cv_y|]. split; [auto|]. intros b. change (ch "y") with 121. cbn iota. rewrite Cy. cbn [obind]. rewrite Z.rem_mod_nonneg by lia. apply El.
  - num (tm_year t + 1900) 0 48. exists l. split; [now apply cv_Y|]. split; [auto|]. intros b. change (ch "Y") with 89. cbn iota. rewrite Cy. apply El.
  - exists []. split; [apply cv_z|]. split; [constructor|]. intros b. reflexivity.
  - exists []. split; [apply cv_Z|]. split; [constructor|]. intros b. reflexivity.
Qed.

(** Composite conversions. *)
Definition parts (fuel : nat) := fix parts (b : bst) (l : list (Z + Z)) : option bst :=
  match l with
  | [] => Some b
  | inl ch :: l => parts (putc b ch) l
  | inr cv :: l => let? b := doformat W fuel b cv t in parts b l
  end.
Fixpoint fmt_of (l : list (ascii + ascii)) : string :=
  match l with [] => "" | inl a :: l => String a (fmt_of l) | inr a :: l => String "%" (String a (fmt_of l)) end.
Definition codes := map (fun x : ascii + ascii => match x with inl a => inl (ch a) | inr a => inr (ch a) end).
Lemma parts_ok fuel l : (forall x, In x l -> match x with inl a => a <> "%"%char /\ a <> Ascii.zero | inr c => does fuel c end) ->
  exists tx, all t (fmt_of l) tx /\ Forall byte tx /\ forall b, parts fuel b (codes l) = Some (puts b tx).
Proof.
  induction l as [|x l IH]; intros H.
  - exists []. split; [constructor|]. split; [constructor|]. reflexivity.
  - destruct IH as (tx & A & B & E). { intros y Hy0. apply H. now right. }
    specialize (H x (or_introl eq_refl)). destruct x as [a|c].
    + exists (ch a :: tx). split; [apply all_lit; [apply H|apply H|exact A]|]. split; [constructor; [apply ch_byte|exact B]|]. intros b. cbn. apply E.
    + destruct H as (l1 & A1 & B1 & E1). exists (l1 ++ tx). split; [now apply all_conv|]. split; [now apply Forall_app|].
      intros b. cbn [codes map parts]. rewrite E1. cbn [obind]. rewrite puts_app. apply E.
Qed.
Ltac comp l := match goal with |- does (S ?fuel) _ => destruct (parts_ok fuel l) as (tx & A & B & E); [|exists tx; split; [constructor; exact A|split; [exact B|exact E]]] end.
Ltac items tac := let x := fresh "x" in let H := fresh "H" in intros x H; repeat (destruct H as [<-|H]); [..|destruct H]; try (split; discriminate); tac.
Ltac inl_ := cbn; tauto.
Lemma T_ok fuel : does (S (S fuel)) "T".
Proof.
  comp [inr "H"; inl ":"; inr "M"; inl ":"; inr "S"]%char. items ltac:(apply simple_ok; unfold simple; cbn; tauto).
Qed.
Lemma doformat_ok c : In c conversions -> does 3 c.
Proof.
  intros H. unfold conversions in H.
  destruct (in_dec ascii_dec c simple) as [Hs|Hs]; [now apply simple_ok|].
  repeat (destruct H as [<-|H]); [..|destruct H]; try (exfalso; apply Hs; unfold simple; cbn; tauto); clear Hs.
  - comp [inr "a"; inl " "; inr "b"; inl " "; inr "e"; inl " "; inr "T"; inl " "; inr "Y"]%char. items ltac:(first [apply T_ok | apply simple_ok; unfold simple; cbn; tauto]).
  - comp [inr "m"; inl "/"; inr "d"; inl "/"; inr "y"]%char. items ltac:(apply simple_ok; unfold simple; cbn; tauto).
  - comp [inr "Y"; inl "-"; inr "m"; inl "-"; inr "d"]%char. items ltac:(apply simple_ok; unfold simple; cbn; tauto).
  - comp [inr "I"; inl ":"; inr "M"; inl ":"; inr "S"; inl " "; inr "p"]%char. items ltac:(apply simple_ok; unfold simple; cbn; tauto).
  - comp [inr "H"; inl ":"; inr "M"]%char. items ltac:(apply simple_ok; unfold simple; cbn; tauto).
  - apply T_ok.
  - comp [inr "m"; inl "/"; inr "d"; inl "/"; inr "y"]%char. items ltac:(apply simple_ok; unfold simple; cbn; tauto).
  - destruct (T_ok 1) as (l & Hc & Hb & E). exists l. split; [|split; [exact Hb|exact E]]. apply cv_X. rewrite <- (app_nil_r l). apply all_conv; [exact Hc|constructor].
Qed.

(** ** The format *)
Lemma helper_ok f : format f -> exists l, all t f l /\ Forall byte l /\
  forall b fuel rest, (length (text f) < fuel)%nat -> helper W fuel b (text f ++ 0 :: rest) t = Some (1, putc (puts b l) 0).
Proof.
  assert (NE : forall a x, a <> x -> (ch a =? ch x) = false) by (intros a x H; apply Z.eqb_neq; intros E; apply H; now apply ch_inj).
  assert (NZ : forall a, In a conversions -> (ch a =? 0) = false) by (intros a H; repeat (destruct H as [<-|H]; [reflexivity|]); destruct H).
  assert (NP : forall a, In a conversions -> (ch a =? 37) = false) by (intros a H; repeat (destruct H as [<-|H]; [reflexivity|]); destruct H).
  assert (NEO : forall a, In a conversions -> (ch a =? 69) || (ch a =? 79) = false) by (intros a H; repeat (destruct H as [<-|H]; [reflexivity|]); destruct H).
  induction 1 as [|a f Ha Hz Hf IH|f Hf IH|a f Ha Hf IH|a f Ha Hf IH|a f Ha Hf IH].
  - exists []. split; [constructor|]. split; [constructor|]. intros b [|fuel] rest Hl; [cbn in Hl; lia|]. reflexivity.
  - destruct IH as (l & A & B & E). exists (ch a :: l). split; [now constructor|]. split; [constructor; [apply ch_byte|exact B]|].
    intros b [|fuel] rest Hl; [cbn in Hl; lia|]. cbn [text app helper hd_error tl obind]. fold (ch a).
    assert (E0 : (ch a =? 0) = false) by exact (NE a Ascii.zero Hz). assert (E37 : (ch a =? 37) = false) by exact (NE a "%"%char Ha). rewrite E0, !E37. cbn [negb obind]. cbn [StrftimeModel.puts]. apply E. cbn in Hl. lia.
  - destruct IH as (l & A & B & E). exists (ch "%" :: l). split; [now constructor|]. split; [constructor; [apply ch_byte|exact B]|].
    intros b [|fuel] rest Hl; [cbn in Hl; lia|]. cbn [text app helper hd_error tl obind]. apply (E (putc b 37) fuel). cbn in Hl. lia.
  - destruct IH as (l & A & B & E). destruct (doformat_ok a Ha) as (l1 & A1 & B1 & E1). exists (l1 ++ l). split; [now apply all_conv|]. split; [now apply Forall_app|].
    intros b [|fuel] rest Hl; [cbn in Hl; lia|]. cbn [text app helper hd_error tl obind]. fold (ch a). change (Z.of_nat (nat_of_ascii "%")) with 37. cbn [Z.eqb Pos.eqb negb obind hd_error].
    rewrite NP, NZ, NEO by exact Ha. cbn [obind tl]. rewrite E1. cbn [obind]. rewrite puts_app. apply E. cbn in Hl. lia.
  - assert (Hc : In a conversions) by (cbn in Ha; cbn; tauto).
    destruct IH as (l & A & B & E). destruct (doformat_ok a Hc) as (l1 & A1 & B1 & E1). exists (l1 ++ l). split; [now apply all_E|]. split; [now apply Forall_app|].
    intros b [|fuel] rest Hl; [cbn in Hl; lia|]. cbn [text app helper hd_error tl obind]. fold (ch a). change (Z.of_nat (nat_of_ascii "%")) with 37. change (Z.of_nat (nat_of_ascii "E")) with 69. cbn [Z.eqb Pos.eqb negb obind hd_error orb tl].
    rewrite NZ by exact Hc. rewrite E1. cbn [obind]. rewrite puts_app. apply E. cbn in Hl. lia.
  - assert (Hc : In a conversions) by (cbn in Ha; cbn; tauto).
    destruct IH as (l & A & B & E). destruct (doformat_ok a Hc) as (l1 & A1 & B1 & E1). exists (l1 ++ l). split; [now apply all_O|]. split; [now apply Forall_app|].
    intros b [|fuel] rest Hl; [cbn in Hl; lia|]. cbn [text app helper hd_error tl obind]. fold (ch a). change (Z.of_nat (nat_of_ascii "%")) with 37. change (Z.of_nat (nat_of_ascii "O")) with 79. cbn [Z.eqb Pos.eqb negb obind hd_error orb tl].
    rewrite NZ by exact Hc. rewrite E1. cbn [obind]. rewrite puts_app. apply E. cbn in Hl. lia.
Qed.
End P.

(** ** The destination *)
Section D.
Variable W : Z.
Hypothesis HW : W = 2 \/ W = 4.
Lemma puts_snoc b l c : puts W b (l ++ [c]) = putc W (puts W b l) c.
Proof. rewrite puts_app. reflexivity. Qed.
Lemma zlen_snoc {A} (l : list A) c : zlen (l ++ [c]) = zlen l + 1.
Proof. unfold zlen. rewrite app_length. cbn [length]. lia. Qed.
Lemma zlen_nn {A} (l : list A) : 0 <= zlen l.
Proof. unfold zlen. lia. Qed.
Lemma puts_state m mx l : 0 <= mx -> zlen l < 2 ^ (8 * W) -> Forall byte l ->
  let b := puts W (mkb 0 mx 0 m) l in
  bpos b = Z.min (zlen l) mx /\ bmax b = mx /\ bsize b = zlen l /\
  forall i, bmem b i = if (0 <=? i) && (i <? Z.min (zlen l) mx) then nth (Z.to_nat i) l 0 else m i.
Proof.
  intros Hm. induction l as [|c l IH] using rev_ind; intros Hl Hb.
  - cbn [puts bpos bmax bsize bmem]. change (zlen (@nil Z)) with 0. rewrite Z.min_l by lia. repeat split. intros i.
    destruct (Z.leb_spec 0 i), (Z.ltb_spec i 0); cbn [andb]; try lia; reflexivity.
  - apply Forall_app in Hb as [Hb Hc]. apply Forall_inv in Hc. rewrite zlen_snoc in *. pose proof (zlen_nn l) as Hn.
    destruct IH as (E1 & E2 & E3 & E4); [lia|exact Hb|]. cbv zeta. rewrite puts_snoc.
    set (b := puts W (mkb 0 mx 0 m) l) in *. unfold putc. rewrite E2, E3.
    assert (Es : wrap (8 * W) (zlen l + 1) = zlen l + 1) by (apply Z.mod_small; lia).
    destruct (Z.ltb_spec (zlen l) mx) as [L|L]; cbn [bpos bmax bsize bmem]; rewrite Es.
    + rewrite E1. rewrite Z.min_l by lia. rewrite (Z.min_l (zlen l + 1)) by lia. repeat split. intros i. rewrite E4, Z.min_l by lia.
      destruct (Z.eqb_spec i (zlen l)) as [->|Hi].
      * destruct (Z.leb_spec 0 (zlen l)), (Z.ltb_spec (zlen l) (zlen l + 1)); try lia. cbn [andb].
        unfold zlen. rewrite Nat2Z.id. rewrite app_nth2 by lia. rewrite Nat.sub_diag. cbn [nth]. apply Z.mod_small. exact Hc.
      * destruct (Z.leb_spec 0 i); cbn [andb]; [|reflexivity]. destruct (Z.ltb_spec i (zlen l)), (Z.ltb_spec i (zlen l + 1)); try lia.
        rewrite app_nth1; [reflexivity|unfold zlen in *; lia].
    + rewrite E1. rewrite Z.min_r by lia. rewrite (Z.min_r (zlen l + 1)) by lia. repeat split. intros i. rewrite E4, Z.min_r by lia.
      destruct (Z.leb_spec 0 i); cbn [andb]; [|reflexivity]. destruct (Z.ltb_spec i mx); [|reflexivity].
      rewrite app_nth1; [reflexivity|unfold zlen in *; lia].
Qed.
Lemma strftime_ok t f : normal t -> tm_year t + 1901 < 2 ^ (8 * W - 1) -> format f ->
  exists l, all t f l /\ forall m mx, 0 <= mx < 2 ^ (8 * W) -> zlen l + 1 < 2 ^ (8 * W) ->
  exists r m', strftime W m mx (text f ++ [0]) t = Some (r, m') /\
   r = (if zlen l <? mx then zlen l else 0) /\
   forall i, m' i = if (0 <=? i) && (i <? Z.min (zlen l + 1) mx) then nth (Z.to_nat i) (l ++ [0]) 0 else m i.
Proof.
  intros N Hy F. destruct (helper_ok W HW t N Hy f F) as (l & A & B & E). exists l. split; [exact A|]. intros m mx Hm Hl.
  unfold strftime. rewrite E by (rewrite app_length; cbn; lia). cbn [obind Z.eqb]. rewrite <- puts_snoc.
  destruct (puts_state m mx (l ++ [0])) as (_ & E2 & E3 & E4); [lia|rewrite zlen_snoc; lia|apply Forall_app; split; [exact B|constructor; [unfold byte; lia|constructor]]|].
  pose proof (zlen_nn l). rewrite zlen_snoc in *. cbv zeta in E2, E3, E4. rewrite E2, E3. eexists _, _. split; [reflexivity|]. split; [|exact E4].
  destruct (Z.leb_spec (zlen l + 1) mx), (Z.ltb_spec (zlen l) mx); try lia. rewrite Z.add_simpl_r. apply Z.mod_small. lia.
Qed.
End D.

(** ** The text is determined *)
Lemma value_app l1 l2 : value (l1 ++ l2) = value l1 * 10 ^ zlen l2 + value l2.
Proof.
  induction l2 as [|d l2 IH] using rev_ind; [rewrite app_nil_r; change (zlen (@nil Z)) with 0; change (value []) with 0; change (10 ^ 0) with 1; lia|].
  rewrite app_assoc, !value_snoc, IH, zlen_snoc, Z.pow_add_r by (try apply zlen_nn; lia). change (10 ^ 1) with 10. lia.
Qed.
Lemma value_bound l : Forall (fun d => 48 <= d <= 57) l -> 0 <= value l < 10 ^ zlen l.
Proof.
  induction l as [|d l IH] using rev_ind; intros H; [cbn; lia|]. apply Forall_app in H as [H H1]. apply Forall_inv in H1. specialize (IH H).
  rewrite value_snoc, zlen_snoc, Z.pow_add_r by (try apply zlen_nn; lia). change (10 ^ 1) with 10. lia.
Qed.
Lemma value_inj l : forall l', Forall (fun d => 48 <= d <= 57) l -> Forall (fun d => 48 <= d <= 57) l' -> length l = length l' -> value l = value l' -> l = l'.
Proof.
  induction l as [|d l IH] using rev_ind; intros l' H H' L E.
  - destruct l'; [reflexivity|discriminate].
  - destruct l' as [|d' l' _] using rev_ind; [rewrite app_length in L; cbn in L; lia|]. rewrite !app_length in L. cbn [length] in L.
    apply Forall_app in H as [H H1]. apply Forall_inv in H1. apply Forall_app in H' as [H' H1']. apply Forall_inv in H1'. rewrite !value_snoc in E.
    assert (value l = value l' /\ d = d') as [E1 ->] by lia. f_equal. apply IH; auto; lia.
Qed.
Lemma decimal_low n l : decimal n l -> l = [48] \/ 10 ^ (zlen l - 1) <= n.
Proof.
  intros (H & E & Z0 & NE). destruct l as [|d l]; [congruence|]. destruct (Z.eq_dec d 48) as [->|Hd]; [left; now apply Z0|right].
  change (d :: l) with ([d] ++ l) in E. rewrite value_app in E. inversion H; subst. pose proof (value_bound l H3).
  replace (zlen (d :: l) - 1) with (zlen l) by (unfold zlen; cbn [length]; lia). unfold value at 1. cbn [fold_left]. pose proof (Z.pow_pos_nonneg 10 (zlen l) ltac:(lia) (zlen_nn l)). nia.
Qed.
Lemma decimal_fun n l l' : decimal n l -> decimal n l' -> l = l'.
Proof.
  intros D D'. pose proof (decimal_low _ _ D) as L. pose proof (decimal_low _ _ D') as L'. destruct D as (H & E & _ & NE), D' as (H' & E' & _ & NE').
  pose proof (value_bound _ H) as V. pose proof (value_bound _ H') as V'. rewrite E in V. rewrite E' in V'.
  assert (Hp : 1 <= zlen l) by (destruct l; [congruence|unfold zlen; cbn [length]; lia]). assert (Hp' : 1 <= zlen l') by (destruct l'; [congruence|unfold zlen; cbn [length]; lia]).
  apply value_inj; auto; [|congruence]. apply Nat2Z.inj. change (zlen l = zlen l').
  destruct L as [->|L], L' as [->|L']; auto.
  - change (value [48]) with 0 in E. rewrite <- E in L'. pose proof (Z.pow_pos_nonneg 10 (zlen l' - 1) ltac:(lia) ltac:(lia)). lia.
  - change (value [48]) with 0 in E'. rewrite <- E' in L. pose proof (Z.pow_pos_nonneg 10 (zlen l - 1) ltac:(lia) ltac:(lia)). lia.
  - assert (zlen l - 1 < zlen l') by (apply (Z.pow_lt_mono_r_iff 10); lia). assert (zlen l' - 1 < zlen l) by (apply (Z.pow_lt_mono_r_iff 10); lia). lia.
Qed.
Lemma number_fun w pad n l l' : number w pad n l -> number w pad n l' -> l = l'.
Proof. intros (d & D & ->) (d' & D' & ->). now rewrite (decimal_fun n d d' D D'). Qed.
Lemma iso_week_fun y yd wd g v g' v' : iso_week y yd wd g v -> iso_week y yd wd g' v' -> g = g' /\ v = v'.
Proof.
  unfold iso_week. rewrite !year_len_eq. set (th := thursday yd wd). clearbody th. cbv zeta.
  intros [(A1 & A2 & A3)|[(A1 & A2 & A3)|(A1 & A2 & A3)]] [(B1 & B2 & B3)|[(B1 & B2 & B3)|(B1 & B2 & B3)]]; subst; try (split; reflexivity); exfalso; destruct (leap_yearb y); lia.
Qed.
Scheme conv_all := Minimality for conv Sort Prop with all_conv_ind := Minimality for all Sort Prop.
Lemma all_fun t f l : all t f l -> forall l', all t f l' -> l = l'.
Proof.
  revert f l. apply (all_conv_ind t (fun c l => forall l', conv t c l' -> l = l') (fun f l => forall l', all t f l' -> l = l'));
  try (intros; match goal with H : conv _ _ ?l' |- _ = ?l' => inversion H; subst; eauto using number_fun end; fail).
  - intros l g v I1 N1 l' H. inversion H; subst. match goal with H : iso_week _ _ _ _ _ |- _ => destruct (iso_week_fun _ _ _ _ _ _ _ I1 H) as [-> ->] end. eauto using number_fun.
  - intros l g v I1 N1 l' H. inversion H; subst. match goal with H : iso_week _ _ _ _ _ |- _ => destruct (iso_week_fun _ _ _ _ _ _ _ I1 H) as [-> ->] end. eauto using number_fun.
  - intros l g v I1 N1 l' H. inversion H; subst. match goal with H : iso_week _ _ _ _ _ |- _ => destruct (iso_week_fun _ _ _ _ _ _ _ I1 H) as [-> ->] end. eauto using number_fun.
  - intros l h R1 M1 N1 l' H. inversion H as [| | | | | | | | | | | |? h' R2 M2 N2| | | | | | | | | | | | | | | | | | | | | | |]; subst.
    assert (h = h') as ->. { rewrite <- M1 in M2. pose proof (Z.div_mod h 12 ltac:(lia)). pose proof (Z.div_mod h' 12 ltac:(lia)). pose proof (Z.mod_pos_bound h 12 ltac:(lia)). lia. }
    eauto using number_fun.
  - intros l d R1 M1 N1 l' H. inversion H as [| | | | | | | | | | | | | | | | | | | |? d' R2 M2 N2| | | | | | | | | | | | | | |]; subst.
    assert (d = d') as ->. { pose proof (Z.div_mod d 7 ltac:(lia)). pose proof (Z.div_mod d' 7 ltac:(lia)). pose proof (Z.mod_pos_bound d 7 ltac:(lia)). lia. }
    eauto using number_fun.
  - intros l' H. now inversion H.
  - intros a f l Ha Hz Hf IH l' H. inversion H; subst; try congruence. f_equal. auto.
  - intros f l Hf IH l' H. inversion H; subst; try congruence. + f_equal; auto. + match goal with H : conv _ "%" _ |- _ => inversion H end.
  - intros a f l1 l2 H1 IH1 H2 IH2 l' H. inversion H; subst; try congruence.
    + inversion H1.
    + f_equal; auto.
    + inversion H1.
    + inversion H1.
  - intros a f l1 l2 Hi H1 IH1 H2 IH2 l' H. inversion H; subst; try congruence.
    + match goal with H : conv _ "E" _ |- _ => inversion H end.
    + f_equal; auto.
  - intros a f l1 l2 Hi H1 IH1 H2 IH2 l' H. inversion H; subst; try congruence.
    + match goal with H : conv _ "O" _ |- _ => inversion H end.
    + f_equal; auto.
Qed.
