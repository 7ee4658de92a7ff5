(** C39: the decimal digits of floats. *)
From Verif Require Import Base BaseLemmas LexModel DoPrintSpec CvtModel CvtSpec CvtProof CvtProof2.

(** The integral part: as many digits as it has are counted; the first [size] of them are stored
    from [o] on, nothing else of the array changes, no access is outside it.  Partial: *rem tells
    whether the value has further non-zero digits only if no digits were dropped. *)
Theorem C39_integral_partial : forall w b o size,
  finite w -> 0 <= o -> 1 <= size -> o + size <= zlen b ->
  exists ds b' rem, cvtdif (ofBits w) b o size = Ok (zlen ds, b', rem) /\
    decimalOf (intPart w) ds /\
    slice o (Z.min (zlen ds) size) b' = firstn (Z.to_nat size) ds /\
    within o size b b' /\
    (zlen ds <= size -> (rem = true <-> fracPart w <> 0)) /\
    (size < zlen ds -> rem = true).
Proof.
  intros w b o size F O S B. destruct (cvtdif_ok w b o size F O S B) as (b' & ds & rem & E & W & D & SL & R1 & R2).
  exists ds, b', rem. auto 10.
Qed.
(** The fractional part: exactly [size] digits of it, truncated; the result tells whether there are
    further non-zero digits. *)
Theorem C39_fraction : forall w b o size,
  finite w -> 0 <= o -> 0 <= size -> o + size <= zlen b ->
  exists b' rem, cvtdff (ofBits w) b o size false = Ok (b', 0, rem) /\
    decimal (slice o size b') /\ zlen (slice o size b') = size /\
    number (slice o size b') = fracPart w * 10 ^ size / 2 ^ 150 /\
    (rem = true <-> (fracPart w * 10 ^ size) mod 2 ^ 150 <> 0) /\
    within o size b b'.
Proof.
  intros w b o size F O S B. destruct (cvtdff_ok w b o size F O S B) as (b' & rem & E & W & D & N & R).
  exists b', rem. pose proof W as [L _]. rewrite slice_len by lia. auto 10.
Qed.
(** The same without the leading zeros, which are counted: [zc] zeros, then the digits. *)
Theorem C39_fraction_zeroes : forall w b o size,
  finite w -> 0 <= o -> 0 < size -> o + size <= zlen b ->
  exists b' zc rem, cvtdff (ofBits w) b o size true = Ok (b', zc, rem) /\
    decimal (slice o size b') /\ zlen (slice o size b') = size /\
    number (slice o size b') = fracPart w * 10 ^ (zc + size) / 2 ^ 150 /\
    (fracPart w = 0 -> zc = 0) /\
    (fracPart w <> 0 -> hd 48 (slice o size b') <> 48 /\ fracPart w * 10 ^ zc < 2 ^ 150 <= fracPart w * 10 ^ (zc + 1)) /\
    (rem = true <-> (fracPart w * 10 ^ (zc + size)) mod 2 ^ 150 <> 0) /\
    within o size b b'.
Proof.
  intros w b o size F O S B. destruct (cvtdff_z_ok w b o size F O S B) as (b' & zc & rem & E & W & ZR & D & N & LT & HH & R).
  exists b', zc, rem. pose proof W as [L _]. rewrite slice_len by lia. split; [exact E|]. split; [exact D|]. split; [reflexivity|].
  split; [exact N|]. destruct (Z.eqb_spec (fracPart w) 0) as [Z0|Z0]; (split; [intros; congruence|]); (split; [|split; assumption]); [congruence|].
  intros _. split; [exact HH|]. split; [exact LT|].
  (* the first digit is not 0 *)
  rewrite (slice_cons o size b') in HH, N, D by lia. cbn [hd] in HH. inversion D as [|? ? D0 DS]. subst.
  rewrite number_cons in N. pose proof (number_bound _ DS) as NB. rewrite slice_len in * by lia.
  assert (P : 0 < 10 ^ (size - 1)) by (apply Z.pow_pos_nonneg; lia).
  assert (GE : 10 ^ (size - 1) <= fracPart w * 10 ^ (zc + size) / 2 ^ 150) by (rewrite <- N; nia).
  replace (zc + size) with (zc + 1 + (size - 1)) in GE by lia. rewrite Z.pow_add_r in GE by lia.
  pose proof (Z.mul_div_le (fracPart w * (10 ^ (zc + 1) * 10 ^ (size - 1))) (2 ^ 150) ltac:(lia)).
  apply Z.mul_le_mono_pos_r with (10 ^ (size - 1)); [exact P|]. clear - GE H. nia.
Qed.
(** No finite float has more than 39 integral digits, so a buffer for 39 always suffices. *)
Theorem C39_at_most_39 : forall w ds, finite w -> decimalOf (intPart w) ds -> 1 <= zlen ds <= 39.
Proof.
  intros w ds F (D & N & NE & H1 & H2). destruct ds as [|c ds]; [congruence|]. pose proof (zlen_nonneg ds).
  rewrite zlen_cons. split; [lia|]. destruct (Z.eq_dec (intPart w) 0) as [Z0|Z0]; [specialize (H2 Z0); injection H2; intros -> ->; cbn; lia|].
  specialize (H1 Z0). cbn [hd] in H1. inversion D as [|? ? D0 DS]. subst. rewrite number_cons in N. pose proof (number_bound _ DS) as NB.
  destruct (Z.le_gt_cases (zlen ds) 38); [lia|]. exfalso.
  assert (P : 10 ^ 39 <= 10 ^ zlen ds) by (apply Z.pow_le_mono_r; lia).
  assert (U : intPart w < 10 ^ 39).
  { destruct F as [F1 F2]. unfold intPart, scaled. pose proof (Z.mod_pos_bound w (2 ^ 23) ltac:(lia)) as FF.
    assert (X : w / 2 ^ 23 <= 254) by (assert (w / 2 ^ 23 < 255) by (apply Z.div_lt_upper_bound; lia); lia).
    assert (X0 : 0 <= w / 2 ^ 23) by (apply Z.div_pos; lia).
    apply Z.div_lt_upper_bound; [lia|]. destruct (w / 2 ^ 23 =? 0); [lia|].
    apply Z.lt_le_trans with (2 ^ 24 * 2 ^ 254).
    - apply Z.lt_le_trans with (2 ^ 24 * 2 ^ (w / 2 ^ 23)).
      + apply Z.mul_lt_mono_pos_r; [apply Z.pow_pos_nonneg; lia|lia].
      + apply Z.mul_le_mono_nonneg_l; [lia|]. apply Z.pow_le_mono_r; lia.
    - vm_compute. discriminate. }
  nia.
Qed.
(** What is missing from [C39_integral_partial]: it is false that *rem is 0 whenever there are no
    further non-zero digits.  250 has no non-zero digits after 25. *)
Theorem C39_rem_refuted : exists w b, finite w /\ intPart w = 250 /\ fracPart w = 0 /\
  cvtdif (ofBits w) b 0 2 = Ok (3, [50; 53], true).
Proof. exists 1132068864, [0; 0]. split; [unfold finite; lia|]. split; [reflexivity|]. split; [reflexivity|]. vm_compute. reflexivity. Qed.

(** Non-vacuity: 123456.75 (0x47F12060); FLT_MAX; 0.0625; 2^-149. *)
Example demo_int : finite 1206984800 /\ cvtdif (ofBits 1206984800) (repeat 7 10) 1 8 = Ok (6, [7; 49; 50; 51; 52; 53; 54] ++ [53; 54; 7], true).
Proof. split; [unfold finite; lia|]. vm_compute. reflexivity. Qed.
Example demo_max : finite 2139095039 /\ cvtdif (ofBits 2139095039) (repeat 7 8) 2 5 = Ok (39, [7; 7; 51; 52; 48; 50; 56; 7], true).
Proof. split; [unfold finite; lia|]. vm_compute. reflexivity. Qed.
Example demo_frac : cvtdff (ofBits 1206984800) (repeat 7 5) 1 3 false = Ok ([7; 55; 53; 48; 7], 0, false).
Proof. vm_compute. reflexivity. Qed.
Example demo_zeroes : cvtdff (ofBits 1031798784) (repeat 7 3) 0 2 true = Ok ([54; 50; 7], 1, true).
Proof. vm_compute. reflexivity. Qed.
Example demo_tiny : cvtdff (ofBits 1) (repeat 7 3) 0 3 true = Ok ([49; 52; 48], 44, true).
Proof. vm_compute. reflexivity. Qed.

Print Assumptions C39_integral_partial.
Print Assumptions C39_fraction.
Print Assumptions C39_fraction_zeroes.
Print Assumptions C39_at_most_39.
Print Assumptions C39_rem_refuted.
