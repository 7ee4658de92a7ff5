(** Rounding: the loops of d2f compute the quotient rounded to nearest even, and that is the
    nearest binary32 pattern. *)
From Verif Require Import Base BaseLemmas FpModel FloatSpec FpLemmas.

(** X / D rounded to nearest, ties to even. *)
Definition rne (X D : Z) : Z :=
  let q := X / D in let r := X mod D in
  if (2 * r >? D) || ((2 * r =? D) && Z.odd q) then q + 1 else q.

Lemma rne_scale X D c : 0 < c -> 0 < D -> rne (X * c) (D * c) = rne X D.
Proof.
  intros C P. unfold rne. rewrite Z.div_mul_cancel_r by lia.
  rewrite Z.mul_mod_distr_r by lia.
  replace (2 * (X mod D * c) >? D * c) with (2 * (X mod D) >? D) by nia.
  replace (2 * (X mod D * c) =? D * c) with (2 * (X mod D) =? D) by nia. reflexivity.
Qed.

Lemma rne_bounds X D : 0 < D -> X / D <= rne X D <= X / D + 1.
Proof. intros. unfold rne. destruct (_ || _); lia. Qed.

(** The rounded quotient is nearest among the integers. *)
Lemma rne_nearest X D q : 0 < D ->
  Z.abs (X - rne X D * D) <= Z.abs (X - q * D) /\
  (Z.abs (X - rne X D * D) = Z.abs (X - q * D) -> rne X D = q \/ Z.even (rne X D) = true).
Proof.
  intros P. pose proof (Z.div_mod X D ltac:(lia)) as E. pose proof (Z.mod_pos_bound X D P) as B.
  unfold rne. set (q0 := X / D) in *. set (r := X mod D) in *. clearbody q0 r. subst X.
  assert (T : q <= q0 \/ q >= q0 + 1) by lia.
  destruct (Z.gtb_spec (2 * r) D) as [G|G]; cbn [orb].
  - replace (Z.abs (D * q0 + r - (q0 + 1) * D)) with (D - r) by nia.
    destruct T.
    + assert (D * q0 + r - q * D >= r) by nia. split; lia.
    + destruct (Z.eq_dec q (q0 + 1)) as [->|N].
      * replace (Z.abs _) with (D - r) by nia. split; [lia|auto].
      * assert (q * D - (D * q0 + r) >= 2 * D - r) by nia. split; lia.
  - destruct (Z.eqb_spec (2 * r) D) as [H|H]; cbn [andb].
    + destruct (Z.odd q0) eqn:O; cbn [negb].
      * replace (Z.abs (D * q0 + r - (q0 + 1) * D)) with (D - r) by nia.
        split; [|right; now rewrite Z.even_add, <- Z.negb_odd, O].
        destruct T; [assert (D * q0 + r - q * D >= r) by nia; lia|].
        assert (q * D - (D * q0 + r) >= D - r) by nia. lia.
      * replace (Z.abs (D * q0 + r - q0 * D)) with r by nia.
        split; [|right; rewrite <- Z.negb_odd, O; reflexivity].
        destruct T; [assert (D * q0 + r - q * D >= r) by nia; lia|].
        assert (q * D - (D * q0 + r) >= D - r) by nia. lia.
    + replace (Z.abs (D * q0 + r - q0 * D)) with r by nia.
      destruct T.
      * destruct (Z.eq_dec q q0) as [->|N].
        -- replace (Z.abs _) with r by nia. split; [lia|auto].
        -- assert (D * q0 + r - q * D >= D + r) by nia. split; lia.
      * assert (q * D - (D * q0 + r) >= D - r) by nia. split; lia.
Qed.

(** ** Values of patterns *)
Lemma f32_value_nonneg u : 0 <= u -> 0 <= f32_value u.
Proof.
  intros U. unfold f32_value. pose proof (Z.mod_pos_bound u (2 ^ 23) ltac:(lia)).
  destruct (_ =? 0); [lia|]. apply Z.mul_nonneg_nonneg; [lia|]. apply Z.pow_nonneg. lia.
Qed.

Lemma f32_value_at q j : 0 <= j -> 2 ^ 23 <= q <= 2 ^ 24 \/ (j = 0 /\ 0 <= q <= 2 ^ 24) ->
  f32_value (q + j * 2 ^ 23) = q * 2 ^ j.
Proof.
  intros J H. unfold f32_value. rewrite Z.div_add, Z.mod_add by lia.
  assert (P : 0 < 2 ^ j) by (apply Z.pow_pos_nonneg; lia).
  destruct (Z_lt_le_dec q (2 ^ 23)).
  - rewrite Z.div_small, Z.mod_small by lia. destruct H as [H|(-> & _)]; [lia|].
    cbn [Z.eqb Z.add]. change (2 ^ 0) with 1. lia.
  - destruct (Z.eq_dec q (2 ^ 24)) as [->|N].
    + change (2 ^ 24 / 2 ^ 23) with 2. change (2 ^ 24 mod 2 ^ 23) with 0.
      replace (2 + j =? 0) with false by lia.
      replace (2 + j - 1) with (1 + j) by lia. rewrite Z.pow_add_r by lia. lia.
    + replace (q / 2 ^ 23) with 1 by lia. replace (q mod 2 ^ 23) with (q - 2 ^ 23) by lia.
      replace (1 + j =? 0) with false by lia. replace (1 + j - 1) with j by lia. lia.
Qed.

Lemma f32_value_succ u : 0 <= u -> f32_value u < f32_value (u + 1).
Proof.
  intros U. set (j := u / 2 ^ 23). set (m := u mod 2 ^ 23).
  assert (M : 0 <= m < 2 ^ 23) by (apply Z.mod_pos_bound; lia).
  assert (E : u = m + j * 2 ^ 23) by (unfold m, j; lia).
  assert (J : 0 <= j) by (apply Z.div_pos; lia).
  destruct (Z.eq_dec j 0) as [J0|J0].
  - pose proof (f32_value_at m 0 ltac:(lia) ltac:(right; lia)) as A.
    pose proof (f32_value_at (m + 1) 0 ltac:(lia) ltac:(right; lia)) as B.
    replace u with (m + 0 * 2 ^ 23) by lia. rewrite A.
    replace (m + 0 * 2 ^ 23 + 1) with (m + 1 + 0 * 2 ^ 23) by lia. rewrite B. change (2 ^ 0) with 1. lia.
  - assert (P : 0 < 2 ^ (j - 1)) by (apply Z.pow_pos_nonneg; lia).
    pose proof (f32_value_at (2 ^ 23 + m) (j - 1) ltac:(lia) ltac:(left; lia)) as A.
    pose proof (f32_value_at (2 ^ 23 + m + 1) (j - 1) ltac:(lia) ltac:(left; lia)) as B.
    replace u with (2 ^ 23 + m + (j - 1) * 2 ^ 23) by lia. rewrite A.
    replace (2 ^ 23 + m + (j - 1) * 2 ^ 23 + 1) with (2 ^ 23 + m + 1 + (j - 1) * 2 ^ 23) by lia.
    rewrite B. nia.
Qed.

Lemma f32_value_lt u v : 0 <= u -> u < v -> f32_value u < f32_value v.
Proof.
  intros U L. replace v with (u + 1 + Z.of_nat (Z.to_nat (v - u - 1))) by lia.
  generalize (Z.to_nat (v - u - 1)). clear L v.
  induction n as [|n IH].
  - replace (u + 1 + Z.of_nat 0) with (u + 1) by lia. now apply f32_value_succ.
  - eapply Z.lt_trans; [exact IH|].
    replace (u + 1 + Z.of_nat (S n)) with (u + 1 + Z.of_nat n + 1) by lia.
    apply f32_value_succ. lia.
Qed.
Lemma f32_value_le u v : 0 <= u -> u <= v -> f32_value u <= f32_value v.
Proof. intros U L. destruct (Z.eq_dec u v) as [->|]; [lia|]. pose proof (f32_value_lt u v). lia. Qed.

Lemma f32_value_inf : f32_value f32_inf = 2 ^ 277.
Proof. vm_compute. reflexivity. Qed.

(** The answer to "nearest" from the rounded quotient. *)
Lemma nearest_rne num den j : 0 < den -> 0 <= num -> 0 <= j ->
  let Y := num * 2 ^ 149 in let D := den * 2 ^ j in
  Y / D < 2 ^ 24 -> 2 ^ 23 <= Y / D \/ j = 0 ->
  nearest_even num den (Z.min (rne Y D + j * 2 ^ 23) f32_inf).
Proof.
  intros DP NP J Y D Q0 Q1.
  assert (PJ : 0 < 2 ^ j) by (apply Z.pow_pos_nonneg; lia).
  assert (DD : 0 < D) by (unfold D; nia).
  assert (YN : 0 <= Y) by (unfold Y; lia).
  pose proof (rne_bounds Y D DD) as RB. pose proof (Z.div_pos Y D YN DD) as QP.
  pose proof (Z.div_mod Y D ltac:(lia)) as DM. pose proof (Z.mod_pos_bound Y D DD) as MB.
  unfold nearest_even. fold Y.
  assert (Z277 : 2 ^ 277 = 2 ^ 23 * 2 ^ 254) by reflexivity.
  assert (INF : f32_inf = 255 * 2 ^ 23) by reflexivity.
  destruct (Z_lt_le_dec f32_inf (rne Y D + j * 2 ^ 23)) as [C|C].
  - (* infinity *)
    rewrite Z.min_r by lia. split; [unfold f32_inf; lia|].
    intros u' U'. cbv beta zeta.
    assert (G : 254 <= j) by lia.
    assert (B : 2 ^ 277 * den <= Y).
    { rewrite Z277. assert (M : 2 ^ 254 <= 2 ^ j) by (apply Z.pow_le_mono_r; lia).
      destruct Q1 as [Q1|Q1]; [|lia].
      assert (2 ^ 23 * 2 ^ 254 * den <= 2 ^ 23 * 2 ^ j * den).
      { apply Z.mul_le_mono_nonneg_r; [lia|]. apply Z.mul_le_mono_nonneg_l; lia. }
      assert (2 ^ 23 * D <= Y / D * D) by (apply Z.mul_le_mono_nonneg_r; lia).
      unfold D in *. lia. }
    rewrite f32_value_inf.
    destruct (Z.eq_dec u' f32_inf) as [->|N].
    + rewrite f32_value_inf. split; [lia|auto].
    + pose proof (f32_value_lt u' f32_inf ltac:(lia) ltac:(lia)) as L. rewrite f32_value_inf in L.
      assert (f32_value u' * den < 2 ^ 277 * den) by (apply Z.mul_lt_mono_pos_r; lia).
      lia.
  - rewrite Z.min_l by lia. split; [lia|].
    intros u' U'. cbv beta zeta.
    rewrite (f32_value_at (rne Y D) j) by lia.
    replace (rne Y D * 2 ^ j * den) with (rne Y D * D) by (unfold D; lia).
    set (q := rne Y D) in *.
    assert (EV : Z.even (q + j * 2 ^ 23) = Z.even q).
    { rewrite Z.even_add, Z.even_mul. change (Z.even (2 ^ 23)) with true. rewrite orb_true_r.
      now destruct (Z.even q). }
    (* patterns of the same binade *)
    assert (IN : forall q', 2 ^ 23 <= q' <= 2 ^ 24 \/ (j = 0 /\ 0 <= q' <= 2 ^ 24) ->
       Z.abs (Y - q * D) <= Z.abs (Y - q' * D) /\
       (Z.abs (Y - q * D) = Z.abs (Y - q' * D) -> q = q' \/ Z.even q = true)).
    { intros q' _. apply rne_nearest. exact DD. }
    destruct (Z_lt_le_dec u' (j * 2 ^ 23 + (if j =? 0 then 0 else 2 ^ 23))) as [LO|LO].
    + (* below: j > 0 and the bottom of the binade is at most Y *)
      destruct (Z.eqb_spec j 0) as [J0|J0]; [lia|].
      pose proof (f32_value_lt u' (2 ^ 23 + j * 2 ^ 23) ltac:(lia) ltac:(lia)) as L.
      rewrite f32_value_at in L by lia.
      destruct (IN (2 ^ 23) ltac:(left; lia)) as (I1 & _).
      assert (2 ^ 23 * D <= Y).
      { assert (2 ^ 23 * D <= Y / D * D) by (apply Z.mul_le_mono_nonneg_r; lia). lia. }
      assert (f32_value u' * den < 2 ^ 23 * D).
      { unfold D. replace (2 ^ 23 * (den * 2 ^ j)) with (2 ^ 23 * 2 ^ j * den) by lia.
        apply Z.mul_lt_mono_pos_r; lia. }
      lia.
    + destruct (Z_lt_le_dec (2 ^ 24 + j * 2 ^ 23) u') as [HI|HI].
      * pose proof (f32_value_lt (2 ^ 24 + j * 2 ^ 23) u' ltac:(lia) HI) as L.
        rewrite f32_value_at in L by lia.
        assert (2 ^ 24 * D > Y).
        { assert (Y / D * D <= (2 ^ 24 - 1) * D) by (apply Z.mul_le_mono_nonneg_r; lia). lia. }
        assert (2 ^ 24 * D < f32_value u' * den).
        { unfold D. replace (2 ^ 24 * (den * 2 ^ j)) with (2 ^ 24 * 2 ^ j * den) by lia.
          apply Z.mul_lt_mono_pos_r; lia. }
        destruct (IN (2 ^ 24) ltac:(lia)) as (I1 & _). lia.
      * assert (R : 2 ^ 23 <= u' - j * 2 ^ 23 <= 2 ^ 24 \/ (j = 0 /\ 0 <= u' - j * 2 ^ 23 <= 2 ^ 24)).
        { destruct (Z.eqb_spec j 0); lia. }
        destruct (IN (u' - j * 2 ^ 23) R) as (I1 & I2).
        pose proof (f32_value_at (u' - j * 2 ^ 23) j J R) as V.
        replace (u' - j * 2 ^ 23 + j * 2 ^ 23) with u' in V by lia. rewrite V.
        replace ((u' - j * 2 ^ 23) * 2 ^ j * den) with ((u' - j * 2 ^ 23) * D) by (unfold D; lia).
        rewrite EV. split; [exact I1|]. intros EQ. destruct (I2 EQ); [left; lia|auto].
Qed.

(** Too small and too large numbers. *)
Lemma nearest_zero num den : 0 < den -> 0 <= num -> 2 * (num * 2 ^ 149) < den -> nearest_even num den 0.
Proof.
  intros DP NP S. split; [unfold f32_inf; lia|]. intros u' U'. cbv beta zeta.
  set (Y := num * 2 ^ 149) in *. assert (0 <= Y) by (unfold Y; lia).
  change (f32_value 0) with 0.
  destruct (Z.eq_dec u' 0) as [->|N]; [change (f32_value 0) with 0; split; [lia|auto]|].
  pose proof (f32_value_lt 0 u' ltac:(lia) ltac:(lia)) as L. change (f32_value 0) with 0 in L.
  assert (den <= f32_value u' * den) by nia.
  lia.
Qed.

Lemma nearest_inf num den : 0 < den -> 2 ^ 128 * den <= num -> nearest_even num den f32_inf.
Proof.
  intros DP S. split; [unfold f32_inf; lia|]. intros u' U'. cbv beta zeta.
  assert (B : 2 ^ 277 * den <= num * 2 ^ 149).
  { replace (2 ^ 277) with (2 ^ 128 * 2 ^ 149) by reflexivity. lia. }
  rewrite f32_value_inf. set (Y := num * 2 ^ 149) in *. clearbody Y.
  destruct (Z.eq_dec u' f32_inf) as [->|N]; [rewrite f32_value_inf; split; [lia|auto]|].
  pose proof (f32_value_lt u' f32_inf ltac:(lia) ltac:(lia)) as L. rewrite f32_value_inf in L.
  assert (f32_value u' * den < 2 ^ 277 * den) by (apply Z.mul_lt_mono_pos_r; lia). lia.
Qed.

(** There is only one answer. *)
Lemma nearest_unique num den u v : 0 < den -> nearest_even num den u -> nearest_even num den v -> u = v.
Proof.
  intros DP (U & HU) (V & HV).
  destruct (HU v V) as (A1 & A2). destruct (HV u U) as (B1 & B2).
  assert (E : Z.abs (num * 2 ^ 149 - f32_value u * den) = Z.abs (num * 2 ^ 149 - f32_value v * den)) by lia.
  destruct (A2 E) as [|EU]; [assumption|]. destruct (B2 (eq_sym E)) as [|EV]; [congruence|].
  destruct (Z.eq_dec u v) as [|N]; [assumption|exfalso].
  (* an odd pattern lies strictly between two distinct even ones and is nearer *)
  assert (W : exists a b, 0 <= a /\ a < b /\ b <= f32_inf /\ Z.even a = true /\ Z.even b = true /\
     nearest_even num den a /\
     Z.abs (num * 2 ^ 149 - f32_value a * den) = Z.abs (num * 2 ^ 149 - f32_value b * den)).
  { destruct (Z_lt_le_dec u v); [exists u, v|exists v, u]; (repeat split; auto; try lia);
    try (apply HU; auto); try (apply HV; auto). }
  destruct W as (a & b & A0 & AB & BI & EA & EB & (_ & HA) & EQ).
  assert (a + 1 <> b).
  { intros <-. rewrite Z.even_add, EA in EB. discriminate. }
  destruct (HA (a + 1) ltac:(lia)) as (C & _).
  pose proof (f32_value_lt a (a + 1) ltac:(lia) ltac:(lia)).
  pose proof (f32_value_lt (a + 1) b ltac:(lia) ltac:(lia)).
  assert (f32_value a * den < f32_value (a + 1) * den) by (apply Z.mul_lt_mono_pos_r; lia).
  assert (f32_value (a + 1) * den < f32_value b * den) by (apply Z.mul_lt_mono_pos_r; lia).
  set (Y := num * 2 ^ 149) in *. clearbody Y. lia.
Qed.
