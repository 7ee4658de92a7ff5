(** d2f computes the correctly rounded value: the whole function. *)
From Verif Require Import Base BaseLemmas FpModel FloatSpec FpLemmas FpProof FpCode.

Ltac Zify.zify_post_hook ::= idtac.

(** ** Putting exponent and mantissa together *)
Lemma assemble_ok v E : 0 <= v < 2 ^ 24 -> -149 <= E -> (v < 2 ^ 23 -> E = -149) ->
  assemble v E = if v <? 2 ^ 23 then v else Z.min (v + (E + 149) * 2 ^ 23) f32_inf.
Proof.
  intros V EE LO. unfold assemble. rewrite land_bit by (unfold FP_MANT_BITS; lia).
  change (u32 (Z.lnot (Z.shiftl 1 FP_MANT_BITS))) with 4286578687.
  change (Z.shiftl 1 FP_EXP_BITS - 1) with 255.
  change (Z.shiftl 1 (FP_EXP_BITS - 1) - 1 + FP_MANT_BITS) with 150.
  change FP_MANT_BITS with 23.
  assert (TB : Z.testbit v 23 = negb (v <? 2 ^ 23)).
  { rewrite Z.testbit_eqb by lia. dlia. }
  assert (LA : Z.land v 4286578687 = v mod 2 ^ 23).
  { rewrite <- Z.land_ones by lia. apply Z.bits_inj'. intros i I. rewrite !Z.land_spec.
    destruct (Z_lt_le_dec i 24).
    - f_equal. assert (C : i = 0 \/ i = 1 \/ i = 2 \/ i = 3 \/ i = 4 \/ i = 5 \/ i = 6 \/ i = 7 \/ i = 8 \/ i = 9 \/
        i = 10 \/ i = 11 \/ i = 12 \/ i = 13 \/ i = 14 \/ i = 15 \/ i = 16 \/ i = 17 \/ i = 18 \/ i = 19 \/ i = 20 \/
        i = 21 \/ i = 22 \/ i = 23) by lia.
      repeat (destruct C as [->|C]; [reflexivity|]). now subst.
    - destruct (Z.eq_dec v 0) as [->|NZ]; [now rewrite Z.bits_0|].
      rewrite (Z.bits_above_log2 v); [reflexivity|lia|].
      assert (Z.log2 v < 24) by (apply Z.log2_lt_pow2; lia). lia. }
  rewrite TB, LA, negb_involutive.
  destruct (Z.ltb_spec v (2 ^ 23)) as [S|S].
  - change (0 >=? 255) with false. cbv iota. rewrite Z.shiftl_0_l. change (u32 0) with 0.
    rewrite Z.lor_0_r. apply Z.mod_small. lia.
  - destruct (Z.geb_spec (E + 150) 255) as [G|G].
    + change (Z.lor 0 (u32 (Z.shiftl 255 23))) with f32_inf. rewrite Z.min_r by (unfold f32_inf; lia). reflexivity.
    + rewrite Z.shiftl_mul_pow2 by lia. rewrite u32_small by lia.
      rewrite Z.lor_comm, lor_add by (try apply Z.mod_pos_bound; lia).
      rewrite Z.min_l by (unfold f32_inf; lia). dlia.
Qed.

(** From the quotient to the result. *)
Lemma finish_ok n num den sh s : 0 < num -> 0 < den -> 0 <= sh <= 900 ->
  quot n (num * 2 ^ sh) den s -> bexp s = - sh -> den <= num * 2 ^ sh ->
  num * 2 ^ sh / den < 2 ^ 600 ->
  (num * 2 ^ sh / den < 2 ^ 24 -> num * 2 ^ sh mod den = 0 /\ sh <= 149) ->
  2 ^ 23 <= num * 2 ^ sh / den ->
  exists u, (let? (s, tmp) := round_loop fp_fuel s in
             let? res := collect fp_fuel tmp 0 (fbuf s) in
             Some (assemble res (bexp s))) = Some u /\ nearest_even num den u.
Proof.
  intros NP DP SH Q B DX SM EX BIG. set (X := num * 2 ^ sh) in *.
  assert (PS : 0 < 2 ^ sh) by (apply Z.pow_pos_nonneg; lia).
  assert (XP : 0 < X) by (unfold X; nia).
  destruct (round_loop_ok n X den s Q XP DP DX SM ltac:(lia)
              ltac:(intros H; destruct (EX H); lia) BIG)
    as (s1 & tmp & k & R & K & (E1 & E2 & E3 & E4) & T1 & T2 & T3).
  rewrite R. cbn [obind].
  set (E := bexp s + k) in *. set (D := den * 2 ^ k) in *.
  assert (PK : 0 < 2 ^ k) by (apply Z.pow_pos_nonneg; lia).
  assert (DD : 0 < D) by (unfold D; nia).
  pose proof (rne_bounds X D DD) as RB. pose proof (Z.div_pos X D ltac:(lia) DD) as QP.
  (* the same quotient in units of 2^-149 *)
  set (j := E + 149).
  assert (PJ : 0 < 2 ^ j) by (apply Z.pow_pos_nonneg; lia).
  assert (SC : X * 2 ^ 149 = num * 2 ^ 149 * 2 ^ sh) by (unfold X; lia).
  assert (SD : D * 2 ^ 149 = den * 2 ^ j * 2 ^ sh).
  { unfold D, j, E. rewrite B. rewrite <- !Z.mul_assoc, <- !Z.pow_add_r by lia. f_equal. f_equal. lia. }
  assert (RN : rne X D = rne (num * 2 ^ 149) (den * 2 ^ j)).
  { rewrite <- (rne_scale X D (2 ^ 149)) by lia. rewrite SC, SD. apply rne_scale; nia. }
  assert (DV : X / D = num * 2 ^ 149 / (den * 2 ^ j)).
  { rewrite <- (Z.div_mul_cancel_r X D (2 ^ 149)) by lia. rewrite SC, SD.
    apply Z.div_mul_cancel_r; nia. }
  pose proof (nearest_rne num den j DP ltac:(lia) ltac:(lia) ltac:(cbv zeta; lia) ltac:(cbv zeta; lia)) as NR.
  cbv zeta in NR. rewrite <- RN in NR.
  assert (COL : forall v, holds n s1 v -> 0 <= v < 2 ^ 24 -> collect fp_fuel tmp 0 (fbuf s1) = Some v).
  { intros v (By & L & V) VR. rewrite <- V.
    replace 0 with (bval (fbuf s1) / 256 ^ (tmp / 8 + 1)) at 1.
    - apply collect_ok; auto; [lia|unfold zlen; lia|rewrite fp_fuel_eq; lia].
    - apply Z.div_small. split; [lia|]. eapply Z.lt_le_trans; [exact T3|].
      rewrite pow256 by dlia. apply Z.pow_le_mono_r; dlia. }
  destruct E4 as [(C1 & C2 & C3)|(C1 & C2 & C3)].
  - rewrite (COL _ C2) by lia. cbn [obind]. eexists. split; [reflexivity|].
    rewrite C3, assemble_ok by lia.
    destruct (Z.ltb_spec (rne X D) (2 ^ 23)) as [S|S].
    + replace (rne X D) with (Z.min (rne X D + j * 2 ^ 23) f32_inf); [exact NR|]. unfold f32_inf. lia.
    + exact NR.
  - rewrite (COL _ C2) by lia. cbn [obind]. eexists. split; [reflexivity|].
    rewrite C3, assemble_ok by lia. change (2 ^ 23 <? 2 ^ 23) with false. cbv iota.
    replace (2 ^ 23 + (E + 1 + 149) * 2 ^ 23) with (rne X D + j * 2 ^ 23) by (rewrite C1; lia).
    exact NR.
Qed.

(** ** The whole function *)
Definition dec_digits (ds : list Z) : Prop := Forall (fun d => 0 <= d <= 9) ds.

Lemma dec_from_bounds ds : forall n, dec_digits ds -> 0 <= n ->
  n * 10 ^ zlen ds <= dec_from n ds < (n + 1) * 10 ^ zlen ds.
Proof.
  induction ds as [|d t IH]; intros n F N; cbn [dec_from].
  - rewrite zlen_nil. lia.
  - inversion F as [|? ? H F']; subst. specialize (IH (n * 10 + d) F' ltac:(lia)).
    rewrite zlen_cons, Z.pow_add_r by (pose proof (zlen_nonneg t); lia).
    assert (0 < 10 ^ zlen t) by (apply Z.pow_pos_nonneg; [lia|apply zlen_nonneg]).
    change (10 ^ 1) with 10. nia.
Qed.

Lemma load_digits_ok n : forall ds s v, dec_digits ds -> holds n s v -> 0 <= v ->
  dec_from v ds < 256 ^ Z.of_nat n -> holds n (load_digits ds s) (dec_from v ds) /\
  bexp (load_digits ds s) = bexp s /\ inexact (load_digits ds s) = inexact s.
Proof.
  induction ds as [|d t IH]; intros s v F H V B; cbn [load_digits dec_from] in *; [auto|].
  inversion F as [|? ? HD F']; subst.
  assert (LE : v * 10 + d <= dec_from (v * 10 + d) t).
  { pose proof (dec_from_bounds t (v * 10 + d) F' ltac:(lia)).
    assert (0 < 10 ^ zlen t) by (apply Z.pow_pos_nonneg; [lia|apply zlen_nonneg]). nia. }
  destruct (IH (mul_step 10 d s) (v * 10 + d) F') as (A & C & D); [|lia|lia|].
  - apply mul_step_ok; auto; lia.
  - auto.
Qed.

(** Finite facts about powers of ten (up to 112 digits, exponents down to -157). *)
Definition upto (n : nat) : list Z := map Z.of_nat (seq 0 n).
Lemma in_upto n z : 0 <= z < Z.of_nat n -> In z (upto n).
Proof. intros. unfold upto. apply in_map_iff. exists (Z.to_nat z). split; [lia|]. apply in_seq. lia. Qed.

Lemma ten_bits d : 0 <= d <= 200 -> 10 ^ d <= 2 ^ ((d * 10 + 2) / 3).
Proof.
  intros D.
  assert (C : forallb (fun d => 10 ^ d <=? 2 ^ ((d * 10 + 2) / 3)) (upto 201) = true) by (vm_compute; reflexivity).
  rewrite forallb_forall in C. specialize (C d (in_upto 201 d ltac:(lia))). lia.
Qed.

Definition quot_bits (cnt k : Z) : Z :=
  let t1 := (cnt * 10 + 2) / 3 in let t2 := ((1 + k) * 10 + 2) / 3 + 25 in
  (if t1 >=? t2 then t1 else t2) - t1.
Lemma quotient_big cnt k : 1 <= cnt <= 112 -> 1 <= k <= cnt + 45 ->
  2 ^ 24 * 10 ^ k <= 10 ^ (cnt - 1) * 2 ^ quot_bits cnt k.
Proof.
  intros C K.
  assert (H : forallb (fun cnt => forallb (fun k =>
     (cnt =? 0) || (k =? 0) || (k >? cnt + 45) || (2 ^ 24 * 10 ^ k <=? 10 ^ (cnt - 1) * 2 ^ quot_bits cnt k))
     (upto 158)) (upto 113) = true) by (vm_compute; reflexivity).
  rewrite forallb_forall in H. specialize (H cnt (in_upto 113 cnt ltac:(lia))).
  rewrite forallb_forall in H. specialize (H k (in_upto 158 k ltac:(lia))).
  destruct (Z.eqb_spec cnt 0); [lia|]. destruct (Z.eqb_spec k 0); [lia|].
  destruct (Z.gtb_spec k (cnt + 45)); [lia|]. cbn [orb] in H. apply Z.leb_le. exact H.
Qed.

Lemma holds_zero (n : nat) : holds n (Fp (repeat 0 n) 0 false false 0) 0.
Proof.
  split; [|split].
  - cbn [fbuf]. induction n; constructor; [lia|exact IHn].
  - apply repeat_length.
  - cbn [fbuf]. induction n; [reflexivity|]. cbn [repeat bval]. rewrite IHn. reflexivity.
Qed.

Theorem d2f_ok ds e : dec_digits ds -> 1 <= zlen ds <= 112 -> (zget ds 0 <> Some 0 \/ ds = [0]) ->
  exists u, d2f ds e = Some u /\ rounds_decimal ds e u.
Proof.
  intros F L LZ. unfold d2f.
  destruct (zget_ex ds 0) as (d0 & G0); [lia|]. rewrite G0. cbn [obind].
  destruct ((zlen ds =? 1) && (d0 =? 0)) eqn:Z1.
  { (* zero *)
    exists 0. split; [reflexivity|].
    assert (ds = [0]) as ->.
    { destruct ds as [|x [|y t]]; [rewrite zlen_nil in L; lia| |rewrite !zlen_cons in Z1; pose proof (zlen_nonneg t); lia].
      rewrite zget_cons_0 in G0. apply some_inj in G0. f_equal. lia. }
    unfold rounds_decimal, rounds_to. change (dec_value [0]) with 0. destruct (e >=? 0) eqn:GE.
    - apply nearest_zero; lia.
    - apply nearest_zero; [apply Z.pow_pos_nonneg; lia|lia|].
      assert (0 < 10 ^ (- e)) by (apply Z.pow_pos_nonneg; lia). lia. }
  assert (D0 : 1 <= d0).
  { destruct LZ as [LZ| ->].
    - rewrite G0 in LZ. destruct ds as [|x t]; [rewrite zlen_nil in L; lia|].
      rewrite zget_cons_0 in G0. apply some_inj in G0. subst x. inversion F as [|? ? H _]; subst.
      destruct (Z.eq_dec d0 0) as [->|]; [now destruct LZ|lia].
    - rewrite zget_cons_0 in G0. apply some_inj in G0. subst d0. discriminate Z1. }
  set (cnt := zlen ds) in *. set (N := dec_value ds).
  assert (NB : 10 ^ (cnt - 1) <= N < 10 ^ cnt).
  { unfold N, dec_value. destruct ds as [|x t]; [rewrite zget_nil in G0; discriminate|].
    rewrite zget_cons_0 in G0. apply some_inj in G0. subst x.
    inversion F as [|? ? H F']; subst. cbn [dec_from]. change (0 * 10 + d0) with d0.
    pose proof (dec_from_bounds t d0 F' ltac:(lia)) as B.
    pose proof (zlen_cons d0 t) as LC. fold cnt in LC. replace (cnt - 1) with (zlen t) by lia.
    rewrite LC, Z.pow_add_r by (pose proof (zlen_nonneg t); lia). change (10 ^ 1) with 10.
    assert (0 < 10 ^ zlen t) by (apply Z.pow_pos_nonneg; [lia|apply zlen_nonneg]). nia. }
  assert (P1 : 0 < 10 ^ (cnt - 1)) by (apply Z.pow_pos_nonneg; lia).
  change FP_MIN_EXP with (-46). change FP_MAX_EXP with 38.
  destruct (Z.ltb_spec e (-46 - (cnt - 1))) as [SM|SM].
  { (* too small *)
    exists 0. split; [reflexivity|]. unfold rounds_decimal, rounds_to. replace (e >=? 0) with false by lia.
    fold N. assert (0 < 10 ^ (- e)) by (apply Z.pow_pos_nonneg; lia). apply nearest_zero; [lia|lia|].
    assert (A : 10 ^ cnt * 10 ^ 46 <= 10 ^ (- e)).
    { rewrite <- Z.pow_add_r by lia. apply Z.pow_le_mono_r; lia. }
    assert (B : 2 * 2 ^ 149 <= 10 ^ 46) by (vm_compute; discriminate).
    set (T := 10 ^ 46) in *. set (U := 2 ^ 149) in *. assert (0 < U) by reflexivity. clearbody T U. nia. }
  destruct (Z.gtb_spec e (38 - (cnt - 1))) as [BG|BG].
  { (* too large *)
    exists f32_inf. split; [reflexivity|]. unfold rounds_decimal, rounds_to. fold N.
    assert (B : 2 ^ 128 <= 10 ^ 39) by (vm_compute; discriminate).
    destruct (Z.geb_spec e 0) as [E0|E0].
    - apply nearest_inf; [lia|].
      assert (A : 10 ^ 39 <= 10 ^ (cnt - 1) * 10 ^ e).
      { rewrite <- Z.pow_add_r by lia. apply Z.pow_le_mono_r; lia. }
      assert (0 < 10 ^ e) by (apply Z.pow_pos_nonneg; lia). nia.
    - assert (0 < 10 ^ (- e)) by (apply Z.pow_pos_nonneg; lia). apply nearest_inf; [lia|].
      assert (A : 10 ^ 39 * 10 ^ (- e) <= 10 ^ (cnt - 1)).
      { rewrite <- Z.pow_add_r by lia. apply Z.pow_le_mono_r; lia. }
      nia. }
  unfold rounds_decimal, rounds_to. fold N.
  destruct (Z.geb_spec e 0) as [E0|E0].
  - (* no division *)
    replace (e <? 0) with false by lia. cbv iota.
    unfold num_bin_digits. replace (e >=? 0) with true by lia. cbv zeta iota.
    change (FP_MANT_BITS + 1) with 24. change FP_BUF_SIZE with 69.
    set (t1 := ((cnt + e) * 10 + 2) / 3).
    set (nb := if t1 >=? 24 then t1 else 24).
    assert (NBB : t1 <= nb /\ 24 <= nb /\ nb <= 130) 
      by (assert (t1 <= 130) by (unfold t1; clear - BG L; dlia); unfold nb; destruct (Z.geb_spec t1 24); lia).
    replace ((nb + 7) / 8 <=? 69) with true by (clear - NBB; dlia). cbn [guard obind].
    set (n := Z.to_nat ((nb + 7) / 8)).
    assert (NN : nb <= 8 * Z.of_nat n /\ 3 <= Z.of_nat n) by (clear - NBB; unfold n; dlia).
    set (M := N * 10 ^ e).
    assert (PE : 0 < 10 ^ e) by (apply Z.pow_pos_nonneg; lia).
    assert (MB : N <= M < 2 ^ nb).
    { split; [unfold M; nia|]. eapply Z.lt_le_trans with (10 ^ cnt * 10 ^ e); [unfold M; nia|].
      rewrite <- Z.pow_add_r by lia. eapply Z.le_trans; [apply ten_bits; lia|].
      apply Z.pow_le_mono_r; [lia|]. unfold t1 in NBB. lia. }
    assert (MF : M < 256 ^ Z.of_nat n).
    { eapply Z.lt_le_trans; [apply MB|]. rewrite pow256 by lia. apply Z.pow_le_mono_r; lia. }
    destruct (load_digits_ok n ds (Fp (repeat 0 n) 0 false false 0) 0 F (holds_zero n) ltac:(lia)) as (H1 & B1 & I1).
    { fold (dec_value ds). fold N. lia. }
    fold (dec_value ds) in H1. fold N in H1. set (s1 := load_digits _ _) in *.
    destruct (times_inv (fun i s => holds n s (N * 10 ^ i) /\ bexp s = 0 /\ inexact s = false)
                (mul_step 10 0) fp_fuel e 0 s1) as (s2 & T2 & H2 & B2 & I2).
    { intros i s I (H & B & IX). split; [|split; [exact B|exact IX]].
      replace (N * 10 ^ (i + 1)) with (N * 10 ^ i * 10 + 0) by (rewrite Z.pow_add_r by lia; lia).
      apply mul_step_ok; [exact H|lia|lia|].
      replace (N * 10 ^ i * 10 + 0) with (N * 10 ^ (i + 1)) by (rewrite Z.pow_add_r by lia; lia).
      eapply Z.le_lt_trans; [|exact MF]. unfold M. apply Z.mul_le_mono_nonneg_l; [lia|]. apply Z.pow_le_mono_r; lia. }
    { change (10 ^ 0) with 1. rewrite Z.mul_1_r. auto. }
    { rewrite fp_fuel_eq. lia. }
    rewrite T2. cbn [obind]. rewrite Z.add_0_l in H2. fold M in H2.
    (* shift left *)
    assert (NL : exists s3 sh, norm_left s2 = Some s3 /\ 0 <= sh <= 23 /\ quot n (M * 2 ^ sh) 1 s3 /\ bexp s3 = - sh /\
                 2 ^ 23 <= M * 2 ^ sh /\ (0 < sh -> M * 2 ^ sh < 2 ^ 24)).
    { destruct H2 as (By & Ln & V). unfold norm_left.
      destruct (msb_pos (fbuf s2) By ltac:(lia)) as (p & T & P & TB). rewrite V in TB.
      rewrite T. cbn [obind]. replace (p >=? 0) with true by lia. rewrite TB. cbn [obind].
      change FP_MANT_BITS with 23.
      pose proof (Z.log2_spec M ltac:(lia)) as LS. pose proof (Z.log2_nonneg M) as LN.
      set (t := Z.log2 M) in *.
      destruct (Z_lt_le_dec t 23) as [S|S].
      - set (sh := 23 - t).
        assert (PW : 2 ^ (Z.succ t) * 2 ^ sh = 2 ^ 24) by (rewrite <- Z.pow_add_r by lia; f_equal; lia).
        assert (PW2 : 2 ^ t * 2 ^ sh = 2 ^ 23) by (rewrite <- Z.pow_add_r by lia; f_equal; lia).
        assert (PSH : 0 < 2 ^ sh) by (apply Z.pow_pos_nonneg; lia).
        assert (UB : M * 2 ^ sh < 2 ^ 24) by nia. assert (LB : 2 ^ 23 <= M * 2 ^ sh) by nia.
        destruct (times_inv (fun i s => holds n s (M * 2 ^ i) /\ bexp s = - i /\ inexact s = false)
                (fun s => add_bexp (-1) (mul_step 2 0 s)) fp_fuel sh 0 s2) as (s3 & T3 & H3 & B3 & I3).
        + intros i s I (H & B & IX).
          assert (HM : holds n (mul_step 2 0 s) (M * 2 ^ (i + 1))).
          { replace (M * 2 ^ (i + 1)) with (M * 2 ^ i * 2 + 0) by (rewrite Z.pow_add_r by lia; lia).
            apply mul_step_ok; [exact H|lia|lia|].
            replace (M * 2 ^ i * 2 + 0) with (M * 2 ^ (i + 1)) by (rewrite Z.pow_add_r by lia; lia).
            assert (M * 2 ^ (i + 1) <= M * 2 ^ sh) by (apply Z.mul_le_mono_nonneg_l; [lia|]; apply Z.pow_le_mono_r; lia).
            assert (256 ^ 3 <= 256 ^ Z.of_nat n) by (apply Z.pow_le_mono_r; lia). change (256 ^ 3) with (2 ^ 24) in *. lia. }
          split; [exact HM|]. split; [unfold add_bexp; cbn [bexp mul_step]; lia|exact IX].
        + change (2 ^ 0) with 1. rewrite Z.mul_1_r. split; [split; [exact By|split; [exact Ln|exact V]]|]. split; [lia|exact I2].
        + rewrite fp_fuel_eq. lia.
        + rewrite Z.add_0_l in *. exists s3, sh. split; [exact T3|]. split; [lia|].
          split; [split; [now rewrite Z.div_1_r|now rewrite Z.mod_1_r]|]. split; [exact B3|]. split; [exact LB|auto].
      - exists s2, 0. rewrite times_none by lia. split; [reflexivity|]. split; [lia|].
        change (2 ^ 0) with 1. rewrite Z.mul_1_r.
        split; [split; [rewrite Z.div_1_r; split; [exact By|split; [exact Ln|exact V]]|now rewrite Z.mod_1_r]|].
        split; [lia|]. split; [|lia].
        assert (2 ^ 23 <= 2 ^ t) by (apply Z.pow_le_mono_r; lia). lia. }
    destruct NL as (s3 & sh & NL & SH & Q3 & B3 & LB & UB). rewrite NL. cbn [obind].
    apply (finish_ok n M 1 sh s3); auto; try lia.
    + rewrite Z.div_1_r. destruct (Z.eq_dec sh 0) as [->|].
      * change (2 ^ 0) with 1. rewrite Z.mul_1_r.
        assert (2 ^ nb <= 2 ^ 600) by (apply Z.pow_le_mono_r; lia). lia.
      * assert (2 ^ 24 <= 2 ^ 600) by (apply Z.pow_le_mono_r; lia). specialize (UB ltac:(lia)). lia.
    + intros _. rewrite Z.mod_1_r. split; lia.
    + rewrite Z.div_1_r. exact LB.
  - (* with division *)
    replace (e <? 0) with true by lia. cbv iota.
    unfold num_bin_digits. replace (e >=? 0) with false by lia. cbv zeta iota.
    rewrite Z.add_0_r.
    change (((1 + - e) * 10 + 2) / 3 + FP_MANT_BITS + 1 + 1) with (((1 + - e) * 10 + 2) / 3 + 23 + 1 + 1).
    replace (((1 + - e) * 10 + 2) / 3 + 23 + 1 + 1) with (((1 + - e) * 10 + 2) / 3 + 25) by lia.
    change FP_BUF_SIZE with 69.
    set (k := - e) in *.
    set (t1 := (cnt * 10 + 2) / 3). set (t2 := ((1 + k) * 10 + 2) / 3 + 25).
    set (nb := if t1 >=? t2 then t1 else t2).
    assert (NBB : t1 <= nb /\ t2 <= nb /\ (nb = t1 \/ nb = t2)) by (unfold nb; destruct (Z.geb_spec t1 t2); lia).
    assert (NB2 : 3 <= t1 <= 374 /\ 32 <= t2 <= 552) by (unfold t1, t2, k; clear - L SM E0; dlia).
    replace ((nb + 7) / 8 <=? 69) with true by (clear - NBB NB2; dlia). cbn [guard obind].
    set (n := Z.to_nat ((nb + 7) / 8)).
    assert (NN : nb <= 8 * Z.of_nat n) by (clear - NBB; unfold n; dlia).
    assert (NT : N < 2 ^ t1).
    { eapply Z.lt_le_trans; [apply NB|]. apply ten_bits. lia. }
    set (sh := nb - t1).
    assert (PSH : 0 < 2 ^ sh) by (apply Z.pow_pos_nonneg; lia).
    set (X := N * 2 ^ sh).
    assert (XB : X < 2 ^ nb).
    { replace nb with (t1 + sh) by lia. rewrite Z.pow_add_r by (unfold t1 in *; lia). unfold X. nia. }
    assert (XF : X < 256 ^ Z.of_nat n).
    { eapply Z.lt_le_trans; [exact XB|]. rewrite pow256 by lia. apply Z.pow_le_mono_r; lia. }
    destruct (load_digits_ok n ds (Fp (repeat 0 n) 0 false false 0) 0 F (holds_zero n) ltac:(lia)) as (H1 & B1 & I1).
    { fold (dec_value ds). fold N. unfold X in XF. nia. }
    fold (dec_value ds) in H1. fold N in H1. set (s1 := load_digits _ _) in *.
    rewrite times_none by lia. cbn [obind]. fold sh.
    replace (- - sh) with sh by lia.
    destruct (times_inv (fun i s => holds n s (N * 2 ^ i) /\ bexp s = - sh /\ inexact s = false)
                (mul_step 2 0) fp_fuel sh 0 (add_bexp (- sh) s1)) as (s2 & T2 & H2 & B2 & I2).
    { intros i s I (H & B & IX). split; [|split; [exact B|exact IX]].
      replace (N * 2 ^ (i + 1)) with (N * 2 ^ i * 2 + 0) by (rewrite Z.pow_add_r by lia; lia).
      apply mul_step_ok; [exact H|lia|lia|].
      replace (N * 2 ^ i * 2 + 0) with (N * 2 ^ (i + 1)) by (rewrite Z.pow_add_r by lia; lia).
      eapply Z.le_lt_trans; [|exact XF]. unfold X. apply Z.mul_le_mono_nonneg_l; [lia|]. apply Z.pow_le_mono_r; lia. }
    { change (2 ^ 0) with 1. rewrite Z.mul_1_r. split; [exact H1|]. split; [|exact I1].
      unfold add_bexp; cbn [bexp]. rewrite B1. cbn [bexp]. lia. }
    { rewrite fp_fuel_eq. lia. }
    rewrite T2. cbn [obind]. rewrite Z.add_0_l in H2. fold X in H2.
    assert (XP : 0 < X) by (unfold X; nia).
    destruct (times_inv (fun i s => quot n X (10 ^ i) s /\ bexp s = - sh)
                (div_step 10) fp_fuel k 0 s2) as (s3 & T3 & Q3 & B3).
    { intros i s I (Q & B).
      destruct (div_step_ok n X (10 ^ i) 10 s Q ltac:(lia) ltac:(apply Z.pow_pos_nonneg; lia) ltac:(lia)) as (A1 & A2 & _).
      split; [|lia]. replace (10 ^ (i + 1)) with (10 ^ i * 10) by (rewrite Z.pow_add_r by lia; lia). exact A1. }
    { change (10 ^ 0) with 1. split; [|exact B2]. split; [now rewrite Z.div_1_r|now rewrite Z.mod_1_r]. }
    { rewrite fp_fuel_eq. lia. }
    rewrite T3. cbn [obind]. rewrite Z.add_0_l in Q3.
    assert (PK : 0 < 10 ^ k) by (apply Z.pow_pos_nonneg; lia).
    assert (BIG : 2 ^ 24 <= X / 10 ^ k).
    { apply Z.div_le_lower_bound; [lia|].
      pose proof (quotient_big cnt k ltac:(lia) ltac:(lia)) as QB. unfold quot_bits in QB.
      fold t1 t2 in QB. fold nb in QB. fold sh in QB. unfold X. nia. }
    assert (NL : norm_left s3 = Some s3).
    { destruct Q3 as ((By & Ln & V) & _). unfold norm_left.
      destruct (msb_pos (fbuf s3) By ltac:(lia)) as (p & T & P & TB). rewrite V in TB.
      rewrite T. cbn [obind]. replace (p >=? 0) with true by lia. rewrite TB. cbn [obind].
      apply times_none. change FP_MANT_BITS with 23.
      assert (24 <= Z.log2 (X / 10 ^ k)) by (apply Z.log2_le_pow2; lia). lia. }
    rewrite NL. cbn [obind].
    assert (UP : X / 10 ^ k <= X) by (apply Z.div_le_upper_bound; nia).
    apply (finish_ok n N (10 ^ k) sh s3); auto; try lia.
    + fold X. assert (X / 10 ^ k * 10 ^ k <= X) by (rewrite Z.mul_comm; apply Z.mul_div_le; lia). nia.
    + fold X. assert (2 ^ nb <= 2 ^ 600) by (apply Z.pow_le_mono_r; lia). lia.
    + fold X. intros; lia.
    + fold X. lia.
Qed.
