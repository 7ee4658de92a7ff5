(** d2f computes the correctly rounded value: simulation of its loops. *)
From Verif Require Import Base BaseLemmas FpModel FloatSpec FpLemmas FpProof.

(** Quotients by variables are opaque to [lia] here; [dlia] also knows division. *)
Ltac Zify.zify_post_hook ::= idtac.
Ltac dlia := Z.div_mod_to_equations; lia.

(** The buffer holds [v] in [n] bytes. *)
Definition holds (n : nat) (s : fpst) (v : Z) : Prop :=
  bytes (fbuf s) /\ length (fbuf s) = n /\ bval (fbuf s) = v.

Lemma mul_step_ok n s v m a : holds n s v -> 0 <= m < 256 -> 0 <= a < 256 ->
  v * m + a < 256 ^ Z.of_nat n -> holds n (mul_step m a s) (v * m + a).
Proof.
  intros (B & L & V) M A F. destruct (muladd_ok (fbuf s) m a B M A) as (B' & L' & V').
  unfold holds, mul_step; cbn [fbuf]. split; [exact B'|]. split; [congruence|].
  rewrite V', V. unfold zlen. rewrite L. apply Z.mod_small.
  pose proof (bval_range _ B). nia.
Qed.

(** Exact quotient state: the buffer holds [X / D] and [inexact] says whether it is exact. *)
Definition quot (n : nat) (X D : Z) (s : fpst) : Prop :=
  holds n s (X / D) /\ inexact s = negb (X mod D =? 0).

Lemma div_step_ok n X D d s : quot n X D s -> 0 <= X -> 0 < D -> 0 < d < 256 ->
  quot n X (D * d) (div_step d s) /\ bexp (div_step d s) = bexp s /\
  fprem (div_step d s) = X / D mod d /\ last_inexact (div_step d s) = negb (X mod D =? 0).
Proof.
  intros ((B & L & V) & I) XP DP P. unfold div_step.
  pose proof (div_ok (fbuf s) d B P) as H. destruct (chain_div (fbuf s) d) as [buf r].
  destruct H as (B' & L' & V' & R).
  cbn [bexp fprem last_inexact]. rewrite V in *. split; [|auto].
  split.
  - split; [exact B'|]. split; [cbn [fbuf]; congruence|]. cbn [fbuf]. rewrite V', Z.div_div by lia. reflexivity.
  - cbn [inexact]. rewrite I, R. rewrite Z.rem_mul_r by lia.
    pose proof (Z.mod_pos_bound X D DP). pose proof (Z.mod_pos_bound (X / D) d ltac:(lia)).
    generalize dependent (X mod D). intros m I M. generalize dependent (X / D mod d). intros w R W.
    clear - M W DP. destruct (Z.eqb_spec (m + D * w) 0); destruct (Z.eqb_spec m 0); destruct (Z.eqb_spec w 0);
      cbn [negb orb]; try reflexivity; exfalso; nia.
Qed.

(** Counted loops. *)
Lemma times_inv (P : Z -> fpst -> Prop) f fuel : forall k i s,
  (forall j s, i <= j < i + k -> P j s -> P (j + 1) (f s)) -> P i s -> 0 <= k <= Z.of_nat fuel ->
  exists s', times fuel k f s = Some s' /\ P (i + k) s'.
Proof.
  induction fuel as [|fuel IH]; intros k i s St P0 K.
  - replace k with 0 by lia. exists s. replace (i + 0) with i by lia. now split.
  - cbn [times]. destruct (Z.leb_spec k 0).
    + exists s. replace (i + k) with i by lia. now split.
    + destruct (IH (k - 1) (i + 1) (f s)) as (s' & T & Q).
      * intros j s0 J. apply St. lia.
      * apply St; [lia|exact P0].
      * lia.
      * exists s'. split; [exact T|]. now replace (i + k) with (i + 1 + (k - 1)) by lia.
Qed.
Lemma times_none f fuel k s : k <= 0 -> times fuel k f s = Some s.
Proof. intros. destruct fuel; cbn [times]; now replace (k <=? 0) with true by lia. Qed.
Lemma times_one f fuel s : times (S fuel) 1 f s = Some (f s).
Proof. cbn [times]. change (1 <=? 0) with false. cbv iota. change (1 - 1) with 0. now apply times_none. Qed.
Lemma fp_fuel_eq : Z.of_nat fp_fuel = 2000.
Proof. unfold fp_fuel. apply Z2Nat.id. lia. Qed.

(** ** Shifting right *)
(** The state in which rounding may happen: quotient, last bit shifted out, sticky bits. *)
Definition rstate (n : nat) (X D : Z) (s : fpst) : Prop :=
  quot n X D s /\
  ((fprem s = 0 /\ X mod D = 0) \/
   exists D', 0 < D' /\ D = D' * 2 /\ fprem s = X / D' mod 2 /\ last_inexact s = negb (X mod D' =? 0)).

Definition shift1 (s : fpst) : fpst := add_bexp 1 (div_step 2 s).

Lemma shifts n X D k s : quot n X D s -> 0 <= X -> 0 < D -> 0 <= k <= 2000 ->
  exists s', times fp_fuel k shift1 s = Some s' /\
    quot n X (D * 2 ^ k) s' /\ bexp s' = bexp s + k /\
    (if k =? 0 then s' = s
     else exists D', 0 < D' /\ D * 2 ^ k = D' * 2 /\ fprem s' = X / D' mod 2 /\
                     last_inexact s' = negb (X mod D' =? 0)).
Proof.
  intros Q XP DP K.
  destruct (times_inv (fun i s' =>
     quot n X (D * 2 ^ i) s' /\ bexp s' = bexp s + i /\
     (if i =? 0 then s' = s
      else exists D', 0 < D' /\ D * 2 ^ i = D' * 2 /\ fprem s' = X / D' mod 2 /\
                     last_inexact s' = negb (X mod D' =? 0))) shift1 fp_fuel k 0 s) as (s' & T & H).
  - intros j s0 J (Q0 & B0 & _).
    assert (P : 0 < D * 2 ^ j) by (apply Z.mul_pos_pos; [lia|apply Z.pow_pos_nonneg; lia]).
    destruct (div_step_ok n X (D * 2 ^ j) 2 s0 Q0 XP P ltac:(lia)) as (Q1 & B1 & R1 & L1).
    unfold shift1. assert (E : D * 2 ^ j * 2 = D * 2 ^ (j + 1)) by (rewrite Z.pow_add_r by lia; lia).
    rewrite E in Q1. split; [|split].
    + exact Q1.
    + unfold add_bexp; cbn [bexp]. lia.
    + replace (j + 1 =? 0) with false by lia. exists (D * 2 ^ j). split; [exact P|]. split; [lia|].
      unfold add_bexp; cbn [fprem last_inexact]. split; assumption.
  - cbn [Z.eqb]. change (2 ^ 0) with 1. rewrite Z.mul_1_r. split; [exact Q|]. split; [lia|reflexivity].
  - rewrite fp_fuel_eq. lia.
  - rewrite Z.add_0_l in H. exists s'. split; [exact T|exact H].
Qed.

Lemma FP_LOW_eq : FP_LOW = -149. Proof. reflexivity. Qed.

Lemma pow256 k : 0 <= k -> 256 ^ k = 2 ^ (8 * k).
Proof. intros. rewrite Z.pow_mul_r by lia. reflexivity. Qed.

(** One pass of the shift right: afterwards the quotient is below 2^24, and it is at least 2^23
    or the exponent is the smallest one. *)
Lemma norm_right_ok n X D s : quot n X D s -> 0 < X -> 0 < D -> D <= X ->
  X / D < 2 ^ 600 -> -1000 <= bexp s <= 1000 ->
  (X / D < 2 ^ 24 -> X mod D = 0 /\ -149 <= bexp s) ->
  exists s' tmp k, norm_right s = Some (s', tmp) /\ 0 <= k /\
    rstate n X (D * 2 ^ k) s' /\ bexp s' = bexp s + k /\ X / (D * 2 ^ k) < 2 ^ 24 /\
    -149 <= bexp s' /\ (k = 0 <-> X / D < 2 ^ 24) /\
    (2 ^ 23 <= X / (D * 2 ^ k) \/ bexp s' = -149 \/ (k = 0)) /\
    0 <= tmp <= 23 /\ tmp < 8 * Z.of_nat n /\ X / (D * 2 ^ k) < 2 ^ (tmp + 1).
Proof.
  intros Q XP DP DX SM BE EX. unfold norm_right.
  set (s0 := Fp (fbuf s) (bexp s) (inexact s) (last_inexact s) 0). cbv zeta.
  assert (Q0 : quot n X D s0) by exact Q.
  destruct Q as ((B & L & V) & I).
  change (fbuf s0) with (fbuf s).
  assert (QP : 0 < X / D) by (apply Z.div_str_pos; lia).
  destruct (msb_pos (fbuf s) B ltac:(lia)) as (k & T & K & TB). rewrite V in TB.
  rewrite T. cbn [obind]. replace (k >=? 0) with true by lia. rewrite TB. cbn [obind].
  set (t := Z.log2 (X / D)) in *.
  pose proof (Z.log2_spec (X / D) QP) as LS. fold t in LS.
  pose proof (Z.log2_nonneg (X / D)) as LN. fold t in LN.
  assert (T600 : t < 600) by (apply Z.log2_lt_pow2; lia). clear SM.
  assert (TN : t < 8 * Z.of_nat n).
  { pose proof (bval_range _ B) as R. rewrite V in R. unfold zlen in R. rewrite L in R.
    apply Z.log2_lt_pow2; [lia|]. rewrite <- pow256 by lia. lia. }
  change (Z.succ t) with (t + 1) in LS || replace (Z.succ t) with (t + 1) in LS by lia.
  change FP_MANT_BITS with 23. rewrite FP_LOW_eq.
  set (a := Z.max 0 (t - 23)).
  assert (exists s1, times fp_fuel (t - 23) shift1 s0 = Some s1 /\
     quot n X (D * 2 ^ a) s1 /\ bexp s1 = bexp s + a /\
     (if a =? 0 then s1 = s0 else exists D', 0 < D' /\ D * 2 ^ a = D' * 2 /\
        fprem s1 = X / D' mod 2 /\ last_inexact s1 = negb (X mod D' =? 0))) as (s1 & T1 & Q1 & B1 & C1).
  { destruct (Z_le_gt_dec (t - 23) 0) as [Le|Gt].
    - exists s0. rewrite times_none by lia. replace a with 0 by lia. change (2 ^ 0) with 1.
      rewrite Z.mul_1_r. cbn [Z.eqb]. split; [reflexivity|]. split; [exact Q0|]. split; [cbn [bexp s0]; lia|reflexivity].
    - destruct (shifts n X D (t - 23) s0 Q0 ltac:(lia) DP ltac:(lia)) as (s1 & A1 & A2 & A3 & A4).
      exists s1. replace a with (t - 23) by lia. auto. }
  fold shift1. change (fun s2 : fpst => add_bexp 1 (div_step 2 s2)) with shift1.
  rewrite T1. cbn [obind].
  assert (PA : 0 < 2 ^ a) by (apply Z.pow_pos_nonneg; lia).
  assert (DA : 0 < D * 2 ^ a) by nia.
  (* size after the first loop *)
  assert (HI : X / (D * 2 ^ a) < 2 ^ (Z.min t 23 + 1)).
  { rewrite <- Z.div_div by lia. apply Z.div_lt_upper_bound; [lia|].
    rewrite <- Z.pow_add_r by lia. replace (a + (Z.min t 23 + 1)) with (t + 1) by lia. lia. }
  assert (LO : t >= 23 -> 2 ^ 23 <= X / (D * 2 ^ a)).
  { intros G. rewrite <- Z.div_div by lia. apply Z.div_le_lower_bound; [lia|].
    rewrite <- Z.pow_add_r by lia. replace (a + 23) with t by lia. lia. }
  set (c := Z.max 0 (-149 - bexp s1)).
  assert (exists s2, times fp_fuel (-149 - bexp s1) shift1 s1 = Some s2 /\
     quot n X (D * 2 ^ a * 2 ^ c) s2 /\ bexp s2 = bexp s1 + c /\
     (if c =? 0 then s2 = s1 else exists D', 0 < D' /\ D * 2 ^ a * 2 ^ c = D' * 2 /\
        fprem s2 = X / D' mod 2 /\ last_inexact s2 = negb (X mod D' =? 0))) as (s2 & T2 & Q2 & B2 & C2).
  { destruct (Z_le_gt_dec (-149 - bexp s1) 0) as [Le|Gt].
    - exists s1. rewrite times_none by lia. replace c with 0 by lia. change (2 ^ 0) with 1.
      rewrite Z.mul_1_r. cbn [Z.eqb]. split; [reflexivity|]. split; [exact Q1|]. split; [lia|reflexivity].
    - destruct (shifts n X (D * 2 ^ a) (-149 - bexp s1) s1 Q1 ltac:(lia) DA ltac:(lia)) as (s2 & A1 & A2 & A3 & A4).
      exists s2. replace c with (-149 - bexp s1) by lia. auto. }
  rewrite T2. cbn [obind].
  exists s2, (Z.min t 23), (a + c).
  assert (PC : 0 < 2 ^ c) by (apply Z.pow_pos_nonneg; lia).
  replace (D * 2 ^ a * 2 ^ c) with (D * 2 ^ (a + c)) in * by (rewrite Z.pow_add_r by lia; lia).
  assert (SML : X / (D * 2 ^ (a + c)) <= X / (D * 2 ^ a)).
  { rewrite Z.pow_add_r, Z.mul_assoc by lia. rewrite <- (Z.div_div X _ (2 ^ c)) by lia.
    apply Z.div_le_upper_bound; [lia|]. pose proof (Z.div_pos X (D * 2 ^ a) ltac:(lia) DA). clear - H PC. nia. }
  assert (P24 : 2 ^ (Z.min t 23 + 1) <= 2 ^ 24) by (apply Z.pow_le_mono_r; lia).
  assert (TS : a = 0 -> X / D < 2 ^ 24).
  { intros A0. replace t with (Z.min t 23) in LS by lia. lia. }
  assert (TK : X / D < 2 ^ 24 -> a + c = 0).
  { intros G. assert (t < 24) by (apply Z.log2_lt_pow2; lia). destruct (EX G). lia. }
  split; [f_equal; f_equal; destruct (Z.gtb_spec t 23); lia|]. split; [lia|].
  split; [|split; [lia|split; [lia|split; [lia|split; [split; [intros; apply TS; lia|exact TK]|split; [|split; [lia|split; [lia|lia]]]]]]]].
  - split; [exact Q2|].
    destruct (Z.eqb_spec c 0) as [C0|C0].
    + subst s2. destruct (Z.eqb_spec a 0) as [A0|A0].
      * left. subst s1. split; [reflexivity|]. rewrite C0, A0. change (2 ^ (0 + 0)) with 1. rewrite Z.mul_1_r.
        apply EX. now apply TS.
      * right. destruct C1 as (D' & C1 & C3 & C4). exists D'. rewrite C0, Z.add_0_r. auto.
    + right. destruct C2 as (D' & C1' & C3 & C4). exists D'. auto.
  - destruct (Z.eq_dec c 0) as [C0|C0]; [|right; left; lia].
    destruct (Z_lt_le_dec t 23); [right; right; lia|].
    left. rewrite C0, Z.add_0_r. apply LO. lia.
Qed.

(** ** Rounding *)
Lemma round_bit n X D s b0 : rstate n X D s -> 0 <= X -> 0 < D -> zget (fbuf s) 0 = Some b0 ->
  Z.land (fprem s) (Z.lor (Z.b2z (last_inexact s)) (Z.land b0 1)) =
  rne X D - X / D.
Proof.
  intros (((B & L & V) & I) & H) XP DP E.
  pose proof (bval_get _ _ _ B E) as G. change (256 ^ 0) with 1 in G. rewrite Z.div_1_r, V in G.
  assert (O : Z.land b0 1 = X / D mod 2).
  { change 1 with (Z.ones 1). rewrite Z.land_ones by lia. rewrite G. change (2 ^ 1) with 2.
    change 256 with (2 * 128). clear. dlia. }
  rewrite O. unfold rne.
  destruct H as [(R & M)|(D' & P & -> & R & LI)].
  - rewrite R, Z.land_0_l, M. replace (2 * 0 >? D) with false by lia.
    replace (2 * 0 =? D) with false by lia. cbn [andb orb]. lia.
  - rewrite R, LI.
    assert (OD : Z.odd (X / (D' * 2)) = (X / (D' * 2) mod 2 =? 1)).
    { rewrite Zmod_odd. now destruct (Z.odd _). }
    rewrite OD. rewrite Z.rem_mul_r by lia.
    pose proof (Z.mod_pos_bound X D' P).
    pose proof (Z.mod_pos_bound (X / D') 2 ltac:(lia)).
    pose proof (Z.mod_pos_bound (X / (D' * 2)) 2 ltac:(lia)).
    set (r := X mod D') in *. set (y := X / D' mod 2) in *. set (o := X / (D' * 2) mod 2) in *.
    set (q := X / (D' * 2)) in *. clearbody r y o q.
    assert (Y : y = 0 \/ y = 1) by lia. assert (OO : o = 0 \/ o = 1) by lia.
    destruct Y as [-> | ->].
    + rewrite Z.land_0_l.
      replace (2 * (r + D' * 0) >? D' * 2) with false by lia.
      replace (2 * (r + D' * 0) =? D' * 2) with false by lia. cbn [andb orb]. lia.
    + destruct (Z.eqb_spec r 0) as [R0|N]; cbn [negb Z.b2z].
      * rewrite R0. replace (2 * (0 + D' * 1) >? D' * 2) with false by lia.
        replace (2 * (0 + D' * 1) =? D' * 2) with true by lia. cbn [andb orb].
        destruct OO as [-> | ->]; cbn [Z.eqb Pos.eqb]; [change (Z.land 1 (Z.lor 0 0)) with 0|change (Z.land 1 (Z.lor 0 1)) with 1]; lia.
      * replace (2 * (r + D' * 1) >? D' * 2) with true by lia. cbn [orb].
        destruct OO as [-> | ->]; [change (Z.land 1 (Z.lor 1 0)) with 1|change (Z.land 1 (Z.lor 1 1)) with 1]; lia.
Qed.

(** The do-while loop. *)
Lemma round_loop_ok n X D s : quot n X D s -> 0 < X -> 0 < D -> D <= X ->
  X / D < 2 ^ 600 -> -1000 <= bexp s <= 1000 ->
  (X / D < 2 ^ 24 -> X mod D = 0 /\ -149 <= bexp s) -> 2 ^ 23 <= X / D ->
  exists s' tmp k,
    round_loop fp_fuel s = Some (s', tmp) /\ 0 <= k /\
    (let Q := rne X (D * 2 ^ k) in let E := bexp s + k in
     -149 <= E /\ X / (D * 2 ^ k) < 2 ^ 24 /\ (2 ^ 23 <= X / (D * 2 ^ k) \/ E = -149) /\
     ((Q < 2 ^ 24 /\ holds n s' Q /\ bexp s' = E) \/
      (Q = 2 ^ 24 /\ holds n s' (2 ^ 23) /\ bexp s' = E + 1))) /\
    -1 <= tmp <= 23 /\ tmp < 8 * Z.of_nat n /\ bval (fbuf s') < 2 ^ (tmp + 1).
Proof.
  intros Q0 XP DP DX SM BE EX BIG.
  destruct (norm_right_ok n X D s Q0 XP DP DX SM BE EX)
    as (s1 & tmp & k & N1 & K & R1 & B1 & H1 & H2 & H3 & H4 & H5 & H6 & H7).
  replace fp_fuel with (S (S (Z.to_nat 1998))) by reflexivity.
  set (f := Z.to_nat 1998). cbn [round_loop]. rewrite N1. cbn [obind].
  pose proof R1 as (((By & L & V) & I) & _).
  assert (NP : (0 < n)%nat) by (destruct n; [lia|lia]).
  destruct (zget_ex (fbuf s1) 0) as (b0 & G); [unfold zlen; lia|]. rewrite G. cbn [obind].
  set (Dk := D * 2 ^ k) in *.
  assert (PK : 0 < 2 ^ k) by (apply Z.pow_pos_nonneg; lia).
  assert (DK : 0 < Dk) by (unfold Dk; nia).
  rewrite (round_bit n X Dk s1 b0 R1 ltac:(lia) DK G).
  pose proof (rne_bounds X Dk DK) as RB.
  assert (QP : 0 <= X / Dk) by (apply Z.div_pos; lia).
  assert (DN : 2 ^ 23 <= X / Dk \/ bexp s + k = -149).
  { destruct H4 as [|[|K0]]; [auto|lia|left]. unfold Dk. rewrite K0. change (2 ^ 0) with 1. rewrite Z.mul_1_r. lia. }
  destruct (Z.eqb_spec (rne X Dk - X / Dk) 0) as [Z0|NZ].
  - exists (Fp (fbuf s1) (bexp s1) (inexact s1) (last_inexact s1) (rne X Dk - X / Dk)), tmp, k.
    split; [reflexivity|]. split; [lia|]. cbv zeta. fold Dk. split.
    + split; [lia|]. split; [lia|]. split; [exact DN|]. left.
      split; [lia|]. split; [|cbn [bexp]; lia].
      replace (rne X Dk) with (X / Dk) by lia. split; [exact By|]. split; [exact L|exact V].
    + split; [lia|]. split; [lia|]. cbn [fbuf]. rewrite V. lia.
  - (* rounded up *)
    assert (UP : rne X Dk = X / Dk + 1) by lia.
    assert (KP : 0 < k).
    { destruct (Z.eq_dec k 0) as [K0|]; [|lia]. exfalso. apply NZ.
      assert (M0 : X mod Dk = 0).
      { unfold Dk. rewrite K0. change (2 ^ 0) with 1. rewrite Z.mul_1_r. apply EX. now apply H3. }
      unfold rne. rewrite M0. replace (2 * 0 >? Dk) with false by lia.
      replace (2 * 0 =? Dk) with false by lia. cbn [andb orb]. lia. }
    set (s2 := mul_step 1 1 _).
    (* the incremented value fits *)
    assert (FIT : X / Dk + 1 < 256 ^ Z.of_nat n).
    { destruct Q0 as ((By0 & L0 & V0) & _). pose proof (bval_range _ By0) as R0.
      rewrite V0 in R0. unfold zlen in R0. rewrite L0 in R0.
      assert (2 ^ 24 <= X / D \/ X / D < 2 ^ 24) as [G24|G24] by lia.
      - assert (4 <= Z.of_nat n).
        { destruct (Z_lt_le_dec (Z.of_nat n) 4); [|assumption].
          assert (256 ^ Z.of_nat n <= 256 ^ 3) by (apply Z.pow_le_mono_r; lia).
          change (256 ^ 3) with (2 ^ 24) in *. lia. }
        assert (256 ^ 4 <= 256 ^ Z.of_nat n) by (apply Z.pow_le_mono_r; lia).
        change (256 ^ 4) with (2 ^ 32) in *. lia.
      - (* exact: no rounding *)
        exfalso. apply H3 in G24. lia. }
    assert (H2' : holds n s2 (X / Dk + 1)).
    { unfold s2. replace (X / Dk + 1) with (X / Dk * 1 + 1) by lia.
      apply mul_step_ok; [|lia|lia|lia]. split; [exact By|]. split; [exact L|exact V]. }
    destruct H2' as (By2 & L2 & V2).
    set (v := X / Dk + 1) in *.
    assert (Q2 : quot n v 1 (Fp (fbuf s2) (bexp s2) false false 0)).
    { split; [split; [exact By2|split; [exact L2|cbn [fbuf]; now rewrite Z.div_1_r]]|].
      cbn [inexact]. now rewrite Z.mod_1_r. }
    (* second pass *)
    assert (N2 : exists s3 tmp2, norm_right s2 = Some (s3, tmp2) /\ fprem s3 = 0 /\
       0 <= tmp2 <= 23 /\ tmp2 < 8 * Z.of_nat n /\ bval (fbuf s3) < 2 ^ (tmp2 + 1) /\
       ((v < 2 ^ 24 /\ holds n s3 v /\ bexp s3 = bexp s2) \/
        (v = 2 ^ 24 /\ holds n s3 (2 ^ 23) /\ bexp s3 = bexp s2 + 1))).
    { unfold norm_right.
      set (s2' := Fp (fbuf s2) (bexp s2) (inexact s2) (last_inexact s2) 0). cbv zeta.
      change (fbuf s2') with (fbuf s2).
      destruct (msb_pos (fbuf s2) By2 ltac:(lia)) as (p & T & P & TB). rewrite V2 in TB.
      rewrite T. cbn [obind]. replace (p >=? 0) with true by lia. rewrite TB. cbn [obind].
      change FP_MANT_BITS with 23. rewrite FP_LOW_eq.
      pose proof (Z.log2_spec v ltac:(lia)) as LS. pose proof (Z.log2_nonneg v).
      assert (TN : Z.log2 v < 8 * Z.of_nat n).
      { apply Z.log2_lt_pow2; [lia|]. rewrite <- pow256 by lia. lia. }
      assert (bexp s2 = bexp s1) by reflexivity.
      destruct (Z.eq_dec v (2 ^ 24)) as [V24|N24].
      - rewrite V24. change (Z.log2 (2 ^ 24)) with 24. change (24 - 23) with 1. change (24 >? 23) with true.
        replace (times fp_fuel 1) with (times (S (Z.to_nat 1999)) 1) by reflexivity.
        rewrite times_one. cbn [obind].
        pose proof (div_ok (fbuf s2) 2 By2 ltac:(lia)) as DV.
        unfold div_step. change (fbuf s2') with (fbuf s2).
        destruct (chain_div (fbuf s2) 2) as [buf r]. destruct DV as (D1 & D2 & D3 & D4).
        rewrite V2, V24 in D3, D4. change (2 ^ 24 / 2) with (2 ^ 23) in D3. change (2 ^ 24 mod 2) with 0 in D4.
        rewrite times_none by (unfold add_bexp; cbn [bexp s2']; lia). cbn [obind].
        eexists _, _. split; [reflexivity|]. unfold add_bexp; cbn [fprem bexp fbuf s2'].
        split; [exact D4|]. split; [lia|]. split; [rewrite V24 in TN; change (Z.log2 (2 ^ 24)) with 24 in TN; lia|].
        split; [rewrite D3; reflexivity|]. right. split; [reflexivity|]. split; [|reflexivity].
        split; [exact D1|]. split; [cbn [fbuf]; congruence|exact D3].
      - assert (Z.log2 v < 24) by (apply Z.log2_lt_pow2; lia).
        rewrite times_none by lia. cbn [obind]. rewrite times_none by (cbn [bexp s2']; lia). cbn [obind].
        replace (Z.log2 v >? 23) with false by lia.
        exists s2', (Z.log2 v). split; [reflexivity|]. split; [reflexivity|]. split; [lia|]. split; [lia|].
        split; [change (fbuf s2') with (fbuf s2); rewrite V2; replace (Z.log2 v + 1) with (Z.succ (Z.log2 v)) by lia; lia|].
        left. split; [lia|]. split; [|reflexivity]. split; [exact By2|]. split; [exact L2|exact V2]. }
    destruct N2 as (s3 & tmp2 & N2 & F0 & T1 & T2 & T3 & CASES).
    rewrite N2. cbn [obind].
    destruct (zget_ex (fbuf s3) 0) as (b3 & G3).
    { destruct CASES as [(_ & (_ & L3 & _) & _)|(_ & (_ & L3 & _) & _)]; unfold zlen; lia. }
    rewrite G3. cbn [obind]. rewrite F0, Z.land_0_l. cbn [Z.eqb].
    eexists _, tmp2, k. split; [reflexivity|]. split; [lia|]. cbv zeta. fold Dk.
    split; [|split; [lia|split; [lia|exact T3]]].
    split; [lia|]. split; [lia|]. split; [exact DN|]. rewrite UP. fold v.
    assert (bexp s2 = bexp s1) by reflexivity.
    destruct CASES as [(C1 & C2 & C3)|(C1 & C2 & C3)]; [left|right];
      (split; [exact C1|]; split; [exact C2|cbn [bexp]; lia]).
Qed.

