(** The byte chains of fp.c compute on the numbers they represent. *)
From Verif Require Import Base BaseLemmas FpModel FloatSpec.

Fixpoint bval (l : list Z) : Z := match l with [] => 0 | b :: t => b + 256 * bval t end.
Definition bytes (l : list Z) : Prop := Forall (fun b => 0 <= b < 256) l.

Lemma p256_S (n : nat) : 256 ^ Z.of_nat (S n) = 256 * 256 ^ Z.of_nat n.
Proof. rewrite Nat2Z.inj_succ, Z.pow_succ_r; lia. Qed.
Lemma p256_pos (n : nat) : 0 < 256 ^ Z.of_nat n.
Proof. apply Z.pow_pos_nonneg; lia. Qed.

Lemma bval_range l : bytes l -> 0 <= bval l < 256 ^ zlen l.
Proof.
  unfold zlen. induction 1 as [|b t B F IH]; [cbn; lia|].
  cbn [length bval]. rewrite p256_S. nia.
Qed.

Lemma land255 c : Z.land c 255 = c mod 256.
Proof. change 255 with (Z.ones 8). rewrite Z.land_ones by lia. reflexivity. Qed.
Lemma shr8 c : Z.shiftr c 8 = c / 256.
Proof. rewrite Z.shiftr_div_pow2 by lia. reflexivity. Qed.

Lemma muladd_from l : forall carry m, bytes l -> 0 <= carry < 256 -> 0 <= m < 256 ->
  bytes (chain_muladd_from carry l m) /\ length (chain_muladd_from carry l m) = length l /\
  bval (chain_muladd_from carry l m) = (bval l * m + carry) mod 256 ^ zlen l.
Proof.
  unfold zlen.
  induction l as [|b t IH]; intros carry m F C M; cbn [chain_muladd_from].
  - repeat split; [constructor|]. cbn [length bval]. change (256 ^ Z.of_nat 0) with 1. now rewrite Z.mod_1_r.
  - inversion F as [|? ? B F']; subst.
    assert (K : 0 <= carry + b * m < 256 * 256) by nia.
    rewrite u32_small by lia.
    rewrite land255, shr8. set (x := carry + b * m) in *.
    destruct (IH (x / 256) m F' ltac:(lia) M) as (I1 & I2 & I3).
    split; [constructor; [lia|exact I1]|]. split; [cbn [length]; now rewrite I2|].
    cbn [bval length]. rewrite I3, p256_S.
    pose proof (p256_pos (length t)) as P. set (q := 256 ^ Z.of_nat (length t)) in *.
    replace ((b + 256 * bval t) * m + carry) with (x mod 256 + (bval t * m + x / 256) * 256)
      by (pose proof (Z.div_mod x 256); lia).
    set (y := bval t * m + x / 256).
    rewrite (Z.rem_mul_r _ 256 q) by lia.
    rewrite Z.mod_add, Z.mod_mod by lia.
    rewrite Z.div_add by lia. rewrite (Z.div_small (x mod 256)) by lia.
    now rewrite Z.add_0_l.
Qed.

Lemma muladd_ok l m a : bytes l -> 0 <= m < 256 -> 0 <= a < 256 ->
  bytes (chain_muladd l m a) /\ length (chain_muladd l m a) = length l /\
  bval (chain_muladd l m a) = (bval l * m + a) mod 256 ^ zlen l.
Proof. intros. now apply muladd_from. Qed.

Lemma div_from l d : bytes l -> 0 < d < 256 ->
  let '(l', r) := chain_div_from l d in
  bytes l' /\ length l' = length l /\ bval l' = bval l / d /\ r = 256 * (bval l mod d).
Proof.
  intros F D. induction F as [|b t B F IH]; cbn [chain_div_from].
  - cbn [bval]. rewrite Z.div_0_l, Z.mod_0_l by lia. repeat split; auto; constructor.
  - destruct (chain_div_from t d) as [t' r]. destruct IH as (I1 & I2 & I3 & ->).
    pose proof (Z.mod_pos_bound (bval t) d ltac:(lia)) as R.
    set (rt := bval t mod d) in *.
    rewrite (u32_small (256 * rt + b)) by lia.
    set (x := 256 * rt + b).
    assert (Q : 0 <= x / d < 256).
    { split; [apply Z.div_pos; lia|]. apply Z.div_lt_upper_bound; nia. }
    pose proof (Z.mod_pos_bound x d ltac:(lia)) as R2.
    rewrite Z.shiftl_mul_pow2 by lia. change (2 ^ 8) with 256.
    rewrite (u32_small (x mod d * 256)) by lia.
    unfold u8. rewrite wrap_small by (change (2 ^ 8) with 256; lia).
    assert (E : b + 256 * bval t = x + (256 * (bval t / d)) * d)
      by (unfold x, rt; pose proof (Z.div_mod (bval t) d); lia).
    cbn [bval length]. rewrite I3, E, Z.div_add, Z.mod_add by lia.
    split; [constructor; [lia|exact I1]|]. split; [lia|]. split; lia.
Qed.

Lemma div_ok l d : bytes l -> 0 < d < 256 ->
  let '(l', r) := chain_div l d in
  bytes l' /\ length l' = length l /\ bval l' = bval l / d /\ r = bval l mod d.
Proof.
  intros F D. unfold chain_div. pose proof (div_from l d F D) as H.
  destruct (chain_div_from l d) as [l' r]. destruct H as (H1 & H2 & H3 & ->).
  repeat split; auto.
  pose proof (Z.mod_pos_bound (bval l) d ltac:(lia)).
  rewrite shr8. replace (256 * (bval l mod d) / 256) with (bval l mod d) by lia.
  unfold u8. apply wrap_small. change (2 ^ 8) with 256. lia.
Qed.

(** Single bytes and the most significant bit. *)
Lemma bval_get l : forall i b, bytes l -> zget l i = Some b ->
  b = bval l / 256 ^ i mod 256.
Proof.
  induction l as [|x t IH]; intros i b F E; [now rewrite zget_nil in E|].
  pose proof (zget_Some_range _ _ _ E) as R.
  inversion F as [|? ? X F']; subst.
  destruct (Z.eq_dec i 0) as [->|N].
  - rewrite zget_cons_0 in E. apply some_inj in E. subst b. cbn [bval].
    change (256 ^ 0) with 1. rewrite Z.div_1_r. lia.
  - rewrite zget_cons_S in E by lia. rewrite (IH _ _ F' E). cbn [bval].
    replace i with (Z.succ (i - 1)) at 2 by lia. rewrite Z.pow_succ_r by lia.
    rewrite <- Z.div_div by (try apply Z.pow_pos_nonneg; lia).
    replace ((x + 256 * bval t) / 256) with (bval t) by lia. reflexivity.
Qed.

Lemma zget_ex {A} (l : list A) i : 0 <= i < zlen l -> exists v, zget l i = Some v.
Proof. intros. now apply zget_range. Qed.

Lemma top_byte_ok n l : bytes l -> (n <= length l)%nat -> bval l < 256 ^ Z.of_nat n ->
  if bval l =? 0 then top_byte n l = Some (-1)
  else exists k, top_byte n l = Some k /\ 0 <= k < zlen l /\ 256 ^ k <= bval l < 256 ^ (k + 1).
Proof.
  intros F. pose proof (bval_range l F) as V.
  induction n as [|n IH]; intros L B; cbn [top_byte].
  - change (256 ^ Z.of_nat 0) with 1 in B. replace (bval l) with 0 by lia. reflexivity.
  - destruct (zget_ex l (Z.of_nat n)) as (b & E); [unfold zlen; lia|]. rewrite E. cbn [obind].
    pose proof (bval_get l _ _ F E) as G.
    rewrite p256_S in B. pose proof (p256_pos n) as P.
    assert (SS : bval l / 256 ^ Z.of_nat n < 256) by (apply Z.div_lt_upper_bound; lia).
    assert (SS0 : 0 <= bval l / 256 ^ Z.of_nat n) by (apply Z.div_pos; lia).
    rewrite Z.mod_small in G by lia.
    destruct (Z.eqb_spec b 0) as [Z0|N0].
    + apply IH; [lia|]. subst b. apply Z.div_small_iff in Z0; lia.
    + assert (Q : 256 ^ Z.of_nat n <= bval l).
      { destruct (Z_lt_le_dec (bval l) (256 ^ Z.of_nat n)); [|assumption].
        rewrite Z.div_small in G by lia. lia. }
      replace (bval l =? 0) with false by lia.
      exists (Z.of_nat n). split; [reflexivity|]. split; [unfold zlen; lia|].
      replace (Z.of_nat n + 1) with (Z.of_nat (S n)) by lia. rewrite p256_S. lia.
Qed.

Lemma land_bit b k : 0 <= k -> Z.land b (Z.shiftl 1 k) =? 0 = negb (Z.testbit b k).
Proof.
  intros K. rewrite Z.shiftl_1_l.
  destruct (Z.testbit b k) eqn:T.
  - apply Z.eqb_neq. intros E.
    assert (B : Z.testbit (Z.land b (2 ^ k)) k = true)
      by (now rewrite Z.land_spec, T, Z.pow2_bits_true by lia).
    rewrite E, Z.bits_0 in B. discriminate.
  - apply Z.eqb_eq. apply Z.bits_inj'. intros n N. rewrite Z.land_spec, Z.bits_0.
    destruct (Z.eq_dec n k) as [->|D]; [now rewrite T|].
    rewrite Z.pow2_bits_false by lia. now destruct (Z.testbit b n).
Qed.

Lemma testbit_byte l i b : bytes l -> 0 <= i -> zget l (i / 8) = Some b ->
  Z.testbit b (i mod 8) = Z.testbit (bval l) i.
Proof.
  intros F I E. rewrite (bval_get _ _ _ F E).
  replace (256 ^ (i / 8)) with (2 ^ (8 * (i / 8))) by (rewrite Z.pow_mul_r by lia; reflexivity).
  change 256 with (2 ^ 8). rewrite Z.mod_pow2_bits_low by lia.
  rewrite Z.div_pow2_bits by lia. f_equal. lia.
Qed.

Lemma top_bit_ok fuel : forall l tmp, bytes l -> 0 < bval l ->
  Z.log2 (bval l) <= tmp < 8 * zlen l -> tmp - Z.log2 (bval l) < Z.of_nat fuel ->
  top_bit fuel tmp l = Some (Z.log2 (bval l)).
Proof.
  induction fuel as [|fuel IH]; intros l tmp F P R Q; [lia|].
  cbn [top_bit]. pose proof (Z.log2_nonneg (bval l)).
  destruct (zget_ex l (tmp / 8)) as (b & E); [lia|]. rewrite E. cbn [obind].
  rewrite land_bit by lia. rewrite (testbit_byte l tmp b F ltac:(lia) E).
  destruct (Z.eq_dec tmp (Z.log2 (bval l))) as [->|N].
  - now rewrite Z.bit_log2 by lia.
  - rewrite Z.bits_above_log2 by lia. cbn [negb]. apply IH; auto; lia.
Qed.

(** Both together: position of the most significant bit, or -1. *)
Definition msb (l : list Z) : option Z :=
  let? tmp := top_byte (length l) l in
  if tmp >=? 0 then top_bit 9 (tmp * 8 + 7) l else Some tmp.

Lemma msb_pos l : bytes l -> 0 < bval l ->
  exists k, top_byte (length l) l = Some k /\ 0 <= k /\
            top_bit 9 (k * 8 + 7) l = Some (Z.log2 (bval l)).
Proof.
  intros F P. pose proof (bval_range l F) as V.
  pose proof (top_byte_ok (length l) l F ltac:(lia) ltac:(unfold zlen in V; lia)) as T.
  replace (bval l =? 0) with false in T by lia. destruct T as (k & T & K & B).
  exists k. split; [exact T|]. split; [lia|].
  assert (L : 8 * k <= Z.log2 (bval l) < 8 * (k + 1)).
  { split.
    - apply Z.log2_le_pow2; [lia|]. rewrite Z.pow_mul_r by lia. change (2 ^ 8) with 256. lia.
    - apply Z.log2_lt_pow2; [lia|]. rewrite Z.pow_mul_r by lia. change (2 ^ 8) with 256. lia. }
  apply top_bit_ok; auto; lia.
Qed.

Lemma lor_add a b k : 0 <= k -> 0 <= b < 2 ^ k -> Z.lor (a * 2 ^ k) b = a * 2 ^ k + b.
Proof.
  intros K B.
  assert (L : Z.land (a * 2 ^ k) b = 0).
  { apply Z.bits_inj'. intros n N. rewrite Z.land_spec, Z.bits_0.
    destruct (Z_lt_le_dec n k).
    - now rewrite Z.mul_pow2_bits_low by lia.
    - destruct (Z.eq_dec b 0) as [->|NZ]; [rewrite Z.bits_0; apply andb_false_r|].
      rewrite (Z.bits_above_log2 b n); [apply andb_false_r|lia|].
      apply Z.log2_lt_pow2; [lia|]. pose proof (Z.pow_le_mono_r 2 k n). lia. }
  rewrite <- Z.lxor_lor by exact L. now rewrite <- Z.add_nocarry_lxor by exact L.
Qed.

Lemma collect_ok fuel : forall l tmp, bytes l -> bval l < 2 ^ 32 -> -8 <= tmp < 8 * zlen l ->
  tmp < 8 * Z.of_nat fuel ->
  collect fuel tmp (bval l / 256 ^ (tmp / 8 + 1)) l = Some (bval l).
Proof.
  induction fuel as [|fuel IH]; intros l tmp F B R Q.
  - cbn [collect]. replace (tmp <? 0) with true by lia.
    replace (tmp / 8 + 1) with 0 by lia. now rewrite Z.div_1_r.
  - cbn [collect]. destruct (Z.ltb_spec tmp 0).
    + replace (tmp / 8 + 1) with 0 by lia. now rewrite Z.div_1_r.
    + destruct (zget_ex l (tmp / 8)) as (b & E); [lia|]. rewrite E. cbn [obind].
      pose proof (bval_get _ _ _ F E) as G. pose proof (bval_range l F) as V.
      set (k := tmp / 8) in *.
      assert (K : 0 < 256 ^ k) by (apply Z.pow_pos_nonneg; lia).
      set (w := bval l / 256 ^ k) in *.
      assert (W : 0 <= w < 2 ^ 32).
      { unfold w. split; [apply Z.div_pos; lia|]. apply Z.div_lt_upper_bound; [lia|]. nia. }
      replace (256 ^ (k + 1)) with (256 ^ k * 256) by (rewrite Z.pow_add_r by lia; reflexivity).
      rewrite <- Z.div_div by lia. fold w.
      rewrite Z.shiftl_mul_pow2 by lia. rewrite u32_small by (change (2 ^ 8) with 256; lia).
      rewrite lor_add by (change (2 ^ 8) with 256; lia).
      replace (w / 256 * 2 ^ 8 + b) with (bval l / 256 ^ ((tmp - 8) / 8 + 1)).
      * apply IH; auto; lia.
      * replace ((tmp - 8) / 8 + 1) with k by lia. fold w. change (2 ^ 8) with 256. lia.
Qed.
