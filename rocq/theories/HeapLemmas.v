(** Words in byte memory, address arithmetic, tilings of the heap. *)
From Verif Require Import Base BaseLemmas StrSpec StrModel StrLemmas HeapModel.

Lemma ldn_ext n : forall m m' a, (forall x, a <= x < a + Z.of_nat n -> m' x = m x) -> ldn n m' a = ldn n m a.
Proof.
  induction n as [|n IH]; intros m m' a H; cbn [ldn]; auto. rewrite H by lia.
  destruct (m a); cbn [obind]; auto. rewrite (IH m m') by (intros; apply H; lia). reflexivity.
Qed.
Lemma stn_ok n : forall m a v, (forall x, a <= x < a + Z.of_nat n -> m x <> None) ->
  exists m', stn n m a v = Some m' /\ ldn n m' a = Some (v mod 256 ^ Z.of_nat n) /\
    (forall x, ~ (a <= x < a + Z.of_nat n) -> m' x = m x) /\ (forall x, m x <> None -> m' x <> None).
Proof.
  induction n as [|n IH]; intros m a v H; cbn [stn].
  - exists m. repeat split; auto. cbn. now rewrite Z.mod_1_r.
  - destruct (st_ok m a v) as (m1 & -> & E1 & E2); [apply H; lia|]. cbn [obind].
    destruct (IH m1 (a + 1) (v / 256)) as (m' & -> & L & F & M).
    { intros x Hx. rewrite E2 by lia. apply H. lia. }
    exists m'. split; auto. split; [|split].
    + cbn [ldn]. rewrite F by lia. rewrite E1. cbn [obind]. rewrite L. cbn [obind]. f_equal.
      unfold u8, wrap. change (2 ^ 8) with 256.
      rewrite Nat2Z.inj_succ, Z.pow_succ_r by lia. rewrite Z.rem_mul_r; [reflexivity|lia|]. apply Z.pow_pos_nonneg; lia.
    + intros x Hx. rewrite F by lia. apply E2. lia.
    + intros x Hx. apply M. destruct (Z.eq_dec x a) as [->|]; [congruence|]. now rewrite E2.
Qed.

Lemma land_mask n k x : 0 <= k <= n -> 0 <= x < 2 ^ n -> Z.land x (2 ^ n - 2 ^ k) = x - x mod 2 ^ k.
Proof.
  intros Hk Hx.
  replace (2 ^ n - 2 ^ k) with (Z.shiftl (Z.ones (n - k)) k).
  2:{ rewrite Z.shiftl_mul_pow2 by lia. rewrite Z.ones_equiv. replace (2 ^ n) with (2 ^ (n - k) * 2 ^ k) by (rewrite <- Z.pow_add_r by lia; f_equal; lia). nia. }
  replace (x - x mod 2 ^ k) with (Z.shiftl (Z.shiftr x k) k).
  2:{ rewrite Z.shiftl_mul_pow2, Z.shiftr_div_pow2 by lia. pose proof (Z.div_mod x (2 ^ k)). assert (2 ^ k > 0) by (apply Z.lt_gt, Z.pow_pos_nonneg; lia). nia. }
  apply Z.bits_inj'. intros i Hi. rewrite Z.land_spec, !Z.shiftl_spec by lia.
  destruct (Z.ltb_spec i k) as [H|H].
  - rewrite !(Z.testbit_neg_r _ (i - k)) by lia. now rewrite andb_false_r.
  - rewrite Z.shiftr_spec by lia. rewrite Z.sub_add. destruct (Z.ltb_spec i n).
    + rewrite Z.ones_spec_low by lia. now rewrite andb_true_r.
    + rewrite Z.ones_spec_high by lia. rewrite andb_false_r. destruct (Z.eq_dec x 0) as [->|]; [now rewrite Z.bits_0|].
      symmetry. apply Z.bits_above_log2; [lia|]. apply Z.log2_lt_pow2; [lia|]. apply Z.lt_le_trans with (2 ^ n); [lia|]. apply Z.pow_le_mono_r; lia.
Qed.
Lemma lor_odd k q : 0 <= k -> 0 <= q -> Z.lor (q * 2 ^ k) (2 ^ k) = (if Z.even q then q + 1 else q) * 2 ^ k.
Proof.
  intros Hk Hq. rewrite <- (Z.mul_1_l (2 ^ k)) at 2. rewrite <- !Z.shiftl_mul_pow2 by lia. rewrite <- Z.shiftl_lor. f_equal.
  destruct q as [|[p|p|]|p]; cbn; try reflexivity; lia.
Qed.

Section W.
Context (c : cfg) (HW : cW c = 2 \/ cW c = 4).
Notation W := (cW c).
Notation HH := (HF c).
Notation top := (2 ^ WB c).
Lemma H_eq : HH = 2 * W. Proof. reflexivity. Qed.
Lemma W_pos : 0 < W /\ 0 < HH. Proof. unfold HF. lia. Qed.
Lemma top_eq : top = 256 ^ W.
Proof. unfold WB. change 256 with (2 ^ 8). rewrite Z.pow_mul_r by lia. reflexivity. Qed.
Lemma top_big : 65536 <= top.
Proof. rewrite top_eq. destruct HW as [-> | ->]; lia. Qed.
Lemma uw_id x : 0 <= x < top -> uw c x = x.
Proof. intros Hx. apply Z.mod_small, Hx. Qed.
Lemma uw_range x : 0 <= uw c x < top.
Proof. apply Z.mod_pos_bound. pose proof top_big. lia. Qed.
Lemma uw_uw_add a b : uw c (uw c a + b) = uw c (a + b).
Proof. unfold uw, wrap. pose proof top_big. now rewrite Zplus_mod_idemp_l by lia. Qed.
Lemma uw_uw_sub a b : uw c (a - uw c b) = uw c (a - b).
Proof. unfold uw, wrap. pose proof top_big. now rewrite Zminus_mod_idemp_r by lia. Qed.
Lemma uw_uw_addr a b : uw c (a + uw c b) = uw c (a + b).
Proof. unfold uw, wrap. pose proof top_big. now rewrite Zplus_mod_idemp_r by lia. Qed.
Lemma sw_eq x : 0 <= x < top -> sw c x = if x <? top / 2 then x else x - top.
Proof.
  intros Hx. unfold sw, swrap. rewrite Z.mod_small by auto. replace (2 ^ (WB c - 1)) with (top / 2); auto.
  unfold WB. destruct HW as [-> | ->]; reflexivity.
Qed.
(** A word at an address. *)
Definition wd (m : mem) (a v : Z) : Prop := ldw c m a = Some v.
Definition mapped (m : mem) (lo hi : Z) : Prop := forall x, lo <= x < hi -> m x <> None.
Lemma wd_ext m m' a v : wd m a v -> (forall x, a <= x < a + W -> m' x = m x) -> wd m' a v.
Proof. unfold wd, ldw. intros E F. rewrite <- E. apply ldn_ext. intros x Hx. apply F. lia. Qed.
Lemma stw_ok m a v : 0 <= v < top -> mapped m a (a + W) ->
  exists m', stw c m a v = Some m' /\ wd m' a v /\ (forall x, ~ (a <= x < a + W) -> m' x = m x) /\
    (forall x, m x <> None -> m' x <> None).
Proof.
  intros Hv Hm. unfold stw, wd, ldw. destruct (stn_ok (Z.to_nat W) m a v) as (m' & E & L & F & M).
  - intros x Hx. apply Hm. lia.
  - exists m'. split; auto. split; [|split; auto].
    + rewrite L. rewrite Z2Nat.id by lia. rewrite <- top_eq. now rewrite Z.mod_small.
    + intros x Hx. apply F. lia.
Qed.
Lemma stx_ok m p i v : 0 <= p + i * W < top -> 0 <= v < top -> mapped m (p + i * W) (p + i * W + W) ->
  exists m', stx c m p i v = Some m' /\ wd m' (p + i * W) v /\
    (forall x, ~ (p + i * W <= x < p + i * W + W) -> m' x = m x) /\ (forall x, m x <> None -> m' x <> None).
Proof. intros Ha Hv Hm. unfold stx. rewrite uw_id by auto. now apply stw_ok. Qed.
Lemma ldx_ok m p i v : 0 <= p + i * W < top -> wd m (p + i * W) v -> ldx c m p i = Some v.
Proof. intros Ha Hv. unfold ldx. now rewrite uw_id by auto. Qed.

(** ** Rounding *)
Lemma round_eq n : 0 < n <= top - 2 * HH -> round c n = (n + 2 * HH - 1) / (2 * HH) * (2 * HH).
Proof.
  intros Hn. unfold round. pose proof top_big.
  assert (EM : uw c (-2 * HH) = top - 2 * HH).
  { unfold uw, wrap. symmetry. apply Z.mod_unique_pos with (-1); unfold HF in *; lia. }
  rewrite EM. assert (EU : uw c (uw c (n + 2 * HH) - 1) = n + 2 * HH - 1).
  { replace (uw c (n + 2 * HH) - 1) with (uw c (n + 2 * HH) + -1) by lia. rewrite uw_uw_add. apply uw_id. unfold HF in *. lia. }
  rewrite EU. assert (EP : exists k, 2 * HH = 2 ^ k /\ 0 <= k <= WB c) by (unfold HF, WB; destruct HW as [-> | ->]; [exists 3|exists 4]; lia).
  destruct EP as (k & Ek & Hk). rewrite Ek. rewrite land_mask by (unfold HF in *; lia). rewrite <- Ek.
  assert (0 < 2 * HH) by (pose proof W_pos; lia). pose proof (Z.div_mod (n + 2 * HH - 1) (2 * HH)). lia.
Qed.
Definition m2 (x : Z) : Prop := (2 * HH | x).
Lemma round_ok n : 0 < n <= top - 2 * HH -> n <= round c n < n + 2 * HH /\ m2 (round c n) /\ 0 < round c n <= top - 2 * HH.
Proof.
  intros Hn. rewrite round_eq by auto. pose proof W_pos. pose proof (Z.div_mod (n + 2 * HH - 1) (2 * HH)).
  pose proof (Z.mod_pos_bound (n + 2 * HH - 1) (2 * HH)).
  assert (HT : (2 * HH | top)). { unfold HF. rewrite top_eq. destruct HW as [-> | ->]; [exists 8192|exists 268435456]; reflexivity. }
  split; [lia|]. split; [apply Z.divide_factor_r|]. split; [lia|].
  set (r := (n + 2 * HH - 1) / (2 * HH)) in *. destruct HT as [t Ht]. rewrite Ht in *. assert (r <= t - 1); [|nia].
  assert (r < t); [|lia]. apply Z.div_lt_upper_bound; nia.
Qed.
Lemma round_id n : m2 n -> 0 < n <= top - 2 * HH -> round c n = n.
Proof.
  intros [k Hk] Hn. rewrite round_eq by auto. pose proof W_pos. subst n.
  replace (k * (2 * HH) + 2 * HH - 1) with ((2 * HH - 1) + k * (2 * HH)) by lia. rewrite Z.div_add by lia. rewrite (Z.div_small (2 * HH - 1)) by lia. reflexivity.
Qed.
Lemma m2_gap a b : m2 a -> m2 b -> a < b -> a + 2 * HH <= b.
Proof. intros [x ->] [y ->] L. pose proof W_pos. assert (x < y) by nia. nia. Qed.
Lemma bad_size_spec n : 0 <= n < top -> bad_size c n = false <-> 0 < n <= top - 2 * HH.
Proof.
  intros Hn. unfold bad_size. pose proof top_big. pose proof W_pos.
  assert (EM : uw c (-2 * HH) = top - 2 * HH).
  { unfold uw, wrap. symmetry. apply Z.mod_unique_pos with (-1); unfold HF in *; lia. }
  rewrite EM. lia.
Qed.

(** ** Tilings: the heap as a list of blocks (size of the data, allocated). *)
Notation blks := (list (Z * bool)).
Fixpoint ext (bs : blks) : Z := match bs with [] => 0 | (sz, _) :: t => 2 * HH + sz + ext t end.
Definition tile1 (m : mem) (a sz : Z) (al : bool) : Prop :=
  wd m a sz /\ wd m (a + W) (Z.b2z al) /\ wd m (a + HH + sz) (Z.b2z al) /\ wd m (a + HH + sz + W) sz.
Fixpoint tiles (m : mem) (a : Z) (bs : blks) : Prop :=
  match bs with
  | [] => True
  | (sz, al) :: t => 0 <= sz /\ m2 sz /\ tile1 m a sz al /\ tiles m (a + 2 * HH + sz) t
  end.
Lemma ext_app a b : ext (a ++ b) = ext a + ext b.
Proof. induction a as [|[sz al] a IH]; cbn [ext app]; lia. Qed.
Lemma tiles_app m b1 : forall a b2, tiles m a (b1 ++ b2) <-> tiles m a b1 /\ tiles m (a + ext b1) b2.
Proof.
  induction b1 as [|[sz al] b1 IH]; intros a b2; cbn [tiles ext app].
  - rewrite Z.add_0_r. tauto.
  - rewrite IH. replace (a + (2 * HH + sz + ext b1)) with (a + 2 * HH + sz + ext b1) by lia. tauto.
Qed.
Lemma tiles_ext_pos m bs : forall a, tiles m a bs -> 0 <= ext bs.
Proof. induction bs as [|[sz al] bs IH]; intros a T; cbn [ext]; [lia|]. destruct T as (S & _ & _ & T). apply IH in T. pose proof W_pos. lia. Qed.
Lemma tiles_len m bs : forall a, tiles m a bs -> Z.of_nat (length bs) <= ext bs.
Proof. induction bs as [|[sz al] bs IH]; intros a T; cbn [ext length]; [lia|]. destruct T as (S & _ & _ & T). apply IH in T. pose proof W_pos. lia. Qed.
Lemma tile1_frame m m' a sz al : 0 <= sz -> tile1 m a sz al -> (forall x, a <= x < a + 2 * HH + sz -> m' x = m x) -> tile1 m' a sz al.
Proof. intros S (A & B & C & D) F. pose proof W_pos. unfold HF in *. split; [|split; [|split]]; [apply (wd_ext m) with (1 := A)|apply (wd_ext m) with (1 := B)|apply (wd_ext m) with (1 := C)|apply (wd_ext m) with (1 := D)]; intros x Hx; apply F; lia. Qed.
Lemma tiles_frame m m' bs : forall a, tiles m a bs -> (forall x, a <= x < a + ext bs -> m' x = m x) -> tiles m' a bs.
Proof.
  induction bs as [|[sz al] bs IH]; intros a T F; cbn [tiles ext] in *; auto. destruct T as (S & M & T1 & T).
  pose proof (tiles_ext_pos _ _ _ T). pose proof W_pos.
  split; auto. split; auto. split; [eapply tile1_frame; eauto|apply IH; auto]; intros x Hx; apply F; lia.
Qed.
(** A block is not changed by writes to its data. *)
Lemma tile1_data m m' a sz al : 0 <= sz -> tile1 m a sz al ->
  (forall x, a <= x < a + HH \/ a + HH + sz <= x < a + 2 * HH + sz -> m' x = m x) -> tile1 m' a sz al.
Proof. intros S (A & B & C & D) F. pose proof W_pos. unfold HF in *. split; [|split; [|split]]; [apply (wd_ext m) with (1 := A)|apply (wd_ext m) with (1 := B)|apply (wd_ext m) with (1 := C)|apply (wd_ext m) with (1 := D)]; intros x Hx; apply F; lia. Qed.
End W.
