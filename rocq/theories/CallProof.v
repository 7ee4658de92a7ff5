(** Argument passing: proofs. *)
From Verif Require Import Base BaseLemmas DeclSpec DeclProof CallSpec CallModel.

Definition okmem (m : Z -> Z) := forall a, 0 <= m a < 256.
Section P.
Variable W : Z.
Hypothesis HW : W = 2 \/ W = 4.
Variable L : Z.
Hypothesis HL : 0 < L < 2 ^ 31.

Lemma storeN_out n : forall m a v x, x < a \/ a + Z.of_nat n <= x -> storeN n m a v x = m x.
Proof.
  induction n as [|n IH]; intros m a v x X; [reflexivity|]. cbn [storeN]. rewrite IH by lia. unfold upd. replace (x =? a) with false by lia. reflexivity.
Qed.
Lemma storeN_in n : forall m a v i, 0 <= i < Z.of_nat n -> storeN n m a v (a + i) = v / 2 ^ (8 * i) mod 256.
Proof.
  induction n as [|n IH]; intros m a v i I; [lia|]. cbn [storeN]. destruct (Z.eq_dec i 0) as [->|N].
  - rewrite storeN_out by lia. unfold upd. rewrite Z.add_0_r, Z.eqb_refl. rewrite Z.div_1_r. reflexivity.
  - replace (a + i) with (a + 1 + (i - 1)) by lia. rewrite IH by lia. rewrite Z.div_div by lia.
    change 256 with (2 ^ 8) at 1. rewrite <- Z.pow_add_r by lia. do 3 f_equal. lia.
Qed.
Lemma storeN_ok n : forall m a v, okmem m -> okmem (storeN n m a v).
Proof.
  induction n as [|n IH]; intros m a v O; [exact O|]. cbn [storeN]. apply IH. intros x. unfold upd. destruct (x =? a); [apply Z.mod_pos_bound; lia|apply O].
Qed.
Lemma loadN_byte n : forall m a i, okmem m -> 0 <= i < Z.of_nat n -> loadN n m a / 2 ^ (8 * i) mod 256 = m (a + i).
Proof.
  induction n as [|n IH]; intros m a i O I; [lia|]. cbn [loadN]. destruct (Z.eq_dec i 0) as [->|N].
  - rewrite Z.div_1_r, Z.add_0_r. rewrite Z.mul_comm, Z.mod_add by lia. apply Z.mod_small. apply O.
  - replace (8 * i) with (8 + 8 * (i - 1)) by lia. rewrite Z.pow_add_r by lia. change (2 ^ 8) with 256. rewrite <- Z.div_div by lia.
    rewrite (Z.mul_comm 256), Z.div_add by lia. rewrite (Z.div_small (m a)) by apply O. rewrite Z.add_0_l.
    rewrite IH by (assumption || lia). f_equal. lia.
Qed.
Lemma loadN_ext n : forall m m' a, (forall i, 0 <= i < Z.of_nat n -> m (a + i) = m' (a + i)) -> loadN n m a = loadN n m' a.
Proof.
  induction n as [|n IH]; intros m m' a E; [reflexivity|]. cbn [loadN].
  rewrite <- (Z.add_0_r a) at 1 3. rewrite E by lia. do 2 f_equal. apply IH. intros i I. rewrite <- !Z.add_assoc. apply E. lia.
Qed.
Lemma load_storeN n : forall m a v, 0 <= v < 2 ^ (8 * Z.of_nat n) -> loadN n (storeN n m a v) a = v.
Proof.
  induction n as [|n IH]; intros m a v V; [cbn [loadN]; change (8 * Z.of_nat 0) with 0 in V; lia|].
  cbn [loadN storeN]. rewrite storeN_out by lia. unfold upd at 1. rewrite Z.eqb_refl.
  assert (V2 : 0 <= v / 256 < 2 ^ (8 * Z.of_nat n)).
  { split; [apply Z.div_pos; lia|]. apply Z.div_lt_upper_bound; [lia|]. change 256 with (2 ^ 8). rewrite <- Z.pow_add_r by lia.
    replace (8 + 8 * Z.of_nat n) with (8 * Z.of_nat (S n)) by lia. lia. }
  rewrite IH by exact V2. pose proof (Z.div_mod v 256 ltac:(lia)). lia.
Qed.
Lemma WN : Z.of_nat (Z.to_nat W) = W. Proof. lia. Qed.
Lemma store_out m a v x : x < a \/ a + W <= x -> store W m a v x = m x.
Proof. intros H. apply storeN_out. rewrite WN. exact H. Qed.
Lemma store_in m a v i : 0 <= i < W -> store W m a v (a + i) = v / 2 ^ (8 * i) mod 256.
Proof. intros H. apply storeN_in. rewrite WN. exact H. Qed.
Lemma store_ok m a v : okmem m -> okmem (store W m a v). Proof. apply storeN_ok. Qed.
Lemma load_store m a v : 0 <= v < 2 ^ (8 * W) -> load W (store W m a v) a = v.
Proof. intros H. apply load_storeN. rewrite WN. exact H. Qed.
Lemma load_ext m m' a : (forall i, 0 <= i < W -> m (a + i) = m' (a + i)) -> load W m a = load W m' a.
Proof. intros H. apply loadN_ext. rewrite WN. exact H. Qed.
Lemma load_store_other m a b v : b + W <= a \/ a + W <= b -> load W (store W m a v) b = load W m b.
Proof. intros H. apply load_ext. intros i I. apply store_out. lia. Qed.
Lemma load_byte m a i : okmem m -> 0 <= i < W -> load W m a / 2 ^ (8 * i) mod 256 = m (a + i).
Proof. intros O I. apply loadN_byte; [exact O|rewrite WN; exact I]. Qed.

Lemma copyUp_ok n : forall m d s, (d + Z.of_nat n <= s \/ s + Z.of_nat n <= d) ->
  (forall i, 0 <= i < Z.of_nat n -> copyUp n m d s (d + i) = m (s + i)) /\
  (forall x, x < d \/ d + Z.of_nat n <= x -> copyUp n m d s x = m x).
Proof.
  induction n as [|n IH]; intros m d s D; [split; [lia|reflexivity]|]. cbn [copyUp].
  destruct (IH (upd m d (m s)) (d + 1) (s + 1) ltac:(lia)) as [A B]. split.
  - intros i I. destruct (Z.eq_dec i 0) as [->|N].
    + rewrite !Z.add_0_r. rewrite B by lia. unfold upd. now rewrite Z.eqb_refl.
    + replace (d + i) with (d + 1 + (i - 1)) by lia. rewrite A by lia. unfold upd. replace (s + 1 + (i - 1) =? d) with false by lia. f_equal. lia.
  - intros x X. rewrite B by lia. unfold upd. replace (x =? d) with false by lia. reflexivity.
Qed.
Lemma copyDown_ok n : forall m d s, (d + Z.of_nat n <= s \/ s + Z.of_nat n <= d) ->
  (forall i, 0 <= i < Z.of_nat n -> copyDown n m (d + Z.of_nat n - 1) (s + Z.of_nat n - 1) (d + i) = m (s + i)) /\
  (forall x, x < d \/ d + Z.of_nat n <= x -> copyDown n m (d + Z.of_nat n - 1) (s + Z.of_nat n - 1) x = m x).
Proof.
  induction n as [|n IH]; intros m d s D; [split; [lia|reflexivity]|]. cbn [copyDown].
  set (m' := upd m (d + Z.of_nat (S n) - 1) (m (s + Z.of_nat (S n) - 1))).
  destruct (IH m' d s ltac:(lia)) as [A B].
  replace (d + Z.of_nat (S n) - 1 - 1) with (d + Z.of_nat n - 1) by lia. replace (s + Z.of_nat (S n) - 1 - 1) with (s + Z.of_nat n - 1) by lia. split.
  - intros i I. destruct (Z.eq_dec i (Z.of_nat n)) as [->|N].
    + rewrite B by lia. unfold m', upd. replace (d + Z.of_nat n =? d + Z.of_nat (S n) - 1) with true by lia. f_equal. lia.
    + rewrite A by lia. unfold m', upd. replace (s + i =? d + Z.of_nat (S n) - 1) with false by lia. reflexivity.
  - intros x X. rewrite B by lia. unfold m', upd. replace (x =? d + Z.of_nat (S n) - 1) with false by lia. reflexivity.
Qed.
Lemma copy_ok_range (m m' : Z -> Z) d s n : okmem m ->
  (forall i, 0 <= i < n -> m' (d + i) = m (s + i)) -> (forall x, x < d \/ d + n <= x -> m' x = m x) -> okmem m'.
Proof.
  intros O A B x. destruct (Z_lt_dec x d); [rewrite B by lia; apply O|]. destruct (Z_le_dec (d + n) x); [rewrite B by lia; apply O|].
  replace x with (d + (x - d)) by lia. rewrite A by lia. apply O.
Qed.

Definition slot (a : arg) : Z := match a with AWord _ => W | AStruct _ sz => up sz W end.
(** what the arguments need: values fit, structures lie outside the stack area being written *)
Definition okarg (lo hi : Z) (a : arg) : Prop :=
  match a with
  | AWord v => True
  | AStruct src sz => 1 <= sz < 2 ^ (8 * W) /\ 0 <= src < 2 ^ (8 * W) /\ (src + sz <= lo \/ hi <= src)
  end.
Definition pushed (s s' : mach) (a : arg) : Prop :=
  okmem (mem s') /\ sp s' = sp s - slot a /\ bp s' = bp s /\
  (forall i size, fits W a size -> 0 <= i < size -> mem s' (sp s' + i) = argbyte (mem s) a i) /\
  (forall x, sp s <= x \/ x < sp s - slot a - 4 * W -> mem s' x = mem s x).

Lemma pushArg_ok ra s a lo : okmem (mem s) -> okarg lo (sp s) a -> lo <= sp s - slot a - 4 * W ->
  0 <= ra < 2 ^ (8 * W) -> 0 <= bp s < 2 ^ (8 * W) -> pushed s (pushArg W ra s a) a.
Proof.
  intros O OA LO RA BP. assert (W0 : 2 <= W <= 4) by lia.
  destruct a as [v|src sz].
  - cbn [pushArg slot fits argbyte]. unfold pushed, push. cbn [mem sp bp slot]. split; [apply store_ok; exact O|]. split; [reflexivity|]. split; [reflexivity|]. split.
    + intros i size F I. cbn [fits argbyte] in *. apply store_in. lia.
    + intros x X. apply store_out. lia.
  - destruct OA as (SZ & SR & DJ). cbn [slot] in *. assert (U : sz <= up sz W < sz + W) by (apply up_ge; lia).
    assert (U2 : W <= up sz W). { unfold up. assert (1 <= (sz + W - 1) / W) by (apply Z.div_le_lower_bound; lia). nia. }
    destruct s as [m0 s0 b0]. cbn [mem sp bp] in *.
    cbv beta iota zeta delta [pushArg structPush push mem sp bp].
    set (m1 := store W m0 (s0 - W) sz). set (m2 := store W m1 (s0 - W - W) src). set (m3 := store W m2 (s0 - W - W - W) ra).
    set (m4 := store W m3 (s0 - W - W - W - W) b0).
    assert (O4 : okmem m4) by (repeat apply store_ok; exact O).
    assert (LB : load W m4 (s0 - W - W - W - W) = b0) by (apply load_store; exact BP).
    assert (LR : load W m4 (s0 - W - W - W - W + W) = ra).
    { replace (s0 - W - W - W - W + W) with (s0 - W - W - W) by lia. unfold m4. rewrite load_store_other by lia. apply load_store. exact RA. }
    assert (LS : load W m4 (s0 - W - W - W - W + 2 * W) = src).
    { replace (s0 - W - W - W - W + 2 * W) with (s0 - W - W) by lia. unfold m4. rewrite load_store_other by lia.
      unfold m3. rewrite load_store_other by lia. apply load_store. exact SR. }
    assert (LC : load W m4 (s0 - W - W - W - W + 3 * W) = sz).
    { replace (s0 - W - W - W - W + 3 * W) with (s0 - W) by lia. unfold m4. rewrite load_store_other by lia.
      unfold m3. rewrite load_store_other by lia. unfold m2. rewrite load_store_other by lia. apply load_store. lia. }
    assert (OUT4 : forall x, s0 <= x \/ x < s0 - 4 * W -> m4 x = m0 x).
    { intros x X. unfold m4, m3, m2, m1. rewrite !store_out by lia. reflexivity. }
    rewrite LB, LR, LS, LC. clearbody m4. clear m1 m2 m3 LB LR LS LC.
    set (p := s0 - up sz W).
    assert (FIN : forall m5 m9 (ax : Z), okmem m5 -> (forall i, 0 <= i < sz -> m5 (p + i) = m4 (src + i)) -> (forall x, x < p \/ p + sz <= x -> m5 x = m4 x) ->
      ax = load W m5 p -> okmem m9 -> (forall x, (p <= x \/ x < p - 2 * W) -> m9 x = m5 x) ->
      pushed (Mach m0 s0 b0) (Mach (store W m9 p ax) p b0) (AStruct src sz)).
    { intros m5 m9 ax O5 C1 C2 -> O9 E9. unfold pushed. cbn [mem sp bp slot]. split; [apply store_ok; exact O9|]. split; [reflexivity|]. split; [reflexivity|]. split.
      - intros i size [-> _] I. cbn [argbyte].
        assert (V : m5 (p + i) = m0 (src + i)) by (rewrite C1 by lia; apply OUT4; lia).
        rewrite <- V. destruct (Z_lt_dec i W) as [LT|GE].
        + rewrite store_in by lia. apply load_byte; [exact O5|lia].
        + rewrite store_out by lia. apply E9. lia.
      - intros x X. rewrite store_out by lia. rewrite E9 by lia. rewrite C2 by lia. apply OUT4. lia. }
    destruct (W =? 2) eqn:W2.
    + assert (EW : W = 2) by lia.
      assert (UP : (sz + 1) / 2 * 2 = up sz W) by (unfold up; rewrite EW; do 2 f_equal; lia). rewrite UP.
      replace (s0 - W - W - W - W + 4 * 2 - up sz W) with p by (unfold p; lia).
      destruct (copyUp_ok (Z.to_nat sz) m4 p src ltac:(unfold p; lia)) as [C1 C2]. rewrite Z2Nat.id in C1, C2 by lia.
      set (m5 := copyUp (Z.to_nat sz) m4 p src) in *. pose proof (copy_ok_range m4 m5 p src sz O4 C1 C2) as O5.
      cbn [mem sp bp]. replace (p + W - W) with p by lia. replace (p - W - W + W + 2 * W - W) with p by lia.
      replace (p - W - W + W + 2 * W) with (p + W) by lia. replace (p + W - W) with p by lia.
      match goal with |- pushed (Mach m0 s0 b0) (Mach (store W ?m9 p ?ax) p b0) _ => apply (FIN m5 m9 ax O5 C1 C2 eq_refl) end.
      * repeat apply store_ok. exact O5.
      * intros x X. rewrite store_out by lia. rewrite store_out by lia.
        destruct (Z_lt_dec x p); [rewrite store_out by lia; reflexivity|]. destruct (Z_le_dec (p + W) x); [rewrite store_out by lia; reflexivity|].
        replace x with (p + (x - p)) by lia. rewrite store_in by lia. apply load_byte; [exact O5|lia].
    + assert (EW : W = 4) by lia.
      assert (UP : (sz + 3) / 4 * 4 = up sz W) by (unfold up; rewrite EW; do 2 f_equal; lia). rewrite UP.
      replace (s0 - W - W - W - W - (up sz W - 4 * 4)) with p by (unfold p; lia).
      destruct (copyDown_ok (Z.to_nat sz) m4 p src ltac:(unfold p; lia)) as [C1 C2]. rewrite Z2Nat.id in C1, C2 by lia.
      set (m5 := copyDown (Z.to_nat sz) m4 (p + sz - 1) (src + sz - 1)) in *. pose proof (copy_ok_range m4 m5 p src sz O4 C1 C2) as O5.
      cbn [mem sp bp]. replace (p - W - W + W + 2 * W - W) with p by lia.
      match goal with |- pushed (Mach m0 s0 b0) (Mach (store W ?m9 p ?ax) p b0) _ => apply (FIN m5 m9 ax O5 C1 C2 eq_refl) end.
      * repeat apply store_ok. exact O5.
      * intros x X. rewrite store_out by lia. rewrite store_out by lia. reflexivity.
Qed.

Definition slots (args : list arg) : Z := fold_right (fun a t => slot a + t) 0 args.
Fixpoint places (o : Z) (args : list arg) : list Z :=
  match args with [] => [] | a :: args => o :: places (o + slot a) args end.
Lemma slot_pos a lo hi : okarg lo hi a -> 0 < slot a.
Proof. destruct a as [v|src sz]; cbn [slot okarg]; [lia|]. intros (S & _). pose proof (up_ge sz W ltac:(lia)). lia. Qed.

Lemma pushArgs_ok ra s args lo : okmem (mem s) -> Forall (okarg lo (sp s)) args -> lo <= sp s - slots args - 4 * W ->
  0 <= ra < 2 ^ (8 * W) -> 0 <= bp s < 2 ^ (8 * W) ->
  let s' := pushArgs W ra s args in
  okmem (mem s') /\ sp s' = sp s - slots args /\ bp s' = bp s /\
  (forall x, sp s <= x \/ x < lo -> mem s' x = mem s x) /\
  (forall k a o, nth_error args k = Some a -> nth_error (places 0 args) k = Some o ->
     forall size i, fits W a size -> 0 <= i < size -> mem s' (sp s' + o + i) = argbyte (mem s) a i).
Proof.
  intros O. induction args as [|a args IH]; intros F LO RA BP; cbn [pushArgs slots fold_right places]; cbv zeta.
  - split; [exact O|]. split; [lia|]. split; [reflexivity|]. split; [reflexivity|]. intros k a o N. destruct k; discriminate N.
  - fold (slots args) in *. apply Forall_cons_iff in F. destruct F as [FA F]. pose proof (slot_pos a lo (sp s) FA) as SP.
    cbn [slots fold_right] in LO. fold (slots args) in LO.
    assert (NN : 0 <= slots args). { clear -F HW. induction F as [|b l B F I]; [cbn; lia|]. cbn [slots fold_right]. fold (slots l). pose proof (slot_pos b _ _ B). lia. }
    cbv zeta in IH. destruct (IH F ltac:(lia) RA BP) as (O1 & S1 & B1 & X1 & P1). set (s1 := pushArgs W ra s args) in *.
    assert (FA1 : okarg lo (sp s1) a). { destruct a; [exact I|]. destruct FA as (Y1 & Y2 & Y3). split; [exact Y1|]. split; [exact Y2|]. lia. }
    destruct (pushArg_ok ra s1 a lo O1 FA1 ltac:(lia) RA ltac:(lia)) as (O2 & S2 & B2 & P2 & X2).
    set (s2 := pushArg W ra s1 a) in *.
    split; [exact O2|]. split; [lia|]. split; [lia|]. split.
    + intros x X. rewrite X2 by lia. apply X1. lia.
    + intros k a' o N1 N2 size i FT I. destruct k as [|k].
      * cbn [nth_error] in N1, N2. injection N1 as <-. injection N2 as <-. rewrite Z.add_0_r. rewrite (P2 i size FT I).
        destruct a as [v|src sz]; [reflexivity|]. cbn [argbyte]. destruct FT as [-> _]. destruct FA as (Y1 & Y2 & Y3). apply X1. lia.
      * cbn [nth_error] in N1, N2.
        assert (SH : forall l o1 o2 k x, nth_error (places o1 l) k = Some x -> nth_error (places (o1 + o2) l) k = Some (x + o2)).
        { clear. induction l as [|b l IH]; intros o1 o2 k x; [destruct k; discriminate|]. destruct k as [|k]; cbn [places nth_error].
          - intros H. injection H as <-. reflexivity.
          - intros H. replace (o1 + o2 + slot b) with (o1 + slot b + o2) by lia. apply IH. exact H. }
        assert (NE : exists o', nth_error (places 0 args) k = Some o').
        { destruct (nth_error (places 0 args) k) as [o'|] eqn:E; [now exists o'|]. exfalso. apply nth_error_None in E.
          assert (LEN : forall l o, length (places o l) = length l) by (clear; induction l; intros; cbn; auto).
          rewrite LEN in E. apply nth_error_None in E. congruence. }
        destruct NE as [o' E']. pose proof (SH args 0 (slot a) k o' E') as N3. rewrite N2 in N3. injection N3 as ->.
        replace (sp s2 + (o' + slot a) + i) with (sp s1 + o' + i) by lia.
        assert (OB : sp s1 <= sp s1 + o' + i).
        { assert (G : forall l o k x, Forall (okarg lo (sp s)) l -> nth_error (places o l) k = Some x -> o <= x).
          { clear -HW. induction l as [|b l IH]; intros o k x F H; [destruct k; discriminate|]. apply Forall_cons_iff in F. destruct F as [B F].
            pose proof (slot_pos b _ _ B). destruct k as [|k]; cbn [places nth_error] in H; [injection H as <-; lia|]. specialize (IH _ _ _ F H). lia. }
          specialize (G args 0 k o' F E'). lia. }
        rewrite X2 by lia. apply (P1 k a' o' N1 E' size i FT I).
Qed.

(** callee *)
Lemma paramOffsets_ok sizes : forall o os, 0 <= o < 2 ^ 31 -> Forall (fun s => 1 <= s < 2 ^ 32) sizes ->
  paramOffsets W L o sizes = Some os ->
  os = (fix go o l := match l with [] => [] | s :: l => o :: go (o + up s W) l end) o sizes.
Proof.
  induction sizes as [|s sizes IH]; intros o os Ho F H; cbn [paramOffsets] in H; [injection H as <-; reflexivity|].
  apply Forall_cons_iff in F. destruct F as [S F]. assert (P2 : p2 W) by (destruct HW; unfold p2; lia).
  rewrite land_lnot_pow in H by (exact P2 || apply u32_range).
  destruct (u32 (s + W - 1) <? s) eqn:C1; [discriminate H|].
  assert (E1 : u32 (s + W - 1) = s + W - 1).
  { destruct (Z_lt_dec (s + W - 1) (2 ^ 32)) as [LT|GE]; [apply u32_small; lia|].
    exfalso. assert (u32 (s + W - 1) = s + W - 1 - 2 ^ 32) by (unfold u32; symmetry; apply (Z.mod_unique _ _ 1); lia). lia. }
  assert (S2 : s + W - 1 < 2 ^ 32) by (pose proof (u32_range (s + W - 1)); lia).
  rewrite E1 in *. change ((s + W - 1) / W * W) with (up s W) in H.
  pose proof (up_ge s W ltac:(lia)) as U.
  destruct (u32 (o + up s W) <? o) eqn:C2; [discriminate H|]. destruct (L <? u32 (o + up s W)) eqn:C3; [discriminate H|].
  assert (E2 : u32 (o + up s W) = o + up s W).
  { pose proof (u32_range (o + up s W)) as R.
    destruct (Z_lt_dec (o + up s W) (2 ^ 32)) as [LT|GE]; [apply u32_small; lia|].
    exfalso. assert (u32 (o + up s W) = o + up s W - 2 ^ 32) by (unfold u32; symmetry; apply (Z.mod_unique _ _ 1); lia). lia. }
  rewrite E2 in H. destruct (paramOffsets W L (o + up s W) sizes) as [os'|] eqn:E; cbn [obind] in H; [|discriminate H]. injection H as <-.
  f_equal. apply IH; [lia|exact F|exact E].
Qed.
Definition spots := fix go (o : Z) (l : list Z) : list Z := match l with [] => [] | s :: l => o :: go (o + up s W) l end.
Lemma slot_size a s : fits W a s -> slot a = up s W.
Proof.
  destruct a as [v|src sz]; cbn [fits slot]; [|intros [-> _]; reflexivity]. intros S.
  unfold up. replace ((s + W - 1) / W) with 1; [lia|]. apply (Z.div_unique _ _ _ (s - 1)); lia.
Qed.
Lemma places_spots args sizes : Forall2 (fits W) args sizes -> forall o, places o args = spots o sizes.
Proof.
  induction 1 as [|a s args sizes F FF IH]; intros o; [reflexivity|]. cbn [places spots]. rewrite (slot_size a s F). f_equal. apply IH.
Qed.
Lemma spots_shift sizes : forall o d, spots (o + d) sizes = map (Z.add d) (spots o sizes).
Proof.
  induction sizes as [|s l IH]; intros o d; [reflexivity|]. cbn [spots map]. f_equal; [lia|].
  replace (o + d + up s W) with (o + up s W + d) by lia. apply IH.
Qed.

(** the caller's count *)
Lemma structBytes_ok args : forall acc r lo hi, 0 <= acc <= L -> acc mod W = 0 -> Forall (okarg lo hi) args -> structBytes W L acc args = Some r ->
  r mod W = 0 /\ r + zlen args * W = acc + slots args /\ 0 <= r <= L.
Proof.
  induction args as [|a args IH]; intros acc r lo hi A M F H; cbn [structBytes] in H.
  - injection H as <-. cbn. change (zlen (@nil arg)) with 0. split; [exact M|]. lia.
  - apply Forall_cons_iff in F. destruct F as [FA F]. rewrite zlen_cons. cbn [slots fold_right]. fold (slots args).
    destruct a as [v|src sz]; cbn [slot].
    + destruct (IH _ _ _ _ A M F H) as (E1 & E2 & E3). split; [exact E1|]. lia.
    + assert (P2 : p2 W) by (destruct HW; unfold p2; lia).
      destruct (L <? sz) eqn:C0; [discriminate H|]. destruct FA as (Y1 & _).
      rewrite land_lnot_pow in H by (exact P2 || apply u32_range).
      rewrite (u32_small (sz + W - 1)) in H by lia. change ((sz + W - 1) / W * W) with (up sz W) in H.
      pose proof (up_ge sz W ltac:(lia)) as U.
      assert (U2 : W <= up sz W). { unfold up. assert (1 <= (sz + W - 1) / W) by (apply Z.div_le_lower_bound; lia). nia. }
      rewrite (u32_small (acc + up sz W)) in H by lia. rewrite (u32_small (acc + up sz W - W)) in H by lia.
      destruct (acc + up sz W <? acc) eqn:C1; [lia|]. destruct (L <? acc + up sz W - W) eqn:C2; [discriminate H|].
      assert (M2 : (acc + up sz W - W) mod W = 0).
      { replace (acc + up sz W - W) with (acc + (up sz W / W - 1) * W).
        - rewrite Z.mod_add by lia. exact M.
        - pose proof (up_mod sz W ltac:(lia)). pose proof (Z.div_mod (up sz W) W). lia. }
      destruct (IH _ _ _ _ (ltac:(lia) : 0 <= acc + up sz W - W <= L) M2 F H) as (E1 & E2 & E3). split; [exact E1|]. lia.
Qed.

Theorem call_ok ra s ret args sizes os lo n :
  okmem (mem s) -> 0 <= ra < 2 ^ (8 * W) -> 0 <= bp s < 2 ^ (8 * W) ->
  Forall2 (fits W) args sizes -> Forall (fun z => z < 2 ^ 32) sizes -> Forall (okarg lo (sp s)) args ->
  addFxnParamSymbols W L (match ret with Some _ => true | None => false end) sizes = Some os ->
  cleanup W L (match ret with Some _ => true | None => false end) args = Some n ->
  lo <= sp s - n - 4 * W -> zlen args < 2 ^ 28 ->
  let s' := callSeq W ra s ret args in
  (forall k a o size i, nth_error args k = Some a -> nth_error os k = Some o -> nth_error sizes k = Some size -> 0 <= i < size ->
     mem s' (bp s' + o + i) = argbyte (mem s) a i) /\
  (forall p i, ret = Some p -> 0 <= i < W -> mem s' (bp s' + 2 * W + i) = p / 2 ^ (8 * i) mod 256) /\
  (forall i, 0 <= i < W -> mem s' (bp s' + W + i) = ra / 2 ^ (8 * i) mod 256) /\
  (forall x, sp s <= x \/ x < lo -> mem s' x = mem s x) /\
  bp s' + 2 * W + n = sp s.
Proof.
  intros O RA BP FT SZ OA HO HC LO AL. cbv zeta.
  set (args' := match ret with Some p => AWord p :: args | None => args end).
  assert (W0 : 2 <= W <= 4) by lia.
  assert (OA' : Forall (okarg lo (sp s)) args') by (unfold args'; destruct ret; [constructor; [exact I|exact OA]|exact OA]).
  assert (NN : 0 <= slots args'). { clear -OA' HW. induction OA' as [|b l B F I]; [cbn; lia|]. cbn [slots fold_right]. fold (slots l). pose proof (slot_pos b _ _ B). lia. }
  assert (SL : n = slots args').
  { unfold cleanup in HC. destruct (structBytes W L 0 args) as [r|] eqn:E; cbn [obind] in HC; [|discriminate HC]. injection HC as HC.
    assert (Z0 : 0 mod W = 0) by apply Zmod_0_l.
    destruct (structBytes_ok args 0 r lo (sp s) ltac:(lia) Z0 OA E) as (E1 & E2 & E3).
    assert (DV : r / W * W = r) by (pose proof (Z.div_mod r W); lia).
    assert (SL : slots args' = slots args + (if match ret with Some _ => true | None => false end then 1 else 0) * W) by (unfold args'; destruct ret; cbn [slots fold_right slot]; fold (slots args); lia).
    rewrite <- HC. pose proof (zlen_nonneg args). destruct ret; rewrite u32_small; nia. }
  destruct (pushArgs_ok ra s args' lo O OA' ltac:(lia) RA BP) as (O1 & S1 & B1 & X1 & P1). cbv zeta in *.
  unfold callSeq. fold args'. set (s1 := pushArgs W ra s args') in *.
  cbv zeta. unfold push. cbn [mem sp bp].
  assert (OUT : forall x, sp s1 <= x -> store W (store W (mem s1) (sp s1 - W) ra) (sp s1 - W - W) (bp s1) x = mem s1 x) by (intros x X; rewrite !store_out by lia; reflexivity).
  assert (HOS : os = map (Z.add (2 * W)) (match ret with Some _ => map (Z.add W) (spots 0 sizes) | None => spots 0 sizes end)).
  { assert (FS : Forall (fun z => 1 <= z < 2 ^ 32) sizes).
    { clear -FT SZ. revert SZ. induction FT as [|a z args sizes F FT IH]; intros SZ; [constructor|]. apply Forall_cons_iff in SZ. destruct SZ as [S1 S2].
      constructor; [destruct a; cbn [fits] in F; lia|apply IH; exact S2]. }
    unfold addFxnParamSymbols in HO. apply paramOffsets_ok in HO; [|destruct ret; lia|exact FS].
    change (os = spots (2 * W + (if match ret with Some _ => true | None => false end then W else 0)) sizes) in HO. rewrite HO.
    replace (2 * W + (if match ret with Some _ => true | None => false end then W else 0)) with (0 + (if match ret with Some _ => true | None => false end then W else 0) + 2 * W) by lia.
    rewrite spots_shift. f_equal. destruct ret; [rewrite spots_shift|]; reflexivity. }
  assert (SP0 : forall l o k x, Forall (okarg lo (sp s)) l -> nth_error (places o l) k = Some x -> o <= x).
  { clear -HW. induction l as [|b l IH]; intros o k x F H; [destruct k; discriminate|]. apply Forall_cons_iff in F. destruct F as [B F].
    pose proof (slot_pos b _ _ B). destruct k as [|k]; cbn [places nth_error] in H; [injection H as <-; lia|]. specialize (IH _ _ _ F H). lia. }
  split; [|split; [|split; [|split]]].
  - intros k a o size i NA NO NS I. subst os. rewrite nth_error_map in NO.
    assert (FA : fits W a size).
    { clear -FT NA NS. revert k NA NS. induction FT as [|a' z args sizes F FT IH]; intros k NA NS; [destruct k; discriminate|].
      destruct k as [|k]; cbn [nth_error] in NA, NS; [injection NA as <-; injection NS as <-; exact F|exact (IH k NA NS)]. }
    assert (PL : forall o', nth_error (spots 0 sizes) k = Some o' ->
      exists k' , nth_error args' k' = Some a /\ nth_error (places 0 args') k' = Some (o' + match ret with Some _ => W | None => 0 end)).
    { intros o' E. rewrite <- (places_spots args sizes FT) in E. unfold args'. destruct ret as [p|].
      - exists (S k). cbn [nth_error places slot]. split; [exact NA|]. rewrite (places_spots args sizes FT) in *. rewrite spots_shift, nth_error_map, E. cbn [option_map]. f_equal. lia.
      - exists k. split; [exact NA|]. rewrite E. f_equal. lia. }
    assert (NE : exists o', nth_error (spots 0 sizes) k = Some o' /\ o = 2 * W + (match ret with Some _ => W | None => 0 end + o')).
    { destruct ret as [p|]; [rewrite nth_error_map in NO|]; destruct (nth_error (spots 0 sizes) k) as [o'|]; cbn [option_map] in NO; try discriminate NO; exists o'; (split; [reflexivity|]); apply some_inj in NO; lia. }
    destruct NE as (o' & NE & ->). destruct (PL o' NE) as (k' & K1 & K2).
    pose proof (SP0 _ _ _ _ OA' K2) as NN0.
    rewrite OUT by lia. rewrite <- (P1 k' a _ K1 K2 size i FA I). f_equal. lia.
  - intros p i -> I. rewrite OUT by lia. unfold args' in P1. pose proof (P1 0%nat (AWord p) 0 eq_refl eq_refl W i ltac:(cbn [fits]; lia) I) as E.
    cbn [argbyte] in E. rewrite <- E. f_equal. lia.
  - intros i I. rewrite store_out by lia. replace (sp s1 - W - W + W + i) with (sp s1 - W + i) by lia. apply store_in. exact I.
  - intros x X. rewrite !store_out by lia. apply X1. exact X.
  - lia.
Qed.
End P.
