(** __cvtdif: the digits of the integral part. *)
From Verif Require Import Base BaseLemmas LexModel DoPrintSpec CvtModel CvtSpec IdentProof DoPrintProof CvtProof.

(** ** chunk i counts 2^(16 i) *)
Definition B (i : Z) : Z := 2 ^ (16 * i).
Fixpoint val (n : nat) (a : list Z) : Z :=
  match n with O => 0 | S i => val i a + at_ a (Z.of_nat i) * B (Z.of_nat i) end.
Lemma B_step i : 0 <= i -> B (i + 1) = 2 ^ 16 * B i.
Proof. intros I. unfold B. rewrite <- Z.pow_add_r by lia. f_equal. lia. Qed.
Lemma B_pos i : 0 <= i -> 0 < B i.
Proof. intros I. apply Z.pow_pos_nonneg; lia. Qed.
Lemma val_ext n a a' : (forall i, 0 <= i < Z.of_nat n -> at_ a' i = at_ a i) -> val n a' = val n a.
Proof. induction n as [|n IH]; intros H; cbn [val]; [reflexivity|]. rewrite IH, H by (intros; apply H || idtac; lia). reflexivity. Qed.
Lemma val_bound n a : chunks a -> 0 <= val n a < B (Z.of_nat n).
Proof.
  intros C. induction n as [|n IH]; cbn [val]; [cbn; lia|]. specialize (C (Z.of_nat n)).
  replace (Z.of_nat (S n)) with (Z.of_nat n + 1) by lia. pose proof (B_step (Z.of_nat n) ltac:(lia)).
  pose proof (B_pos (Z.of_nat n) ltac:(lia)). nia.
Qed.
Lemma val_high n k a : chunks a -> (k <= n)%nat -> val n a < B (Z.of_nat k) -> val k a = val n a.
Proof.
  intros C. induction n as [|n IH]; intros K H; [replace k with O by lia; reflexivity|].
  destruct (Nat.eq_dec k (S n)) as [-> | NE]; [reflexivity|]. cbn [val] in *.
  pose proof (val_bound n a C). pose proof (C (Z.of_nat n)).
  assert (BB : B (Z.of_nat k) <= B (Z.of_nat n)) by (apply Z.pow_le_mono_r; lia).
  pose proof (B_pos (Z.of_nat n) ltac:(lia)).
  assert (Z0 : at_ a (Z.of_nat n) = 0) by nia. rewrite Z0 in *. rewrite Z.mul_0_l, Z.add_0_r in *. apply IH; lia.
Qed.
Lemma divLoop_ok n : forall a r, zlen a = 8 -> (n <= 8)%nat -> chunks a -> 0 <= r < 10 ->
  exists a' r', divLoop n a r = Ok (a', r') /\ zlen a' = 8 /\ chunks a' /\
    (forall i, Z.of_nat n <= i -> at_ a' i = at_ a i) /\ 0 <= r' < 10 /\
    r * B (Z.of_nat n) + val n a = val n a' * 10 + r'.
Proof.
  induction n as [|n IH]; intros a r L N C R.
  - exists a, r. split; [reflexivity|]. split; [exact L|]. split; [exact C|]. split; [reflexivity|]. split; [lia|].
    cbn [val]. change (B (Z.of_nat 0)) with 1. lia.
  - cbn [divLoop]. rewrite get_ok by lia. cbn [rbind]. pose proof (C (Z.of_nat n)) as CN. set (c := at_ a (Z.of_nat n)) in *.
    rewrite (u32_small (r * 2 ^ 16 + c)) by (change (2 ^ 16) with 65536 in *; lia).
    set (r1 := r * 2 ^ 16 + c).
    pose proof (Z.div_mod r1 10 ltac:(lia)) as DM. pose proof (Z.mod_pos_bound r1 10 ltac:(lia)) as MB.
    assert (DR : 0 <= r1 / 10 < 2 ^ 16) by (split; [apply Z.div_pos; lia|apply Z.div_lt_upper_bound; unfold r1; lia]).
    assert (UE : u16 (r1 / 10) = r1 / 10) by (apply Z.mod_small; exact DR). rewrite UE.
    destruct (set_ok a (Z.of_nat n) (r1 / 10) ltac:(lia)) as (a1 & -> & L1 & G1). cbn [rbind].
    pose proof (chunks_set a a1 _ _ C DR G1) as C1.
    destruct (IH a1 (r1 mod 10) ltac:(lia) ltac:(lia) C1 MB) as (a' & r' & E & L' & C' & K & R' & V).
    exists a', r'. split; [exact E|]. split; [exact L'|]. split; [exact C'|]. split.
    { intros i I. rewrite K by lia. rewrite (at_set a a1 _ _ G1). destruct (Z.eqb_spec (Z.of_nat n) i); [lia|reflexivity]. }
    split; [exact R'|]. cbn [val]. rewrite (K (Z.of_nat n)) by lia. rewrite (at_set a a1 _ _ G1), Z.eqb_refl. fold c.
    rewrite (val_ext n a a1) in V by (intros i I; rewrite (at_set a a1 _ _ G1); destruct (Z.eqb_spec (Z.of_nat n) i); [lia|reflexivity]).
    pose proof (B_step (Z.of_nat n) ltac:(lia)) as US. replace (Z.of_nat (S n)) with (Z.of_nat n + 1) by lia.
    rewrite US. assert (r1 * B (Z.of_nat n) = r * (2 ^ 16 * B (Z.of_nat n)) + c * B (Z.of_nat n)) by (unfold r1; ring).
    clearbody r1. nia.
Qed.

(** ** the circular buffer: digit k of [ds] is k places after p *)
Definition place (o p size k : Z) : Z := if p - o + k <? size then p + k else p + k - size.
Definition ring_ (b : list Z) (o p size : Z) (ds : list Z) : Prop :=
  o < p <= o + size /\ (forall k, 0 <= k < Z.min (zlen ds) size -> zget b (place o p size k) = zget ds k) /\
  (zlen ds < size -> p = o + size - zlen ds) /\ (zlen ds = size -> p = o + size).
Lemma digLoop_ok o size : 0 <= o -> 1 <= size -> forall fuel a e b p ds watch rem,
  zlen a = 8 -> chunks a -> 0 <= e < 8 -> o + size <= zlen b -> ring_ b o p size ds -> decimal ds ->
  let N := val (Z.to_nat (e + 1)) a in (1 <= e -> B e <= N) -> N < 10 ^ Z.of_nat fuel -> (1 <= fuel)%nat ->
  exists b' p' ds' rem', digLoop fuel a e b o p size (zlen ds) watch rem = Ok (b', p', zlen ds', rem') /\
    decimal ds' /\ number ds' = N * 10 ^ zlen ds + number ds /\ (0 < N -> hd 48 ds' <> 48) /\ (N = 0 -> ds' = 48 :: ds) /\
    ring_ b' o p' size ds' /\ within o size b b' /\ zlen ds < zlen ds' /\
    (zlen ds' <= size -> rem' = rem) /\ (watch = false -> rem' = rem) /\
    (size < zlen ds' -> watch = true -> 0 < N -> rem' = true).
Proof.
  intros O SZ. induction fuel as [|fuel IH]; intros a e b p ds watch rem L C E BL (PR & RG & P1 & P2) D N NB NF FU; [lia|].
  cbn [digLoop].
  destruct (divLoop_ok (Z.to_nat (e + 1)) a 0 L ltac:(lia) C ltac:(lia)) as (a' & r & -> & L' & C' & K & R & V). cbn [rbind].
  fold N in V. set (N' := val (Z.to_nat (e + 1)) a') in *.
  pose proof (val_bound (Z.to_nat (e + 1)) a' C') as NB'. fold N' in NB'.
  destruct (set_ok b (p - 1) (r + 48) ltac:(lia)) as (b1 & -> & LB1 & GB1). cbn [rbind].
  rewrite get_ok by lia. cbn [rbind]. set (p1 := if p - 1 =? o then p - 1 + size else p - 1).
  set (ds1 := (r + 48) :: ds). assert (LD : zlen ds + 1 = zlen ds1) by (unfold ds1; zl; lia). rewrite LD.
  pose proof (zlen_nonneg ds) as LN.
  assert (D1 : decimal ds1) by (constructor; [lia|exact D]).
  assert (N1 : number ds1 = r * 10 ^ zlen ds + number ds) by (unfold ds1; rewrite number_cons; ring).
  assert (W1 : within o size b b1) by (split; [lia|]; intros i I; rewrite GB1; destruct (Z.eqb_spec (p - 1) i); [lia|reflexivity]).
  assert (RG1 : ring_ b1 o p1 size ds1).
  { unfold ring_. split; [unfold p1; destruct (Z.eqb_spec (p - 1) o); lia|]. split; [|split].
    - intros k KR. rewrite GB1. destruct (Z.eq_dec k 0) as [-> | KZ].
      + unfold ds1. rewrite zget_cons_0.
        assert (PE : place o p1 size 0 = p - 1).
        { unfold place, p1. destruct (Z.eqb_spec (p - 1) o).
          - destruct (p - 1 + size - o + 0 <? size) eqn:Q; lia.
          - destruct (p - 1 - o + 0 <? size) eqn:Q; lia. }
        rewrite PE, Z.eqb_refl. reflexivity.
      + unfold ds1. rewrite zget_cons_S by lia. rewrite <- RG by lia.
        assert (PE : place o p1 size k = place o p size (k - 1)).
        { unfold place, p1. destruct (Z.eqb_spec (p - 1) o).
          - destruct (p - 1 + size - o + k <? size) eqn:Q1, (p - o + (k - 1) <? size) eqn:Q2; lia.
          - destruct (p - 1 - o + k <? size) eqn:Q1, (p - o + (k - 1) <? size) eqn:Q2; lia. }
        rewrite PE. destruct (Z.eqb_spec (p - 1) (place o p size (k - 1))) as [EQ|NE]; [|reflexivity].
        exfalso. unfold place in EQ. destruct (p - o + (k - 1) <? size) eqn:Q; lia.
    - intros LT. unfold p1. destruct (Z.eqb_spec (p - 1) o); lia.
    - intros LT. unfold p1. destruct (Z.eqb_spec (p - 1) o); lia. }
  set (rem1 := if (size <? zlen ds1) && watch then rem || negb (r =? 0) else rem).
  set (e1 := if at_ a' e =? 0 then e - 1 else e).
  assert (EV : val (Z.to_nat (e + 1)) a' = val (Z.to_nat e) a' + at_ a' e * B e).
  { rewrite to_nat_S by lia. cbn [val]. rewrite Z2Nat.id by lia. reflexivity. }
  fold N' in EV. pose proof (val_bound (Z.to_nat e) a' C') as VB. pose proof (C' e) as CE. pose proof (B_pos e ltac:(lia)) as BP.
  rewrite Z2Nat.id in VB by lia.
  assert (V1 : val (Z.to_nat (e1 + 1)) a' = N').
  { unfold e1. destruct (Z.eqb_spec (at_ a' e) 0) as [Q|Q]; [|reflexivity]. replace (e - 1 + 1) with e by lia. rewrite EV, Q. lia. }
  assert (NB1 : 1 <= e1 -> B e1 <= N').
  { unfold e1. destruct (Z.eqb_spec (at_ a' e) 0) as [Q|Q]; intros E1.
    - pose proof (B_step (e - 1) ltac:(lia)) as BS. replace (e - 1 + 1) with e in BS by lia. specialize (NB ltac:(lia)).
      assert (0 < B (e - 1)) by (apply B_pos; lia). change (2 ^ 16) with 65536 in BS. lia.
    - nia. }
  destruct (0 <=? e1) eqn:QE.
  - assert (NP : 0 < N').
    { destruct (Z.eq_dec e1 0) as [E0|E0]; [|specialize (NB1 ltac:(lia)); pose proof (B_pos e1 ltac:(lia)); lia].
      unfold e1 in E0. destruct (Z.eqb_spec (at_ a' e) 0) as [Q|Q]; [|nia].
      assert (EE : e = 1) by lia. specialize (NB ltac:(lia)). rewrite EE in NB. change (B 1) with 65536 in NB. lia. }
    destruct fuel as [|fuel]; [change (10 ^ Z.of_nat 1) with 10 in NF; lia|].
    assert (NF1 : N' < 10 ^ Z.of_nat (S fuel)).
    { replace (Z.of_nat (S (S fuel))) with (Z.of_nat (S fuel) + 1) in NF by lia. rewrite Z.pow_add_r in NF by lia. change (10 ^ 1) with 10 in NF. lia. }
    destruct (IH a' e1 b1 p1 ds1 watch rem1 L' C' ltac:(unfold e1 in *; destruct (at_ a' e =? 0); lia) ltac:(lia) RG1 D1)
      as (b' & p' & ds' & rem' & EQ & DD & NN & H1 & H2 & RR & WW & ZL & M1 & M2 & M3).
    { rewrite V1. exact NB1. } { rewrite V1. exact NF1. } { lia. }
    rewrite V1 in *. exists b', p', ds', rem'. split; [exact EQ|]. split; [exact DD|]. split.
    { rewrite NN, N1. rewrite <- LD. rewrite Z.pow_add_r by lia. change (10 ^ 1) with 10.
      replace N with (N' * 10 + r) by lia. ring. }
    split; [intros _; apply H1; exact NP|]. split; [lia|]. split; [exact RR|]. split; [eapply within_trans; [exact W1|exact WW]|].
    split; [lia|]. split; [|split].
    + intros LE. rewrite M1 by lia. unfold rem1. destruct (size <? zlen ds1) eqn:Q; [lia|]. reflexivity.
    + intros WF. rewrite M2 by exact WF. unfold rem1. rewrite WF, andb_false_r. reflexivity.
    + intros. apply M3; auto.
  - assert (NZ : N' = 0).
    { unfold e1 in *. destruct (Z.eqb_spec (at_ a' e) 0) as [Q|Q]; [|lia]. assert (EE : e = 0) by lia. rewrite EV, Q, EE. cbn. lia. }
    exists b1, p1, ds1, rem1. split; [reflexivity|]. split; [exact D1|]. split; [rewrite N1; f_equal; f_equal; lia|].
    split; [intros; unfold ds1; cbn [hd]; lia|]. split; [intros; unfold ds1; f_equal; lia|]. split; [exact RG1|]. split; [exact W1|].
    split; [lia|]. split; [|split].
    + intros LE. unfold rem1. destruct (size <? zlen ds1) eqn:Q; [lia|]. reflexivity.
    + intros WF. unfold rem1. rewrite WF, andb_false_r. reflexivity.
    + intros LE WT NP. unfold rem1. rewrite WT. destruct (size <? zlen ds1) eqn:Q; [|lia]. cbn [andb]. destruct (Z.eqb_spec r 0); [lia|]. apply orb_true_r.
Qed.

(** ** putting the digits in order *)
Lemma moveLoop_ok t : forall b q p, 0 <= q < p -> p + Z.of_nat t <= zlen b ->
  exists b', moveLoop t b q p = Ok b' /\ zlen b' = zlen b /\
    (forall k, 0 <= k < Z.of_nat t -> zget b' (q + k) = zget b (p + k)) /\
    (forall i, i < q \/ q + Z.of_nat t <= i -> zget b' i = zget b i).
Proof.
  induction t as [|t IH]; intros b q p Q P.
  - exists b. split; [reflexivity|]. split; [reflexivity|]. split; [intros; lia|reflexivity].
  - cbn [moveLoop]. rewrite get_ok by lia. cbn [rbind].
    destruct (set_ok b q (at_ b p) ltac:(lia)) as (b1 & -> & L1 & G1). cbn [rbind].
    destruct (IH b1 (q + 1) (p + 1) ltac:(lia) ltac:(lia)) as (b' & E & L' & M & K). exists b'. split; [exact E|]. split; [lia|]. split.
    + intros k KR. destruct (Z.eq_dec k 0) as [-> | NZ].
      * rewrite K by lia. rewrite G1. destruct (Z.eqb_spec q (q + 0)); [|lia]. rewrite Z.add_0_r.
        destruct (proj2 (zget_range b p) ltac:(lia)) as (v & EV). unfold at_. rewrite EV. reflexivity.
      * replace (q + k) with (q + 1 + (k - 1)) by lia. rewrite M by lia. rewrite G1. destruct (Z.eqb_spec q (p + 1 + (k - 1))); [lia|]. f_equal. lia.
    + intros i I. rewrite K by lia. rewrite G1. destruct (Z.eqb_spec q i); [lia|reflexivity].
Qed.
Lemma revLoop_ok fuel : forall b p1 p2, 0 <= p1 -> p1 <= p2 + 1 -> p2 <= zlen b -> p2 - p1 < Z.of_nat fuel -> (1 <= fuel)%nat ->
  exists b', revLoop fuel b p1 p2 = Ok b' /\ zlen b' = zlen b /\
    forall i, zget b' i = if (p1 <=? i) && (i <? p2) then zget b (p1 + p2 - 1 - i) else zget b i.
Proof.
  induction fuel as [|fuel IH]; intros b p1 p2 P1 P12 P2 F F1.
  - lia.
  - cbn [revLoop]. destruct (p1 <? p2) eqn:Q.
    + rewrite !get_ok by lia. cbn [rbind].
      destruct (set_ok b p1 (at_ b (p2 - 1)) ltac:(lia)) as (b1 & -> & L1 & G1). cbn [rbind].
      destruct (set_ok b1 (p2 - 1) (at_ b p1) ltac:(lia)) as (b2 & -> & L2 & G2). cbn [rbind].
      destruct (IH b2 (p1 + 1) (p2 - 1) ltac:(lia) ltac:(lia) ltac:(lia) ltac:(lia) ltac:(lia)) as (b' & E & L' & G').
      exists b'. split; [exact E|]. split; [lia|]. intros i. rewrite G'.
      assert (AT : forall j, 0 <= j < zlen b -> Some (at_ b j) = zget b j).
      { intros j J. destruct (proj2 (zget_range b j) J) as (v & EV). unfold at_. rewrite EV. reflexivity. }
      destruct ((p1 + 1 <=? i) && (i <? p2 - 1)) eqn:Q1, ((p1 <=? i) && (i <? p2)) eqn:Q2; try lia.
      * rewrite G2, G1. destruct (Z.eqb_spec (p2 - 1) (p1 + 1 + (p2 - 1) - 1 - i)); [lia|].
        destruct (Z.eqb_spec p1 (p1 + 1 + (p2 - 1) - 1 - i)); [lia|]. f_equal. lia.
      * rewrite G2, G1. destruct (Z.eqb_spec (p2 - 1) i); [rewrite AT by lia; f_equal; lia|].
        destruct (Z.eqb_spec p1 i); [rewrite AT by lia; f_equal; lia|]. lia.
      * rewrite G2, G1. destruct (Z.eqb_spec (p2 - 1) i); [lia|]. destruct (Z.eqb_spec p1 i); [lia|]. reflexivity.
    + exists b. split; [reflexivity|]. split; [reflexivity|]. intros i. destruct ((p1 <=? i) && (i <? p2)) eqn:Q1; [lia|reflexivity].
Qed.

(** ** the chunks *)
Lemma exact_ok f k : 0 <= f < 2 ^ 24 -> k + 24 <= 128 -> -149 <= k -> exact (f, k) = true.
Proof. intros. unfold exact. apply andb_true_intro. split; [lia|]. apply orb_true_intro. left. lia. Qed.
Lemma split64 f k : 0 <= f < 2 ^ 24 -> -32 <= k <= 72 -> f * 2 ^ (k + 149) < 2 ^ (32 + 149) ->
  exists n1 n2, toUlong (f, k) = Ok n1 /\
    (exists y, ldexpf (fst (modff (f, k))) 32 = Ok y /\ toUlong y = Ok n2) /\
    0 <= n1 < 2 ^ 32 /\ 0 <= n2 < 2 ^ 32 /\ n1 * 2 ^ 32 + n2 = f * 2 ^ (k + 32).
Proof.
  intros FR KR LT. unfold toUlong at 1, modff. destruct (0 <=? k) eqn:QK; cbn [fst snd].
  - exists (f * 2 ^ k), 0.
    assert (PK : 0 < 2 ^ k) by (apply Z.pow_pos_nonneg; lia).
    assert (LB : f * 2 ^ k < 2 ^ 32).
    { rewrite !Z.pow_add_r, Z.mul_assoc in LT by lia. apply Z.mul_lt_mono_pos_r in LT; [exact LT|]. apply Z.pow_pos_nonneg; lia. }
    destruct (f * 2 ^ k <? 2 ^ 32) eqn:QB; [|lia]. split; [reflexivity|]. split.
    { exists (0, 32). split; reflexivity. }
    split; [split; [apply Z.mul_nonneg_nonneg; lia|lia]|]. split; [lia|].
    rewrite (Z.pow_add_r 2 k 32) by lia. ring.
  - assert (PK : 0 < 2 ^ (- k)) by (apply Z.pow_pos_nonneg; lia).
    pose proof (Z.div_mod f (2 ^ (- k)) ltac:(lia)) as DM. pose proof (Z.mod_pos_bound f (2 ^ (- k)) PK) as MB.
    assert (D0 : 0 <= f / 2 ^ (- k)) by (apply Z.div_pos; lia).
    assert (PP : 2 ^ (- k) * 2 ^ (k + 32) = 2 ^ 32) by (rewrite <- Z.pow_add_r by lia; f_equal; lia).
    assert (PK2 : 0 < 2 ^ (k + 32)) by (apply Z.pow_pos_nonneg; lia).
    exists (f / 2 ^ (- k)), (f mod 2 ^ (- k) * 2 ^ (k + 32)).
    assert (B1 : f / 2 ^ (- k) < 2 ^ 32) by (apply Z.div_lt_upper_bound; [lia|]; nia).
    destruct (f / 2 ^ (- k) <? 2 ^ 32) eqn:QB; [|lia]. split; [reflexivity|].
    assert (ML : f mod 2 ^ (- k) <= f) by (apply Z.mod_le; lia).
    assert (B2 : f mod 2 ^ (- k) * 2 ^ (k + 32) < 2 ^ 32) by (rewrite <- PP; apply Z.mul_lt_mono_pos_r; lia).
    split.
    { exists (f mod 2 ^ (- k), k + 32). unfold ldexpf. rewrite exact_ok by lia. split; [reflexivity|].
      unfold toUlong, modff. destruct (0 <=? k + 32) eqn:Q3; [|lia]. cbn [snd].
      destruct (f mod 2 ^ (- k) * 2 ^ (k + 32) <? 2 ^ 32) eqn:Q4; [reflexivity|lia]. }
    split; [lia|]. split; [split; [apply Z.mul_nonneg_nonneg; lia|exact B2]|].
    rewrite <- PP. rewrite DM at 3. ring.
Qed.
Lemma intPart_ok w m ex : scaled w = m * 2 ^ (ex + 150) -> -149 <= ex <= 104 -> 0 <= m ->
  intPart w = snd (modff (m, ex)).
Proof.
  intros S E M. unfold intPart, modff. rewrite S. destruct (0 <=? ex) eqn:Q; cbn [snd].
  - rewrite Z.pow_add_r, Z.mul_assoc by lia. apply Z.div_mul. lia.
  - replace (2 ^ 150) with (2 ^ (- ex) * 2 ^ (ex + 150)) by (rewrite <- Z.pow_add_r by lia; f_equal; lia).
    apply Z.div_mul_cancel_r; apply Z.pow_nonzero; lia.
Qed.
Lemma four_chunks_le j h1 l1 h2 l2 : In j [3; 5; 7] -> 0 <= h1 < 2 ^ 16 -> 0 <= l1 < 2 ^ 16 -> 0 <= h2 < 2 ^ 16 -> 0 <= l2 < 2 ^ 16 ->
  exists a1 a2 a3 a4, set (repeat 0 8) j h1 = Ok a1 /\ set a1 (j - 1) l1 = Ok a2 /\ set a2 (j - 2) h2 = Ok a3 /\ set a3 (j - 3) l2 = Ok a4 /\
    zlen a4 = 8 /\ chunks a4 /\
    val 8 a4 = ((h1 * 2 ^ 16 + l1) * 2 ^ 32 + (h2 * 2 ^ 16 + l2)) * B (j - 3).
Proof.
  intros JJ H1 L1 H2 L2. cbn [In] in JJ.
  assert (G : forall a1 a2 a3 a4, set (repeat 0 8) j h1 = Ok a1 -> set a1 (j - 1) l1 = Ok a2 -> set a2 (j - 2) h2 = Ok a3 -> set a3 (j - 3) l2 = Ok a4 -> chunks a4).
  { intros. eapply set_list_chunks; [|exact L2|eassumption]. eapply set_list_chunks; [|exact H2|eassumption].
    eapply set_list_chunks; [|exact L1|eassumption]. eapply set_list_chunks; [|exact H1|eassumption]. apply chunks_zero. }
  destruct JJ as [<- | [<- | [<- | []]]];
    (eexists _, _, _, _; split; [reflexivity|]; split; [reflexivity|]; split; [reflexivity|]; split; [reflexivity|];
     split; [reflexivity|]; split; [eapply G; reflexivity|];
     cbn [Z.to_nat Z.sub Z.opp Z.add Z.pos_sub Pos.pred_double Z.double Z.succ_double Z.pred_double];
     repeat match goal with |- context [Pos.to_nat ?k] => let v := eval cbv in (Pos.to_nat k) in change (Pos.to_nat k) with v end;
     cbn [val lset repeat];
     repeat match goal with |- context [at_ ?l ?i] => let v := eval cbv in (at_ l i) in change (at_ l i) with v end;
     unfold B;
     repeat match goal with |- context [2 ^ ?k] => let v := eval vm_compute in (2 ^ k) in change (2 ^ k) with v end; lia).
Qed.
Lemma intChunks_ok w : finite w -> exists a e, intChunks (ofBits w) = Ok (a, e) /\ zlen a = 8 /\ chunks a /\ 1 <= e <= 128 /\
  let k := (e - 1) / 16 in val (Z.to_nat (k + 1)) a = intPart w /\ (1 <= k -> B k <= intPart w) /\ 0 <= k < 8.
Proof.
  intros FI. destruct (ofBits_ok w FI) as (m & ex & OB & MR & ER & SC & NM).
  pose proof (intPart_ok w m ex SC ER ltac:(lia)) as IP. unfold intChunks. rewrite OB. cbv zeta.
  set (e := frexpf (m, ex)). 
  (* 2^(e-1) <= x < 2^e *)
  assert (EB : m = 0 /\ e = 0 \/ 0 < m /\ exists g, e = g + 1 + ex /\ 0 <= g < 24 /\ 2 ^ g <= m < 2 ^ (g + 1)).
  { unfold e, frexpf. destruct (Z.eqb_spec m 0) as [M0|M0]; [left; auto|right]. split; [lia|]. exists (Z.log2 m). split; [reflexivity|].
    pose proof (log2_bounds m ltac:(lia)). split; [|assumption]. split; [apply Z.log2_nonneg|]. apply pow_lt_inv; [apply Z.log2_nonneg|lia]. }
  clearbody e.
  destruct (e <=? 32) eqn:Q32.
  - (* at most 32 bits *)
    assert (IR : 0 <= intPart w /\ intPart w < 2 ^ Z.max e 0 /\ (1 <= e -> 2 ^ (e - 1) <= intPart w)).
    { rewrite IP. unfold modff. destruct EB as [[-> ->] | (MP & g & EE & GR & GB)].
      - destruct (0 <=? ex); cbn [snd]; rewrite ?Z.mul_0_l, ?Zdiv_0_l; split; lia.
      - destruct (0 <=? ex) eqn:QX; cbn [snd].
        + assert (PX : 0 < 2 ^ ex) by (apply Z.pow_pos_nonneg; lia). split; [nia|].
          replace (Z.max e 0) with (g + 1 + ex) by lia. rewrite (Z.pow_add_r 2 (g + 1) ex) by lia. split; [apply Z.mul_lt_mono_pos_r; lia|].
          intros _. replace (e - 1) with (g + ex) by lia. rewrite Z.pow_add_r by lia. apply Z.mul_le_mono_pos_r; lia.
        + assert (PX : 0 < 2 ^ (- ex)) by (apply Z.pow_pos_nonneg; lia). split; [apply Z.div_pos; lia|]. split.
          * apply Z.div_lt_upper_bound; [lia|]. apply Z.lt_le_trans with (2 ^ (g + 1)); [lia|]. rewrite <- Z.pow_add_r by lia. apply Z.pow_le_mono_r; lia.
          * intros E1. apply Z.div_le_lower_bound; [lia|]. rewrite <- Z.pow_add_r by lia. replace (- ex + (e - 1)) with g by lia. lia. }
    destruct IR as (I0 & IU & IL).
    assert (I32 : intPart w < 2 ^ 32) by (eapply Z.lt_le_trans; [exact IU|]; apply Z.pow_le_mono_r; lia).
    assert (TU : toUlong (m, ex) = Ok (intPart w)).
    { unfold toUlong. rewrite <- IP. destruct (intPart w <? 2 ^ 32) eqn:Q; [reflexivity|lia]. }
    rewrite TU. cbn [rbind]. set (ul := intPart w) in *. clearbody ul.
    destruct (set_ok (repeat 0 8) 0 (lo ul) ltac:(cbn; lia)) as (a1 & S1 & L1 & G1). rewrite S1. cbn [rbind].
    pose proof (set_list_chunks _ _ _ _ (chunks_zero 8) (lo_range ul) S1) as C1.
    destruct (set_ok a1 1 (hi ul) ltac:(rewrite L1; cbn; lia)) as (a2 & S2 & L2 & G2). rewrite S2. cbn [rbind].
    pose proof (set_list_chunks _ _ _ _ C1 (hi_range ul) S2) as C2.
    exists a2, (if e <=? 0 then 1 else e). split; [reflexivity|]. split; [rewrite L2, L1; reflexivity|]. split; [exact C2|].
    split; [destruct (e <=? 0) eqn:Q0; lia|].
    assert (V2 : val 2 a2 = ul).
    { cbn [val]. rewrite !(at_set _ _ _ _ G2), !(at_set _ _ _ _ G1). change (1 =? Z.of_nat 0) with false. change (1 =? Z.of_nat 1) with true.
      change (0 =? Z.of_nat 0) with true. cbv iota. change (B (Z.of_nat 0)) with 1. change (B (Z.of_nat 1)) with (2 ^ 16).
      rewrite <- (hi_lo ul) at 3 by lia. ring. }
    cbv zeta. set (e' := if e <=? 0 then 1 else e). assert (E' : 1 <= e' <= 32 /\ ul < 2 ^ e' /\ (2 <= e' -> 2 ^ (e' - 1) <= ul)).
    { unfold e'. destruct (e <=? 0) eqn:Q0; [|replace (Z.max e 0) with e in IU by lia; split; [lia|split; [exact IU|intros; apply IL; lia]]].
      split; [lia|]. split; [|lia]. eapply Z.lt_le_trans; [exact IU|]. apply Z.pow_le_mono_r; lia. }
    clearbody e'. destruct E' as (ER' & UB' & LB').
    assert (KK : (e' - 1) / 16 = 0 /\ e' <= 16 \/ (e' - 1) / 16 = 1 /\ 17 <= e') by (clear - ER'; lia).
    destruct KK as [[-> KE] | [-> KE]].
    + split; [|lia]. change (Z.to_nat (0 + 1)) with 1%nat. rewrite <- V2. apply val_high; [exact C2|lia|]. rewrite V2.
      change (B (Z.of_nat 1)) with (2 ^ 16). eapply Z.lt_le_trans; [exact UB'|]. apply Z.pow_le_mono_r; lia.
    + split; [exact V2|]. split; [|lia]. intros _. eapply Z.le_trans; [|apply LB'; lia]. apply Z.pow_le_mono_r; lia.
  - (* more *)
    destruct EB as [[-> ->] | (MP & g & EE & GR & GB)]; [lia|].
    assert (G23 : g = 23).
    { assert (X : 2 ^ 23 <= m) by (apply NM; lia). assert (23 < g + 1) by (apply pow_lt_inv; lia). lia. }
    subst g. pose proof (Z.div_mod (e + 31) 32 ltac:(lia)) as DM. pose proof (Z.mod_pos_bound (e + 31) 32 ltac:(lia)) as MB.
    set (e2 := (e + 31) / 32 * 32) in *. assert (E2 : e <= e2 < e + 32) by (unfold e2; lia).
    assert (J : exists j, In j [3; 5; 7] /\ e2 / 16 - 1 = j /\ e2 = 16 * (j + 1)).
    { assert (T : (e + 31) / 32 = 2 \/ (e + 31) / 32 = 3 \/ (e + 31) / 32 = 4) by lia. unfold e2.
      destruct T as [-> | [-> | ->]]; eexists; (split; [|split; reflexivity]); cbn; lia. }
    destruct J as (j & JI & JD & JE). rewrite JD. clearbody e2. clear DM MB.
    set (k := ex + (32 - e2)). unfold ldexpf at 1. fold k. rewrite exact_ok by (unfold k; lia). cbn [rbind].
    assert (KD : k = e - e2 + 8) by (unfold k; lia). clearbody k.
    assert (LT : m * 2 ^ (k + 149) < 2 ^ (32 + 149)).
    { apply Z.lt_le_trans with (2 ^ 24 * 2 ^ (k + 149)).
      - apply Z.mul_lt_mono_pos_r; [apply Z.pow_pos_nonneg; lia|lia].
      - rewrite <- Z.pow_add_r by lia. apply Z.pow_le_mono_r; lia. }
    destruct (split64 m k ltac:(lia) ltac:(lia) LT) as (n1 & n2 & T1 & (y & LY & TY) & R1 & R2 & VAL). rewrite T1. cbn [rbind].
    destruct (four_chunks_le j (hi n1) (lo n1) (hi n2) (lo n2) JI (hi_range _) (lo_range _) (hi_range _) (lo_range _))
      as (a1 & a2 & a3 & a4 & S1 & S2 & S3 & S4 & LA & CA & FV).
    rewrite S1. cbn [rbind]. rewrite S2. cbn [rbind]. rewrite LY. cbn [rbind]. rewrite TY. cbn [rbind]. rewrite S3. cbn [rbind]. rewrite S4. cbn [rbind].
    exists a4, e. split; [reflexivity|]. split; [exact LA|]. split; [exact CA|]. split; [lia|]. cbv zeta.
    rewrite !hi_lo in FV by lia. rewrite VAL in FV.
    assert (JR : 3 <= j <= 7) by (cbn [In] in JI; lia).
    assert (IV : intPart w = m * 2 ^ ex) by (rewrite IP; unfold modff; destruct (0 <=? ex) eqn:QX; [reflexivity|lia]).
    assert (V8 : val 8 a4 = intPart w).
    { rewrite FV, IV. unfold B. rewrite <- Z.mul_assoc, <- Z.pow_add_r by lia. do 2 f_equal. lia. }
    assert (KR : 0 <= (e - 1) / 16 < 8) by (split; [apply Z.div_pos; lia|apply Z.div_lt_upper_bound; lia]).
    pose proof (Z.div_mod (e - 1) 16 ltac:(lia)) as DM. pose proof (Z.mod_pos_bound (e - 1) 16 ltac:(lia)) as MB.
    set (kk := (e - 1) / 16) in *. clearbody kk.
    assert (PX : 0 < 2 ^ ex) by (apply Z.pow_pos_nonneg; lia).
    split; [|split; [|exact KR]].
    + rewrite <- V8. apply val_high; [exact CA|lia|]. rewrite V8, IV. rewrite Z2Nat.id by lia.
      apply Z.lt_le_trans with (2 ^ 24 * 2 ^ ex); [apply Z.mul_lt_mono_pos_r; lia|]. rewrite <- Z.pow_add_r by lia. apply Z.pow_le_mono_r; lia.
    + intros _. rewrite IV. apply Z.le_trans with (2 ^ 23 * 2 ^ ex); [|apply Z.mul_le_mono_pos_r; lia].
      rewrite <- Z.pow_add_r by lia. apply Z.pow_le_mono_r; lia.
Qed.

Lemma intPart_range w : finite w -> 0 <= intPart w < 10 ^ 64.
Proof.
  intros [L H]. unfold intPart, scaled. pose proof (Z.mod_pos_bound w (2 ^ 23) ltac:(lia)) as F.
  assert (X : 0 <= w / 2 ^ 23 <= 254) by (split; [apply Z.div_pos; lia|]; assert (w / 2 ^ 23 < 255) by (apply Z.div_lt_upper_bound; lia); lia).
  assert (S : 0 <= (if w / 2 ^ 23 =? 0 then 2 * (w mod 2 ^ 23) else (2 ^ 23 + w mod 2 ^ 23) * 2 ^ (w / 2 ^ 23)) < 2 ^ 24 * 2 ^ 254).
  { destruct (w / 2 ^ 23 =? 0); [split; lia|].
    assert (P : 0 < 2 ^ (w / 2 ^ 23)) by (apply Z.pow_pos_nonneg; lia).
    assert (P2 : 2 ^ (w / 2 ^ 23) <= 2 ^ 254) by (apply Z.pow_le_mono_r; lia).
    split; [apply Z.mul_nonneg_nonneg; lia|]. apply Z.lt_le_trans with (2 ^ 24 * 2 ^ (w / 2 ^ 23)).
    - apply Z.mul_lt_mono_pos_r; lia.
    - apply Z.mul_le_mono_nonneg_l; lia. }
  split; [apply Z.div_pos; lia|]. apply Z.div_lt_upper_bound; [lia|]. eapply Z.lt_trans; [apply S|]. reflexivity.
Qed.
Lemma cvtdif_ok w b o size : finite w -> 0 <= o -> 1 <= size -> o + size <= zlen b ->
  exists b' ds rem, cvtdif (ofBits w) b o size = Ok (zlen ds, b', rem) /\ within o size b b' /\
    decimalOf (intPart w) ds /\ slice o (Z.min (zlen ds) size) b' = firstn (Z.to_nat size) ds /\
    (zlen ds <= size -> (rem = true <-> fracPart w <> 0)) /\ (size < zlen ds -> rem = true).
Proof.
  intros FI O SZ BL. unfold cvtdif. set (rem0 := negb (fst (fst (modff (ofBits w))) =? 0)).
  assert (R0 : rem0 = true <-> fracPart w <> 0).
  { unfold rem0. destruct (ofBits_ok w FI) as (m & ex & OB & MR & ER & SC & NM). rewrite OB.
    rewrite (fracPart_ok w m ex SC ER ltac:(lia)). unfold modff. destruct (0 <=? ex) eqn:Q; cbn [fst].
    - split; [discriminate|congruence].
    - assert (P : 0 < 2 ^ (ex + 150)) by (apply Z.pow_pos_nonneg; lia). pose proof (Z.mod_pos_bound m (2 ^ (- ex)) ltac:(apply Z.pow_pos_nonneg; lia)).
      destruct (Z.eqb_spec (m mod 2 ^ (- ex)) 0) as [E|E]; cbn [negb]; [rewrite E; split; [discriminate|intros X; exfalso; apply X; reflexivity]|].
      split; [|auto]. intros _ X. apply Z.mul_eq_0 in X. lia. }
  clearbody rem0.
  destruct (intChunks_ok w FI) as (a & e & IC & LA & CA & ER & IV & IB & KR). rewrite IC. cbn [rbind].
  pose proof (intPart_range w FI) as IR.
  destruct (digLoop_ok o size O SZ 64 a ((e - 1) / 16) b (o + size) [] (negb rem0) rem0 LA CA KR BL)
    as (b1 & p & ds & rem & E & DD & NN & H1 & H2 & (PR & RG & P1 & P2) & WW & ZL & M1 & M2 & M3).
  { unfold ring_. change (zlen (@nil Z)) with 0. split; [lia|]. split; [intros; lia|]. split; intros; lia. }
  { constructor. } { rewrite IV. exact IB. } { rewrite IV. change (Z.of_nat 64) with 64. lia. } { lia. }
  rewrite IV in *. change (zlen (@nil Z)) with 0 in *. rewrite E. cbn [rbind].
  assert (DO : decimalOf (intPart w) ds).
  { split; [exact DD|]. split; [rewrite NN, Z.pow_0_r; change (number []) with 0; ring|].
    split; [intros ->; change (zlen (@nil Z)) with 0 in ZL; lia|]. split; [intros; apply H1; lia|]. exact H2. }
  assert (RM1 : zlen ds <= size -> (rem = true <-> fracPart w <> 0)) by (intros; rewrite M1 by lia; exact R0).
  assert (RM2 : size < zlen ds -> rem = true).
  { intros LT. destruct rem0 eqn:QR; [rewrite M2 by reflexivity; reflexivity|]. apply M3; [lia|reflexivity|].
    destruct (Z.eq_dec (intPart w) 0) as [I0|I0]; [|lia]. rewrite (H2 I0) in LT. change (zlen [48]) with 1 in LT. lia. }
  assert (FL : zlen (firstn (Z.to_nat size) ds) = Z.min (zlen ds) size) by (unfold zlen; rewrite firstn_length; lia).
  assert (FG : forall k, 0 <= k < Z.min (zlen ds) size -> zget (firstn (Z.to_nat size) ds) k = zget ds k) by (intros; apply zget_firstn; lia).
  pose proof WW as [LB1 _]. 
  destruct (zlen ds <? size) eqn:QC.
  - specialize (P1 ltac:(lia)).
    destruct (moveLoop_ok (Z.to_nat (zlen ds)) b1 o p ltac:(lia) ltac:(lia)) as (b2 & -> & L2 & MV & KP). cbn [rbind].
    exists b2, ds, rem. split; [reflexivity|]. split.
    { eapply within_trans; [exact WW|]. split; [exact L2|]. intros i I. apply KP. lia. }
    split; [exact DO|]. split; [|split; assumption]. apply slice_eq; auto; [lia|]. intros k K. rewrite FG by lia.
    rewrite MV by lia. rewrite <- RG by lia. f_equal. unfold place. destruct (p - o + k <? size) eqn:Q; lia.
  - destruct ((size <? zlen ds) && negb (p =? o + size)) eqn:QR.
    + destruct (revLoop_ok (S (Z.to_nat size)) b1 o p ltac:(lia) ltac:(lia) ltac:(lia) ltac:(lia) ltac:(lia)) as (c1 & -> & LC1 & G1). cbn [rbind].
      destruct (revLoop_ok (S (Z.to_nat size)) c1 p (o + size) ltac:(lia) ltac:(lia) ltac:(lia) ltac:(lia) ltac:(lia)) as (c2 & -> & LC2 & G2). cbn [rbind].
      destruct (revLoop_ok (S (Z.to_nat size)) c2 o (o + size) ltac:(lia) ltac:(lia) ltac:(lia) ltac:(lia) ltac:(lia)) as (c3 & -> & LC3 & G3). cbn [rbind].
      exists c3, ds, rem. split; [reflexivity|]. split.
      { eapply within_trans; [exact WW|]. split; [lia|]. intros i I. rewrite G3.
        destruct ((o <=? i) && (i <? o + size)) eqn:Q3; [lia|]. rewrite G2. destruct ((p <=? i) && (i <? o + size)) eqn:Q2; [lia|].
        rewrite G1. destruct ((o <=? i) && (i <? p)) eqn:Q1; [lia|]. reflexivity. }
      split; [exact DO|]. split; [|split; assumption]. apply slice_eq; auto; [lia|]. intros k K. rewrite FG by lia. rewrite <- RG by lia.
      rewrite G3. destruct ((o <=? o + k) && (o + k <? o + size)) eqn:Q3; [|lia].
      replace (o + (o + size) - 1 - (o + k)) with (o + size - 1 - k) by lia. rewrite G2. unfold place.
      destruct ((p <=? o + size - 1 - k) && (o + size - 1 - k <? o + size)) eqn:Q2.
      * rewrite G1. destruct ((o <=? p + (o + size) - 1 - (o + size - 1 - k)) && (p + (o + size) - 1 - (o + size - 1 - k) <? p)) eqn:Q1; [lia|].
        destruct (p - o + k <? size) eqn:Q; [f_equal; lia|lia].
      * rewrite G1. destruct ((o <=? o + size - 1 - k) && (o + size - 1 - k <? p)) eqn:Q1; [|lia].
        destruct (p - o + k <? size) eqn:Q; [lia|f_equal; lia].
    + cbn [rbind]. assert (PE : p = o + size).
      { destruct (Z.eq_dec (zlen ds) size) as [EQ|NE]; [apply P2; exact EQ|]. apply andb_false_iff in QR. destruct QR as [QR|QR]; [lia|].
        apply negb_false_iff in QR. lia. }
      exists b1, ds, rem. split; [reflexivity|]. split; [exact WW|]. split; [exact DO|]. split; [|split; assumption].
      apply slice_eq; auto; [lia|]. intros k K. rewrite FG by lia. rewrite <- RG by lia. f_equal.
      unfold place. destruct (p - o + k <? size) eqn:Q; lia.
Qed.
