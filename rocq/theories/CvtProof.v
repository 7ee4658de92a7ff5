(** The digit generators of cvtdf.c. *)
From Verif Require Import Base BaseLemmas LexModel DoPrintSpec CvtModel CvtSpec IdentProof DoPrintProof.

Definition at_ (a : list Z) (i : Z) : Z := match zget a i with Some v => v | None => 0 end.
Lemma get_ok a i : 0 <= i < zlen a -> get a i = Ok (at_ a i).
Proof. intros R. apply zget_range in R as (v & E). unfold get, at_. rewrite E. reflexivity. Qed.
Lemma set_ok a i v : 0 <= i < zlen a -> exists a', set a i v = Ok a' /\ zlen a' = zlen a /\
  forall j, zget a' j = if i =? j then Some v else zget a j.
Proof.
  intros R. exists (lset a (Z.to_nat i) v). pose proof (zset_Some a i v R) as E. unfold set. rewrite E. split; [reflexivity|].
  split; [apply (zset_len _ _ _ _ E)|]. intros j. apply (zset_get _ _ _ _ _ E).
Qed.
Lemma at_set a a' i v : (forall j, zget a' j = if i =? j then Some v else zget a j) -> forall j, at_ a' j = if i =? j then v else at_ a j.
Proof. intros H j. unfold at_. rewrite H. destruct (i =? j); reflexivity. Qed.

(** * slices *)
Lemma slice_eq o n b s : 0 <= o -> zlen s = n -> o + n <= zlen b -> (forall k, 0 <= k < n -> zget b (o + k) = zget s k) -> slice o n b = s.
Proof.
  intros O L B H. pose proof (zlen_nonneg s). apply zget_ext. intros k. unfold slice.
  destruct (Z.lt_ge_cases k 0); [rewrite (proj2 (zget_None _ _)), (proj2 (zget_None _ _)) by lia; reflexivity|].
  destruct (Z.lt_ge_cases k n).
  - rewrite zget_firstn by lia. rewrite zget_skipn by lia. rewrite <- H by lia. f_equal. lia.
  - rewrite (proj2 (zget_None s _)) by lia. apply zget_None. right. unfold zlen. rewrite firstn_length. lia.
Qed.
Lemma slice_get o n b k : 0 <= o -> 0 <= k < n -> zget (slice o n b) k = zget b (o + k).
Proof. intros O K. unfold slice. rewrite zget_firstn by lia. rewrite zget_skipn by lia. f_equal. lia. Qed.
Lemma slice_len o n b : 0 <= o -> 0 <= n -> o + n <= zlen b -> zlen (slice o n b) = n.
Proof. intros O N B. unfold slice, zlen in *. rewrite firstn_length, skipn_length. lia. Qed.
Lemma slice_ext o n b b' : 0 <= o -> 0 <= n -> o + n <= zlen b -> o + n <= zlen b' ->
  (forall k, o <= k < o + n -> zget b' k = zget b k) -> slice o n b' = slice o n b.
Proof.
  intros O N B B' H. apply slice_eq; auto; [apply slice_len; auto|]. intros k K. rewrite slice_get by lia. apply H. lia.
Qed.
Lemma slice_0 o b : slice o 0 b = [].
Proof. reflexivity. Qed.
Lemma slice_cons o n b : 0 <= o -> 0 < n -> o + n <= zlen b -> slice o n b = at_ b o :: slice (o + 1) (n - 1) b.
Proof.
  intros O N B. apply slice_eq; auto.
  - rewrite zlen_cons, slice_len by lia. lia.
  - intros k K. destruct (Z.eq_dec k 0) as [-> | NZ].
    + rewrite zget_cons_0, Z.add_0_r. destruct (proj2 (zget_range b o) ltac:(lia)) as (v & E). unfold at_. rewrite E. reflexivity.
    + rewrite zget_cons_S by lia. rewrite slice_get by lia. f_equal. lia.
Qed.
Lemma within_refl o n b : within o n b b.
Proof. split; auto. Qed.
Lemma within_trans o n b1 b2 b3 : within o n b1 b2 -> within o n b2 b3 -> within o n b1 b3.
Proof. intros [L1 H1] [L2 H2]. split; [lia|]. intros i I. rewrite H2, H1 by auto. reflexivity. Qed.
Lemma within_sub o n o' n' b b' : o <= o' -> o' + n' <= o + n -> within o' n' b b' -> within o n b b'.
Proof. intros A B [L H]. split; auto. intros i I. apply H. lia. Qed.

(** * values of digits *)
Lemma valueOf_shift b f s : forall acc, valueOf b f acc s = acc * b ^ zlen s + valueOf b f 0 s.
Proof.
  induction s as [|c s IH]; intros acc; cbn [valueOf]; [change (zlen (@nil Z)) with 0; rewrite Z.pow_0_r; lia|].
  rewrite (IH (acc * b + f c)), (IH (0 * b + f c)), zlen_cons. pose proof (zlen_nonneg s).
  rewrite Z.pow_add_r, Z.pow_1_r by lia. ring.
Qed.
Lemma number_cons d s : number (d :: s) = (d - 48) * 10 ^ zlen s + number s.
Proof. unfold number. cbn [valueOf]. rewrite valueOf_shift. ring. Qed.
Lemma number_app s t : number (s ++ t) = number s * 10 ^ zlen t + number t.
Proof. unfold number. rewrite valueOf_app, valueOf_shift. reflexivity. Qed.
Lemma number_bound s : decimal s -> 0 <= number s < 10 ^ zlen s.
Proof.
  induction 1 as [|c s C D IH]; [cbn; lia|]. rewrite number_cons, zlen_cons. pose proof (zlen_nonneg s).
  rewrite Z.pow_add_r, Z.pow_1_r by lia. nia.
Qed.

(** * chunks *)
Definition chunks (a : list Z) : Prop := forall i, 0 <= at_ a i < 2 ^ 16.
Lemma chunks_set a a' i v : chunks a -> 0 <= v < 2 ^ 16 -> (forall j, zget a' j = if i =? j then Some v else zget a j) -> chunks a'.
Proof. intros C V H j. rewrite (at_set a a' i v H). destruct (i =? j); auto. Qed.
Lemma chunks_zero n : chunks (repeat 0 n).
Proof.
  intros i. unfold at_, zget. destruct (i <? 0); [lia|]. destruct (nth_error (repeat 0 n) (Z.to_nat i)) eqn:E; [|lia].
  apply nth_error_In in E. apply repeat_spec in E. lia.
Qed.
Lemma u16_range v : 0 <= u16 v < 2 ^ 16.
Proof. apply (wrap_range 16). lia. Qed.

(** ** fraction: chunk i counts 2^(192 - 16 (i + 1)), the whole is out of 2^192 *)
Definition U (i : Z) : Z := 2 ^ (192 - 16 * i).
Fixpoint fv (n : nat) (a : list Z) : Z :=
  match n with O => 0 | S i => fv i a + at_ a (Z.of_nat i) * U (Z.of_nat i + 1) end.
Lemma U_step i : 0 <= i < 12 -> U i = 2 ^ 16 * U (i + 1).
Proof. intros I. unfold U. rewrite <- Z.pow_add_r by lia. f_equal. lia. Qed.
Lemma U_pos i : 0 <= i <= 12 -> 0 < U i.
Proof. intros I. unfold U. apply Z.pow_pos_nonneg; lia. Qed.
Lemma fv_ext n a a' : (forall i, 0 <= i < Z.of_nat n -> at_ a' i = at_ a i) -> fv n a' = fv n a.
Proof. induction n as [|n IH]; intros H; cbn [fv]; [reflexivity|]. rewrite IH, H by (intros; apply H || idtac; lia). reflexivity. Qed.
Lemma fv_bound n a : chunks a -> (n <= 12)%nat -> 0 <= fv n a <= U 0 - U (Z.of_nat n).
Proof.
  intros C. induction n as [|n IH]; intros L; cbn [fv]; [change (Z.of_nat 0) with 0; lia|]. specialize (IH ltac:(lia)). specialize (C (Z.of_nat n)).
  replace (Z.of_nat (S n)) with (Z.of_nat n + 1) by lia. pose proof (U_step (Z.of_nat n) ltac:(lia)).
  pose proof (U_pos (Z.of_nat n + 1) ltac:(lia)). nia.
Qed.
Lemma mulLoop_ok n : forall a r, (n <= 12)%nat -> zlen a = 12 -> chunks a -> 0 <= r < 10 ->
  exists a' r', mulLoop n a r = Ok (a', r') /\ zlen a' = 12 /\ chunks a' /\
    (forall i, Z.of_nat n <= i -> at_ a' i = at_ a i) /\ 0 <= r' < 10 /\
    fv n a * 10 + r * U (Z.of_nat n) = fv n a' + r' * U 0.
Proof.
  induction n as [|n IH]; intros a r N L C R.
  - exists a, r. cbn [mulLoop fv]. change (Z.of_nat 0) with 0. split; [reflexivity|]. split; [exact L|]. split; [exact C|]. split; [reflexivity|]. lia.
  - cbn [mulLoop]. rewrite get_ok by lia. cbn [rbind]. pose proof (C (Z.of_nat n)) as CN. set (c := at_ a (Z.of_nat n)) in *.
    rewrite (u32_small (r + c * 10)) by (change (2 ^ 16) with 65536 in *; lia).
    destruct (set_ok a (Z.of_nat n) (u16 (r + c * 10)) ltac:(lia)) as (a1 & -> & L1 & G1). cbn [rbind].
    pose proof (chunks_set a a1 _ _ C (u16_range _) G1) as C1.
    destruct (IH a1 ((r + c * 10) / 2 ^ 16) ltac:(lia) ltac:(lia) C1) as (a' & r' & E & L' & C' & K & R' & V).
    { split; [apply Z.div_pos; lia|]. apply Z.div_lt_upper_bound; lia. }
    exists a', r'. split; [exact E|]. split; [exact L'|]. split; [exact C'|]. split.
    { intros i I. rewrite K by lia. rewrite (at_set a a1 _ _ G1). destruct (Z.eqb_spec (Z.of_nat n) i); [lia|reflexivity]. }
    split; [exact R'|]. cbn [fv]. rewrite (K (Z.of_nat n)) by lia. rewrite (at_set a a1 _ _ G1), Z.eqb_refl. fold c.
    rewrite (fv_ext n a a1) in V by (intros i I; rewrite (at_set a a1 _ _ G1); destruct (Z.eqb_spec (Z.of_nat n) i); [lia|reflexivity]).
    pose proof (U_step (Z.of_nat n) ltac:(lia)) as US. replace (Z.of_nat (S n)) with (Z.of_nat n + 1) by lia.
    unfold u16, wrap. pose proof (Z.div_mod (r + c * 10) (2 ^ 16) ltac:(lia)) as DM.
    rewrite US in V. nia.
Qed.
Lemma trim_ok a n : zlen a = 12 -> chunks a -> (n <= 12)%nat ->
  exists e, trim a n = Ok e /\ -1 <= e < Z.of_nat n /\ fv n a = fv (Z.to_nat (e + 1)) a /\ (0 <= e <-> 0 < fv n a).
Proof.
  intros L C. induction n as [|n IH]; intros N.
  - exists (-1). cbn. split; [reflexivity|]. split; [lia|]. split; [reflexivity|lia].
  - cbn [trim]. rewrite get_ok by lia. cbn [rbind fv]. pose proof (fv_bound n a C ltac:(lia)). pose proof (C (Z.of_nat n)).
    pose proof (U_pos (Z.of_nat n + 1) ltac:(lia)).
    destruct (Z.eqb_spec (at_ a (Z.of_nat n)) 0) as [E | E].
    + destruct (IH ltac:(lia)) as (e & T & B & V & P). exists e. split; [exact T|]. split; [lia|]. rewrite E. rewrite <- V.
      split; [lia|]. rewrite P. lia.
    + exists (Z.of_nat n). split; [reflexivity|]. split; [lia|]. split; [|nia].
      replace (Z.to_nat (Z.of_nat n + 1)) with (S n) by lia. reflexivity.
Qed.

(** ** digits of the fraction F / 2^192 *)
Lemma div_digit D F r F' k : 0 < D -> 0 <= k -> 10 * F = F' + r * D -> 
  F * 10 ^ (k + 1) / D = r * 10 ^ k + F' * 10 ^ k / D /\ (F * 10 ^ (k + 1)) mod D = (F' * 10 ^ k) mod D.
Proof.
  intros DP K E. rewrite Z.pow_add_r, Z.pow_1_r by lia.
  replace (F * (10 ^ k * 10)) with (F' * 10 ^ k + r * 10 ^ k * D) by nia.
  rewrite Z.div_add, Z.mod_add by lia. split; [lia|reflexivity].
Qed.
Lemma to_nat_S e : 0 <= e -> Z.to_nat (e + 1) = S (Z.to_nat e).
Proof. lia. Qed.
Lemma fracLoop_digits size : 0 <= size -> forall fuel a e b q zc, size <= Z.of_nat fuel ->
  zlen a = 12 -> chunks a -> -1 <= e < 12 -> (0 <= e <-> 0 < fv (Z.to_nat (e + 1)) a) -> 0 <= q -> q + size <= zlen b ->
  let F := fv (Z.to_nat (e + 1)) a in
  exists b' e', fracLoop fuel a e b q size false zc = Ok (b', zc, e') /\ within q size b b' /\
    decimal (slice q size b') /\ number (slice q size b') = F * 10 ^ size / U 0 /\
    (0 <= e' <-> (F * 10 ^ size) mod U 0 <> 0).
Proof.
  intros S. pattern size. apply natlike_ind; [| |exact S]; clear size S.
  - intros fuel a e b q zc FU L C E EP Q B F. exists b, e.
    split; [destruct fuel; reflexivity|]. split; [apply within_refl|]. rewrite slice_0. split; [constructor|].
    pose proof (fv_bound (Z.to_nat (e + 1)) a C ltac:(lia)) as FB. fold F in FB. pose proof (U_pos (Z.of_nat (Z.to_nat (e + 1))) ltac:(lia)).
    rewrite Z.pow_0_r, Z.mul_1_r. rewrite Z.div_small by lia. rewrite Z.mod_small by lia. split; [reflexivity|]. fold F in EP. lia.
  - intros size S IH fuel a e b q zc FU L C E EP Q B F. destruct fuel as [|fuel]; [lia|].
    cbn [fracLoop]. destruct (Z.eqb_spec (Z.succ size) 0); [lia|].
    destruct (mulLoop_ok (Z.to_nat (e + 1)) a 0 ltac:(lia) L C ltac:(lia)) as (a' & r & ML & L' & C' & K & R & V).
    rewrite ML. cbn [rbind andb]. destruct (set_ok b q (r + 48) ltac:(lia)) as (b1 & -> & LB & GB). cbn [rbind].
    destruct (trim_ok a' (Z.to_nat (e + 1)) L' C' ltac:(lia)) as (e1 & -> & E1 & V1 & P1). cbn [rbind].
    rewrite V1 in P1.
    destruct (IH fuel a' e1 b1 (q + 1) zc ltac:(lia) L' C' ltac:(lia) P1 ltac:(lia) ltac:(lia)) as (b' & e' & EL & W & D & N & RM).
    replace (Z.succ size - 1) with size by lia. exists b', e'. split; [exact EL|].
    assert (W1 : within q (Z.succ size) b b1).
    { split; [lia|]. intros i I. rewrite GB. destruct (Z.eqb_spec q i); [lia|reflexivity]. }
    assert (W2 : within q (Z.succ size) b b') by (eapply within_trans; [exact W1|]; eapply within_sub; [| |exact W]; lia).
    split; [exact W2|]. destruct W as [WL WG].
    assert (SL : slice q (Z.succ size) b' = (r + 48) :: slice (q + 1) size b').
    { rewrite slice_cons by lia. replace (Z.succ size - 1) with size by lia. f_equal. unfold at_. rewrite WG by lia. rewrite GB, Z.eqb_refl. reflexivity. }
    rewrite SL. split; [constructor; [lia|exact D]|]. rewrite number_cons, slice_len by lia. rewrite N.
    rewrite <- V1. fold F in V.
    destruct (div_digit (U 0) F r (fv (Z.to_nat (e + 1)) a') size (U_pos 0 ltac:(lia)) S ltac:(lia)) as [DD DM].
    unfold Z.succ. rewrite DD, DM. split; [lia|]. rewrite RM, <- V1. reflexivity.
Qed.
(** leading zeros skipped *)
Lemma fracLoop_zeros size k : 0 < size -> 0 <= k -> forall fuel a e b q zc, size + k <= Z.of_nat fuel ->
  zlen a = 12 -> chunks a -> 0 <= e < 12 -> 0 <= q -> q + size <= zlen b ->
  let F := fv (Z.to_nat (e + 1)) a in 0 < F -> U 0 <= F * 10 ^ k ->
  exists b' e' z, fracLoop fuel a e b q size true zc = Ok (b', zc + z, e') /\ within q size b b' /\ 0 <= z < k /\
    decimal (slice q size b') /\ number (slice q size b') = F * 10 ^ (z + size) / U 0 /\
    F * 10 ^ z < U 0 /\ hd 48 (slice q size b') <> 48 /\
    (0 <= e' <-> (F * 10 ^ (z + size)) mod U 0 <> 0).
Proof.
  intros S K. pattern k. apply natlike_ind; [| |exact K]; clear k K.
  - intros fuel a e b q zc FU L C E Q B F FP FK. pose proof (fv_bound (Z.to_nat (e + 1)) a C ltac:(lia)) as FB. fold F in FB.
    pose proof (U_pos (Z.of_nat (Z.to_nat (e + 1))) ltac:(lia)). rewrite Z.pow_0_r in FK. lia.
  - intros k K0 IH fuel a e b q zc FU L C E Q B F FP FK. destruct fuel as [|fuel]; [lia|].
    pose proof (fv_bound (Z.to_nat (e + 1)) a C ltac:(lia)) as FB. fold F in FB.
    pose proof (U_pos (Z.of_nat (Z.to_nat (e + 1))) ltac:(lia)) as UP.
    cbn [fracLoop]. destruct (Z.eqb_spec size 0); [lia|].
    destruct (mulLoop_ok (Z.to_nat (e + 1)) a 0 ltac:(lia) L C ltac:(lia)) as (a' & r & ML & L' & C' & K & R & V).
    rewrite ML. cbn [rbind andb]. fold F in V.
    destruct (trim_ok a' (Z.to_nat (e + 1)) L' C' ltac:(lia)) as (e1 & TR & E1 & V1 & P1).
    destruct (Z.eqb_spec r 0) as [R0 | R0].
    + rewrite TR. cbn [rbind].
      assert (FE : fv (Z.to_nat (e1 + 1)) a' = 10 * F) by (rewrite <- V1; lia).
      destruct (IH fuel a' e1 b q (zc + 1) ltac:(lia) L' C' ltac:(lia) Q B) as (b' & e' & z & EL & W & ZR & D & N & ZB & H & RM).
      { lia. }
      { rewrite FE. rewrite Z.pow_succ_r in FK by lia. lia. }
      exists b', e', (z + 1). rewrite FE in *.
      assert (PW : forall x, 0 <= x -> 10 * F * 10 ^ x = F * 10 ^ (x + 1)) by (intros x X; rewrite Z.pow_add_r, Z.pow_1_r by lia; lia).
      rewrite PW in N, ZB, RM by lia. replace (z + 1 + size) with (z + size + 1) by lia. rewrite EL.
      split; [do 3 f_equal; lia|]. split; [exact W|]. split; [lia|]. repeat split; try assumption; apply RM.
    + destruct (set_ok b q (r + 48) ltac:(lia)) as (b1 & -> & LB & GB). cbn [rbind]. rewrite TR. cbn [rbind].
      rewrite V1 in P1.
      destruct (fracLoop_digits (size - 1) ltac:(lia) fuel a' e1 b1 (q + 1) zc ltac:(lia) L' C' ltac:(lia) P1 ltac:(lia) ltac:(lia)) as (b' & e' & EL & W & D & N & RM).
      exists b', e', 0. split; [rewrite EL; do 3 f_equal; lia|].
      assert (W1 : within q size b b1).
      { split; [lia|]. intros i I. rewrite GB. destruct (Z.eqb_spec q i); [lia|reflexivity]. }
      assert (W2 : within q size b b') by (eapply within_trans; [exact W1|]; eapply within_sub; [| |exact W]; lia).
      split; [exact W2|]. split; [lia|]. destruct W as [WL WG].
      assert (SL : slice q size b' = (r + 48) :: slice (q + 1) (size - 1) b').
      { rewrite slice_cons by lia. f_equal. unfold at_. rewrite WG by lia. rewrite GB, Z.eqb_refl. reflexivity. }
      rewrite SL. split; [constructor; [lia|exact D]|]. rewrite number_cons, slice_len by lia. rewrite N.
      destruct (div_digit (U 0) F r (fv (Z.to_nat (e + 1)) a') (size - 1) (U_pos 0 ltac:(lia)) ltac:(lia) ltac:(lia)) as [DD DM].
      replace (size - 1 + 1) with (0 + size) in * by lia. rewrite DD, DM. rewrite <- V1.
      split; [lia|]. split; [rewrite Z.pow_0_r, Z.mul_1_r; clear -FB UP; lia|]. split; [cbn [hd]; clear -R0; lia|]. rewrite RM, <- V1. reflexivity.
Qed.

(** * floats *)
Lemma ofBits_ok w : finite w -> exists m ex, ofBits w = (m, ex) /\ 0 <= m < 2 ^ 24 /\ -149 <= ex <= 104 /\
  scaled w = m * 2 ^ (ex + 150) /\ (-149 < ex -> 2 ^ 23 <= m).
Proof.
  intros F. unfold finite in F. unfold ofBits, scaled.
  assert (M : 0 <= w mod 2 ^ 23 < 2 ^ 23) by (apply Z.mod_pos_bound; lia).
  assert (X : 0 <= w / 2 ^ 23 < 255) by (split; [apply Z.div_pos; lia|apply Z.div_lt_upper_bound; lia]).
  destruct (Z.eqb_spec (w / 2 ^ 23) 0) as [E | E].
  - exists (w mod 2 ^ 23), (-149). split; [reflexivity|]. split; [lia|]. split; [lia|]. split; [|lia].
    change (2 ^ (-149 + 150)) with 2. lia.
  - exists (w mod 2 ^ 23 + 2 ^ 23), (w / 2 ^ 23 - 150). split; [reflexivity|]. split; [lia|]. split; [lia|]. split; [|lia].
    replace (w / 2 ^ 23 - 150 + 150) with (w / 2 ^ 23) by lia. lia.
Qed.
Lemma hi_lo ul : 0 <= ul < 2 ^ 32 -> hi ul * 2 ^ 16 + lo ul = ul.
Proof.
  intros R. unfold hi, lo, u16, wrap. rewrite (Z.mod_small (ul / 2 ^ 16)).
  - pose proof (Z.div_mod ul (2 ^ 16) ltac:(lia)). lia.
  - split; [apply Z.div_pos; lia|apply Z.div_lt_upper_bound; lia].
Qed.
Lemma hi_range ul : 0 <= hi ul < 2 ^ 16.
Proof. apply u16_range. Qed.
Lemma lo_range ul : 0 <= lo ul < 2 ^ 16.
Proof. apply u16_range. Qed.
Lemma log2_bounds m : 0 < m -> 2 ^ Z.log2 m <= m < 2 ^ (Z.log2 m + 1).
Proof. intros M. pose proof (Z.log2_spec m M). replace (Z.log2 m + 1) with (Z.succ (Z.log2 m)) by lia. exact H. Qed.
Lemma pow_lt_inv a b : 0 <= a -> 2 ^ a < 2 ^ b -> a < b.
Proof. intros A H. destruct (Z.lt_ge_cases b 0) as [N | N]; [rewrite (Z.pow_neg_r 2 b) in H by lia; pose proof (Z.pow_pos_nonneg 2 a); lia|]. apply (Z.pow_lt_mono_r_iff 2); lia. Qed.

Lemma set_list_chunks a i v a' : chunks a -> 0 <= v < 2 ^ 16 -> set a i v = Ok a' -> chunks a'.
Proof.
  unfold set. intros C V E. destruct (zset a i v) as [x|] eqn:Q; [|discriminate E]. injection E as <-.
  eapply chunks_set; eauto. intros j. apply (zset_get _ _ _ _ _ Q).
Qed.
(** four chunks at an even place *)
Lemma four_chunks j h1 l1 h2 l2 : 0 <= j <= 8 -> Z.even j = true -> 0 <= h1 < 2 ^ 16 -> 0 <= l1 < 2 ^ 16 -> 0 <= h2 < 2 ^ 16 -> 0 <= l2 < 2 ^ 16 ->
  exists a1 a2 a3 a4, set (repeat 0 12) j h1 = Ok a1 /\ set a1 (j + 1) l1 = Ok a2 /\ set a2 (j + 2) h2 = Ok a3 /\ set a3 (j + 3) l2 = Ok a4 /\
    zlen a4 = 12 /\ chunks a4 /\
    fv (Z.to_nat (j + 4)) a4 = (h1 * 2 ^ 16 + l1) * U (j + 2) + (h2 * 2 ^ 16 + l2) * U (j + 4).
Proof.
  intros J EV H1 L1 H2 L2.
  assert (JJ : In j [0; 2; 4; 6; 8]).
  { destruct (Z.eq_dec j 0); [left; auto|]. destruct (Z.eq_dec j 2); [right; left; auto|]. destruct (Z.eq_dec j 4); [do 2 right; left; auto|].
    destruct (Z.eq_dec j 6); [do 3 right; left; auto|]. destruct (Z.eq_dec j 8); [do 4 right; left; auto|]. exfalso.
    assert (OD : j = 1 \/ j = 3 \/ j = 5 \/ j = 7) by lia. destruct OD as [-> | [-> | [-> | ->]]]; discriminate EV. }
  cbn [In] in JJ.
  assert (G : forall a1 a2 a3 a4, set (repeat 0 12) j h1 = Ok a1 -> set a1 (j + 1) l1 = Ok a2 -> set a2 (j + 2) h2 = Ok a3 -> set a3 (j + 3) l2 = Ok a4 -> chunks a4).
  { intros. eapply set_list_chunks; [|exact L2|eassumption]. eapply set_list_chunks; [|exact H2|eassumption].
    eapply set_list_chunks; [|exact L1|eassumption]. eapply set_list_chunks; [|exact H1|eassumption]. apply chunks_zero. }
  destruct JJ as [<- | [<- | [<- | [<- | [<- | []]]]]];
    (eexists _, _, _, _; split; [reflexivity|]; split; [reflexivity|]; split; [reflexivity|]; split; [reflexivity|];
     split; [reflexivity|]; split; [eapply G; reflexivity|];
     cbn [Z.to_nat Z.add Pos.add Pos.succ Pos.add_carry];
     repeat match goal with |- context [Pos.to_nat ?k] => let v := eval cbv in (Pos.to_nat k) in change (Pos.to_nat k) with v end;
     cbn [fv lset repeat];
     repeat match goal with |- context [at_ ?l ?i] => let v := eval cbv in (at_ l i) in change (at_ l i) with v end;
     unfold U;
     repeat match goal with |- context [2 ^ ?k] => let v := eval vm_compute in (2 ^ k) in change (2 ^ k) with v end; lia).
Qed.

Lemma fracPart_ok w m ex : scaled w = m * 2 ^ (ex + 150) -> -149 <= ex <= 104 -> 0 <= m ->
  fracPart w = if 0 <=? ex then 0 else (m mod 2 ^ (- ex)) * 2 ^ (ex + 150).
Proof.
  intros S E M. unfold fracPart. rewrite S. destruct (0 <=? ex) eqn:Q.
  - rewrite Z.pow_add_r by lia. rewrite Z.mul_assoc. apply Z.mod_mul. lia.
  - replace (2 ^ 150) with (2 ^ (- ex) * 2 ^ (ex + 150)) by (rewrite <- Z.pow_add_r by lia; f_equal; lia).
    apply Z.mul_mod_distr_r; apply Z.pow_nonzero; lia.
Qed.
Lemma fracChunks_ok w : finite w -> exists a e, fracChunks (ofBits w) = Ok (a, e) /\ zlen a = 12 /\ chunks a /\ 0 <= e < 12 /\
  fv (Z.to_nat (e + 1)) a = fracPart w * 2 ^ 42.
Proof.
  intros FI. destruct (ofBits_ok w FI) as (m & ex & OB & MR & ER & SC & NM).
  pose proof (fracPart_ok w m ex SC ER ltac:(lia)) as FP. unfold fracChunks. rewrite OB.
  cbv zeta. replace (fst (modff (m, ex))) with (if 0 <=? ex then (0, 0) else (m mod 2 ^ (- ex), ex))
    by (unfold modff; destruct (0 <=? ex); reflexivity).
  destruct (0 <=? ex) eqn:Q.
  { exists [0; 0; 0; 0; 0; 0; 0; 0; 0; 0; 0; 0], 1. split; [reflexivity|]. split; [reflexivity|]. split; [apply (chunks_zero 12)|].
    split; [lia|]. rewrite FP. reflexivity. }
  set (f := m mod 2 ^ (- ex)) in *.
  assert (FR : 0 <= f < 2 ^ (- ex)) by (apply Z.mod_pos_bound; apply Z.pow_pos_nonneg; lia).
  assert (F24 : f < 2 ^ 24) by (assert (f <= m) by (apply Z.mod_le; [lia|apply Z.pow_pos_nonneg; lia]); lia).
  assert (TGT : fracPart w * 2 ^ 42 = f * 2 ^ (ex + 192)).
  { rewrite FP. rewrite <- Z.mul_assoc, <- Z.pow_add_r by lia. do 2 f_equal. lia. }
  rewrite TGT. clear TGT FP. clearbody f.
  assert (EXACT : forall f k, 0 <= f < 2 ^ 24 -> k + 24 <= 128 -> -149 <= k -> exact (f, k) = true).
  { intros. unfold exact. apply andb_true_intro. split; [lia|]. apply orb_true_intro. left. lia. }
  unfold frexpf. destruct (Z.eqb_spec f 0) as [F0 | F0].
  { change (- 0 <=? 8) with true. cbv iota. unfold ldexpf at 1. rewrite (EXACT f (ex + 32)) by lia. cbn [rbind].
    assert (TU : toUlong (f, ex + 32) = Ok 0).
    { unfold toUlong, modff. rewrite F0. destruct (0 <=? ex + 32); cbn [snd]; rewrite ?Z.mul_0_l, ?Zdiv_0_l; reflexivity. }
    rewrite TU. cbn [rbind]. exists [0; 0; 0; 0; 0; 0; 0; 0; 0; 0; 0; 0], 1. split; [reflexivity|]. split; [reflexivity|].
    split; [apply (chunks_zero 12)|]. split; [lia|]. rewrite F0. reflexivity. }
  pose proof (log2_bounds f ltac:(lia)) as [LB1 LB2]. pose proof (Z.log2_nonneg f) as LN. set (g := Z.log2 f) in *. clearbody g.
  assert (G24 : g < 24) by (apply pow_lt_inv; lia).
  assert (GE : g < - ex) by (apply pow_lt_inv; lia).
  destruct (- (g + 1 + ex) <=? 8) eqn:Q8.
  - unfold ldexpf at 1. rewrite (EXACT f (ex + 32)) by lia. cbn [rbind].
    assert (UB : 0 <= f * 2 ^ (ex + 32) < 2 ^ 32).
    { split; [apply Z.mul_nonneg_nonneg; [lia|apply Z.pow_nonneg; lia]|].
      replace (2 ^ 32) with (2 ^ (- ex) * 2 ^ (ex + 32)) by (rewrite <- Z.pow_add_r by lia; f_equal; lia).
      apply Z.mul_lt_mono_pos_r; [apply Z.pow_pos_nonneg; lia|lia]. }
    assert (TU : toUlong (f, ex + 32) = Ok (f * 2 ^ (ex + 32))).
    { unfold toUlong, modff. destruct (0 <=? ex + 32) eqn:Q3; [|lia]. cbn [snd]. destruct (f * 2 ^ (ex + 32) <? 2 ^ 32) eqn:Q4; [reflexivity|lia]. }
    rewrite TU. cbn [rbind]. set (ul := f * 2 ^ (ex + 32)) in *.
    destruct (four_chunks 0 (hi ul) (lo ul) 0 0 ltac:(lia) eq_refl (hi_range _) (lo_range _) ltac:(lia) ltac:(lia))
      as (a1 & a2 & a3 & a4 & S1 & S2 & S3 & S4 & _).
    clear S3 S4 a3 a4. change (0 + 1) with 1 in S2. rewrite S1. cbn [rbind]. rewrite S2. cbn [rbind].
    pose proof (set_list_chunks _ _ _ _ (chunks_zero 12) (hi_range ul) S1) as C1.
    pose proof (set_list_chunks _ _ _ _ C1 (lo_range ul) S2) as C2.
    exists a2, 1. split; [reflexivity|]. injection S1 as <-. injection S2 as <-. split; [reflexivity|]. split; [exact C2|]. split; [lia|].
    change (Z.to_nat (1 + 1)) with 2%nat. cbn [fv].
    change (at_ _ (Z.of_nat 0)) with (hi ul). change (at_ _ (Z.of_nat 1)) with (lo ul).
    change (Z.of_nat 0 + 1) with 1. change (Z.of_nat 1 + 1) with 2. rewrite (U_step 1) by lia. change (1 + 1) with 2.
    replace (0 + hi ul * (2 ^ 16 * U 2) + lo ul * U 2) with ((hi ul * 2 ^ 16 + lo ul) * U 2) by ring. rewrite hi_lo by lia.
    unfold ul, U. rewrite <- Z.mul_assoc, <- Z.pow_add_r by lia. do 2 f_equal. lia.
  - set (e := - (g + 1 + ex)) in *. assert (ED : e = - (g + 1 + ex)) by reflexivity. clearbody e.
    pose proof (Z.div_mod e 32 ltac:(lia)) as DM. pose proof (Z.mod_pos_bound e 32 ltac:(lia)) as MB.
    set (e2 := e / 32 * 32) in *. assert (E2 : e - 32 < e2 <= e) by (unfold e2; lia).
    assert (J : exists j, 0 <= j <= 8 /\ Z.even j = true /\ e2 / 16 = j /\ e2 = 16 * j).
    { exists (2 * (e / 32)). split; [lia|]. split; [rewrite Z.even_mul; reflexivity|]. unfold e2.
      replace (e / 32 * 32) with (2 * (e / 32) * 16) by lia. split; [apply Z.div_mul; lia|lia]. }
    destruct J as (j & JR & JE & JD & JM). rewrite JD. clearbody e2. clear DM MB.
    set (k := ex + (32 + e2)). assert (KD : k = ex + 32 + e2) by (unfold k; lia).
    unfold ldexpf at 1. fold k. rewrite (EXACT f k) by lia. cbn [rbind]. clearbody k.
    assert (LT : f * 2 ^ (32 + e2 + ex + 149) < 2 ^ (32 + 149)).
    { apply Z.lt_le_trans with (2 ^ (g + 1) * 2 ^ (32 + e2 + ex + 149)).
      - apply Z.mul_lt_mono_pos_r; [apply Z.pow_pos_nonneg; lia|lia].
      - rewrite <- Z.pow_add_r by lia. apply Z.pow_le_mono_r; lia. }
    assert (N1 : exists n1 n2, toUlong (f, k) = Ok n1 /\
              (exists y, ldexpf (fst (modff (f, k))) 32 = Ok y /\ toUlong y = Ok n2) /\
              0 <= n1 < 2 ^ 32 /\ 0 <= n2 < 2 ^ 32 /\ n1 * 2 ^ 32 + n2 = f * 2 ^ (k + 32)).
    { unfold toUlong at 1, modff. destruct (0 <=? k) eqn:QK; cbn [fst snd].
      - exists (f * 2 ^ k), 0.
        assert (B : f * 2 ^ k < 2 ^ 32).
        { replace (32 + e2 + ex + 149) with (k + 149) in LT by lia. rewrite !Z.pow_add_r in LT by lia. nia. }
        destruct (f * 2 ^ k <? 2 ^ 32) eqn:QB; [|lia]. split; [reflexivity|]. split.
        { exists (0, 32). split; reflexivity. }
        split; [split; [apply Z.mul_nonneg_nonneg; [lia|apply Z.pow_nonneg; lia]|lia]|]. split; [lia|].
        rewrite (Z.pow_add_r 2 k 32) by lia. ring.
      - assert (PK : 0 < 2 ^ (- k)) by (apply Z.pow_pos_nonneg; lia).
        pose proof (Z.div_mod f (2 ^ (- k)) ltac:(lia)) as DM. pose proof (Z.mod_pos_bound f (2 ^ (- k)) PK) as MB.
        assert (D0 : 0 <= f / 2 ^ (- k)) by (apply Z.div_pos; lia).
        assert (PP : 2 ^ (- k) * 2 ^ (k + 32) = 2 ^ 32) by (rewrite <- Z.pow_add_r by lia; f_equal; lia).
        assert (PK2 : 0 < 2 ^ (k + 32)) by (apply Z.pow_pos_nonneg; lia).
        exists (f / 2 ^ (- k)), (f mod 2 ^ (- k) * 2 ^ (k + 32)).
        assert (B1 : f / 2 ^ (- k) < 2 ^ 32).
        { apply Z.div_lt_upper_bound; [lia|]. assert (2 ^ 24 <= 2 ^ (- k) * 2 ^ 32) by nia. lia. }
        destruct (f / 2 ^ (- k) <? 2 ^ 32) eqn:QB; [|lia]. split; [reflexivity|].
        assert (ML : f mod 2 ^ (- k) <= f) by (apply Z.mod_le; lia).
        assert (B2 : f mod 2 ^ (- k) * 2 ^ (k + 32) < 2 ^ 32) by (rewrite <- PP; apply Z.mul_lt_mono_pos_r; lia).
        split.
        { exists (f mod 2 ^ (- k), k + 32). unfold ldexpf. rewrite EXACT by lia. split; [reflexivity|].
          unfold toUlong, modff. destruct (0 <=? k + 32) eqn:Q3; [|lia]. cbn [snd].
          destruct (f mod 2 ^ (- k) * 2 ^ (k + 32) <? 2 ^ 32) eqn:Q4; [reflexivity|lia]. }
        split; [lia|]. split; [split; [apply Z.mul_nonneg_nonneg; lia|exact B2]|].
        rewrite <- PP. rewrite DM at 3. ring. }
    destruct N1 as (n1 & n2 & T1 & (y & LY & TY) & R1 & R2 & VAL). rewrite T1. cbn [rbind].
    destruct (four_chunks j (hi n1) (lo n1) (hi n2) (lo n2) JR JE (hi_range _) (lo_range _) (hi_range _) (lo_range _))
      as (a1 & a2 & a3 & a4 & S1 & S2 & S3 & S4 & LA & CA & FV).
    rewrite S1. cbn [rbind]. rewrite S2. cbn [rbind]. rewrite LY. cbn [rbind]. rewrite TY. cbn [rbind]. rewrite S3. cbn [rbind]. rewrite S4. cbn [rbind].
    exists a4, (j + 3). split; [reflexivity|]. split; [exact LA|]. split; [exact CA|]. split; [lia|].
    replace (j + 3 + 1) with (j + 4) by lia. rewrite FV, !hi_lo by lia.
    rewrite (U_step (j + 2)), (U_step (j + 2 + 1)) by lia. replace (j + 2 + 1 + 1) with (j + 4) by lia.
    replace (n1 * (2 ^ 16 * (2 ^ 16 * U (j + 4))) + n2 * U (j + 4)) with ((n1 * 2 ^ 32 + n2) * U (j + 4)) by ring.
    rewrite VAL. unfold U. rewrite <- Z.mul_assoc, <- Z.pow_add_r by lia. do 2 f_equal. lia.
Qed.

Lemma scale192 x y : x * 2 ^ 42 * y / U 0 = x * y / 2 ^ 150 /\ (x * 2 ^ 42 * y) mod U 0 = (x * y) mod 2 ^ 150 * 2 ^ 42.
Proof.
  replace (x * 2 ^ 42 * y) with (x * y * 2 ^ 42) by ring. change (U 0) with (2 ^ 150 * 2 ^ 42).
  split; [apply Z.div_mul_cancel_r; apply Z.pow_nonzero; lia|apply Z.mul_mod_distr_r; apply Z.pow_nonzero; lia].
Qed.
Lemma fracPart_range w : 0 <= fracPart w < 2 ^ 150.
Proof. apply Z.mod_pos_bound. apply Z.pow_pos_nonneg; lia. Qed.
Lemma zeroFill_ok n : forall b q, 0 <= q -> q + Z.of_nat n <= zlen b ->
  exists b', zeroFill n b q = Ok b' /\ within q (Z.of_nat n) b b' /\ slice q (Z.of_nat n) b' = repeat 48 n.
Proof.
  induction n as [|n IH]; intros b q Q B; [exists b; split; [reflexivity|]; split; [apply within_refl|reflexivity]|].
  cbn [zeroFill]. destruct (set_ok b q 48 ltac:(lia)) as (b1 & -> & L1 & G1). cbn [rbind].
  destruct (IH b1 (q + 1) ltac:(lia) ltac:(lia)) as (b' & E & [WL WG] & S). exists b'. split; [exact E|]. split.
  - split; [lia|]. intros i I. rewrite WG by lia. rewrite G1. destruct (Z.eqb_spec q i); [lia|reflexivity].
  - rewrite slice_cons by lia. replace (Z.of_nat (Datatypes.S n) - 1) with (Z.of_nat n) by lia. rewrite S. cbn [repeat]. f_equal.
    unfold at_. rewrite WG by lia. rewrite G1, Z.eqb_refl. reflexivity.
Qed.
Lemma decimal_zeros n : decimal (repeat 48 n) /\ number (repeat 48 n) = 0.
Proof.
  induction n as [|n [D N]]; [split; [constructor|reflexivity]|]. cbn [repeat]. split; [constructor; [lia|exact D]|].
  rewrite number_cons, N. lia.
Qed.
Lemma cvtdff_ok w b o size : finite w -> 0 <= o -> 0 <= size -> o + size <= zlen b ->
  exists b' rem, cvtdff (ofBits w) b o size false = Ok (b', 0, rem) /\ within o size b b' /\
    decimal (slice o size b') /\ number (slice o size b') = fracPart w * 10 ^ size / 2 ^ 150 /\
    (rem = true <-> (fracPart w * 10 ^ size) mod 2 ^ 150 <> 0).
Proof.
  intros FI O S B. destruct (fracChunks_ok w FI) as (a & e & FC & LA & CA & ER & FV).
  unfold cvtdff. rewrite FC. cbn [rbind]. destruct (trim_ok a (Z.to_nat (e + 1)) LA CA ltac:(lia)) as (e1 & -> & E1 & V1 & P1). cbn [rbind].
  rewrite FV in *. pose proof (fracPart_range w) as FR. destruct (e1 <? 0) eqn:Q.
  - assert (F0 : fracPart w = 0) by lia. destruct (zeroFill_ok (Z.to_nat size) b o O ltac:(lia)) as (b' & -> & W & SL). cbn [rbind].
    rewrite Z2Nat.id in * by lia. exists b', false. split; [reflexivity|]. split; [exact W|]. rewrite SL, F0, Z.mul_0_l.
    destruct (decimal_zeros (Z.to_nat size)) as [D N]. split; [exact D|]. rewrite N. split; [reflexivity|]. split; [discriminate|].
    intros A. exfalso. apply A. reflexivity.
  - rewrite V1 in P1. destruct (fracLoop_digits size S (Z.to_nat size + 64) a e1 b o 0 ltac:(lia) LA CA ltac:(lia) P1 O B) as (b' & e' & -> & W & D & N & R).
    cbn [rbind]. rewrite <- V1 in N, R. destruct (scale192 (fracPart w) (10 ^ size)) as [S1 S2]. rewrite S1 in N. rewrite S2 in R.
    exists b', (0 <=? e'). split; [reflexivity|]. split; [exact W|]. split; [exact D|]. split; [exact N|].
    set (M := (fracPart w * 10 ^ size) mod 2 ^ 150) in *. clearbody M. change (2 ^ 42) with 4398046511104 in R. clear - R. lia.
Qed.
Lemma cvtdff_z_ok w b o size : finite w -> 0 <= o -> 0 < size -> o + size <= zlen b -> 
  exists b' zc rem, cvtdff (ofBits w) b o size true = Ok (b', zc, rem) /\ within o size b b' /\ 0 <= zc < 46 /\
    decimal (slice o size b') /\ number (slice o size b') = fracPart w * 10 ^ (zc + size) / 2 ^ 150 /\
    fracPart w * 10 ^ zc < 2 ^ 150 /\
    (if fracPart w =? 0 then zc = 0 else hd 48 (slice o size b') <> 48) /\
    (rem = true <-> (fracPart w * 10 ^ (zc + size)) mod 2 ^ 150 <> 0).
Proof.
  intros FI O S B. destruct (fracChunks_ok w FI) as (a & e & FC & LA & CA & ER & FV).
  unfold cvtdff. rewrite FC. cbn [rbind]. destruct (trim_ok a (Z.to_nat (e + 1)) LA CA ltac:(lia)) as (e1 & -> & E1 & V1 & P1). cbn [rbind].
  rewrite FV in *. pose proof (fracPart_range w) as FR. destruct (e1 <? 0) eqn:Q.
  - assert (F0 : fracPart w = 0) by lia. destruct (zeroFill_ok (Z.to_nat size) b o O ltac:(lia)) as (b' & -> & W & SL). cbn [rbind].
    rewrite Z2Nat.id in * by lia. exists b', 0, false. split; [reflexivity|]. split; [exact W|]. split; [lia|]. rewrite SL, F0, !Z.mul_0_l.
    destruct (decimal_zeros (Z.to_nat size)) as [D N]. split; [exact D|]. rewrite N. split; [reflexivity|]. split; [lia|]. split; [reflexivity|].
    split; [discriminate|]. intros A. exfalso. apply A. reflexivity.
  - assert (FP : 0 < fracPart w) by lia.
    destruct (fracLoop_zeros size 46 S ltac:(lia) (Z.to_nat size + 64) a e1 b o 0 ltac:(lia) LA CA ltac:(lia) O B) as (b' & e' & z & -> & W & ZR & D & N & ZB & H & R).
    { rewrite <- V1. apply Z.mul_pos_pos; lia. }
    { rewrite <- V1. change (U 0) with (2 ^ 150 * 2 ^ 42). apply Z.le_trans with (1 * 2 ^ 42 * 10 ^ 46).
      - vm_compute. discriminate.
      - apply Z.mul_le_mono_nonneg_r; [lia|]. apply Z.mul_le_mono_nonneg_r; lia. }
    cbn [rbind]. rewrite <- V1 in *. destruct (scale192 (fracPart w) (10 ^ (z + size))) as [S1 S2]. rewrite S1 in N. rewrite S2 in R.
    exists b', z, (0 <=? e'). split; [rewrite Z.add_0_l; reflexivity|]. split; [exact W|]. split; [lia|]. split; [exact D|]. split; [exact N|]. split.
    { change (U 0) with (2 ^ 150 * 2 ^ 42) in ZB. replace (fracPart w * 2 ^ 42 * 10 ^ z) with (fracPart w * 10 ^ z * 2 ^ 42) in ZB by ring.
      apply Z.mul_lt_mono_pos_r in ZB; [exact ZB|lia]. }
    split; [destruct (Z.eqb_spec (fracPart w) 0); [lia|exact H]|].
    set (M := (fracPart w * 10 ^ (z + size)) mod 2 ^ 150) in *. clearbody M. change (2 ^ 42) with 4398046511104 in R. clear - R. lia.
Qed.
