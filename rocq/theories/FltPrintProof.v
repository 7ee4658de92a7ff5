(** The proofs about printff. *)
From Verif Require Import Base BaseLemmas LexModel DoPrintModel DoPrintSpec DoPrintProof CvtModel CvtSpec IdentProof CvtProof CvtProof2 CvtProps FltPrintModel FltPrintSpec.

(** * rounding *)
Lemma rounds_unique num den q q' : 0 < den -> rounds num den q -> rounds num den q' -> q = q'.
Proof.
  intros P A B. destruct (Z.eq_dec q q') as [|NE]; [assumption|exfalso].
  assert (D : den <= Z.abs (q * den - q' * den)) by (replace (q * den - q' * den) with ((q - q') * den) by ring; rewrite Z.abs_mul; nia).
  unfold rounds in *.
  assert (T : 2 * Z.abs (num - q * den) = den /\ 2 * Z.abs (num - q' * den) = den) by lia. destruct T as [T T'].
  assert (EV : Z.even q = true) by (destruct A as [A|[_ A]]; [lia|exact A]).
  assert (EV' : Z.even q' = true) by (destruct B as [B|[_ B]]; [lia|exact B]).
  apply Z.even_spec in EV, EV'. destruct EV as [k ->], EV' as [k' ->]. 
  assert (K : k - k' <= -1 \/ 1 <= k - k') by lia.
  assert (E : 2 * Z.abs ((k - k') * 2 * den) <= 2 * den) by (replace ((k - k') * 2 * den) with (2 * k * den - 2 * k' * den) by ring; lia).
  nia.
Qed.
Lemma rounds_nearest num den q : rounds num den q -> nearest num den q.
Proof. unfold rounds, nearest. lia. Qed.
(** what the last digit, the remainder and the digit before decide *)
Definition goesUp (d l : Z) (rem : bool) : bool := (5 <? l) || (l =? 5) && (rem || Z.odd d).
Lemma goesUp_rounds num den d l r (rem : bool) : 0 < den -> num = (10 * d + l) * den + r -> 0 <= r < den -> 0 <= l <= 9 -> (rem = true <-> r <> 0) ->
  rounds num (10 * den) (d + if goesUp d l rem then 1 else 0).
Proof.
  intros P N R L RM. unfold goesUp, rounds.
  assert (ND : num - d * (10 * den) = l * den + r) by lia.
  destruct (Z.lt_trichotomy l 5) as [LT|[->|GT]].
  - destruct (5 <? l) eqn:Q; [lia|]. destruct (l =? 5) eqn:Q2; [lia|]. cbn [andb orb]. left. rewrite Z.add_0_r, ND. nia.
  - cbn [orb andb]. change (5 <? 5) with false. change (5 =? 5) with true. cbn [orb andb].
    destruct rem; cbn [orb].
    + assert (r <> 0) by (apply RM; reflexivity). left. replace (num - (d + 1) * (10 * den)) with (5 * den + r - 10 * den) by lia. lia.
    + assert (R0 : r = 0) by (destruct (Z.eq_dec r 0); [assumption|]; exfalso; assert (false = true) by (apply RM; assumption); congruence).
      right. destruct (Z.odd d) eqn:OD.
      * split; [replace (num - (d + 1) * (10 * den)) with (5 * den + r - 10 * den) by lia; lia|].
        rewrite Z.even_add, <- Z.negb_odd, OD. reflexivity.
      * split; [rewrite Z.add_0_r, ND; lia|]. rewrite Z.add_0_r, <- Z.negb_odd, OD. reflexivity.
  - destruct (5 <? l) eqn:Q; [|lia]. cbn [orb]. left. replace (num - (d + 1) * (10 * den)) with (l * den + r - 10 * den) by lia.
    assert (6 * den <= l * den) by nia. assert (l * den <= 9 * den) by nia. lia.
Qed.
(** with rem always set, a tie goes up: nearest, and right unless it is a tie *)
Lemma goesUp_true num den d l r : 0 < den -> num = (10 * d + l) * den + r -> 0 <= r < den -> 0 <= l <= 9 ->
  let q := d + if goesUp d l true then 1 else 0 in
  nearest num (10 * den) q /\ (~ halfway num (10 * den) -> rounds num (10 * den) q) /\ (Z.odd d = true -> rounds num (10 * den) q).
Proof.
  intros P N R L q. set (rem := negb (r =? 0)). pose proof (goesUp_rounds num den d l r rem P N R L) as G.
  assert (RM : rem = true <-> r <> 0) by (unfold rem; destruct (Z.eqb_spec r 0); cbn; split; congruence). specialize (G RM).
  destruct (Z.eq_dec r 0) as [R0|R0].
  - destruct (Z.eq_dec l 5) as [L5|L5].
    + unfold q, goesUp. rewrite L5. change (5 <? 5) with false. change (5 =? 5) with true. cbn [orb andb].
      assert (T : 2 * (num - d * (10 * den)) = 10 * den) by (rewrite N, L5, R0; ring).
      split; [unfold nearest; lia|]. split; [intros H; exfalso; apply H; exists d; exact T|].
      intros OD. right. split; [lia|]. rewrite Z.even_add, <- Z.negb_odd, OD. reflexivity.
    + assert (E : goesUp d l rem = goesUp d l true) by (unfold goesUp; destruct (Z.eqb_spec l 5); [contradiction|]; reflexivity).
      unfold q. rewrite <- E. split; [apply rounds_nearest; exact G|]. auto.
  - assert (E : rem = true) by (apply RM; exact R0). rewrite E in G. unfold q. split; [apply rounds_nearest; exact G|]. auto.
Qed.

(** * digits *)
Lemma digits_unique : forall F F', decimal F -> decimal F' -> zlen F = zlen F' -> number F = number F' -> F = F'.
Proof.
  induction F as [|c F IH]; intros F' D D' L N.
  - destruct F' as [|c' F']; [reflexivity|]. rewrite zlen_cons in L. change (zlen (@nil Z)) with 0 in L. pose proof (zlen_nonneg F'). lia.
  - destruct F' as [|c' F']; [rewrite zlen_cons in L; change (zlen (@nil Z)) with 0 in L; pose proof (zlen_nonneg F); lia|].
    rewrite !zlen_cons in L. inversion_clear D as [|? ? C DF]. inversion_clear D' as [|? ? C' DF'].
    rewrite !number_cons in N. replace (zlen F') with (zlen F) in N by lia.
    pose proof (number_bound F DF) as B. pose proof (number_bound F' DF') as B'. replace (zlen F') with (zlen F) in B' by lia.
    assert (CC : c = c') by nia. subst c'. f_equal. apply IH; auto; lia.
Qed.
Lemma decimalOf_unique v s s' : decimalOf v s -> decimalOf v s' -> s = s'.
Proof.
  intros (D & N & NE & H & Z0) (D' & N' & NE' & H' & Z0').
  destruct (Z.eq_dec v 0) as [V|V]; [rewrite Z0, Z0' by assumption; reflexivity|].
  specialize (H V). specialize (H' V). apply digits_unique; auto; [|congruence].
  assert (G : forall a b, decimal a -> decimal b -> number a = number b -> hd 48 a <> 48 -> zlen a <= zlen b).
  { intros a b DA DB E HA. destruct a as [|c a]; [cbn in HA; congruence|]. cbn [hd] in HA. inversion_clear DA as [|? ? C DA'].
    rewrite number_cons in E. pose proof (number_bound a DA') as BA. pose proof (number_bound b DB) as BB.
    rewrite zlen_cons. destruct (Z.le_gt_cases (1 + zlen a) (zlen b)); [lia|]. exfalso.
    assert (10 ^ zlen b <= 10 ^ zlen a) by (apply Z.pow_le_mono_r; lia). nia. }
  apply Z.le_antisymm; apply G; auto; congruence.
Qed.
Lemma decimalOf_len v s : decimalOf v s -> 0 <= v -> (v <> 0 -> 10 ^ (zlen s - 1) <= v) /\ v < 10 ^ zlen s /\ 1 <= zlen s.
Proof.
  intros (D & N & NE & H & Z0) V. destruct s as [|c s]; [congruence|]. rewrite zlen_cons. pose proof (zlen_nonneg s).
  split; [|split; [rewrite <- N, <- (zlen_cons c s); apply number_bound; exact D|lia]].
  intros NZ. specialize (H NZ). cbn [hd] in H. inversion_clear D as [|? ? C DS]. rewrite number_cons in N. pose proof (number_bound s DS).
  replace (1 + zlen s - 1) with (zlen s) by lia. nia.
Qed.
Lemma decimal_app a b : decimal (a ++ b) <-> decimal a /\ decimal b.
Proof. apply Forall_app. Qed.
Lemma decimal_firstn n s : decimal s -> decimal (firstn n s).
Proof. intros D. rewrite <- (firstn_skipn n s) in D. apply decimal_app in D. apply D. Qed.
Lemma decimal_skipn n s : decimal s -> decimal (skipn n s).
Proof. intros D. rewrite <- (firstn_skipn n s) in D. apply decimal_app in D. apply D. Qed.

Lemma slice_snoc o n b : 0 <= o -> 0 <= n -> o + n < zlen b -> slice o (n + 1) b = slice o n b ++ [at_ b (o + n)].
Proof.
  intros O N B. apply slice_eq; auto; [rewrite zlen_app, slice_len by lia; reflexivity|lia|]. intros k K.
  destruct (Z.lt_ge_cases k n); [rewrite zget_app_l by (rewrite slice_len; lia); rewrite slice_get by lia; reflexivity|].
  rewrite zget_app_r by (rewrite slice_len; lia). rewrite slice_len by lia. replace (k - n) with 0 by lia. rewrite zget_cons_0. replace (o + k) with (o + n) by lia.
  destruct (proj2 (zget_range b (o + n)) ltac:(lia)) as (v & E). unfold at_. rewrite E. reflexivity.
Qed.
Lemma number_snoc s c : number (s ++ [c]) = number s * 10 + (c - 48).
Proof. rewrite number_app, number_cons. change (zlen [c]) with 1. change (zlen (@nil Z)) with 0. change (number []) with 0. rewrite Z.pow_1_r, Z.pow_0_r. ring. Qed.
Lemma decimal_snoc s c : decimal (s ++ [c]) <-> decimal s /\ 48 <= c <= 57.
Proof. rewrite decimal_app. split; intros [A B]; (split; [exact A|]); [inversion B; auto|constructor; [auto|constructor]]. Qed.
Lemma slice_snoc' o n b : 0 <= o -> 0 < n -> o + n <= zlen b -> slice o n b = slice o (n - 1) b ++ [at_ b (o + n - 1)].
Proof. intros O N B. replace n with (n - 1 + 1) at 1 by lia. rewrite slice_snoc by lia. do 2 f_equal. f_equal. lia. Qed.
Lemma within_slice o n b b' o' n' : within o n b b' -> 0 <= o' -> 0 <= n' -> o' + n' <= zlen b -> o' + n' <= o \/ o + n <= o' -> slice o' n' b' = slice o' n' b.
Proof. intros [L W] O N B D. apply slice_ext; auto; [lia|]. intros k K. apply W. lia. Qed.
Lemma within_at o n b b' i : within o n b b' -> i < o \/ o + n <= i -> at_ b' i = at_ b i.
Proof. intros [L W] D. unfold at_. rewrite W by exact D. reflexivity. Qed.
Lemma roundup_ok n : forall b, Z.of_nat n < zlen b -> decimal (slice 0 (Z.of_nat n + 1) b) ->
  number (slice 0 (Z.of_nat n + 1) b) + 1 < 10 ^ (Z.of_nat n + 1) ->
  exists b', roundup n b = Ok b' /\ within 0 (Z.of_nat n + 1) b b' /\ decimal (slice 0 (Z.of_nat n + 1) b') /\
    number (slice 0 (Z.of_nat n + 1) b') = number (slice 0 (Z.of_nat n + 1) b) + 1.
Proof.
  induction n as [|n IH]; intros b L D N.
  - cbn [roundup]. change (Z.of_nat 0 + 1) with (0 + 1) in *. rewrite slice_snoc in D, N |- * by lia. rewrite slice_0 in *. cbn [List.app] in *.
    change (0 + 0) with 0 in *. change (Z.of_nat 0) with 0 in *.
    assert (NC : forall c, number [c] = c - 48) by (intros c; unfold number; cbn [valueOf]; lia). rewrite NC in N |- *.
    inversion_clear D as [|? ? C _]. rewrite get_ok by lia. cbn [rbind]. set (c := at_ b 0) in *.
    destruct (Z.eqb_spec c 57) as [Q|Q]; [change (10 ^ (0 + 1)) with 10 in N; lia|].
    destruct (set_ok b 0 (c + 1) ltac:(lia)) as (b' & -> & L' & G). exists b'. split; [reflexivity|].
    assert (A : at_ b' 0 = c + 1) by (unfold at_; rewrite G, Z.eqb_refl; reflexivity).
    split; [|rewrite slice_snoc by lia; rewrite slice_0; cbn [List.app]; change (0 + 0) with 0; rewrite A, NC; split; [constructor; [lia|constructor]|lia]].
    split; [exact L'|]. intros i I. rewrite G. destruct (Z.eqb_spec 0 i); [lia|reflexivity].
  - cbn [roundup]. replace (Z.of_nat (S n)) with (Z.of_nat n + 1) in * by lia. set (m := Z.of_nat n + 1) in *.
    assert (M : 1 <= m) by lia. rewrite slice_snoc in D, N |- * by lia. change (0 + m) with m in *.
    apply decimal_snoc in D. destruct D as [D C]. rewrite number_snoc in N |- *. rewrite get_ok by lia. cbn [rbind]. set (c := at_ b m) in *.
    destruct (Z.eqb_spec c 57) as [Q|Q].
    + destruct (set_ok b m 48 ltac:(lia)) as (b1 & -> & L1 & G1). cbn [rbind].
      assert (W1 : within m 1 b b1) by (split; [exact L1|]; intros i I; rewrite G1; destruct (Z.eqb_spec m i); [lia|reflexivity]).
      assert (S1 : slice 0 m b1 = slice 0 m b) by (eapply within_slice; [exact W1|lia..]).
      destruct (IH b1) as (b' & -> & W' & D' & N').
      { unfold m in *. lia. } { fold m. rewrite S1. exact D. }
      { fold m. rewrite S1. rewrite Z.pow_add_r in N by lia. change (10 ^ 1) with 10 in N. lia. }
      exists b'. split; [reflexivity|]. split.
      { eapply within_trans; [eapply (within_sub 0 (m + 1)); [..|exact W1]; lia|eapply within_sub; [..|exact W']; lia]. }
      pose proof W' as [L' _]. rewrite slice_snoc by lia. change (0 + m) with m. rewrite (within_at _ _ _ _ m W') by lia.
      assert (A : at_ b1 m = 48) by (unfold at_; rewrite G1, Z.eqb_refl; reflexivity). rewrite A. split; [apply decimal_snoc; split; [exact D'|lia]|].
      rewrite number_snoc, N', S1. lia.
    + destruct (set_ok b m (c + 1) ltac:(lia)) as (b1 & -> & L1 & G1). exists b1. split; [reflexivity|].
      assert (W1 : within m 1 b b1) by (split; [exact L1|]; intros i I; rewrite G1; destruct (Z.eqb_spec m i); [lia|reflexivity]).
      assert (S1 : slice 0 m b1 = slice 0 m b) by (eapply within_slice; [exact W1|lia..]).
      split; [eapply within_sub; [..|exact W1]; lia|]. rewrite slice_snoc by lia. change (0 + m) with m.
      assert (A : at_ b1 m = c + 1) by (unfold at_; rewrite G1, Z.eqb_refl; reflexivity). rewrite A, S1, number_snoc.
      split; [apply decimal_snoc; split; [exact D|lia]|lia].
Qed.
(** rounding the digits buf[1..i] by buf[1 + i] *)
Lemma roundEven_ok b i rem : 1 <= i -> i + 2 <= zlen b -> at_ b 0 = 48 -> decimal (slice 1 (i + 1) b) ->
  let d := number (slice 1 i b) in
  exists b' over, roundEven b i rem = Ok (b', over) /\ within 0 (i + 1) b b' /\ decimal (slice 0 (i + 1) b') /\
    number (slice 0 (i + 1) b') = d + (if goesUp d (at_ b (1 + i) - 48) rem then 1 else 0) /\
    over = (if at_ b' 0 =? 48 then 0 else 1).
Proof.
  intros I L Z0 D d. rewrite slice_snoc in D by lia. apply decimal_snoc in D. destruct D as [D C].
  assert (S0 : slice 0 (i + 1) b = 48 :: slice 1 i b).
  { rewrite slice_cons by lia. rewrite Z0. f_equal. f_equal. lia. }
  assert (D0 : decimal (slice 0 (i + 1) b)) by (rewrite S0; constructor; [lia|exact D]).
  assert (N0 : number (slice 0 (i + 1) b) = d) by (rewrite S0, number_cons; fold d; lia).
  pose proof (number_bound _ D) as NB. rewrite slice_len in NB by lia. fold d in NB.
  unfold roundEven. rewrite !get_ok by lia. cbn [rbind]. set (l := at_ b (1 + i)) in *.
  assert (OD : Z.odd (at_ b i - 48) = Z.odd d).
  { unfold d. rewrite (slice_snoc' 1 i b) by lia. rewrite number_snoc. replace (1 + i - 1) with i by lia.
    rewrite Z.odd_add, Z.odd_mul. change (Z.odd 10) with false. rewrite andb_false_r. destruct (Z.odd (at_ b i - 48)); reflexivity. }
  rewrite OD.
  assert (UP : (53 <=? l) && (negb (l =? 53) || rem || Z.odd d) = goesUp d (l - 48) rem).
  { unfold goesUp. destruct (Z.lt_trichotomy l 53) as [Q|[Q|Q]].
    - destruct (53 <=? l) eqn:Q1; [lia|]. destruct (5 <? l - 48) eqn:Q2; [lia|]. destruct (l - 48 =? 5) eqn:Q3; [lia|]. reflexivity.
    - rewrite Q. cbn. destruct rem; reflexivity.
    - destruct (53 <=? l) eqn:Q1; [|lia]. destruct (l =? 53) eqn:Q4; [lia|]. destruct (5 <? l - 48) eqn:Q2; [|lia]. reflexivity. }
  rewrite <- UP. 
  assert (ID : exists b' over, Ok (b, 0) = Ok (b', over) /\ within 0 (i + 1) b b' /\ decimal (slice 0 (i + 1) b') /\
    number (slice 0 (i + 1) b') = d + 0 /\ over = (if at_ b' 0 =? 48 then 0 else 1)).
  { exists b, 0. split; [reflexivity|]. split; [apply within_refl|]. split; [exact D0|]. split; [lia|]. rewrite Z0. reflexivity. }
  destruct (53 <=? l); cbn [andb]; [|exact ID]. destruct (negb (l =? 53) || rem || Z.odd d); [|exact ID].
  destruct (roundup_ok (Z.to_nat i) b) as (b' & -> & W & D' & N'); rewrite ?Z2Nat.id by lia; auto; [lia|..].
  - rewrite N0, Z.pow_add_r by lia. change (10 ^ 1) with 10. lia.
  - rewrite Z2Nat.id in * by lia. cbn [rbind]. pose proof W as [L' _]. rewrite get_ok by lia. cbn [rbind].
    eexists _, _. split; [reflexivity|]. split; [exact W|]. split; [exact D'|]. split; [lia|reflexivity].
Qed.

Lemma rounds_scale k num den q : 0 < k -> rounds (k * num) (k * den) q <-> rounds num den q.
Proof.
  intros K. unfold rounds. replace (k * num - q * (k * den)) with (k * (num - q * den)) by ring. rewrite Z.abs_mul, (Z.abs_eq k) by lia.
  set (a := Z.abs (num - q * den)). replace (2 * (k * a)) with (k * (2 * a)) by ring.
  split; (intros [H|[H E]]; [left|right; split; [|exact E]]); nia.
Qed.
Lemma nearest_scale k num den q : 0 < k -> nearest (k * num) (k * den) q <-> nearest num den q.
Proof.
  intros K. unfold nearest. replace (k * num - q * (k * den)) with (k * (num - q * den)) by ring. rewrite Z.abs_mul, (Z.abs_eq k) by lia.
  set (a := Z.abs (num - q * den)). replace (2 * (k * a)) with (k * (2 * a)) by ring. split; nia.
Qed.
Lemma rounds_exact num den q : 0 < den -> num = q * den -> rounds num den q.
Proof. intros P ->. left. rewrite Z.sub_diag. cbn. lia. Qed.
Lemma rounds_div num den q : 0 < den -> (den | num) -> rounds num den q -> num = q * den.
Proof. intros P [k ->] R. f_equal. eapply rounds_unique; [exact P| |exact R]. apply rounds_exact; auto. Qed.
Lemma decimalOf_intro v I : decimal I -> number I = v -> 1 <= zlen I -> zlen I = 1 \/ 10 ^ (zlen I - 1) <= v -> decimalOf v I.
Proof.
  intros D N L H. destruct I as [|c I]; [change (zlen (@nil Z)) with 0 in L; lia|]. split; [exact D|]. split; [exact N|]. split; [discriminate|].
  rewrite zlen_cons in H. inversion_clear D as [|? ? C DI]. rewrite number_cons in N. pose proof (number_bound I DI) as B. pose proof (zlen_nonneg I).
  destruct H as [H|H].
  - assert (L0 : zlen I = 0) by lia. destruct I as [|c2 I]; [|rewrite zlen_cons in L0; pose proof (zlen_nonneg I); lia].
    change (number []) with 0 in N. change (zlen (@nil Z)) with 0 in N. rewrite Z.pow_0_r in N. cbn [hd].
    split; intros; [lia|]. f_equal. lia.
  - replace (1 + zlen I - 1) with (zlen I) in H by lia. cbn [hd]. assert (0 < 10 ^ zlen I) by (apply Z.pow_pos_nonneg; lia). split; intros; [nia|lia].
Qed.
Lemma scaled_parts w : scaled w = intPart w * 2 ^ 150 + fracPart w.
Proof. unfold intPart, fracPart. rewrite (Z.div_mod (scaled w) (2 ^ 150)) at 1 by lia. lia. Qed.
Lemma divides_pow a b : 0 <= a <= b -> (2 ^ a | 2 ^ b).
Proof. intros H. exists (2 ^ (b - a)). rewrite <- Z.pow_add_r by lia. f_equal. lia. Qed.
Lemma exact_digits w n : finite w -> 149 <= n \/ 1 <= intPart w /\ 23 <= n -> (2 ^ 150 | scaled w * 10 ^ n).
Proof.
  intros F H. destruct (ofBits_ok w F) as (m & ex & OB & MR & ER & SC & NM). rewrite SC.
  assert (E : 1 <= ex + 150 /\ 150 <= ex + 150 + n).
  { split; [lia|]. destruct H as [H|[I H]]; [lia|].
    assert (S : 2 ^ 150 <= m * 2 ^ (ex + 150)) by (rewrite <- SC; pose proof (scaled_parts w); pose proof (fracPart_range w); nia).
    assert (PP : 0 < 2 ^ (ex + 150)) by (apply Z.pow_pos_nonneg; lia).
    assert (S2 : 2 ^ 150 < 2 ^ (24 + (ex + 150))) by (rewrite Z.pow_add_r by lia; eapply Z.le_lt_trans; [exact S|]; apply Z.mul_lt_mono_pos_r; lia).
    apply Z.pow_lt_mono_r_iff in S2; lia. }
  change 10 with (2 * 5). rewrite Z.pow_mul_l. replace (m * 2 ^ (ex + 150) * (2 ^ n * 5 ^ n)) with (2 ^ (ex + 150 + n) * (m * 5 ^ n)) by (rewrite (Z.pow_add_r 2 (ex + 150) n) by lia; ring).
  apply Z.divide_mul_l. apply divides_pow. lia.
Qed.
Lemma firstn_len (l : list Z) n : zlen l <= n -> firstn (Z.to_nat n) l = l.
Proof. intros H. apply firstn_all2. unfold zlen in H. lia. Qed.
Lemma slice_app o n m b : 0 <= o -> 0 <= n -> 0 <= m -> o + n + m <= zlen b -> slice o (n + m) b = slice o n b ++ slice (o + n) m b.
Proof.
  intros O N M B. apply slice_eq; auto; [rewrite zlen_app, !slice_len by lia; reflexivity|lia|]. intros k K.
  destruct (Z.lt_ge_cases k n); [rewrite zget_app_l by (rewrite slice_len; lia); rewrite slice_get by lia; reflexivity|].
  rewrite zget_app_r by (rewrite slice_len; lia). rewrite slice_len by lia. rewrite slice_get by lia. f_equal. lia.
Qed.
Lemma floor_split w k : 0 <= k -> scaled w * 10 ^ k / 2 ^ 150 = intPart w * 10 ^ k + fracPart w * 10 ^ k / 2 ^ 150.
Proof.
  intros K. rewrite scaled_parts. replace ((intPart w * 2 ^ 150 + fracPart w) * 10 ^ k) with (intPart w * 10 ^ k * 2 ^ 150 + fracPart w * 10 ^ k) by ring.
  rewrite Z.div_add_l by lia. reflexivity.
Qed.
Lemma mod_split w k : 0 <= k -> (scaled w * 10 ^ k) mod 2 ^ 150 = (fracPart w * 10 ^ k) mod 2 ^ 150.
Proof.
  intros K. rewrite scaled_parts. replace ((intPart w * 2 ^ 150 + fracPart w) * 10 ^ k) with (fracPart w * 10 ^ k + intPart w * 10 ^ k * 2 ^ 150) by ring.
  apply Z.mod_add. lia.
Qed.

(** * %f *)
Lemma fixed_ok w b prec : finite w -> zlen b = 152 -> at_ b 0 = 48 -> 0 <= prec -> prec + 1 < 2 ^ 31 ->
  exists b' icnt fcnt fz, fixed (ofBits w) b prec = Ok (b', icnt, 0, fcnt, fz) /\ zlen b' = 152 /\
    let p := if at_ b' 0 =? 48 then 1 else 0 in
    1 <= icnt /\ 0 <= fcnt /\ 0 <= fz /\ fcnt + fz = prec /\ p + icnt + fcnt <= 152 /\
    fixedParts rounds w prec (slice p icnt b') (slice (p + icnt) fcnt b' ++ repeat 48 (Z.to_nat fz)).
Proof.
  intros FI BL B0 PR PO. unfold fixed, maxDigs.
  destruct (cvtdif_ok w b 1 151 FI ltac:(lia) ltac:(lia) ltac:(lia)) as (b1 & ds & rem0 & -> & W1 & DO & SL & _). cbn [rbind].
  pose proof (C39_at_most_39 w ds FI DO) as LD. set (ic := zlen ds) in *. rewrite Z.min_l in SL by lia.
  rewrite firstn_len in SL by (fold ic; lia). pose proof W1 as [L1 _].
  destruct (151 <=? ic) eqn:Q; [lia|]. unfold int. destruct (prec + 1 <? 2 ^ 31) eqn:Q2; [|lia]. cbn [rbind].
  set (fc := Z.min (prec + 1) (151 - ic) - 1). assert (FC : 0 <= fc <= 150 - ic /\ (fc = prec \/ fc < prec /\ fc = 150 - ic)) by (unfold fc; lia).
  clearbody fc. destruct FC as [FC0 FC].
  destruct (cvtdff_ok w b1 (1 + ic) (fc + 1) FI ltac:(lia) ltac:(lia) ltac:(lia)) as (b2 & rem & -> & W2 & D2 & N2 & R2). cbn [rbind].
  pose proof W2 as [L2 _]. set (i := ic + fc).
  assert (S2 : slice 1 (i + 1) b2 = ds ++ slice (1 + ic) (fc + 1) b2).
  { unfold i. replace (ic + fc + 1) with (ic + (fc + 1)) by lia. rewrite slice_app by lia. f_equal. rewrite <- SL.
    eapply within_slice; [exact W2|lia..]. }
  assert (DD : decimal (slice 1 (i + 1) b2)) by (rewrite S2; apply decimal_app; split; [apply DO|exact D2]).
  assert (Z2 : at_ b2 0 = 48) by (rewrite (within_at _ _ _ _ 0 W2), (within_at _ _ _ _ 0 W1) by lia; exact B0).
  assert (T : number (slice 1 (i + 1) b2) = scaled w * 10 ^ (fc + 1) / 2 ^ 150).
  { rewrite S2, number_app, N2, slice_len by lia. rewrite floor_split by lia. destruct DO as (_ & -> & _). reflexivity. }
  destruct (roundEven_ok b2 i rem ltac:(lia) ltac:(lia) Z2 DD) as (b3 & over & -> & W3 & D3 & N3 & OV). cbn [rbind].
  pose proof W3 as [L3 _]. pose proof DD as DD'. rewrite slice_snoc in DD' by lia. apply decimal_snoc in DD'. destruct DD' as [DI DL].
  set (d := number (slice 1 i b2)) in *. set (l := at_ b2 (1 + i) - 48) in *.
  assert (T' : 10 * d + l = scaled w * 10 ^ (fc + 1) / 2 ^ 150).
  { rewrite <- T, slice_snoc by lia. rewrite number_snoc. fold d. unfold l. ring. }
  set (q := d + if goesUp d l rem then 1 else 0) in *.
  pose proof (Z.div_mod (scaled w * 10 ^ (fc + 1)) (2 ^ 150) ltac:(lia)) as DM.
  pose proof (Z.mod_pos_bound (scaled w * 10 ^ (fc + 1)) (2 ^ 150) ltac:(lia)) as MB.
  assert (RQ : rounds (scaled w * 10 ^ fc) (2 ^ 150) q).
  { apply (rounds_scale 10); [lia|]. replace (10 * (scaled w * 10 ^ fc)) with (scaled w * 10 ^ (fc + 1)) by (rewrite Z.pow_add_r by lia; ring).
    apply (goesUp_rounds _ _ d l ((scaled w * 10 ^ (fc + 1)) mod 2 ^ 150)); [lia| |exact MB|unfold l; lia|].
    - rewrite T'. lia.
    - rewrite R2, mod_split by lia. reflexivity. }
  clear DM MB.
  set (F := slice (1 + ic) fc b3). set (P0 := slice 0 (1 + ic) b3).
  assert (SP : slice 0 (i + 1) b3 = P0 ++ F) by (unfold i; replace (ic + fc + 1) with (1 + ic + fc) by lia; rewrite slice_app by lia; reflexivity).
  rewrite SP in D3, N3. apply decimal_app in D3. destruct D3 as [DP DF]. rewrite number_app in N3.
  assert (LF : zlen F = fc) by (unfold F; apply slice_len; lia). rewrite LF in N3.
  pose proof (number_bound F DF) as NF. rewrite LF in NF. assert (P10 : 0 < 10 ^ fc) by (apply Z.pow_pos_nonneg; lia).
  assert (QD : q / 10 ^ fc = number P0) by (rewrite <- N3; rewrite Z.div_add_l by lia; rewrite Z.div_small by lia; lia).
  assert (QM : q mod 10 ^ fc = number F) by (rewrite <- N3; rewrite Z.add_comm, Z.mod_add by lia; apply Z.mod_small; lia).
  (* the integral part does not shrink *)
  assert (IQ : intPart w <= number P0).
  { rewrite <- QD. apply Z.div_le_lower_bound; [lia|]. unfold q.
    assert (intPart w * 10 ^ fc * 10 <= 10 * d + l).
    { rewrite T', floor_split by lia. rewrite (Z.pow_add_r 10 fc 1) by lia. change (10 ^ 1) with 10.
      assert (0 <= fracPart w * (10 ^ fc * 10) / 2 ^ 150) by (apply Z.div_pos; [pose proof (fracPart_range w); nia|lia]). lia. }
    assert (L9 : l <= 9) by (unfold l; lia). destruct (goesUp d l rem); lia. }
  set (p := if at_ b3 0 =? 48 then 1 else 0).
  assert (IP : decimalOf (q / 10 ^ fc) (slice p (ic + over) b3) /\ p + (ic + over) = 1 + ic).
  { rewrite QD. unfold p. subst over. assert (IR : 0 <= intPart w) by (pose proof (intPart_range w FI); lia).
    pose proof (decimalOf_len _ _ DO IR) as (DL1 & DL2 & _). fold ic in DL1, DL2.
    assert (SS : P0 = at_ b3 0 :: slice 1 ic b3) by (unfold P0; rewrite slice_cons by lia; do 2 f_equal; lia).
    destruct (Z.eqb_spec (at_ b3 0) 48) as [Z48|Z48].
    - split; [|lia]. rewrite Z.add_0_r. rewrite SS in DP, IQ |- *. inversion_clear DP as [|? ? C DP'].
      rewrite Z48 in IQ |- *. rewrite number_cons in IQ |- *.
      replace ((48 - 48) * 10 ^ zlen (slice 1 ic b3) + number (slice 1 ic b3)) with (number (slice 1 ic b3)) in * by ring.
      apply decimalOf_intro; auto; [rewrite slice_len; lia|]. rewrite slice_len by lia.
      destruct (Z.eq_dec (intPart w) 0) as [I0|I0]; [left|right; specialize (DL1 I0); lia].
      destruct DO as (_ & _ & _ & _ & DO0). unfold ic. rewrite (DO0 I0). reflexivity.
    - split; [|lia]. replace (ic + 1) with (1 + ic) by lia. fold P0. apply decimalOf_intro; auto.
      + unfold P0. rewrite slice_len; lia.
      + right. assert (LP : zlen P0 = 1 + ic) by (unfold P0; rewrite slice_len; lia). rewrite LP. replace (1 + ic - 1) with ic by lia.
        rewrite SS in DP |- *. inversion_clear DP as [|? ? C DP']. rewrite number_cons, slice_len by lia.
        pose proof (number_bound _ DP'). assert (0 < 10 ^ ic) by (apply Z.pow_pos_nonneg; lia). nia. }
  destruct IP as [IP IPE].
  exists b3, (ic + over), fc, (prec - fc). split; [reflexivity|]. split; [lia|]. cbv zeta. fold p.
  assert (OR : 0 <= over) by (subst over; destruct (at_ b3 0 =? 48); lia).
  split; [lia|]. split; [lia|]. split; [lia|]. split; [lia|]. split; [lia|]. rewrite IPE. fold F.
  destruct FC as [-> | [FL FE]].
  - rewrite Z.sub_diag. cbn [Z.to_nat repeat]. rewrite app_nil_r. exists q. split; [exact RQ|]. split; [exact IP|].
    split; [exact DF|]. split; [exact LF|]. symmetry. exact QM.
  - assert (DV : (2 ^ 150 | scaled w * 10 ^ fc)).
    { apply exact_digits; auto. destruct (Z.eq_dec ic 1) as [I1|I1]; [left; lia|right]. split; [|lia].
      assert (intPart w <> 0) by (intros I0; destruct DO as (_ & _ & _ & _ & DO0); unfold ic in I1; rewrite (DO0 I0) in I1; apply I1; reflexivity).
      pose proof (intPart_range w FI); lia. }
    apply rounds_div in RQ; [|lia|exact DV].
    set (z := prec - fc) in *. assert (ZP : 0 < z) by lia. assert (PZ : 0 < 10 ^ z) by (apply Z.pow_pos_nonneg; lia).
    assert (PE : 10 ^ prec = 10 ^ fc * 10 ^ z) by (rewrite <- Z.pow_add_r by lia; f_equal; lia).
    exists (q * 10 ^ z). rewrite PE. split; [|split].
    + apply rounds_exact; [lia|]. rewrite Z.mul_assoc, RQ. ring.
    + rewrite Z.div_mul_cancel_r by lia. exact IP.
    + destruct (decimal_zeros (Z.to_nat z)) as [DZ NZ]. split; [apply decimal_app; auto|]. split; [rewrite zlen_app, LF, zlen_repeat; lia|].
      rewrite number_app, NZ, zlen_repeat. rewrite Z2Nat.id by lia. rewrite Z.mul_mod_distr_r by lia. rewrite QM. lia.
Qed.

(** * %e *)
Lemma leading_int w ds : finite w -> decimalOf (intPart w) ds -> intPart w <> 0 -> leading w (zlen ds - 1).
Proof.
  intros F DO NZ. pose proof (intPart_range w F) as IR. pose proof (decimalOf_len _ _ DO ltac:(lia)) as (L1 & L2 & L3). specialize (L1 NZ).
  pose proof (scaled_parts w) as SP. pose proof (fracPart_range w) as FR. set (c := zlen ds) in *. unfold leading, atLeast.
  rewrite (Z.max_l (c - 1)), (Z.max_r (- (c - 1))), (Z.max_l (c - 1 + 1)), (Z.max_r (- (c - 1 + 1))), !Z.pow_0_r by lia.
  replace (c - 1 + 1) with c by lia. clearbody c. split; nia.
Qed.
Lemma leading_frac w z : finite w -> intPart w = 0 -> 0 <= z -> fracPart w * 10 ^ z < 2 ^ 150 <= fracPart w * 10 ^ (z + 1) -> leading w (- z - 1).
Proof.
  intros F I Z0 H. pose proof (scaled_parts w) as SP. rewrite I in SP. unfold leading, atLeast.
  rewrite (Z.max_r (- z - 1)), (Z.max_l (- (- z - 1))), (Z.max_r (- z - 1 + 1)), (Z.max_l (- (- z - 1 + 1))), !Z.pow_0_r by lia.
  replace (- (- z - 1)) with (z + 1) by lia. replace (- (- z - 1 + 1)) with z by lia. replace (scaled w) with (fracPart w) by lia. lia.
Qed.
Definition up10 (k : Z) : Z := 10 ^ Z.max k 0.
Lemma up10_pos k : 0 < up10 k.
Proof. apply Z.pow_pos_nonneg; lia. Qed.
Lemma hd_at o n b : 0 <= o -> 0 < n -> o + n <= zlen b -> hd 48 (slice o n b) = at_ b o.
Proof. intros. rewrite slice_cons by lia. reflexivity. Qed.
Lemma hd_big s : decimal s -> hd 48 s <> 48 -> 10 ^ (zlen s - 1) <= number s.
Proof.
  intros D H. destruct s as [|c s]; [cbn in H; congruence|]. cbn [hd] in H. inversion_clear D as [|? ? C DS].
  rewrite number_cons, zlen_cons. replace (1 + zlen s - 1) with (zlen s) by lia. pose proof (number_bound s DS). nia.
Qed.
Lemma sciDigits_ok w b r : finite w -> zlen b = 152 -> at_ b 0 = 48 -> 2 <= r <= 151 ->
  exists b' rem X, sciDigits (ofBits w) b r = Ok (b', rem, X) /\ zlen b' = 152 /\ at_ b' 0 = 48 /\ -46 <= X <= 38 /\
    decimal (slice 1 r b') /\
    let num := scaled w * up10 (r - 1 - X) in let den := 2 ^ 150 * up10 (X - (r - 1)) in
    number (slice 1 r b') = num / den /\
    (scaled w = 0 /\ X = 0 \/ leading w X /\ 10 ^ (r - 1) <= number (slice 1 r b')) /\
    ((rem = true <-> num mod den <> 0) \/ r - 1 < X /\ rem = true) /\
    (X < 0 \/ 1 <= intPart w \/ scaled w = 0).
Proof.
  intros FI BL B0 RR. unfold sciDigits.
  destruct (cvtdif_ok w b 1 r FI ltac:(lia) ltac:(lia) ltac:(lia)) as (b1 & ds & rem0 & -> & W1 & DO & SL & R1 & R2). cbn [rbind].
  pose proof (C39_at_most_39 w ds FI DO) as LD. pose proof W1 as [L1 _]. rewrite get_ok by lia. cbn [rbind].
  pose proof (intPart_range w FI) as IR. pose proof (fracPart_range w) as FR. pose proof (scaled_parts w) as SP.
  assert (H1 : at_ b1 1 = hd 48 ds).
  { rewrite <- (hd_at 1 (Z.min (zlen ds) r) b1) by lia. rewrite SL. destruct DO as (_ & _ & NE & _). destruct ds as [|c ds]; [congruence|].
    destruct (Z.to_nat r) eqn:Q; [lia|]. reflexivity. }
  assert (Z1 : at_ b1 0 = 48) by (rewrite (within_at _ _ _ _ 0 W1) by lia; exact B0).
  rewrite H1. destruct (Z.eqb_spec (hd 48 ds) 48) as [Q|Q].
  - assert (I0 : intPart w = 0) by (destruct (Z.eq_dec (intPart w) 0); [assumption|]; destruct DO as (_ & _ & _ & HD & _); specialize (HD ltac:(assumption)); congruence).
    rewrite I0 in SP. assert (SF : scaled w = fracPart w) by lia.
    destruct (C39_fraction_zeroes w b1 1 r FI ltac:(lia) ltac:(lia) ltac:(lia)) as (b2 & zc & rem & EC & D2 & LS & N2 & Z0 & NZ & R3 & W2).
    rewrite EC. cbn [rbind]. pose proof W2 as [L2 _]. rewrite get_ok by lia. cbn [rbind].
    destruct (cvtdff_z_ok w b1 1 r FI ltac:(lia) ltac:(lia) ltac:(lia)) as (b2' & zc' & rem' & EC' & _ & ZR & _).
    rewrite EC in EC'. injection EC' as <- <- <-. 
    assert (Z2 : at_ b2 0 = 48) by (rewrite (within_at _ _ _ _ 0 W2) by lia; exact Z1).
    destruct (Z.eq_dec (fracPart w) 0) as [F0|F0].
    + specialize (Z0 F0). subst zc. rewrite F0 in N2. rewrite Z.mul_0_l in N2. rewrite Z.div_0_l in N2 by lia.
      assert (A1 : at_ b2 1 = 48).
      { rewrite slice_cons in D2, N2 by lia. change (1 + 1) with 2 in *. inversion_clear D2 as [|? ? C D2']. rewrite number_cons in N2. pose proof (number_bound _ D2') as NB.
        rewrite slice_len in * by lia. assert (0 < 10 ^ (r - 1)) by (apply Z.pow_pos_nonneg; lia). nia. }
      rewrite A1. exists b2, rem, (-0 - 0). split; [reflexivity|]. split; [lia|]. split; [exact Z2|]. split; [lia|]. split; [exact D2|]. cbv zeta.
      rewrite SF, F0, Z.mul_0_l. pose proof (up10_pos (-0 - 0 - (r - 1))). rewrite Z.div_0_l, Z.mod_0_l by lia. split; [exact N2|]. split; [left; auto|].
      split; [|right; right; reflexivity]. left. rewrite R3, F0, Z.mul_0_l, Z.mod_0_l by lia. reflexivity.
    + destruct (NZ F0) as [HD LE]. rewrite hd_at in HD by lia. destruct (Z.eqb_spec (at_ b2 1) 48) as [Q2|Q2]; [congruence|].
      exists b2, rem, (- zc - 1). split; [reflexivity|]. split; [lia|]. split; [exact Z2|]. split; [lia|]. split; [exact D2|]. cbv zeta.
      replace (scaled w * up10 (r - 1 - (- zc - 1))) with (fracPart w * 10 ^ (zc + r)) by (rewrite SF; unfold up10; do 2 f_equal; lia).
      replace (2 ^ 150 * up10 (- zc - 1 - (r - 1))) with (2 ^ 150) by (unfold up10; rewrite Z.max_r by lia; reflexivity).
      split; [exact N2|]. split; [right; split; [apply leading_frac; auto; lia|]|].
      * replace (r - 1) with (zlen (slice 1 r b2) - 1) by lia. apply hd_big; [exact D2|]. rewrite hd_at by lia. exact Q2.
      * split; [left; exact R3|left; lia].
  - assert (I1 : 1 <= intPart w).
    { destruct (Z.eq_dec (intPart w) 0) as [I0|]; [|lia]. destruct DO as (_ & _ & _ & _ & DO0). rewrite (DO0 I0) in Q. cbn in Q. congruence. }
    pose proof (leading_int w ds FI DO ltac:(lia)) as LG. pose proof (decimalOf_len _ _ DO ltac:(lia)) as (DL1 & DL2 & _). specialize (DL1 ltac:(lia)).
    set (c := zlen ds) in *. destruct (r <=? c) eqn:QR.
    + rewrite Z.min_r in SL by lia. exists b1, rem0, (c - 1). split; [reflexivity|]. split; [lia|]. split; [exact Z1|]. split; [lia|].
      rewrite SL. split; [apply decimal_firstn; apply DO|]. cbv zeta.
      replace (up10 (r - 1 - (c - 1))) with 1 by (unfold up10; rewrite Z.max_r by lia; reflexivity).
      replace (up10 (c - 1 - (r - 1))) with (10 ^ (c - r)) by (unfold up10; f_equal; lia). rewrite Z.mul_1_r.
      assert (P : 0 < 10 ^ (c - r)) by (apply Z.pow_pos_nonneg; lia).
      assert (ND : number (firstn (Z.to_nat r) ds) = intPart w / 10 ^ (c - r)).
      { destruct DO as (DD & NN & _). rewrite <- NN. rewrite <- (firstn_skipn (Z.to_nat r) ds) at 2. rewrite number_app.
        assert (LK : zlen (skipn (Z.to_nat r) ds) = c - r) by (unfold c, zlen; rewrite skipn_length; unfold c, zlen in QR; lia). rewrite LK.
        pose proof (number_bound _ (decimal_skipn (Z.to_nat r) ds DD)) as NB. rewrite LK in NB.
        rewrite Z.div_add_l by lia. rewrite Z.div_small by lia. lia. }
      assert (ND' : number (firstn (Z.to_nat r) ds) = scaled w / (2 ^ 150 * 10 ^ (c - r))) by (rewrite <- Z.div_div by lia; exact ND).
      split; [exact ND'|]. split; [right; split; [exact LG|]|].
      * rewrite ND. apply Z.div_le_lower_bound; [lia|]. rewrite <- Z.pow_add_r by lia. replace (c - r + (r - 1)) with (c - 1) by lia. exact DL1.
      * split; [|right; left; exact I1]. destruct (Z.eq_dec c r) as [E|NE].
        -- left. rewrite R1 by lia. rewrite E, Z.sub_diag, Z.pow_0_r, Z.mul_1_r. reflexivity.
        -- right. split; [lia|]. apply R2. lia.
    + rewrite Z.min_l in SL by lia. rewrite firstn_len in SL by (fold c; lia).
      destruct (cvtdff_ok w b1 (1 + c) (r - c) FI ltac:(lia) ltac:(lia) ltac:(lia)) as (b2 & rem & -> & W2 & D2 & N2 & R3). cbn [rbind].
      pose proof W2 as [L2 _]. exists b2, rem, (c - 1). split; [reflexivity|]. split; [lia|].
      split; [rewrite (within_at _ _ _ _ 0 W2) by lia; exact Z1|]. split; [lia|].
      assert (S2 : slice 1 r b2 = ds ++ slice (1 + c) (r - c) b2).
      { replace r with (c + (r - c)) at 1 by lia. rewrite slice_app by lia. f_equal. rewrite <- SL. eapply within_slice; [exact W2|lia..]. }
      assert (DD : decimal (slice 1 r b2)) by (rewrite S2; apply decimal_app; split; [apply DO|exact D2]).
      split; [exact DD|]. cbv zeta.
      replace (up10 (r - 1 - (c - 1))) with (10 ^ (r - c)) by (unfold up10; f_equal; lia).
      replace (up10 (c - 1 - (r - 1))) with 1 by (unfold up10; rewrite Z.max_r by lia; reflexivity). rewrite Z.mul_1_r.
      split; [rewrite S2, number_app, N2, slice_len, floor_split by lia; destruct DO as (_ & -> & _); reflexivity|].
      split; [right; split; [exact LG|]|split; [left; rewrite R3, mod_split by lia; reflexivity|right; left; exact I1]].
      rewrite <- (slice_len 1 r b2) at 1 by lia. apply hd_big; [exact DD|]. rewrite S2. destruct ds as [|c0 ds]; [destruct DO as (_ & _ & NE & _); congruence|]. exact Q.
Qed.

Lemma scientific_ok w b prec : finite w -> zlen b = 152 -> at_ b 0 = 48 -> 0 <= prec -> prec + 2 < 2 ^ 31 ->
  exists b' fcnt fz E, scientific (ofBits w) b prec = Ok (b', fcnt, fz, E) /\ zlen b' = 152 /\
    let p := if at_ b' 0 =? 48 then 1 else 0 in
    let I := slice p 1 b' in let F := slice (p + 1) fcnt b' ++ repeat 48 (Z.to_nat fz) in
    0 <= fcnt <= 149 /\ 0 <= fz /\ fcnt + fz = prec /\ -46 <= E <= 39 /\
    expParts nearest w prec E I F /\ (tieFree w prec -> expParts rounds w prec E I F).
Proof.
  intros FI BL B0 PR PO. unfold scientific, int, maxDigs. destruct (prec + 2 <? 2 ^ 31) eqn:Q; [|lia]. cbn [rbind].
  set (r := Z.min (prec + 2) 151). assert (RR : 2 <= r <= 151 /\ (r = prec + 2 \/ r = 151 /\ r < prec + 2)) by (unfold r; lia).
  clearbody r. destruct RR as [RR RC].
  destruct (sciDigits_ok w b r FI BL B0 RR) as (b2 & rem & X & -> & L2 & Z2 & XR & D2 & N2 & LG & RM & XI). cbn [rbind].
  set (num := scaled w * up10 (r - 1 - X)) in *. set (den := 2 ^ 150 * up10 (X - (r - 1))) in *.
  assert (DP : 0 < den) by (unfold den; pose proof (up10_pos (X - (r - 1))); lia).
  set (i := 1 + (r - 2)). assert (IE : r = i + 1) by (unfold i; lia). assert (I1 : 1 <= i) by lia.
  rewrite IE in D2, N2.
  destruct (roundEven_ok b2 i rem ltac:(lia) ltac:(lia) Z2 D2) as (b3 & over & -> & W3 & D3 & N3 & OV). cbn [rbind].
  pose proof W3 as [L3 _]. pose proof D2 as D2'. rewrite slice_snoc in D2' by lia. apply decimal_snoc in D2'. destruct D2' as [DI DL].
  set (d := number (slice 1 i b2)) in *. set (l := at_ b2 (1 + i) - 48) in *.
  assert (NS : number (slice 1 (i + 1) b2) = 10 * d + l) by (rewrite slice_snoc by lia; rewrite number_snoc; fold d; unfold l; ring).
  assert (T : 10 * d + l = num / den) by (rewrite <- NS; exact N2).
  pose proof (Z.div_mod num den ltac:(lia)) as DM. pose proof (Z.mod_pos_bound num den ltac:(lia)) as MB. rewrite <- T in DM.
  assert (NE : num = (10 * d + l) * den + num mod den) by lia. assert (L9 : 0 <= l <= 9) by (unfold l; lia).
  set (q := d + if goesUp d l rem then 1 else 0) in *.
  (* the rounding, at the precision of the digits produced *)
  set (p' := r - 2). set (num' := scaled w * up10 (p' - X)). set (den' := 2 ^ 150 * up10 (X - p')).
  assert (DP' : 0 < den') by (unfold den'; pose proof (up10_pos (X - p')); lia).
  assert (SC : num = num' * (if X <? r - 1 then 10 else 1) /\ 10 * den = den' * (if X <? r - 1 then 10 else 1)).
  { unfold num, num', den, den', up10, p'. destruct (X <? r - 1) eqn:QX.
    - rewrite !(Z.max_l (r - 1 - X)), !(Z.max_r (X - (r - 1))), !(Z.max_l (r - 2 - X)), !(Z.max_r (X - (r - 2))) by lia.
      replace (r - 1 - X) with (r - 2 - X + 1) by lia. rewrite Z.pow_add_r by lia. change (10 ^ 1) with 10. split; ring.
    - rewrite !(Z.max_r (r - 1 - X)), !(Z.max_l (X - (r - 1))), !(Z.max_r (r - 2 - X)), !(Z.max_l (X - (r - 2))) by lia.
      replace (X - (r - 2)) with (X - (r - 1) + 1) by lia. rewrite Z.pow_add_r by lia. change (10 ^ 1) with 10. split; ring. }
  destruct SC as [SC1 SC2]. set (k := if X <? r - 1 then 10 else 1) in *. assert (KP : 0 < k) by (unfold k; destruct (X <? r - 1); lia).
  assert (RN : nearest num' den' q).
  { apply (nearest_scale k); [exact KP|]. rewrite !(Z.mul_comm k). rewrite <- SC1, <- SC2. destruct RM as [RM|[XB RM]].
    - apply rounds_nearest. apply (goesUp_rounds _ _ d l (num mod den)); auto.
    - unfold q. rewrite RM. apply (goesUp_true num den d l (num mod den)); auto. }
  assert (RX : tieFree w prec -> leading w X -> rounds num' den' q).
  { intros TF LX. apply (rounds_scale k); [exact KP|]. rewrite !(Z.mul_comm k). rewrite <- SC1, <- SC2. destruct RM as [RM|[XB RM]].
    - apply (goesUp_rounds _ _ d l (num mod den)); auto.
    - unfold q. rewrite RM. destruct (goesUp_true num den d l (num mod den) DP NE MB L9) as (_ & G & _). apply G. clear G.
      assert (RP : r = prec + 2) by lia. specialize (TF X LX ltac:(lia)).
      replace (10 * den) with (2 ^ 150 * 10 ^ (X - prec)).
      + replace num with (scaled w); [exact TF|]. unfold num, up10. rewrite Z.max_r by lia. rewrite Z.pow_0_r. lia.
      + unfold den, up10. rewrite Z.max_l by lia. replace (X - prec) with (X - (r - 1) + 1) by lia. rewrite Z.pow_add_r by lia. change (10 ^ 1) with 10. ring. }
  (* the digits *)
  pose proof (number_bound _ DI) as DB. rewrite slice_len in DB by lia. fold d in DB.
  assert (PI : 10 ^ i = 10 ^ p' * 10) by (replace i with (p' + 1) by (unfold p', i; lia); rewrite Z.pow_add_r by (unfold p'; lia); reflexivity).
  assert (PP : 0 < 10 ^ p') by (apply Z.pow_pos_nonneg; unfold p'; lia).
  set (p := if at_ b3 0 =? 48 then 1 else 0). assert (PR01 : 0 <= p <= 1) by (unfold p; destruct (at_ b3 0 =? 48); lia).
  set (Id := slice p 1 b3). set (Fd := slice (p + 1) p' b3).
  assert (IF : Id ++ Fd = slice p i b3) by (unfold Id, Fd; rewrite <- slice_app by (unfold p'; lia); f_equal; unfold p', i; lia).
  assert (DIF : decimal (Id ++ Fd) /\ (q < 10 ^ i /\ over = 0 /\ number (Id ++ Fd) = q \/ q = 10 ^ i /\ over = 1 /\ number (Id ++ Fd) = 10 ^ p')).
  { rewrite IF. unfold p. rewrite OV. destruct (Z.eqb_spec (at_ b3 0) 48) as [Z48|Z48].
    - rewrite (slice_cons 0 (i + 1)) in D3, N3 by lia. rewrite Z48 in *. replace (i + 1 - 1) with i in * by lia. change (0 + 1) with 1 in *.
      inversion_clear D3 as [|? ? C D3']. split; [exact D3'|]. rewrite number_cons in N3. pose proof (number_bound _ D3') as NB.
      rewrite slice_len in NB by lia. left. split; [lia|]. split; [reflexivity|]. lia.
    - rewrite (slice_snoc 0 i) in D3, N3 by lia. apply decimal_snoc in D3. destruct D3 as [D3 C]. split; [exact D3|]. right.
      rewrite number_snoc in N3. rewrite (slice_cons 0 i) in * by lia. change (0 + 1) with 1 in *. inversion_clear D3 as [|? ? C3 D3'].
      rewrite number_cons in *. pose proof (number_bound _ D3') as NB. rewrite slice_len in * by lia.
      replace (10 ^ i) with (10 ^ p' * 10) in * by lia. replace (i - 1) with p' in * by (unfold p', i; lia).
      assert (QU : q <= 10 ^ p' * 10) by (unfold q; destruct (goesUp d l rem); lia).
      assert (A0 : 1 <= at_ b3 0 - 48) by lia. clearbody q. clear - N3 NB QU A0 PP C.
      assert (10 ^ p' <= (at_ b3 0 - 48) * 10 ^ p') by nia. lia. }
  destruct DIF as [DIF NIF]. apply decimal_app in DIF. destruct DIF as [DId DFd].
  assert (LI : zlen Id = 1) by (unfold Id; apply slice_len; lia). assert (LFd : zlen Fd = p') by (unfold Fd; apply slice_len; unfold p' in *; lia).
  set (z := prec - p'). assert (ZR : 0 <= z /\ (z = 0 \/ 0 < z /\ p' = 149)) by (unfold z, p'; lia). destruct ZR as [ZP ZC].
  destruct (decimal_zeros (Z.to_nat z)) as [DZ NZ].
  assert (PZ : 0 < 10 ^ z) by (apply Z.pow_pos_nonneg; lia).
  assert (NA : number (Id ++ Fd ++ repeat 48 (Z.to_nat z)) = number (Id ++ Fd) * 10 ^ z).
  { rewrite app_assoc, number_app, NZ, zlen_repeat. rewrite Z2Nat.id by lia. ring. }
  assert (PE : prec = p' + z) by (unfold z; lia).
  assert (EX : 0 < z -> leading w X -> num' = q * den').
  { intros Z0 LX. assert (P149 : p' = 149) by lia. 
    assert (DV : (2 ^ 150 | scaled w * 10 ^ (149 - X))).
    { apply exact_digits; auto. destruct XI as [XN|[XI|XZ]]; [left; lia|right; lia|].
      exfalso. destruct LX as [LX _]. unfold atLeast in LX. rewrite XZ, Z.mul_0_l in LX. pose proof (up10_pos X) as U. unfold up10 in U. lia. }
    apply rounds_div; [exact DP'|..].
    - unfold num', den', up10. rewrite P149. rewrite (Z.max_r (X - 149)), (Z.max_l (149 - X)), Z.pow_0_r, Z.mul_1_r by lia. exact DV.
    - apply (rounds_scale k); [exact KP|]. rewrite !(Z.mul_comm k). rewrite <- SC1, <- SC2.
      destruct RM as [RM|[XB RM]]; [|lia]. apply (goesUp_rounds _ _ d l (num mod den)); auto. }
  assert (NUM : scaled w * 10 ^ Z.max (prec - X) 0 = num' * 10 ^ z /\ 2 ^ 150 * 10 ^ Z.max (X - prec) 0 = den').
  { destruct ZC as [-> | [Z0 P149]].
    - rewrite Z.pow_0_r, Z.mul_1_r. unfold num', den', up10. replace p' with prec by lia. auto.
    - unfold num', den', up10. rewrite !(Z.max_r (X - _)), !(Z.max_l (_ - X)) by lia. split; [|reflexivity].
      rewrite <- Z.mul_assoc, <- Z.pow_add_r by lia. do 2 f_equal. lia. }
  destruct NUM as [NU DE].
  assert (BUILD : forall R : Z -> Z -> Z -> Prop, (leading w X -> R num' den' q) -> (leading w X -> num' * 10 ^ z = q * 10 ^ z * den' -> R (num' * 10 ^ z) den' (q * 10 ^ z)) ->
    expParts R w prec (X + over) Id (Fd ++ repeat 48 (Z.to_nat z))).
  { intros R R1 R2. split; [exact LI|]. split; [rewrite zlen_app, LFd, zlen_repeat; lia|]. split; [exact DId|]. split; [apply decimal_app; auto|].
    rewrite NA. destruct LG as [[S0 X0]|[LX BIG]].
    - left. split; [exact S0|]. assert (N0 : num = 0) by (unfold num; rewrite S0; reflexivity).
      assert (d = 0 /\ l = 0) by (rewrite N0, Z.div_0_l in T by lia; lia).
      assert (Q0 : q = 0) by (unfold q, goesUp; destruct H as [-> ->]; reflexivity).
      assert (0 < 10 ^ i) by lia. destruct NIF as [(_ & -> & ->)|(QB & _ & _)]; [|lia]. rewrite Q0. lia.
    - right. exists X, (q * 10 ^ z). split; [exact LX|]. rewrite NU, DE. split.
      + destruct ZC as [Z0|[Z0 _]]; [rewrite Z0, Z.pow_0_r, !Z.mul_1_r; auto|]. apply R2; [exact LX|]. rewrite (EX Z0 LX). ring.
      + assert (PPZ : 10 ^ (prec + 1) = 10 ^ i * 10 ^ z) by (rewrite <- Z.pow_add_r by lia; f_equal; unfold i, p' in *; lia).
        destruct NIF as [(QL & OZ & ->)|(QB & O1 & ->)]; [left|right].
        * split; [rewrite PPZ; apply Z.mul_lt_mono_pos_r; assumption|]. split; [rewrite OZ; ring|reflexivity].
        * split; [rewrite PPZ, QB; reflexivity|]. split; [rewrite O1; ring|]. rewrite PE, Z.pow_add_r by (unfold p' in *; lia). reflexivity. }
  exists b3, p', z, (X + over). split; [reflexivity|]. split; [congruence|]. cbv zeta. fold p. fold Id. fold Fd.
  split; [unfold p'; lia|]. split; [exact ZP|]. split; [lia|]. split; [destruct NIF as [(_ & -> & _)|(_ & -> & _)]; lia|].
  split.
  - apply BUILD; [auto|]. intros _ E. apply rounds_nearest. apply rounds_exact; auto.
  - intros TF. apply BUILD; [auto|]. intros _ E. apply rounds_exact; auto.
Qed.
