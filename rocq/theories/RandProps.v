(** C57: rand() goes through all its states and is uniform over its range. *)
From Verif Require Import Base BaseLemmas RandSpec RandModel.
From Coq Require Import Znumtheory Zpow_facts Permutation.
Ltac Zify.zify_post_hook ::= idtac.

Definition am : Z := 1103515245.
Definition cm : Z := 12345.
Fixpoint Sm (n : nat) : Z := match n with O => 0 | S n => Sm n * am + 1 end.
Definition word (s : Z) : Prop := 0 <= s < 2 ^ 32.
Local Notation aft := (after rand).

Lemma step_word s : word (snd (rand s)). Proof. unfold rand, wrap. cbn [snd]. apply Z.mod_pos_bound. lia. Qed.
Lemma after_word n : forall s, word s -> word (aft n s).
Proof. induction n as [|n IH]; intros s H; cbn [after]; [exact H|]. apply IH, step_word. Qed.
Lemma after_add n : forall m s, aft (n + m) s = aft m (aft n s).
Proof. induction n as [|n IH]; intros m s; cbn [after Nat.add]; [reflexivity|]. apply IH. Qed.
Lemma after_mod n : forall s, word s -> aft n s = (s + Sm n * ((am - 1) * s + cm)) mod 2 ^ 32.
Proof.
  induction n as [|n IH]; intros s H; cbn [after Sm].
  - rewrite Z.mul_0_l, Z.add_0_r. symmetry. apply Z.mod_small. exact H.
  - rewrite IH by apply step_word. unfold rand, wrap. cbn [snd]. change 1103515245 with am. change 12345 with cm.
    set (q := (s * am + cm) / 2 ^ 32). replace ((s * am + cm) mod 2 ^ 32) with (s * am + cm - q * 2 ^ 32) by (unfold q; rewrite Z.mod_eq by lia; lia).
    replace (s * am + cm - q * 2 ^ 32 + Sm n * ((am - 1) * (s * am + cm - q * 2 ^ 32) + cm)) with
      (s + (Sm n * am + 1) * ((am - 1) * s + cm) + (- q * (1 + Sm n * (am - 1))) * 2 ^ 32) by ring.
    apply Z_mod_plus_full.
Qed.
Lemma Sm_pow n : am ^ Z.of_nat n = (am - 1) * Sm n + 1.
Proof.
  induction n as [|n IH]; [reflexivity|]. rewrite Nat2Z.inj_succ, Z.pow_succ_r by lia. rewrite IH. cbn [Sm]. ring.
Qed.
Lemma Sm_add n m : Sm (n + m) = Sm n * am ^ Z.of_nat m + Sm m.
Proof.
  induction m as [|m IH]; [rewrite Nat.add_0_r; change (am ^ Z.of_nat 0) with 1; cbn [Sm]; ring|].
  rewrite Nat.add_succ_r. cbn [Sm]. rewrite IH, Nat2Z.inj_succ, Z.pow_succ_r by lia. ring.
Qed.
Lemma Sm_double m : Sm (m + m) = 2 * (Sm m * (2 * (275878811 * Sm m) + 1)).
Proof. rewrite Sm_add, Sm_pow. unfold am. ring. Qed.
Lemma Sm_parity n : Z.odd (Sm n) = Nat.odd n.
Proof.
  induction n as [|n IH]; [reflexivity|]. cbn [Sm]. rewrite Z.odd_add, Z.odd_mul, IH, andb_true_r. rewrite Nat.odd_succ, <- Nat.negb_odd.
  destruct (Nat.odd n); reflexivity.
Qed.
Lemma odd_gauss k u x : 0 <= k -> Z.odd u = true -> (2 ^ k | x * u) <-> (2 ^ k | x).
Proof.
  intros K U. split; [|apply Z.divide_mul_l]. intros H. apply Gauss with u; [now rewrite Z.mul_comm|].
  apply rel_prime_sym, rel_prime_Zpower_r; [exact K|]. apply rel_prime_sym, prime_rel_prime; [exact prime_2|].
  intros D. apply Zdivide_mod in D. rewrite Zmod_odd, U in D. discriminate.
Qed.
Lemma Sm_val (k : nat) : forall n, (2 ^ Z.of_nat k | Sm n) <-> (2 ^ Z.of_nat k | Z.of_nat n).
Proof.
  induction k as [|k IH]; intros n; [split; intros _; apply Z.divide_1_l|].
  rewrite Nat2Z.inj_succ, Z.pow_succ_r by lia. destruct (Nat.Even_or_Odd n) as [[m ->]|[m ->]].
  - replace (2 * m)%nat with (m + m)%nat by lia. rewrite Sm_double. replace (Z.of_nat (m + m)) with (2 * Z.of_nat m) by lia.
    rewrite !Z.mul_divide_cancel_l by lia. rewrite odd_gauss by (try lia; rewrite Z.add_comm, Z.odd_add_mul_2; reflexivity). apply IH.
  - assert (O1 : Nat.odd (2 * m + 1) = true) by (rewrite Nat.add_comm, Nat.odd_add_mul_2; reflexivity).
    split; intros D; exfalso.
    + assert (D2 : (2 | Sm (2 * m + 1))) by (eapply Z.divide_trans; [|exact D]; apply Z.divide_mul_l, Z.divide_refl).
      apply Zdivide_mod in D2. rewrite Zmod_odd, Sm_parity, O1 in D2. discriminate.
    + assert (D2 : (2 | Z.of_nat (2 * m + 1))) by (eapply Z.divide_trans; [|exact D]; apply Z.divide_mul_l, Z.divide_refl).
      destruct D2 as [z Hz]. lia.
Qed.
Lemma returns d s : word s -> aft d s = s <-> (2 ^ 32 | Z.of_nat d).
Proof.
  intros H. rewrite after_mod by exact H. rewrite <- (Sm_val 32 d). change (Z.of_nat 32) with 32.
  assert (U : Z.odd ((am - 1) * s + cm) = true) by (rewrite Z.odd_add, Z.odd_mul; reflexivity).
  rewrite <- (odd_gauss 32 ((am - 1) * s + cm)) by (try lia; exact U). set (t := Sm d * ((am - 1) * s + cm)). split.
  - intros E. apply Z.mod_divide; [lia|]. assert (E2 : (s + t - s) mod 2 ^ 32 = 0) by (rewrite Zminus_mod, E, (Z.mod_small s) by exact H; rewrite Z.sub_diag; reflexivity).
    replace (s + t - s) with t in E2 by lia. exact E2.
  - intros [q Hq]. rewrite Hq, Z_mod_plus_full. apply Z.mod_small. exact H.
Qed.

(** Results are in the documented range (stdlib.h: RAND_MAX is 32767). *)
Theorem C57_range (seed : Z) (n : nat) : 0 <= result rand n seed <= 32767.
Proof.
  unfold result, rand. cbn [fst]. set (x := Z.shiftr _ 16). assert (E : Z.land x 0x7FFF = x mod 32768) by exact (Z.land_ones x 15 ltac:(lia)).
  rewrite E. pose proof (Z.mod_pos_bound x 32768 eq_refl) as HB. lia.
Qed.

(** The generator comes back to a state after 2^32 calls, and not before. *)
Theorem C57_period (seed : Z) (i j : nat) : 0 <= seed < 2 ^ 32 ->
  after rand i seed = after rand j seed <-> Z.of_nat i mod 2 ^ 32 = Z.of_nat j mod 2 ^ 32.
Proof.
  intros H. assert (G : forall i j, (i <= j)%nat -> after rand i seed = after rand j seed <-> Z.of_nat i mod 2 ^ 32 = Z.of_nat j mod 2 ^ 32).
  { clear i j. intros i j L. replace j with (i + (j - i))%nat at 1 by lia. rewrite after_add.
    pose proof (returns (j - i) (aft i seed) (after_word i seed H)) as RT.
    split.
    - intros E. symmetry in E. apply RT in E as [q Hq]. replace (Z.of_nat j) with (Z.of_nat i + q * 2 ^ 32) by lia. now rewrite Z_mod_plus_full.
    - intros E. symmetry. apply RT. apply Z.mod_divide; [lia|]. rewrite Nat2Z.inj_sub, Zminus_mod, E, Z.sub_diag by exact L. reflexivity. }
  destruct (Nat.le_ge_cases i j) as [L|L]; [now apply G|]. specialize (G j i L). split; intros E; symmetry; apply G; symmetry; exact E.
Qed.

(** Counting. *)
Lemma count_ext p q n : (forall i, (i < n)%nat -> p i = q i) -> count p n = count q n.
Proof. induction n as [|n IH]; intros H; cbn [count]; [reflexivity|]. rewrite IH, H by (try lia; intros i Hi; apply H; lia). reflexivity. Qed.
Lemma count_add p n m : count p (n + m) = count p n + count (fun i => p (n + i)%nat) m.
Proof. induction m as [|m IH]; [rewrite Nat.add_0_r; cbn [count]; lia|]. rewrite Nat.add_succ_r. cbn [count]. rewrite IH. lia. Qed.
Lemma count_all p n : (forall i, (i < n)%nat -> p i = true) -> count p n = Z.of_nat n.
Proof. induction n as [|n IH]; intros H; cbn [count]; [reflexivity|]. rewrite IH, H by (try lia; intros i Hi; apply H; lia). lia. Qed.
Lemma count_none p n : (forall i, (i < n)%nat -> p i = false) -> count p n = 0.
Proof. induction n as [|n IH]; intros H; cbn [count]; [reflexivity|]. rewrite IH, H by (try lia; intros i Hi; apply H; lia). lia. Qed.
Lemma count_filter p n : count p n = Z.of_nat (length (filter p (seq 0 n))).
Proof.
  induction n as [|n IH]; [reflexivity|]. rewrite seq_S, filter_app, app_length. cbn [count filter Nat.add]. rewrite IH.
  destruct (p n); cbn [length]; lia.
Qed.
Lemma perm_filter {A} (p : A -> bool) l1 l2 : Permutation l1 l2 -> length (filter p l1) = length (filter p l2).
Proof.
  induction 1 as [|x l1 l2 H IH|x y l|l1 l2 l3 H1 IH1 H2 IH2]; cbn [filter]; [reflexivity| | |congruence].
  - destruct (p x); cbn [length]; congruence.
  - destruct (p x), (p y); reflexivity.
Qed.
Lemma filter_map {A B} (f : A -> B) (p : B -> bool) l : length (filter p (map f l)) = length (filter (fun x => p (f x)) l).
Proof. induction l as [|x l IH]; cbn [map filter]; [reflexivity|]. destruct (p (f x)); cbn [length]; congruence. Qed.

(** Digit [v] in the middle. *)
Lemma count_row (A v : nat) : forall B, (0 < A)%nat -> count (fun y => (y / A =? v)%nat) (B * A) = if (v <? B)%nat then Z.of_nat A else 0.
Proof.
  induction B as [|B IH]; intros HA; [reflexivity|]. replace (S B * A)%nat with (B * A + A)%nat by lia. rewrite count_add, IH by exact HA.
  assert (D : forall i, (i < A)%nat -> ((B * A + i) / A = B)%nat) by (intros i Hi; symmetry; apply Nat.div_unique with i; lia).
  destruct (Nat.eq_dec v B) as [->|N].
  - rewrite (count_all _ A) by (intros i Hi; rewrite D by exact Hi; apply Nat.eqb_refl). destruct (Nat.ltb_spec B B), (Nat.ltb_spec B (S B)); lia.
  - rewrite (count_none _ A) by (intros i Hi; rewrite D by exact Hi; apply Nat.eqb_neq; lia). destruct (Nat.ltb_spec v B), (Nat.ltb_spec v (S B)); lia.
Qed.
Lemma count_digit (A B v : nat) : forall C, (0 < A)%nat -> (v < B)%nat -> count (fun y => ((y / A) mod B =? v)%nat) (C * (B * A)) = Z.of_nat C * Z.of_nat A.
Proof.
  induction C as [|C IH]; intros HA HB; [reflexivity|]. replace (S C * (B * A))%nat with (C * (B * A) + B * A)%nat by lia. rewrite count_add, IH by assumption.
  rewrite (count_ext _ (fun y => (y / A =? v)%nat)).
  - rewrite count_row by exact HA. replace (v <? B)%nat with true by (symmetry; now apply Nat.ltb_lt). lia.
  - intros i Hi. replace (C * (B * A) + i)%nat with (i + (C * B) * A)%nat by lia. rewrite Nat.div_add by lia. rewrite Nat.mod_add by lia.
    rewrite Nat.mod_small; [reflexivity|]. apply Nat.div_lt_upper_bound; lia.
Qed.

Lemma map_nodup {A B} (f : A -> B) l : (forall x y, In x l -> In y l -> f x = f y -> x = y) -> NoDup l -> NoDup (map f l).
Proof.
  intros F H. induction H as [|x l N H IH]; cbn [map]; constructor.
  - intros I. apply in_map_iff in I as (y & E & Iy). apply F in E; [now subst|now right|now left].
  - apply IH. intros y z Hy Hz. apply F; now right.
Qed.

Section Cycle.
Variable N : nat.
Hypothesis HN : Z.of_nat N = 2 ^ 32.
Lemma orbit_perm s : word s -> Permutation (map (fun n => Z.to_nat (aft n s)) (seq 0 N)) (seq 0 N).
Proof.
  intros H. apply NoDup_Permutation_bis.
  - apply map_nodup; [|apply seq_NoDup]. intros i j Hi Hj E. apply in_seq in Hi, Hj.
    apply Z2Nat.inj in E; [|apply after_word; exact H|apply after_word; exact H]. apply C57_period in E; [|exact H]. rewrite !Z.mod_small in E by lia. lia.
  - rewrite map_length. reflexivity.
  - intros x Hx. apply in_map_iff in Hx as (n & <- & _). apply in_seq. pose proof (after_word n s H) as [H1 H2]. lia.
Qed.
Lemma result_digit n s : word s -> result rand n s = (aft (S n) s / 2 ^ 16) mod 2 ^ 15.
Proof.
  intros H. unfold result. replace (aft (S n) s) with (snd (rand (aft n s))).
  - unfold rand. cbn [fst snd]. change 0x7FFF with (Z.ones 15). rewrite Z.land_ones, Z.shiftr_div_pow2 by lia. reflexivity.
  - replace (S n) with (n + 1)%nat by lia. rewrite after_add. reflexivity.
Qed.
Lemma uniform s start v : word s -> 0 <= v <= 32767 -> count (fun i => result rand (start + i) s =? v) N = 2 ^ 17.
Proof.
  intros H Hv. set (t := aft (S start) s). assert (Ht : word t) by (apply after_word; exact H).
  set (q := fun y : nat => (Z.of_nat y / 2 ^ 16) mod 2 ^ 15 =? v).
  assert (E1 : count (fun i => result rand (start + i) s =? v) N = count (fun i => q (Z.to_nat (aft i t))) N).
  { apply count_ext. intros i _. rewrite result_digit by exact H. unfold q. rewrite Z2Nat.id by apply (after_word i t Ht). unfold t. rewrite <- after_add. reflexivity. }
  rewrite E1, count_filter, <- (filter_map (fun n => Z.to_nat (aft n t)) q), (perm_filter q _ _ (orbit_perm t Ht)), <- count_filter.
  set (A := Z.to_nat (2 ^ 16)). set (B := Z.to_nat (2 ^ 15)). assert (EA : Z.of_nat A = 2 ^ 16) by (unfold A; rewrite Z2Nat.id; lia). assert (EB : Z.of_nat B = 2 ^ 15) by (unfold B; rewrite Z2Nat.id; lia).
  clearbody A B. assert (EN : N = (2 * (B * A))%nat) by (apply Nat2Z.inj; rewrite !Nat2Z.inj_mul, EA, EB, HN; reflexivity).
  rewrite (count_ext _ (fun y => ((y / A) mod B =? Z.to_nat v)%nat)).
  - rewrite EN, count_digit by lia. rewrite EA. reflexivity.
  - intros y _. unfold q. rewrite <- EA, <- EB, <- Nat2Z.inj_div, <- Nat2Z.inj_mod.
    destruct (Nat.eqb_spec ((y / A) mod B) (Z.to_nat v)); [apply Z.eqb_eq|apply Z.eqb_neq]; lia.
Qed.
End Cycle.

(** Every state is reached from every seed, within 2^32 calls. *)
Theorem C57_every_state (seed y : Z) : 0 <= seed < 2 ^ 32 -> 0 <= y < 2 ^ 32 -> exists n, Z.of_nat n < 2 ^ 32 /\ after rand n seed = y.
Proof.
  intros H Hy. set (N := Z.to_nat (2 ^ 32)). assert (HN : Z.of_nat N = 2 ^ 32) by (unfold N; rewrite Z2Nat.id; lia). clearbody N.
  assert (I : In (Z.to_nat y) (map (fun n => Z.to_nat (aft n seed)) (seq 0 N))).
  { eapply Permutation_in; [apply Permutation_sym, (orbit_perm N HN seed H)|]. apply in_seq. lia. }
  apply in_map_iff in I as (n & E & Hn). apply in_seq in Hn. exists n. split; [lia|]. apply Z2Nat.inj in E; [exact E|apply after_word; exact H|lia].
Qed.

(** Among any 2^32 consecutive results, whatever the seed, each of 0 to 32767 occurs equally often. *)
Theorem C57_uniform (seed : Z) (start N : nat) (v : Z) : 0 <= seed < 2 ^ 32 -> Z.of_nat N = 2 ^ 32 -> 0 <= v <= 32767 ->
  count (fun i => result rand (start + i) seed =? v) N = 2 ^ 17.
Proof. intros H HN Hv. now apply uniform. Qed.

(** Whatever srand() is given, the generator is then in one of the states the theorems are about. *)
Theorem C57_any_seed (W s : Z) : W = 2 \/ W = 4 -> 0 <= srand W s < 2 ^ 32.
Proof.
  intros [-> | ->]; unfold srand, wrap; [pose proof (Z.mod_pos_bound s (2 ^ (8 * 2)) eq_refl)|pose proof (Z.mod_pos_bound s (2 ^ (8 * 4)) eq_refl)]; lia.
Qed.

(** srand() with the same argument restarts the same sequence; every argument is a valid seed; without a
    call of srand() the sequence is that of srand(1). *)
Example C57_seeds : 0 <= srand 4 12345 < 2 ^ 32 /\ 0 <= srand 2 65535 < 2 ^ 32 /\
  map (fun n => result rand n (srand 4 1)) [0; 1; 2; 3]%nat = [16838; 5758; 10113; 17515] /\ exists N, Z.of_nat N = 2 ^ 32.
Proof.
  split; [vm_compute; split; [discriminate|reflexivity]|]. split; [vm_compute; split; [discriminate|reflexivity]|].
  split; [vm_compute; reflexivity|]. exists (Z.to_nat (2 ^ 32)). apply Z2Nat.id. lia.
Qed.

Print Assumptions C57_range.
Print Assumptions C57_period.
Print Assumptions C57_every_state.
Print Assumptions C57_uniform.
Print Assumptions C57_any_seed.
