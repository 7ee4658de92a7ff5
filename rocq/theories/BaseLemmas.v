(** Lemmas about the vocabulary of Base.v. *)
From Verif Require Import Base.

Lemma obind_Some {A B} (o : option A) (f : A -> option B) b :
  obind o f = Some b <-> exists a, o = Some a /\ f a = Some b.
Proof.
  destruct o; simpl; split; intros H; eauto.
  - destruct H as (a' & E & F). injection E as ->. exact F.
  - discriminate.
  - destruct H as (a' & E & _). discriminate.
Qed.

Lemma wrap_range w z : 0 <= w -> 0 <= wrap w z < 2 ^ w.
Proof. intros. apply Z.mod_pos_bound. lia. Qed.

Lemma wrap_small w z : 0 <= z < 2 ^ w -> wrap w z = z.
Proof. intros. apply Z.mod_small. lia. Qed.

Lemma wrap_wrap w z : wrap w (wrap w z) = wrap w z.
Proof. unfold wrap. apply Zmod_mod. Qed.

Lemma wrap_add_l w a b : wrap w (wrap w a + b) = wrap w (a + b).
Proof. unfold wrap. apply Zplus_mod_idemp_l. Qed.
Lemma wrap_add_r w a b : wrap w (a + wrap w b) = wrap w (a + b).
Proof. unfold wrap. apply Zplus_mod_idemp_r. Qed.
Lemma wrap_sub_l w a b : wrap w (wrap w a - b) = wrap w (a - b).
Proof. unfold wrap. apply Zminus_mod_idemp_l. Qed.
Lemma wrap_sub_r w a b : wrap w (a - wrap w b) = wrap w (a - b).
Proof. unfold wrap. apply Zminus_mod_idemp_r. Qed.
Lemma wrap_mul_l w a b : wrap w (wrap w a * b) = wrap w (a * b).
Proof. unfold wrap. apply Zmult_mod_idemp_l. Qed.
Lemma wrap_mul_r w a b : wrap w (a * wrap w b) = wrap w (a * b).
Proof. unfold wrap. apply Zmult_mod_idemp_r. Qed.

Lemma pow2_split w : 0 < w -> 2 ^ w = 2 * 2 ^ (w - 1).
Proof.
  intros. replace w with (1 + (w - 1)) at 1 by lia.
  rewrite Z.pow_add_r by lia. reflexivity.
Qed.

Lemma swrap_range w z : 0 < w -> - 2 ^ (w - 1) <= swrap w z < 2 ^ (w - 1).
Proof.
  intros Hw. unfold swrap.
  pose proof (Z.mod_pos_bound z (2 ^ w) ltac:(lia)).
  pose proof (pow2_split w Hw).
  destruct (Z.ltb_spec (z mod 2 ^ w) (2 ^ (w - 1))); lia.
Qed.

Lemma swrap_small w z : 0 < w -> - 2 ^ (w - 1) <= z < 2 ^ (w - 1) -> swrap w z = z.
Proof.
  intros Hw Hz. unfold swrap. pose proof (pow2_split w Hw).
  destruct (Z_lt_ge_dec z 0).
  - assert (E : z mod 2 ^ w = z + 2 ^ w).
    { symmetry. apply Z.mod_unique with (q := -1); lia. }
    rewrite E. destruct (Z.ltb_spec (z + 2 ^ w) (2 ^ (w - 1))); lia.
  - rewrite Z.mod_small by lia. destruct (Z.ltb_spec z (2 ^ (w - 1))); lia.
Qed.

Lemma wrap_swrap w z : 0 < w -> wrap w (swrap w z) = wrap w z.
Proof.
  intros Hw. unfold swrap, wrap.
  destruct (Z.ltb_spec (z mod 2 ^ w) (2 ^ (w - 1))).
  - apply Zmod_mod.
  - replace (z mod 2 ^ w - 2 ^ w) with (z mod 2 ^ w + (-1) * 2 ^ w) by lia.
    rewrite Z_mod_plus_full. apply Zmod_mod.
Qed.

Lemma swrap_wrap w z : swrap w (wrap w z) = swrap w z.
Proof. unfold swrap, wrap. rewrite Zmod_mod. reflexivity. Qed.


(** Arrays *)
Lemma zlen_nonneg {A} (l : list A) : 0 <= zlen l.
Proof. unfold zlen. lia. Qed.
Lemma zlen_app {A} (l1 l2 : list A) : zlen (l1 ++ l2) = zlen l1 + zlen l2.
Proof. unfold zlen. rewrite app_length. lia. Qed.
Lemma zlen_cons {A} (x : A) l : zlen (x :: l) = 1 + zlen l.
Proof. unfold zlen. cbn [length]. lia. Qed.
Lemma zlen_nil {A} : zlen (@nil A) = 0.
Proof. reflexivity. Qed.

Lemma lset_length {A} (l : list A) n v : length (lset l n v) = length l.
Proof. revert n; induction l; destruct n; simpl; auto. Qed.

Lemma lset_nth_same {A} (l : list A) n v :
  (n < length l)%nat -> nth_error (lset l n v) n = Some v.
Proof. revert n; induction l; destruct n; simpl; intros; try lia; auto. apply IHl. lia. Qed.

Lemma lset_nth_other {A} (l : list A) n m v :
  n <> m -> nth_error (lset l n v) m = nth_error l m.
Proof. revert n m; induction l; destruct n, m; simpl; intros; auto; congruence. Qed.

Lemma lset_app {A} (l1 : list A) x l2 v :
  lset (l1 ++ x :: l2) (length l1) v = l1 ++ v :: l2.
Proof. induction l1; simpl; congruence. Qed.

Lemma zget_range {A} (l : list A) i : (exists v, zget l i = Some v) <-> 0 <= i < zlen l.
Proof.
  unfold zget, zlen. destruct (Z.ltb_spec i 0).
  - split; [intros [v E]; discriminate | lia].
  - split.
    + intros [v E]. assert (nth_error l (Z.to_nat i) <> None) by congruence.
      apply nth_error_Some in H0. lia.
    + intros. destruct (nth_error l (Z.to_nat i)) eqn:E; eauto.
      apply nth_error_None in E. lia.
Qed.

Lemma zget_Some_range {A} (l : list A) i v : zget l i = Some v -> 0 <= i < zlen l.
Proof. intros. apply zget_range. eauto. Qed.

Lemma zget_None {A} (l : list A) i : zget l i = None <-> i < 0 \/ zlen l <= i.
Proof.
  unfold zget, zlen. destruct (Z.ltb_spec i 0).
  - split; auto.
  - rewrite nth_error_None. lia.
Qed.

Lemma zset_range {A} (l : list A) i v : (exists l', zset l i v = Some l') <-> 0 <= i < zlen l.
Proof.
  unfold zset. destruct (Z.ltb_spec i 0), (Z.leb_spec (zlen l) i); simpl; split;
    intros H'; try lia; eauto; destruct H'; discriminate.
Qed.

Lemma zset_Some {A} (l : list A) i v :
  0 <= i < zlen l -> zset l i v = Some (lset l (Z.to_nat i) v).
Proof.
  intros. unfold zset. destruct (Z.ltb_spec i 0), (Z.leb_spec (zlen l) i); simpl; auto; lia.
Qed.

Lemma zset_inv {A} (l : list A) i v l' :
  zset l i v = Some l' -> 0 <= i < zlen l /\ l' = lset l (Z.to_nat i) v.
Proof.
  unfold zset. destruct (Z.ltb_spec i 0), (Z.leb_spec (zlen l) i); simpl; try discriminate.
  intros E. injection E as <-. split; auto. 
Qed.

Lemma zset_len {A} (l : list A) i v l' : zset l i v = Some l' -> zlen l' = zlen l.
Proof. intros H. apply zset_inv in H as [_ ->]. unfold zlen. now rewrite lset_length. Qed.

Lemma zset_get {A} (l : list A) i v l' j :
  zset l i v = Some l' -> zget l' j = if i =? j then Some v else zget l j.
Proof.
  intros H. apply zset_inv in H as [R ->]. unfold zget, zlen in *.
  destruct (Z.eqb_spec i j).
  - subst j. destruct (Z.ltb_spec i 0); [lia|]. apply lset_nth_same. lia.
  - destruct (Z.ltb_spec j 0); auto. apply lset_nth_other. lia.
Qed.

Lemma zget_ext {A} (l1 l2 : list A) : (forall i, zget l1 i = zget l2 i) -> l1 = l2.
Proof.
  intros H. assert (H' : forall n, nth_error l1 n = nth_error l2 n).
  { intros n. specialize (H (Z.of_nat n)). unfold zget in H.
    destruct (Z.ltb_spec (Z.of_nat n) 0); [lia|]. now rewrite Nat2Z.id in H. }
  clear H. revert l2 H'. induction l1; destruct l2; intros; auto.
  - specialize (H' 0%nat); discriminate.
  - specialize (H' 0%nat); discriminate.
  - f_equal. + specialize (H' 0%nat). simpl in H'. congruence.
    + apply IHl1. intros n. apply (H' (S n)).
Qed.

Lemma zget_app_l {A} (l1 l2 : list A) i : i < zlen l1 -> zget (l1 ++ l2) i = zget l1 i.
Proof.
  unfold zget, zlen. intros. destruct (Z.ltb_spec i 0); auto.
  apply nth_error_app1. lia.
Qed.
Lemma zget_app_r {A} (l1 l2 : list A) i :
  zlen l1 <= i -> zget (l1 ++ l2) i = zget l2 (i - zlen l1).
Proof.
  unfold zget, zlen. intros. destruct (Z.ltb_spec i 0); [lia|].
  destruct (Z.ltb_spec (i - Z.of_nat (length l1)) 0); [lia|].
  rewrite nth_error_app2 by lia. f_equal. lia.
Qed.
Lemma zget_cons_0 {A} (x : A) l : zget (x :: l) 0 = Some x.
Proof. reflexivity. Qed.
Lemma zget_cons_S {A} (x : A) l i : 0 < i -> zget (x :: l) i = zget l (i - 1).
Proof.
  intros. exact (zget_app_r [x] l i ltac:(unfold zlen; simpl; lia)).
Qed.
Lemma zget_nil {A} i : zget (@nil A) i = None.
Proof. apply zget_None. unfold zlen; cbn [length]. lia. Qed.

(** [injection] without the unwanted reductions. *)
Lemma some_inj {A} (a b : A) : Some a = Some b -> a = b.
Proof. congruence. Qed.
Lemma pair_inj {A B} (a c : A) (b d : B) : (a, b) = (c, d) -> a = c /\ b = d.
Proof. intros H. inversion H. auto. Qed.

(** Simplify lengths.  ([rewrite zlen_nil] may match the numeral 0, which is convertible.) *)
Ltac zl0 := repeat match goal with
  | |- context [@zlen ?A (@nil ?A)] => change (@zlen A (@nil A)) with 0
  | H : context [@zlen ?A (@nil ?A)] |- _ => change (@zlen A (@nil A)) with 0 in H
  end.
Ltac zl := repeat (progress (rewrite ?zlen_app, ?zlen_cons in *)); zl0.

(** Congruence through [Some] and pairs only. *)
Ltac feq := repeat match goal with
  | |- Some _ = Some _ => f_equal
  | |- (_, _) = (_, _) => f_equal
  end.

Lemma u32_range z : 0 <= u32 z < 2 ^ 32.
Proof. apply wrap_range. lia. Qed.
Lemma u32_small z : 0 <= z < 2 ^ 32 -> u32 z = z.
Proof. apply wrap_small. Qed.
