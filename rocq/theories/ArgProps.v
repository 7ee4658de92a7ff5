(** C59: the command line is split into arguments as it should be, also in place. *)
From Verif Require Import Base BaseLemmas ArgSpec ArgModel.
Ltac Zify.zify_post_hook ::= idtac.

Definition len (s : list Z) : Z := Z.of_nat (length s).
Lemma len_cons c s : len (c :: s) = 1 + len s. Proof. unfold len. cbn [length]. lia. Qed.
Lemma len_app a b : len (a ++ b) = len a + len b. Proof. unfold len. rewrite app_length. lia. Qed.
Lemma len_nil : len [] = 0. Proof. reflexivity. Qed.
Lemma len_pos s : 0 <= len s. Proof. unfold len. lia. Qed.
Lemma len_sl n : len (slashes n) = Z.of_nat n. Proof. unfold len, slashes. now rewrite repeat_length. Qed.
Ltac ln := repeat progress (rewrite ?len_app, ?len_cons, ?len_sl, ?len_nil in *).

Lemma str_ext m m' : forall v a, (forall x, a <= x <= a + len v -> m' x = m x) -> str m a v -> str m' a v.
Proof.
  induction v as [|c v IH]; intros a H; cbn [str]; [rewrite H; [auto|ln; lia]|].
  intros (A & B & C). rewrite H by (ln; pose proof (len_pos v); lia). split; [exact A|]. split; [exact B|]. apply IH; [|exact C]. intros x Hx. apply H. ln. lia.
Qed.
Lemma str_app m : forall p a v, (forall j, 0 <= j < len p -> m (a + j) = nth (Z.to_nat j) p 0 /\ m (a + j) <> 0) -> str m (a + len p) v -> str m a (p ++ v).
Proof.
  induction p as [|c p IH]; intros a v H ST; cbn [app str]; [rewrite len_nil, Z.add_0_r in ST; exact ST|].
  pose proof (len_pos p). destruct (H 0 ltac:(ln; lia)) as [H1 H2]. rewrite Z.add_0_r in H1, H2. cbn [Z.to_nat nth] in H1. split; [exact H1|]. split; [congruence|].
  apply IH; [|ln; replace (a + 1 + len p) with (a + (1 + len p)) by lia; exact ST].
  intros j Hj. destruct (H (j + 1) ltac:(ln; lia)) as [H3 H4]. replace (a + 1 + j) with (a + (j + 1)) by lia. split; [|exact H4].
  rewrite H3. replace (Z.to_nat (j + 1)) with (S (Z.to_nat j)) by lia. reflexivity.
Qed.
Lemma str_drop m : forall p a v, str m a (p ++ v) -> str m (a + len p) v /\ forall j, 0 <= j < len p -> m (a + j) = nth (Z.to_nat j) p 0 /\ m (a + j) <> 0.
Proof.
  induction p as [|c p IH]; intros a v ST; cbn [app str] in ST; [rewrite len_nil, Z.add_0_r; split; [exact ST|intros j Hj; ln; lia]|].
  destruct ST as (A & B & C). apply IH in C as [C1 C2]. ln. split; [replace (a + (1 + len p)) with (a + 1 + len p) by lia; exact C1|].
  intros j Hj. destruct (Z.eq_dec j 0) as [-> | N]; [rewrite Z.add_0_r, A; split; [reflexivity|exact B]|].
  destruct (C2 (j - 1) ltac:(lia)) as [C3 C4]. replace (a + 1 + (j - 1)) with (a + j) in C3, C4 by lia. split; [|exact C4]. rewrite C3.
  replace (Z.to_nat j) with (S (Z.to_nat (j - 1))) by lia. reflexivity.
Qed.
Lemma nth_sl n j : (j < n)%nat -> nth j (slashes n) 0 = 92.
Proof. intros H. apply nth_repeat_lt || (unfold slashes; revert j H; induction n as [|n IH]; intros j H; [lia|]; destruct j; [reflexivity|cbn [repeat nth]; apply IH; lia]). Qed.

Definition next (s : ast) : option ast :=
  let c := a_mem s (a_in s) in
  if c =? 0 then None else Some (step c (mka (a_in s + 1) (a_out s) (a_st s) (a_sl s) (a_argv s) (a_mem s))).
Inductive reach : ast -> ast -> Prop :=
| reach_refl X : reach X X
| reach_step X Y Z0 : next X = Some Y -> reach Y Z0 -> reach X Z0.
Lemma reach_trans X Y Z0 : reach X Y -> reach Y Z0 -> reach X Z0.
Proof. induction 1; intros; [assumption|]. eapply reach_step; eauto. Qed.
Lemma reach1 i o st sl av m : m i <> 0 -> reach (mka i o st sl av m) (step (m i) (mka (i + 1) o st sl av m)).
Proof. intros H. eapply reach_step; [|apply reach_refl]. unfold next. cbn [a_mem a_in a_out a_st a_sl a_argv]. apply Z.eqb_neq in H. rewrite H. reflexivity. Qed.
Lemma reach_loop X Y : reach X Y -> a_mem Y (a_in Y) = 0 -> exists n, forall f, (n <= f)%nat -> loop f X = Some Y.
Proof.
  induction 1 as [X|X Y Z0 H R IH]; intros E.
  - exists 1%nat. intros f Hf. destruct f as [|f]; [lia|]. cbn [loop]. rewrite E. reflexivity.
  - destruct (IH E) as (n & Hn). exists (S n). intros f Hf. destruct f as [|f]; [lia|]. cbn [loop]. unfold next in H. cbv zeta in H |- *. destruct (a_mem X (a_in X) =? 0); [discriminate|].
    match goal with |- loop f ?A = _ => assert (EA : A = Y) by congruence; rewrite EA end. apply Hn. lia.
Qed.

Definition inq (q : bool) : mode := if q then QUOT else PLAIN.
(** A run of backslashes is counted. *)
Lemma reach_sl q o av m : forall n i sl t, str m i (slashes n ++ t) -> reach (mka i o (inq q) sl av m) (mka (i + Z.of_nat n) o (inq q) (sl + Z.of_nat n) av m).
Proof.
  induction n as [|n IH]; intros i sl t ST; [rewrite !Z.add_0_r; apply reach_refl|]. cbn [slashes repeat app str] in ST. destruct ST as (A & B & C).
  eapply reach_trans; [apply reach1; rewrite A; discriminate|]. rewrite A. replace (step 92 (mka (i + 1) o (inq q) sl av m)) with (mka (i + 1) o (inq q) (sl + 1) av m) by (destruct q; reflexivity).
  replace (i + Z.of_nat (S n)) with (i + 1 + Z.of_nat n) by lia. replace (sl + Z.of_nat (S n)) with (sl + 1 + Z.of_nat n) by lia. exact (IH (i + 1) (sl + 1) t C).
Qed.

Definition outside (m m' : Z -> Z) (a b : Z) : Prop := forall x, x < a \/ b <= x -> m' x = m x.
(** Where the argument ends. *)
Definition ends (i o : Z) (av : list Z) (m : Z -> Z) (e : Z) (v r : list Z) (Y : ast) : Prop :=
  a_argv Y = av /\
  ((a_st Y = WHITE /\ a_sl Y = 0 /\ str (a_mem Y) (a_in Y) r /\ a_in Y + len r = e /\ str (a_mem Y) o v /\ a_out Y = o + len v + 1 /\
    len v + 1 <= a_in Y - i /\ outside m (a_mem Y) o (a_out Y))
   \/ (a_st Y <> WHITE /\ r = [] /\ a_in Y = e /\ a_mem Y e = 0 /\ len v <= e - i /\ str (finish Y) o v /\ outside m (finish Y) o (o + len v + 1))).

(** Characters [p] were written, then the rest of the argument follows. *)
Lemma ends_pre p i o av m m1 e v r i1 Y : ends i1 (o + len p) av m1 e v r Y -> outside m m1 o (o + len p) ->
  (forall j, 0 <= j < len p -> m1 (o + j) = nth (Z.to_nat j) p 0 /\ m1 (o + j) <> 0) -> len p <= i1 - i -> ends i o av m e (p ++ v) r Y.
Proof.
  intros [A E] O P L. split; [exact A|]. pose proof (len_pos p). pose proof (len_pos v).
  assert (OUT : forall M b, outside m1 M (o + len p) b -> o + len p <= b -> outside m M o b).
  { intros M b H1 H2 x Hx. rewrite H1 by lia. apply O. lia. }
  assert (STR : forall M b, outside m1 M (o + len p) b -> str M (o + len p) v -> str M o (p ++ v)).
  { intros M b H1 H2. apply str_app; [|exact H2]. intros j Hj. rewrite H1 by lia. now apply P. }
  destruct E as [(E1 & E2 & E3 & E4 & E5 & E6 & E7 & E8)|(E1 & E2 & E3 & E4 & E5 & E6 & E7)].
  - left. repeat (split; [assumption|]). split; [eapply STR; eassumption|]. split; [ln; lia|]. split; [ln; lia|]. apply OUT; [exact E8|lia].
  - right. repeat (split; [assumption|]). split; [ln; lia|]. split; [eapply STR; eassumption|]. replace (o + len (p ++ v) + 1) with (o + len p + len v + 1) by (ln; lia).
    apply OUT; [exact E7|lia].
Qed.
Lemma fill_out m o n x : x < o \/ o + n <= x -> fill m o n x = m x.
Proof. intros H. unfold fill. replace ((o <=? x) && (x <? o + n)) with false by lia. reflexivity. Qed.
Lemma fill_in m o n x : o <= x < o + n -> fill m o n x = 92.
Proof. intros H. unfold fill. replace ((o <=? x) && (x <? o + n)) with true by lia. reflexivity. Qed.
Lemma wr_out m a c x : x <> a -> wr m a c x = m x.
Proof. intros H. unfold wr. apply Z.eqb_neq in H. now rewrite H. Qed.
Lemma wr_in m a c : wr m a c a = c. Proof. unfold wr. now rewrite Z.eqb_refl. Qed.
(** [n] backslashes and [c] are written. *)
Lemma pre_char m o n c : c <> 0 ->
  outside m (wr (fill m o (Z.of_nat n)) (o + Z.of_nat n) c) o (o + len (slashes n ++ [c])) /\
  forall j, 0 <= j < len (slashes n ++ [c]) -> wr (fill m o (Z.of_nat n)) (o + Z.of_nat n) c (o + j) = nth (Z.to_nat j) (slashes n ++ [c]) 0 /\ wr (fill m o (Z.of_nat n)) (o + Z.of_nat n) c (o + j) <> 0.
Proof.
  intros C. ln. change (len []) with 0. split.
  - intros x Hx. rewrite wr_out by lia. apply fill_out. lia.
  - intros j Hj. destruct (Z.eq_dec j (Z.of_nat n)) as [-> | N].
    + rewrite wr_in, Nat2Z.id. rewrite app_nth2 by (unfold slashes; rewrite repeat_length; lia). unfold slashes. rewrite repeat_length, Nat.sub_diag. split; [reflexivity|exact C].
    + rewrite wr_out by lia. rewrite fill_in by lia. rewrite app_nth1 by (unfold slashes; rewrite repeat_length; lia). rewrite nth_sl by lia. split; [reflexivity|discriminate].
Qed.
Lemma pre_sl m o n : outside m (fill m o (Z.of_nat n)) o (o + len (slashes n)) /\
  forall j, 0 <= j < len (slashes n) -> fill m o (Z.of_nat n) (o + j) = nth (Z.to_nat j) (slashes n) 0 /\ fill m o (Z.of_nat n) (o + j) <> 0.
Proof.
  ln. split.
  - intros x Hx. apply fill_out. lia.
  - intros j Hj. rewrite fill_in by lia. rewrite nth_sl by lia. split; [reflexivity|discriminate].
Qed.

Lemma body_run q s v r : body q s v r -> forall m i o av e, str m i s -> i + len s = e -> o <= i \/ e < o ->
  exists Y, reach (mka i o (inq q) 0 av m) Y /\ ends i o av m e v r Y.
Proof.
  induction 1 as [q|c r B|q c s v r C1 C2 C3 B IH|q n s v r N H1 H2 B IH|q n s v r B IH|n s v r B IH|n s v r H1 B IH|n s v r B IH]; intros m i o av e ST E D.
  - (* end of the line *)
    eexists. split; [apply reach_refl|]. split; [reflexivity|]. right. ln. cbn [a_st a_in a_mem]. rewrite Z.add_0_r in E. subst e. cbn [str] in ST.
    assert (F : finish (mka i o (inq q) 0 av m) = wr (fill m o 0) (o + 0) 0) by (destruct q; reflexivity). rewrite F, Z.add_0_r.
    split; [destruct q; discriminate|]. split; [reflexivity|]. split; [reflexivity|]. split; [exact ST|]. split; [lia|]. split; [cbn [str]; apply wr_in|].
    intros x Hx. rewrite wr_out by lia. apply fill_out. lia.
  - (* a blank *)
    cbn [str] in ST. destruct ST as (S1 & S2 & S3). ln. pose proof (len_pos r).
    exists (mka (i + 1) (o + 1) WHITE 0 av (wr m o 0)). split.
    + eapply reach_trans; [apply reach1; rewrite S1; exact S2|]. rewrite S1. destruct B as [-> | ->]; apply reach_refl.
    + split; [reflexivity|]. left. cbn [a_st a_sl a_mem a_in a_out]. split; [reflexivity|]. split; [reflexivity|].
      split; [apply str_ext with m; [|exact S3]; intros x Hx; apply wr_out; lia|]. split; [lia|]. split; [cbn [str]; apply wr_in|]. change (len []) with 0.
      split; [lia|]. split; [lia|]. intros x Hx. apply wr_out. lia.
  - (* a character *)
    cbn [str] in ST. destruct ST as (S1 & S2 & S3). ln. pose proof (len_pos s).
    destruct (IH (wr m o c) (i + 1) (o + 1) av e) as (Y & R & EN); [apply str_ext with m; [|exact S3]; intros x Hx; apply wr_out; lia|lia|lia|].
    exists Y. split.
    + eapply reach_trans; [apply reach1; rewrite S1; exact S2|]. rewrite S1.
      replace (step c (mka (i + 1) o (inq q) 0 av m)) with (mka (i + 1) (o + 1) (inq q) 0 av (wr m o c)); [exact R|].
      unfold step. apply Z.eqb_neq in C1, C2. destruct q; cbn [inq]; rewrite C1, C2; change (negb (0 =? 0)) with false; cbv iota; [reflexivity|].
      specialize (C3 eq_refl). unfold blank in C3. replace ((c =? 32) || (c =? 9)) with false by lia. reflexivity.
    + change (c :: v) with ([c] ++ v). eapply ends_pre with (p := [c]) (m1 := wr m o c) (i1 := i + 1); [exact EN| | |change (len [c]) with 1; lia]; change (len [c]) with 1.
      * intros x Hx. apply wr_out. lia.
      * intros j Hj. replace j with 0 by lia. rewrite Z.add_0_r, wr_in. split; [reflexivity|exact S2].
  - (* backslashes only *)
    destruct (str_drop m (slashes n) i s ST) as [S3 _]. rewrite len_sl in S3. pose proof (len_pos s).
    assert (RS : reach (mka i o (inq q) 0 av m) (mka (i + Z.of_nat n) o (inq q) (Z.of_nat n) av m)) by exact (reach_sl q o av m n i 0 s ST). ln.
    destruct s as [|c s].
    + (* ... at the end of the line *)
      inversion B; subst; [|exfalso..]. { eexists. split; [exact RS|]. split; [reflexivity|]. right. cbn [a_st a_in a_mem]. cbn [str] in S3. change (len []) with 0 in *. rewrite app_nil_r.
      assert (F : finish (mka (i + Z.of_nat n) o (inq q) (Z.of_nat n) av m) = wr (fill m o (Z.of_nat n)) (o + Z.of_nat n) 0) by (destruct q; reflexivity). rewrite F, Z.add_0_r. ln.
      split; [destruct q; discriminate|]. split; [reflexivity|]. split; [reflexivity|]. split; [exact S3|]. split; [lia|]. split.
      - rewrite <- (app_nil_r (slashes n)). apply str_app; [|cbn [str]; rewrite len_sl; apply wr_in]. rewrite len_sl. intros j Hj. rewrite wr_out by lia. rewrite fill_in by lia. rewrite nth_sl by lia. split; [reflexivity|discriminate].
      - intros x Hx. rewrite wr_out by lia. apply fill_out. lia. }
      all: try (match goal with H : slashes _ ++ _ = [] |- _ => apply app_eq_nil in H; destruct H; try discriminate end).
      all: try (match goal with H : slashes ?k = [] |- _ => destruct k; [lia|discriminate] end).
    + (* ... before another character *)
      pose proof S3 as S4. cbn [str] in S4. destruct S4 as (A & A2 & A3). cbn [hd] in H1, H2. ln. pose proof (len_pos s).
      destruct (IH (fill m o (Z.of_nat n)) (i + Z.of_nat n) (o + Z.of_nat n) av e) as (Y & R & EN);
        [apply str_ext with m; [|exact S3]; intros x Hx; ln; apply fill_out; lia|ln; lia|lia|].
      exists Y. split.
      * eapply reach_trans; [exact RS|]. eapply reach_trans; [apply reach1; rewrite A; exact A2|]. rewrite A.
        replace (step c (mka (i + Z.of_nat n + 1) o (inq q) (Z.of_nat n) av m)) with (mka (i + Z.of_nat n) (o + Z.of_nat n) (inq q) 0 av (fill m o (Z.of_nat n))); [exact R|].
        unfold step. apply Z.eqb_neq in H1, H2. rewrite H1, H2. replace (Z.of_nat n =? 0) with false by lia. replace (i + Z.of_nat n + 1 - 1) with (i + Z.of_nat n) by lia.
        destruct q; reflexivity.
      * destruct (pre_sl m o n) as [P1 P2]. eapply ends_pre with (p := slashes n) (m1 := fill m o (Z.of_nat n)) (i1 := i + Z.of_nat n); rewrite ?len_sl in *; [exact EN|exact P1|exact P2|lia].
  - (* an escaped quote *)
    destruct (str_drop m (slashes (2 * n + 1)) i (34 :: s) ST) as [S3 _]. rewrite len_sl in S3. pose proof (len_pos s).
    pose proof (reach_sl q o av m (2 * n + 1) i 0 (34 :: s) ST) as RS. cbn [str] in S3. destruct S3 as (A & A2 & A3). ln.
    set (m1 := wr (fill m o (Z.of_nat n)) (o + Z.of_nat n) 34).
    destruct (IH m1 (i + Z.of_nat (2 * n + 1) + 1) (o + Z.of_nat n + 1) av e) as (Y & R & EN);
      [apply str_ext with m; [|exact A3]; intros x Hx; unfold m1; rewrite wr_out by lia; apply fill_out; lia|lia|lia|].
    exists Y. split.
    + eapply reach_trans; [exact RS|]. eapply reach_trans; [apply reach1; rewrite A; exact A2|]. rewrite A.
      replace (step 34 (mka (i + Z.of_nat (2 * n + 1) + 1) o (inq q) (0 + Z.of_nat (2 * n + 1)) av m)) with (mka (i + Z.of_nat (2 * n + 1) + 1) (o + Z.of_nat n + 1) (inq q) 0 av m1); [exact R|].
      unfold step. replace (0 + Z.of_nat (2 * n + 1)) with (1 + Z.of_nat n * 2) by lia. rewrite Z.div_add, Z.mod_add by lia. change (1 / 2) with 0. change (1 mod 2) with 1. rewrite Z.add_0_l.
      destruct q; reflexivity.
    + destruct (pre_char m o n 34 ltac:(discriminate)) as [P1 P2]. replace (slashes n ++ 34 :: v) with ((slashes n ++ [34]) ++ v) by (rewrite <- app_assoc; reflexivity).
      eapply ends_pre with (m1 := m1) (i1 := i + Z.of_nat (2 * n + 1) + 1); [|exact P1|exact P2|ln; change (len []) with 0; lia].
      ln. change (len []) with 0. replace (o + (Z.of_nat n + (1 + 0))) with (o + Z.of_nat n + 1) by lia. exact EN.
  - (* a quoted part begins *)
    destruct (str_drop m (slashes (2 * n)) i (34 :: s) ST) as [S3 _]. rewrite len_sl in S3. pose proof (len_pos s).
    pose proof (reach_sl false o av m (2 * n) i 0 (34 :: s) ST) as RS. cbn [str] in S3. destruct S3 as (A & A2 & A3). ln.
    destruct (IH (fill m o (Z.of_nat n)) (i + Z.of_nat (2 * n) + 1) (o + Z.of_nat n) av e) as (Y & R & EN);
      [apply str_ext with m; [|exact A3]; intros x Hx; apply fill_out; lia|lia|lia|].
    exists Y. split.
    + eapply reach_trans; [exact RS|]. eapply reach_trans; [apply reach1; rewrite A; exact A2|]. rewrite A.
      replace (step 34 (mka (i + Z.of_nat (2 * n) + 1) o (inq false) (0 + Z.of_nat (2 * n)) av m)) with (mka (i + Z.of_nat (2 * n) + 1) (o + Z.of_nat n) QUOT 0 av (fill m o (Z.of_nat n))); [exact R|].
      unfold step. replace (0 + Z.of_nat (2 * n)) with (Z.of_nat n * 2) by lia. rewrite Z.div_mul, Z.mod_mul by lia. reflexivity.
    + destruct (pre_sl m o n) as [P1 P2]. eapply ends_pre with (p := slashes n) (m1 := fill m o (Z.of_nat n)) (i1 := i + Z.of_nat (2 * n) + 1); rewrite ?len_sl in *; [exact EN|exact P1|exact P2|lia].
  - (* a quoted part ends *)
    destruct (str_drop m (slashes (2 * n)) i (34 :: s) ST) as [S3 _]. rewrite len_sl in S3. pose proof (len_pos s).
    pose proof (reach_sl true o av m (2 * n) i 0 (34 :: s) ST) as RS. cbn [str] in S3. destruct S3 as (A & A2 & A3). ln.
    assert (S5 : str (fill m o (Z.of_nat n)) (i + Z.of_nat (2 * n) + 1) s) by (apply str_ext with m; [|exact A3]; intros x Hx; apply fill_out; lia).
    destruct (IH (fill m o (Z.of_nat n)) (i + Z.of_nat (2 * n) + 1) (o + Z.of_nat n) av e) as (Y & R & EN); [exact S5|lia|lia|].
    exists Y. split.
    + eapply reach_trans; [exact RS|]. eapply reach_trans; [apply reach1; rewrite A; exact A2|]. rewrite A.
      replace (step 34 (mka (i + Z.of_nat (2 * n) + 1) o (inq true) (0 + Z.of_nat (2 * n)) av m)) with (mka (i + Z.of_nat (2 * n) + 1) (o + Z.of_nat n) PLAIN 0 av (fill m o (Z.of_nat n))); [exact R|].
      assert (HN : fill m o (Z.of_nat n) (i + Z.of_nat (2 * n) + 1) =? 34 = false).
      { apply Z.eqb_neq. destruct s as [|c s]; cbn [str hd] in S5, H1; [rewrite S5; discriminate|]. destruct S5 as (S5 & _). congruence. }
      unfold step. cbn [inq]. replace (0 + Z.of_nat (2 * n)) with (Z.of_nat n * 2) by lia. rewrite Z.div_mul, Z.mod_mul by lia. change (34 =? 92) with false. change (34 =? 34) with true. change (0 =? 1) with false. cbv iota zeta.
      rewrite HN. reflexivity.
    + destruct (pre_sl m o n) as [P1 P2]. eapply ends_pre with (p := slashes n) (m1 := fill m o (Z.of_nat n)) (i1 := i + Z.of_nat (2 * n) + 1); rewrite ?len_sl in *; [exact EN|exact P1|exact P2|lia].
  - (* two quotes *)
    destruct (str_drop m (slashes (2 * n)) i (34 :: 34 :: s) ST) as [S3 _]. rewrite len_sl in S3. pose proof (len_pos s).
    pose proof (reach_sl true o av m (2 * n) i 0 (34 :: 34 :: s) ST) as RS. cbn [str] in S3. destruct S3 as (A & A2 & A3 & A4 & A5). ln.
    set (m1 := wr (fill m o (Z.of_nat n)) (o + Z.of_nat n) 34).
    destruct (IH m1 (i + Z.of_nat (2 * n) + 1 + 1) (o + Z.of_nat n + 1) av e) as (Y & R & EN);
      [apply str_ext with m; [|exact A5]; intros x Hx; unfold m1; rewrite wr_out by lia; apply fill_out; lia|lia|lia|].
    exists Y. split.
    + eapply reach_trans; [exact RS|]. eapply reach_trans; [apply reach1; rewrite A; exact A2|]. rewrite A.
      replace (step 34 (mka (i + Z.of_nat (2 * n) + 1) o (inq true) (0 + Z.of_nat (2 * n)) av m)) with (mka (i + Z.of_nat (2 * n) + 1 + 1) (o + Z.of_nat n + 1) QUOT 0 av m1); [exact R|].
      unfold step. cbn [inq]. replace (0 + Z.of_nat (2 * n)) with (Z.of_nat n * 2) by lia. rewrite Z.div_mul, Z.mod_mul by lia. change (34 =? 92) with false. change (34 =? 34) with true. change (0 =? 1) with false. cbv iota zeta.
      rewrite fill_out by lia. rewrite A3. reflexivity.
    + destruct (pre_char m o n 34 ltac:(discriminate)) as [P1 P2]. replace (slashes n ++ 34 :: v) with ((slashes n ++ [34]) ++ v) by (rewrite <- app_assoc; reflexivity).
      eapply ends_pre with (m1 := m1) (i1 := i + Z.of_nat (2 * n) + 1 + 1); [|exact P1|exact P2|ln; change (len []) with 0; lia].
      ln. change (len []) with 0. replace (o + (Z.of_nat n + (1 + 0))) with (o + Z.of_nat n + 1) by lia. exact EN.
Qed.

Lemma body_open_quote s v r : body false (34 :: s) v r -> body true s v r.
Proof.
  intros H. inversion H; subst; try contradiction.
  - match goal with B : blank 34 |- _ => destruct B; discriminate end.
  - match goal with E : slashes ?n ++ _ = _ |- _ => destruct n; [lia|discriminate] end.
  - match goal with E : slashes _ ++ _ = _ |- _ => rewrite Nat.add_1_r in E; discriminate end.
  - match goal with E : slashes _ ++ _ = _ |- _ => destruct n as [|n]; [injection E as ->; assumption|discriminate E] end.
Qed.
Lemma body_nonempty c s v r : c <> 34 -> ~ blank c -> body false (c :: s) v r -> v <> [].
Proof.
  intros N NB H. inversion H; subst; try contradiction; try discriminate.
  - match goal with E : slashes ?n ++ _ = _ |- _ => destruct n; [lia|discriminate] end.
  - intros E2. apply app_eq_nil in E2 as [_ E2]. discriminate.
  - match goal with E : slashes _ ++ _ = _ |- _ => destruct n as [|n]; [injection E as E3 E4; congruence|discriminate] end.
Qed.
Lemma ends_mono i i1 o av m e v r Y : ends i1 o av m e v r Y -> i <= i1 -> ends i o av m e v r Y.
Proof.
  intros [A E] L. split; [exact A|]. destruct E as [(E1 & E2 & E3 & E4 & E5 & E6 & E7 & E8)|(E1 & E2 & E3 & E4 & E5 & E6 & E7)]; [left|right]; repeat (split; [first [assumption|lia]|]); assumption.
Qed.
Lemma args_run s l : args s l -> forall m i o av, str m i s -> o <= i \/ i + len s < o ->
  exists Y as_, reach (mka i o WHITE 0 av m) Y /\ a_mem Y (a_in Y) = 0 /\ a_argv Y = rev as_ ++ av /\
    Forall2 (str (finish Y)) as_ l /\ outside m (finish Y) o (o + len s + 1) /\ 2 * zlen l <= len s + 1.
Proof.
  induction 1 as [|c s l B A IH|c s v r l NB B A IH]; intros m i o av ST D.
  - exists (mka i o WHITE 0 av m), []. split; [apply reach_refl|]. split; [exact ST|]. split; [reflexivity|]. split; [constructor|]. split; [intros x _; reflexivity|]. cbn; lia.
  - cbn [str] in ST. destruct ST as (S1 & S2 & S3). ln. pose proof (len_pos s).
    destruct (IH m (i + 1) o av S3 ltac:(lia)) as (Y & as_ & R & E1 & E2 & E3 & E4 & E5). exists Y, as_. split; [|split; [exact E1|split; [exact E2|split; [exact E3|split; [|lia]]]]].
    + eapply reach_trans; [apply reach1; rewrite S1; exact S2|]. rewrite S1. destruct B as [-> | ->]; exact R.
    + intros x Hx. apply E4. lia.
  - (* an argument *)
    pose proof ST as S0. cbn [str] in S0. destruct S0 as (S1 & S2 & S3). pose proof (len_pos s).
    assert (G : exists Y, reach (mka i o WHITE 0 av m) Y /\ (a_st Y = WHITE -> 2 <= a_in Y - i) /\ ends i o (o :: av) m (i + len (c :: s)) v r Y).
    { destruct (Z.eq_dec c 34) as [-> | N].
      - destruct (body_run true _ _ _ (body_open_quote _ _ _ B) m (i + 1) o (o :: av) (i + len (34 :: s)) S3 ltac:(ln; lia) ltac:(ln; lia)) as (Y & R & EN).
        exists Y. split; [|split; [|apply ends_mono with (i + 1); [exact EN|lia]]].
        2: { intros W. destruct EN as [_ [(_ & _ & _ & _ & _ & _ & E7 & _)|(E1 & _)]]; [pose proof (len_pos v); lia|contradiction]. }
        eapply reach_trans; [apply reach1; rewrite S1; exact S2|]. rewrite S1. exact R.
      - destruct (body_run false _ _ _ B m i o (o :: av) (i + len (c :: s)) ST eq_refl D) as (Y & R & EN). exists Y. split; [|split; [|exact EN]].
        2: { intros W. destruct EN as [_ [(_ & _ & _ & _ & _ & _ & E7 & _)|(E1 & _)]]; [|contradiction]. pose proof (body_nonempty c s v r N NB B) as NV. destruct v as [|c0 v]; [contradiction|]. rewrite len_cons in E7. pose proof (len_pos v). lia. }
        eapply reach_trans; [apply reach1; rewrite S1; exact S2|]. rewrite S1. unfold step. apply Z.eqb_neq in N. rewrite N. unfold blank in NB.
        replace (negb (c =? 32) && negb (c =? 9)) with true by lia. replace (i + 1 - 1) with i by lia. exact R. }
    destruct G as (Y & R & G2 & A1 & [(E1 & E2 & E3 & E4 & E5 & E6 & E7 & E8)|(E1 & E2 & E3 & E4 & E5 & E6 & E7)]).
    + destruct Y as [yi yo yst ysl yav ym]. cbn [a_in a_out a_st a_sl a_argv a_mem] in *. subst yst ysl yav. specialize (G2 eq_refl). pose proof (len_pos v). pose proof (len_pos r).
      destruct (IH ym yi yo (o :: av) E3 ltac:(lia)) as (Y2 & as_ & R2 & F1 & F2 & F3 & F4 & F5). exists Y2, (o :: as_).
      split; [eapply reach_trans; eassumption|]. split; [exact F1|]. split; [cbn [rev]; rewrite <- app_assoc; exact F2|].
      split; [constructor; [|exact F3]|].
      * apply str_ext with ym; [|exact E5]. intros x Hx. apply F4. lia.
      * split; [|unfold zlen in *; cbn [length]; lia]. intros x Hx. rewrite F4 by lia. apply E8. lia.
    + subst r. inversion A; subst. exists Y, [o]. split; [exact R|]. split; [rewrite E3; exact E4|]. split; [exact A1|]. split; [constructor; [exact E6|constructor]|].
      pose proof (len_pos v). split; [intros x Hx; apply E7; lia|]. change (zlen [v]) with 1. ln. lia.
Qed.

Lemma forall2_len {A B} (P : A -> B -> Prop) l1 l2 : Forall2 P l1 l2 -> length l1 = length l2.
Proof. induction 1; cbn [length]; congruence. Qed.
(** The parser gives the arguments that are on the line, for a result in place ([o = i]), below the line or
    above it.  The result takes no more room than the line and its NUL, and at most half as many pointers, and nothing
    else is written. *)
Theorem C59_split m i o s l : str m i s -> args s l -> o <= i \/ i + zlen s < o ->
  exists av m' n, (forall fuel, (n <= fuel)%nat -> arg_parser fuel m i o = Some (av, m')) /\
    Forall2 (str m') av l /\
    2 * zlen av <= zlen s + 1 /\
    (forall a, a < o \/ o + zlen s < a -> m' a = m a).
Proof.
  intros ST A D. destruct (args_run s l A m i o [] ST D) as (Y & as_ & R & E1 & E2 & E3 & E4 & E5).
  destruct (reach_loop _ _ R E1) as (n & Hn). exists as_, (finish Y), n. split; [|split; [exact E3|split]].
  - intros f Hf. unfold arg_parser. rewrite (Hn f Hf), E2, app_nil_r, rev_involutive. reflexivity.
  - apply forall2_len in E3. unfold zlen in *. unfold len in E5. lia.
  - intros a Ha. apply E4. unfold zlen in Ha. unfold len. lia.
Qed.

(** Every line has arguments. *)
Lemma split_sl s : exists n t, s = slashes n ++ t /\ hd 0 t <> 92.
Proof.
  induction s as [|c s IH]; [exists 0%nat, []; split; [reflexivity|discriminate]|].
  destruct (Z.eq_dec c 92) as [-> | N]; [|exists 0%nat, (c :: s); split; [reflexivity|exact N]].
  destruct IH as (n & t & -> & H). exists (S n), t. split; [reflexivity|exact H].
Qed.
Lemma body_total : forall n q s, (length s <= n)%nat -> exists v r, body q s v r /\ (length r <= length s)%nat.
Proof.
  induction n as [|n IH]; intros q s L; [destruct s; [|cbn in L; lia]; exists [], []; split; [constructor|lia]|].
  destruct (split_sl s) as (k & t & -> & H). unfold slashes in L. rewrite app_length, repeat_length in L.
  destruct t as [|c t].
  - destruct k as [|k]; [exists [], []; split; [constructor|cbn; lia]|]. exists (slashes (S k) ++ []), []. split; [|cbn; lia].
    apply b_slashes; [lia|discriminate|discriminate|constructor].
  - cbn [hd] in H. cbn [length] in L. assert (LL : length (slashes k ++ c :: t) = (k + S (length t))%nat) by (unfold slashes; rewrite app_length, repeat_length; reflexivity).
    destruct (Z.eq_dec c 34) as [-> | N].
    + destruct (Nat.Even_or_Odd k) as [[j ->]|[j ->]].
      * destruct q.
        -- destruct t as [|c t].
           ++ exists (slashes j ++ []), []. split; [apply b_close; [discriminate|constructor]|lia].
           ++ destruct (Z.eq_dec c 34) as [-> | N].
              ** destruct (IH true t) as (v & r & B & LR); [cbn in L; lia|]. exists (slashes j ++ 34 :: v), r. split; [now apply b_double|cbn [length] in LL; lia].
              ** destruct (IH false (c :: t)) as (v & r & B & LR); [lia|]. exists (slashes j ++ v), r. split; [now apply b_close|lia].
        -- destruct (IH true t) as (v & r & B & LR); [lia|]. exists (slashes j ++ v), r. split; [now apply b_open|lia].
      * destruct (IH q t) as (v & r & B & LR); [lia|]. exists (slashes j ++ 34 :: v), r. split; [now apply b_escaped|lia].
    + assert (G : exists v r, body q (c :: t) v r /\ (length r <= length (c :: t))%nat).
      { assert (DB : {blank c} + {~ blank c}) by (unfold blank; destruct (Z.eq_dec c 32); [left; auto|destruct (Z.eq_dec c 9); [left; auto|right; tauto]]).
        destruct (IH q t) as (v & r & B & LR); [lia|].
        destruct q; [exists (c :: v), r; split; [apply b_char; auto; discriminate|cbn; lia]|].
        destruct DB as [DB|DB]; [exists [], t; split; [now apply b_blank|cbn; lia]|]. exists (c :: v), r. split; [apply b_char; auto|cbn; lia]. }
      destruct G as (v & r & B & LR). cbn [length] in LR. destruct k as [|k]; [exists v, r; split; [exact B|cbn [slashes repeat app] in *; cbn [length]; lia]|].
      exists (slashes (S k) ++ v), r. split; [apply b_slashes; [lia|exact N|exact H|exact B]|lia].
Qed.
Lemma body_shorter c s v r : ~ blank c -> body false (c :: s) v r -> (length r <= length s)%nat.
Proof.
  assert (G : forall q s v r, body q s v r -> (length r <= length s)%nat).
  { induction 1; rewrite ?app_length in *; cbn [length] in *; lia. }
  intros NB H. inversion H; clear H; subst; try contradiction; match goal with B : body _ _ _ r |- _ => apply G in B end.
  - assumption.
  - match goal with E : slashes ?n ++ _ = _ |- _ => destruct n; [lia|]; injection E as E1 E2; subst s; rewrite app_length; lia end.
  - match goal with E : slashes _ ++ _ = _ |- _ => rewrite Nat.add_1_r in E; injection E as E1 E2; subst s; rewrite app_length; cbn [length]; lia end.
  - match goal with E : slashes _ ++ _ = _ |- _ => destruct n as [|n]; injection E as E1 E2; subst s; rewrite ?app_length; cbn [length]; lia end.
Qed.
Theorem C59_total s : exists l, args s l.
Proof.
  assert (G : forall n s, (length s <= n)%nat -> exists l, args s l); [|exact (G (length s) s (le_n _))].
  clear s. induction n as [|n IH]; intros s L; (destruct s as [|c s]; [exists []; constructor|]); cbn [length] in L; [lia|].
  assert (DB : {blank c} + {~ blank c}) by (unfold blank; destruct (Z.eq_dec c 32); [left; auto|destruct (Z.eq_dec c 9); [left; auto|right; tauto]]).
  destruct DB as [DB|DB].
  - destruct (IH s ltac:(lia)) as (l & A). exists l. now constructor.
  - destruct (body_total (length (c :: s)) false (c :: s) (le_n _)) as (v & r & B & _). destruct (IH r) as (l & A); [apply body_shorter in B; [lia|exact DB]|].
    exists (v :: l). econstructor; eassumption.
Qed.

(** Whatever the arguments are, quoted they come back. *)
Lemma escape_body t r : (t = [] /\ r = []) \/ t = 32 :: r -> forall a n, body true (escape n a ++ 34 :: t) (slashes n ++ a) r.
Proof.
  intros T. induction a as [|c a IH]; intros n; cbn [escape].
  - apply b_close; [destruct T as [[-> _]| ->]; discriminate|]. destruct T as [[-> ->]| ->]; [constructor|]. apply b_blank. now left.
  - destruct (c =? 92) eqn:Q1; [apply Z.eqb_eq in Q1; subst c; replace (slashes n ++ 92 :: a) with (slashes (S n) ++ a); [apply IH|]|].
    + unfold slashes. change (92 :: a) with ([92] ++ a). rewrite app_assoc. f_equal. change [92] with (repeat 92 1). rewrite <- repeat_app. f_equal. lia.
    + destruct (c =? 34) eqn:Q2.
      * apply Z.eqb_eq in Q2. subst c. rewrite <- app_assoc. cbn [app]. apply b_escaped. exact (IH 0%nat).
      * apply Z.eqb_neq in Q1, Q2. rewrite <- app_assoc. cbn [app]. assert (B : body true (c :: escape 0 a ++ 34 :: t) (c :: a) r) by (apply b_char; [exact Q2|exact Q1|discriminate|exact (IH 0%nat)]).
        destruct n as [|n]; [exact B|]. apply b_slashes; [lia|exact Q2|exact Q1|exact B].
Qed.
Theorem C59_quoting l : args (line_of l) l.
Proof.
  induction l as [|a l IH]; [constructor|]. cbn [line_of]. unfold quoted. cbn [app]. rewrite <- app_assoc. cbn [app].
  assert (NB : ~ blank 34) by (intros [H|H]; discriminate).
  destruct l as [|a' l].
  - eapply a_arg; [exact NB| |constructor]. apply (b_open 0). exact (escape_body [] [] (or_introl (conj eq_refl eq_refl)) a 0).
  - eapply a_arg; [exact NB| |exact IH]. apply (b_open 0). exact (escape_body (32 :: line_of (a' :: l)) _ (or_intror eq_refl) a 0).
Qed.
Corollary C59_roundtrip m i o l : str m i (line_of l) -> o <= i \/ i + zlen (line_of l) < o ->
  exists av m' n, (forall fuel, (n <= fuel)%nat -> arg_parser fuel m i o = Some (av, m')) /\ Forall2 (str m') av l.
Proof. intros ST D. destruct (C59_split m i o _ l ST (C59_quoting l) D) as (av & m' & n & H1 & H2 & _). eauto. Qed.

(** ... and only one list of them. *)
Lemma str_inj m : forall v a v', str m a v -> str m a v' -> v = v'.
Proof.
  induction v as [|c v IH]; intros a [|c' v']; cbn [str]; [reflexivity|intros H (A & B & _); congruence|intros (A & B & _) H; congruence|].
  intros (A & _ & B) (A' & _ & B'). f_equal; [congruence|]. exact (IH _ _ B B').
Qed.
Lemma str_nth : forall p s, Forall (fun c => c <> 0) s -> str (fun a => nth (Z.to_nat a) (p ++ s) 0) (zlen p) s.
Proof.
  intros p s F. revert p. induction F as [|c s H F IH]; intros p; cbn [str]; unfold zlen.
  - rewrite Nat2Z.id, app_nil_r. apply nth_overflow. lia.
  - rewrite Nat2Z.id, app_nth2, Nat.sub_diag by lia. split; [reflexivity|]. split; [exact H|]. specialize (IH (p ++ [c])).
    replace (Z.of_nat (length p) + 1) with (zlen (p ++ [c])) by (unfold zlen; rewrite app_length; cbn [length]; lia).
    apply str_ext with (fun a => nth (Z.to_nat a) ((p ++ [c]) ++ s) 0); [|exact IH]. intros x _. rewrite <- app_assoc. reflexivity.
Qed.
Theorem C59_unique s l l' : Forall (fun c => c <> 0) s -> args s l -> args s l' -> l = l'.
Proof.
  intros F A A'. pose proof (str_nth [] s F) as ST.
  destruct (C59_split _ _ _ s l ST A (or_introl (Z.le_refl _))) as (av & m1 & n & H1 & H2 & _). destruct (C59_split _ _ _ s l' ST A' (or_introl (Z.le_refl _))) as (av' & m2 & n' & H1' & H2' & _).
  specialize (H1 (n + n')%nat ltac:(lia)). specialize (H1' (n + n')%nat ltac:(lia)). rewrite H1 in H1'. injection H1' as -> ->. clear H1 A A'.
  revert l' H2'. induction H2 as [|a v av1 l P Q IH]; intros l' H; inversion H; subst; [reflexivity|]. f_equal; [eapply str_inj; eassumption|]. now apply IH.
Qed.

(** The array of pointers for DOS (c0.c: argvs has 1 + 128/2 + 1 elements): a parameter line has at most 127
    characters (its length is one byte, and the buffer has room for 127 and a NUL). *)
Corollary C59_dos_pointers m i o s l : str m i s -> args s l -> o = i -> zlen s <= 127 ->
  exists av m' n, (forall fuel, (n <= fuel)%nat -> arg_parser fuel m i o = Some (av, m')) /\ 1 + zlen av + 1 <= 1 + 128 / 2 + 1.
Proof.
  intros ST A E L. destruct (C59_split m i o s l ST A ltac:(lia)) as (av & m' & n & H1 & _ & H2 & _). exists av, m', n. split; [exact H1|].
  change (128 / 2) with 64. lia.
Qed.

(** A line with a backslash pair before an opening quote, a quoted blank and an escaped quote, in place. *)
Definition ex_line : list Z := [97; 92; 92; 34; 98; 32; 99; 34; 32; 32; 100; 92; 34].
Definition ex_mem : Z -> Z := fun a => nth (Z.to_nat (a - 1000)) ex_line 0.
Example C59_case : str ex_mem 1000 ex_line /\ args ex_line [[97; 92; 98; 32; 99]; [100; 34]] /\
  match arg_parser 100 ex_mem 1000 1000 with Some (av, m') => av = [1000; 1006] /\ map m' [1000; 1001; 1002; 1003; 1004; 1005; 1006; 1007; 1008] = [97; 92; 98; 32; 99; 0; 100; 34; 0] | None => False end.
Proof.
  split; [repeat (split; [reflexivity|split; [discriminate|]]); reflexivity|]. split; [|vm_compute; split; reflexivity].
  eapply a_arg with (r := [32; 100; 92; 34]); [intros [H|H]; discriminate| |].
  - apply b_char; [discriminate|discriminate|intros _ [H|H]; discriminate|]. apply (b_open 1). repeat (apply b_char; [discriminate|discriminate|discriminate|]). apply (b_close 0); [discriminate|].
    apply b_blank. now left.
  - apply a_blank; [now left|]. eapply a_arg with (r := []); [intros [H|H]; discriminate| |constructor].
    apply b_char; [discriminate|discriminate|intros _ [H|H]; discriminate|]. apply (b_escaped false 0). constructor.
Qed.

Print Assumptions C59_split.
Print Assumptions C59_total.
Print Assumptions C59_quoting.
Print Assumptions C59_roundtrip.
Print Assumptions C59_dos_pointers.
Print Assumptions C59_unique.
