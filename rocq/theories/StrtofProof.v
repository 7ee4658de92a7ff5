(** strtof: what its loops compute. *)
From Verif Require Import Base BaseLemmas CtypeModel FpModel FloatSpec FpProof FpMain NumModel NumSpec
  StrtolSpec StrtolProof NumProof NumFloat StrtofSpec StrtofModel.

Ltac Zify.zify_post_hook ::= idtac.

(** ** Strings *)
Definition term (s : list Z) : Prop := Forall byte s /\ In 0 s.

Lemma term_cons c t : term (c :: t) -> byte c /\ (c <> 0 -> term t).
Proof.
  intros (F & I0). inversion F; subst. split; [assumption|]. intros N. split; [assumption|].
  destruct I0 as [E|I0]; [congruence|exact I0].
Qed.
Lemma term_nil : ~ term [].
Proof. intros (_ & []). Qed.
Lemma term_dw P s : term s -> P 0 = false -> term (dw P s).
Proof.
  intros T Z0. induction s as [|c t IH]; [exact T|]. cbn [dw]. destruct (P c) eqn:E; [|exact T].
  apply IH. apply (term_cons c t T). intros ->. congruence.
Qed.
Lemma term_at s : term s -> at0 s = Some (peek s) /\ (peek s <> 0 -> term (tl s)).
Proof. intros T. destruct s as [|c t]; [now destruct (term_nil T)|]. split; [reflexivity|]. cbn [peek tl]. apply term_cons, T. Qed.
Lemma term_app a b : Forall (fun c => c <> 0) a -> term (a ++ b) -> term b.
Proof. intros F. induction F as [|c t H F IH]; cbn [app]; intros T; [exact T|]. apply IH. now apply (term_cons _ _ T). Qed.

Lemma isdigit_dec c : byte c -> exists d, isdigit c = Some d /\ (d =? 0) = negb (is_dec c).
Proof. intros B. rewrite is_dec_digit. now apply isdigit_ok. Qed.

(** ** Loops *)
Lemma sf_space_ok s : term s -> sf_space s = Some (dw spaceb s).
Proof.
  induction s as [|c t IH]; intros T; [now destruct (term_nil T)|]. destruct (term_cons c t T) as (B & N).
  cbn [sf_space dw]. destruct (isspace_ok c B) as (v & -> & E). cbn [obind]. rewrite E.
  destruct (spaceb c) eqn:SC; cbn [negb]; [|reflexivity]. apply IH, N. intros ->. discriminate SC.
Qed.

Lemma sf_zeros_ok s : term s -> forall n,
  exists k, sf_zeros s n = Some (skip_zeros s, n + k) /\ k = zlen s - zlen (skip_zeros s) /\
    k = zlen (tw is_dec s) - zlen (strip (tw is_dec s)) /\ term (skip_zeros s).
Proof.
  induction s as [|c t IH]; intros T n; [now destruct (term_nil T)|]. destruct (term_cons c t T) as (B & N).
  cbn [sf_zeros skip_zeros tw]. destruct (Z.eqb_spec c 48) as [->|NE].
  - destruct (IH ltac:(apply N; lia) (n + 1)) as (k & -> & K & K2 & TS). exists (1 + k).
    change (is_dec 48) with true. cbv iota. unfold strip in *. cbn [skip_zeros]. change (48 =? 48) with true. cbv iota.
    rewrite !zlen_cons. split; [do 2 f_equal; lia|]. split; [lia|]. split; [lia|exact TS].
  - exists 0. split; [do 2 f_equal; lia|].
    assert (E : strip (tw is_dec (c :: t)) = tw is_dec (c :: t)).
    { unfold strip. cbn [tw]. destruct (is_dec c); [|reflexivity]. cbn [skip_zeros]. now replace (c =? 48) with false by lia. }
    cbn [tw] in E. rewrite E. repeat split; try lia; apply T.
Qed.

Lemma sf_int_ok s : term s -> forall ds mexp cnt,
  sf_int s ds mexp cnt =
  let '(s', ds', m') := int_digits s ds mexp in Some (s', ds', m', cnt + zlen (tw is_dec s)).
Proof.
  induction s as [|c t IH]; intros T ds mexp cnt; [now destruct (term_nil T)|]. destruct (term_cons c t T) as (B & N).
  cbn [sf_int int_digits tw]. destruct (isdigit_dec c B) as (d & -> & E). cbn [obind]. rewrite E.
  destruct (is_dec c) eqn:D; cbn [negb].
  - assert (TT : term t) by (apply N; intros ->; discriminate D).
    destruct (zlen ds <? MAX_CONST_DIGITS); rewrite (IH TT); destruct (int_digits t _ _) as [[s' ds'] m'];
      rewrite zlen_cons; do 2 f_equal; lia.
  - rewrite zlen_nil. do 2 f_equal. lia.
Qed.

Lemma sf_frac_ok s : term s -> forall ds mexp cnt,
  sf_frac s ds mexp cnt =
  let '(s', ds', m') := frac_digits s ds mexp in Some (s', ds', m', cnt + zlen (tw is_dec s)).
Proof.
  induction s as [|c t IH]; intros T ds mexp cnt; [now destruct (term_nil T)|]. destruct (term_cons c t T) as (B & N).
  cbn [sf_frac frac_digits tw]. destruct (isdigit_dec c B) as (d & -> & E). cbn [obind]. rewrite E.
  destruct (is_dec c) eqn:D; cbn [negb].
  - assert (TT : term t) by (apply N; intros ->; discriminate D).
    destruct (zlen ds <? MAX_CONST_DIGITS); rewrite (IH TT); destruct (frac_digits t _ _) as [[s' ds'] m'];
      rewrite zlen_cons; do 2 f_equal; lia.
  - rewrite zlen_nil. do 2 f_equal. lia.
Qed.

Lemma sf_exp_ok s : term s -> forall n got, 0 <= n <= INT_MAX ->
  sf_exp s n got =
  if val_from 10 n (tw is_dec s) <=? INT_MAX
  then Some (inr (dw is_dec s, val_from 10 n (tw is_dec s), got || negb (zlen (tw is_dec s) =? 0)))
  else Some (inl tt).
Proof.
  unfold INT_MAX.
  induction s as [|c t IH]; intros T n got N; [now destruct (term_nil T)|]. destruct (term_cons c t T) as (B & NZ).
  cbn [sf_exp tw dw]. destruct (isdigit_dec c B) as (d & -> & E). cbn [obind]. rewrite E.
  destruct (is_dec c) eqn:H; cbn [negb].
  - assert (TT : term t) by (apply NZ; intros ->; discriminate H).
    pose proof (is_dec_val c H) as V. assert (0 <= c - 48 < 10) by (unfold is_dec in H; lia).
    destruct (overflows_ok n 10 (c - 48) ltac:(lia) ltac:(lia) ltac:(lia)) as (O & U).
    unfold overflows in O. rewrite O.
    rewrite val_cons, V. change ((2 ^ 32 - 1) / 2) with (2 ^ 31 - 1).
    pose proof (zlen_nonneg (tw is_dec t)).
    destruct (Z.ltb_spec (n * 10 + (c - 48)) (2 ^ 32)) as [S|S]; cbn [negb orb].
    + rewrite U by lia. destruct (Z.gtb_spec (n * 10 + (c - 48)) (2 ^ 31 - 1)).
      * pose proof (val_from_ge 10 (tw is_dec t) (n * 10 + (c - 48)) ltac:(lia) ltac:(lia)).
        replace (val_from _ _ _ <=? 2 ^ 31 - 1) with false by lia. reflexivity.
      * rewrite (IH TT) by lia. rewrite zlen_cons. replace (1 + zlen (tw is_dec t) =? 0) with false by lia.
        cbn [negb]. rewrite orb_true_r. reflexivity.
    + pose proof (val_from_ge 10 (tw is_dec t) (n * 10 + (c - 48)) ltac:(lia) ltac:(lia)).
      replace (val_from _ _ _ <=? 2 ^ 31 - 1) with false by lia. reflexivity.
  - unfold val_from; cbn [fold_left]. replace (n <=? 2 ^ 31 - 1) with true by lia. rewrite zlen_nil.
    change (0 =? 0) with true. cbn [negb]. now rewrite orb_false_r.
Qed.

(** ** Very large and very small exponents *)
Lemma nearest_inf num : 2 ^ 128 <= num -> nearest_even num 1 f32_inf.
Proof.
  intros H. split; [unfold f32_inf; lia|]. intros u' U'. cbv beta zeta.
  assert (V : f32_value u' <= f32_value f32_inf) by (apply f32_value_le; lia).
  rewrite f32_value_inf in *.
  assert (2 ^ 277 <= num * 2 ^ 149).
  { replace (2 ^ 277) with (2 ^ 128 * 2 ^ 149) by (rewrite <- Z.pow_add_r by lia; reflexivity). nia. }
  split; [lia|]. intros E. left.
  destruct (Z.eq_dec u' f32_inf) as [|NE]; [congruence|]. exfalso.
  assert (f32_value u' < f32_value f32_inf) by (apply f32_value_lt; lia). rewrite f32_value_inf in *. lia.
Qed.

Lemma nearest_small num den : 0 < den -> 0 <= num -> num * 2 ^ 149 * 2 <= den -> nearest_even num den 0.
Proof.
  intros D N H. split; [unfold f32_inf; lia|]. intros u' U'. cbv beta zeta.
  change (f32_value 0) with 0. rewrite Z.mul_0_l.
  destruct (Z.eq_dec u' 0) as [->|NZ]; [change (f32_value 0) with 0; split; [lia|auto]|].
  assert (1 <= f32_value u').
  { change 1 with (f32_value 1). apply f32_value_le; lia. }
  assert (den <= f32_value u' * den) by nia.
  split; [lia|]. intros _. right. reflexivity.
Qed.

Lemma rounds_inf N E : 1 <= N -> 200 <= E -> rounds_to N E f32_inf.
Proof.
  intros HN HE. unfold rounds_to. replace (E >=? 0) with true by lia. apply nearest_inf.
  assert (10 ^ 200 <= 10 ^ E) by (apply Z.pow_le_mono_r; lia).
  assert (2 ^ 128 <= 10 ^ 200) by now vm_compute. nia.
Qed.
Lemma rounds_tiny N E : 0 <= N < 10 ^ 112 -> E <= - 200 -> rounds_to N E 0.
Proof.
  intros HN HE. unfold rounds_to. replace (E >=? 0) with false by lia.
  assert (10 ^ 200 <= 10 ^ (- E)) by (apply Z.pow_le_mono_r; lia).
  apply nearest_small; [|lia|].
  - apply Z.pow_pos_nonneg; lia.
  - assert (10 ^ 112 * 2 ^ 149 * 2 <= 10 ^ 200) by now vm_compute. lia.
Qed.
Lemma rounds_unique N e u v : rounds_to N e u -> rounds_to N e v -> u = v.
Proof.
  unfold rounds_to. destruct (e >=? 0) eqn:E; apply nearest_unique; [lia|].
  apply Z.pow_pos_nonneg; lia.
Qed.
Lemma rounds_range N e u : rounds_to N e u -> 0 <= u <= f32_inf.
Proof. unfold rounds_to. destruct (e >=? 0); intros R; apply R. Qed.

(** ** The value *)
Lemma sf_finish_ok D mexp esign eexp : dec_digits D -> zlen D <= 112 -> (match D with [] => True | d :: _ => d <> 0 end) ->
  - 2 ^ 31 < mexp <= 0 -> 0 <= eexp <= INT_MAX ->
  exists u, sf_finish D mexp esign eexp = Some u /\
    rounds_to (dec_value D) ((if esign then - eexp else eexp) + mexp) u.
Proof.
  intros F L H M E. unfold sf_finish.
  assert (SE : s32 eexp = eexp) by (unfold s32; apply swrap_small; unfold INT_MAX in E; lia). rewrite SE.
  set (e := if esign then - eexp else eexp).
  assert (ER : - INT_MAX <= e <= INT_MAX) by (unfold e; destruct esign; lia).
  destruct (drop_zeros_ok D mexp) as (D' & k & ED & DZ & HD). rewrite DZ. cbv zeta iota. rewrite rev_involutive.
  assert (KL : Z.of_nat k <= zlen D) by (rewrite ED, zlen_app; pose proof (zlen_nonneg D'); unfold zlen at 2; rewrite repeat_length; lia).
  replace (fits_int (mexp + Z.of_nat k)) with true by (unfold fits_int; lia). cbn [guard obind].
  destruct (Z.eqb_spec (zlen D') 0) as [Z0|NZ].
  - assert (D' = []) by (destruct D'; [reflexivity|rewrite zlen_cons in Z0; pose proof (zlen_nonneg D'); lia]). subst D'.
    cbn [app] in ED. assert (k = O) as ->.
    { destruct k as [|k]; [reflexivity|]. rewrite ED in H. cbn [repeat] in H. now destruct H. }
    cbn [repeat] in ED. subst D. change (0 >=? 0) with true. change (0 <? 0) with false. cbn [andb].
    replace (e >? INT_MAX - 0) with false by lia. unfold INT_MAX in *.
    replace (fits_int (0 + e)) with true by (unfold fits_int; lia). cbn [guard obind].
    exists 0. split; [reflexivity|]. apply rounds_zero.
  - set (m' := mexp + Z.of_nat k).
    assert (FD : dec_digits D') by (unfold dec_digits in *; rewrite ED in F; apply Forall_app in F; tauto).
    assert (LD : 1 <= zlen D' <= 112).
    { rewrite ED, zlen_app in L. pose proof (zlen_nonneg D'). pose proof (zlen_nonneg (repeat 0 k)). lia. }
    assert (H0 : zget D' 0 <> Some 0 \/ D' = [0]).
    { left. destruct D' as [|d t]; [now cbn in NZ|]. rewrite zget_cons_0. rewrite ED in H. cbn [app] in H. intros Q.
      apply some_inj in Q. congruence. }
    assert (N1 : 1 <= dec_value D').
    { destruct D' as [|d t]; [now cbn in NZ|]. unfold dec_value. cbn [dec_from].
      pose proof (Forall_inv FD) as FD1. pose proof (Forall_inv_tail FD) as FD2. cbv beta in FD1.
      assert (d <> 0) by (rewrite ED in H; exact H).
      pose proof (dec_from_bounds t (0 * 10 + d) FD2 ltac:(lia)) as (B & _).
      assert (0 < 10 ^ zlen t) by (apply Z.pow_pos_nonneg; [lia|apply zlen_nonneg]). nia. }
    assert (N2 : dec_value D' < 10 ^ 112).
    { pose proof (dec_from_bounds D' 0 FD ltac:(lia)) as (_ & B). unfold dec_value.
      assert (10 ^ zlen D' <= 10 ^ 112) by (apply Z.pow_le_mono_r; lia). lia. }
    assert (GO : forall u, rounds_to (dec_value D') (e + m') u -> rounds_to (dec_value D) (e + mexp) u).
    { intros u R. rewrite ED. unfold dec_value in *. rewrite dec_from_app, dec_from_zeros.
      apply rounds_shift; [lia|]. now replace (e + mexp + Z.of_nat k) with (e + m') by (unfold m'; lia). }
    assert (MR : - 2 ^ 31 < m' <= 112) by (unfold m'; lia).
    unfold INT_MAX, INT_MIN in *.
    destruct ((m' >=? 0) && (e >? 2 ^ 31 - 1 - m')) eqn:C1; [|destruct ((m' <? 0) && (e <? - 2 ^ 31 - m')) eqn:C2].
    + change (fits_int (2 ^ 31 - 1)) with true. cbn [guard obind].
      destruct (d2f_ok D' (2 ^ 31 - 1) FD LD H0) as (u & DU & RU). exists u. split; [exact DU|].
      assert (u = f32_inf) as -> by (apply (rounds_unique _ _ _ _ RU), rounds_inf; lia).
      apply GO, rounds_inf; lia.
    + change (fits_int (- 2 ^ 31)) with true. cbn [guard obind].
      destruct (d2f_ok D' (- 2 ^ 31) FD LD H0) as (u & DU & RU). exists u. split; [exact DU|].
      assert (u = 0) as -> by (apply (rounds_unique _ _ _ _ RU), rounds_tiny; lia).
      apply GO, rounds_tiny; lia.
    + replace (fits_int (m' + e)) with true by (unfold fits_int; lia). cbn [guard obind].
      destruct (d2f_ok D' (m' + e) FD LD H0) as (u & DU & RU). exists u. split; [exact DU|].
      apply GO. now rewrite Z.add_comm.
Qed.
