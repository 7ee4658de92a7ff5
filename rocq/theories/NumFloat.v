(** GetNumber: floating constants. *)
From Verif Require Import Base BaseLemmas FpModel FloatSpec FpProof FpMain NumModel NumSpec StrtolSpec StrtolProof NumProof.

Ltac Zify.zify_post_hook ::= idtac.

(** ** The value does not depend on how the decimal number is written *)
Lemma nearest_scale n d c u : 0 < c -> nearest_even (n * c) (d * c) u <-> nearest_even n d u.
Proof.
  intros C. unfold nearest_even.
  assert (E : forall x, Z.abs (n * c * 2 ^ 149 - f32_value x * (d * c)) = Z.abs (n * 2 ^ 149 - f32_value x * d) * c).
  { intros x. replace (n * c * 2 ^ 149 - f32_value x * (d * c)) with ((n * 2 ^ 149 - f32_value x * d) * c) by lia.
    rewrite Z.abs_mul. f_equal. lia. }
  split; intros (U & H); (split; [exact U|]); intros u' U'; specialize (H u' U'); cbv beta zeta in *.
  - rewrite !E in H. destruct H as (H1 & H2). split; [nia|]. intros Q. apply H2. now rewrite Q.
  - rewrite !E. destruct H as (H1 & H2). split; [nia|]. intros Q. apply H2. nia.
Qed.

Lemma rounds_shift N e k u : 0 <= k -> rounds_to (N * 10 ^ k) e u <-> rounds_to N (e + k) u.
Proof.
  intros K. unfold rounds_to.
  assert (P : forall z, 0 <= z -> 0 < 10 ^ z) by (intros; apply Z.pow_pos_nonneg; lia).
  destruct (Z.geb_spec e 0).
  - replace (e + k >=? 0) with true by lia. rewrite <- Z.mul_assoc, <- Z.pow_add_r by lia.
    now rewrite (Z.add_comm k e).
  - destruct (Z.geb_spec (e + k) 0).
    + rewrite <- (nearest_scale (N * 10 ^ (e + k)) 1 (10 ^ (- e))) by (apply P; lia).
      rewrite <- Z.mul_assoc, <- Z.pow_add_r by lia. replace (e + k + - e) with k by lia. now rewrite Z.mul_1_l.
    + rewrite <- (nearest_scale N (10 ^ (- (e + k))) (10 ^ k)) by (apply P; lia).
      rewrite <- Z.pow_add_r by lia. now replace (- (e + k) + k) with (- e) by lia.
Qed.

Lemma rounds_zero e : rounds_to 0 e 0.
Proof.
  unfold rounds_to. destruct (e >=? 0) eqn:E.
  - apply nearest_zero; lia.
  - assert (0 < 10 ^ (- e)) by (apply Z.pow_pos_nonneg; lia). apply nearest_zero; lia.
Qed.

Lemma dec_from_app a b n : dec_from n (a ++ b) = dec_from (dec_from n a) b.
Proof. revert n. induction a as [|d t IH]; intros n; cbn [app dec_from]; auto. Qed.
Lemma dec_from_zeros k n : dec_from n (repeat 0 k) = n * 10 ^ Z.of_nat k.
Proof.
  revert n. induction k as [|k IH]; intros n; cbn [repeat dec_from]; [change (10 ^ Z.of_nat 0) with 1; lia|].
  rewrite IH. rewrite Nat2Z.inj_succ, Z.pow_succ_r by lia. lia.
Qed.
Lemma dec_value_strip l : dec_value (digit_nums (strip l)) = dec_value (digit_nums l).
Proof.
  unfold strip, dec_value. induction l as [|c t IH]; [reflexivity|]. cbn [skip_zeros].
  destruct (Z.eqb_spec c 48) as [->|]; [|reflexivity]. rewrite IH. reflexivity.
Qed.

(** ** Digits and exponent of the mantissa *)
Definition mant (dot : bool) (ip fp : list Z) : list Z * Z :=
  let ds0 := firstn 112 (digit_nums (strip ip)) in
  let m0 := Z.max 0 (zlen (strip ip) - 112) in
  if dot then
    if zlen ds0 =? 0 then (firstn 112 (digit_nums (strip fp)), - zlen fp)
    else (firstn 112 (ds0 ++ digit_nums fp), m0 - zlen fp)
  else (ds0, m0).

Lemma strip_len l : 0 <= zlen (strip l) <= zlen l.
Proof.
  split; [apply zlen_nonneg|]. unfold strip. induction l as [|c t IH]; cbn [skip_zeros]; [lia|].
  destruct (c =? 48); rewrite ?zlen_cons; lia.
Qed.
Lemma strip_app a b : strip (a ++ b) = match strip a with [] => strip b | l => l ++ b end.
Proof.
  unfold strip. induction a as [|c t IH]; [reflexivity|]. cbn [app skip_zeros].
  destruct (c =? 48); [exact IH|reflexivity].
Qed.
Lemma significant_strip l : significant l = zlen (strip l).
Proof. unfold strip. induction l as [|c t IH]; [reflexivity|]. cbn [significant skip_zeros]. destruct (c =? 48); auto. Qed.

Lemma mant_short dot ip fp : (dot = false -> fp = []) -> significant (ip ++ fp) <= 112 ->
  mant dot ip fp = (digit_nums (strip (ip ++ fp)), - zlen fp).
Proof.
  intros ND S. rewrite significant_strip, strip_app in S. unfold mant. rewrite strip_app.
  assert (F : forall l, zlen l <= 112 -> firstn 112 (digit_nums l) = digit_nums l).
  { intros l L. apply firstn_all2. unfold digit_nums, zlen in *. rewrite map_length. lia. }
  destruct (strip ip) as [|c t] eqn:E.
  - change (zlen (firstn 112 (digit_nums [])) =? 0) with true. cbv iota.
    destruct dot; [now rewrite F by exact S|]. rewrite (ND eq_refl). reflexivity.
  - pose proof (zlen_nonneg fp). rewrite zlen_app in S. rewrite F by lia.
    rewrite zlen_nums, zlen_cons. replace (1 + zlen t =? 0) with false by (pose proof (zlen_nonneg t); lia).
    rewrite zlen_cons in S. pose proof (zlen_nonneg t).
    rewrite <- digit_nums_app. destruct dot.
    + rewrite F by (rewrite zlen_app, zlen_cons; lia). f_equal. lia.
    + rewrite (ND eq_refl), app_nil_r. f_equal. change (zlen (@nil Z)) with 0. lia.
Qed.

(** What GetNumber does with a constant that is not hexadecimal and has a dot or an exponent. *)
Definition float_branch (s3 ds : list Z) (mexp : Z) : option num_result :=
  if (peek s3 =? 101) || (peek s3 =? 69) then
    let s4 := tl s3 in
    let s5 := if (peek s4 =? 43) || (peek s4 =? 45) then tl s4 else s4 in
    let D := tw is_dec s5 in
    if val_from 10 0 D <=? INT_MAX then
      if zlen D =? 0 then Some (NErr BadFloat)
      else finish_float true (dw is_dec s5) ds mexp (if peek s4 =? 45 then - val_from 10 0 D else val_from 10 0 D)
    else Some (NErr TooBig)
  else finish_float true s3 ds mexp 0.

Lemma zlen_dw P s : 0 <= zlen (dw P s) <= zlen s.
Proof.
  split; [apply zlen_nonneg|]. rewrite (tw_dw P s) at 2. rewrite zlen_app. pose proof (zlen_nonneg (tw P s)). lia.
Qed.
Lemma zlen_tw P s : 0 <= zlen (tw P s) <= zlen s.
Proof.
  split; [apply zlen_nonneg|]. rewrite (tw_dw P s) at 2. rewrite zlen_app. pose proof (zlen_nonneg (dw P s)). lia.
Qed.
Lemma zlen_tl (s : list Z) : 0 <= zlen (tl s) <= zlen s.
Proof. split; [apply zlen_nonneg|]. destruct s; cbn [tl]; rewrite ?zlen_cons; lia. Qed.

Lemma get_number_float sw s : zlen s < 2 ^ 31 ->
  (peek s =? 48) && ((peek1 s =? 120) || (peek1 s =? 88)) = false ->
  let r := dw is_dec s in let ip := tw is_dec s in
  let dot := peek r =? 46 in
  let fp := if dot then tw is_dec (tl r) else [] in
  let s3 := if dot then dw is_dec (tl r) else r in
  dot = true \/ peek s3 = 101 \/ peek s3 = 69 ->
  get_number true sw s = float_branch s3 (fst (mant dot ip fp)) (snd (mant dot ip fp)).
Proof.
  intros L NH r ip dot fp s3 FL. unfold get_number. rewrite NH.
  destruct (strip_tw s) as (ST & SD).
  rewrite int_digits_eq, ST, SD. fold r ip. change (zlen (@nil Z)) with 0. change (Z.max 112 0) with 112. cbn [app].
  pose proof (strip_len ip) as LI. pose proof (zlen_tw is_dec s) as LT. fold ip in LT.
  pose proof (zlen_dw is_dec s) as LD. fold r in LD. pose proof (zlen_tl r) as LR.
  pose proof (zlen_tw is_dec (tl r)) as LF. pose proof (zlen_dw is_dec (tl r)) as LE.
  change (0 + Z.max 0 (0 + zlen (strip ip) - 112)) with (Z.max 0 (0 + zlen (strip ip) - 112)).
  replace (0 + zlen (strip ip) - 112) with (zlen (strip ip) - 112) by lia.
  set (m0 := Z.max 0 (zlen (strip ip) - 112)).
  replace (fits_int m0) with true by (unfold fits_int, m0; lia). cbn [guard obind].
  change (Z.to_nat 112) with 112%nat. set (ds0 := firstn 112 (digit_nums (strip ip))).
  fold dot.
  assert (PH : (if dot then
        let s := tl r in
        let '(s, mexp) := if zlen ds0 =? 0 then frac_zeros s m0 else (s, m0) in
        frac_digits s ds0 mexp
      else (r, ds0, m0)) = (s3, fst (mant dot ip fp), snd (mant dot ip fp))).
  { unfold mant. fold ds0 m0. unfold s3, fp. destruct dot; [|reflexivity]. cbv zeta.
    destruct (Z.eqb_spec (zlen ds0) 0) as [Z0|NZ].
    - assert (N0 : ds0 = []) by (destruct ds0; [reflexivity|rewrite zlen_cons in Z0; pose proof (zlen_nonneg ds0); lia]).
      assert (M0 : m0 = 0).
      { unfold m0. unfold ds0, zlen in Z0. rewrite firstn_length in Z0. unfold digit_nums in Z0. rewrite map_length in Z0. unfold zlen. lia. }
      pose proof (frac_zeros_eq (tl r) m0) as FZ. destruct (frac_zeros (tl r) m0) as [s' m].
      destruct FZ as (-> & _ & FM). rewrite frac_digits_eq. destruct (strip_tw (tl r)) as (ST2 & SD2). rewrite ST2, SD2.
      rewrite N0. change (zlen (@nil Z)) with 0. change (Z.max 112 0) with 112. change (Z.to_nat 112) with 112%nat. cbn [app fst snd].
      do 1 f_equal. lia.
    - rewrite frac_digits_eq. cbn [fst snd].
      assert (D112 : zlen ds0 <= 112) by (unfold ds0, zlen; rewrite firstn_length; lia).
      replace (Z.max 112 (zlen ds0)) with 112 by lia. change (Z.to_nat 112) with 112%nat. reflexivity. }
  cbv zeta in PH. cbv zeta. rewrite PH.
  assert (MB : fits_int (snd (mant dot ip fp)) = true).
  { unfold mant. fold ds0 m0. unfold fp, fits_int. destruct dot; [destruct (zlen ds0 =? 0)|]; cbn [snd]; unfold m0; lia. }
  rewrite MB. cbn [guard obind].
  unfold float_branch. destruct ((peek s3 =? 101) || (peek s3 =? 69)) eqn:PE.
  - cbv zeta. rewrite exp_digits_eq by (unfold INT_MAX; lia).
    set (s5 := if _ || _ then tl (tl s3) else tl s3).
    assert (L5 : zlen s5 <= zlen s).
    { assert (zlen s3 <= zlen s) by (unfold s3; destruct dot; lia).
      pose proof (zlen_tl s3). pose proof (zlen_tl (tl s3)). unfold s5. destruct ((peek (tl s3) =? 43) || (peek (tl s3) =? 45)); lia. }
    pose proof (zlen_tw is_dec s5).
    pose proof (val_from_ge 10 (tw is_dec s5) 0 ltac:(lia) ltac:(lia)).
    destruct (Z.leb_spec (val_from 10 0 (tw is_dec s5)) INT_MAX) as [VM|VM]; [|reflexivity].
    rewrite Z.add_0_l. replace (fits_int (zlen (tw is_dec s5))) with true by (unfold fits_int; lia). cbn [guard obind].
    destruct (zlen (tw is_dec s5) =? 0); [reflexivity|].
    unfold s32. rewrite swrap_small by (unfold INT_MAX in VM; lia). reflexivity.
  - destruct FL as [-> | FL]; [reflexivity|]. lia.
Qed.

(** ** Value *)
Lemma drop_zeros_ok D : forall m, exists D' k, D = D' ++ repeat 0 k /\ drop_zeros (rev D) m = (rev D', m + Z.of_nat k) /\
  (D' = [] \/ exists x y, D' = x ++ [y] /\ y <> 0).
Proof.
  induction D as [|d t IH] using rev_ind; intros m.
  - exists [], O. cbn. repeat split; [do 1 f_equal; lia|auto].
  - rewrite rev_app_distr. cbn [rev app drop_zeros]. destruct (Z.eqb_spec d 0) as [->|N].
    + destruct (IH (m + 1)) as (D' & k & E & R & H). exists D', (S k). split; [|split; [|exact H]].
      * rewrite E, <- app_assoc. f_equal. rewrite <- repeat_cons. reflexivity.
      * rewrite R. f_equal. lia.
    + exists (t ++ [d]), O. split; [now rewrite app_nil_r|]. split; [|right; eauto].
      rewrite rev_app_distr. cbn [rev app]. f_equal. lia.
Qed.

Definition float_suffix (s : list Z) : list Z :=
  if (peek s =? 102) || (peek s =? 70) || is_l (peek s) then tl s else s.

Lemma finish_float_ok s D mexp eexp : dec_digits D -> zlen D <= 112 -> (match D with [] => True | d :: _ => d <> 0 end) ->
  - 2 ^ 31 < mexp <= 0 -> - INT_MAX <= eexp <= INT_MAX ->
  (exists u, finish_float true s D mexp eexp = Some (NTok TokNumFloat u (float_suffix s)) /\
             rounds_to (dec_value D) (eexp + mexp) u) \/
  (finish_float true s D mexp eexp = Some (NErr TooBig) /\ 2 ^ 31 <= Z.abs eexp + Z.max (- mexp) (zlen D)).
Proof.
  intros F L H M E. unfold finish_float. fold (float_suffix s).
  destruct (drop_zeros_ok D mexp) as (D' & k & ED & DZ & HD). rewrite DZ. cbv zeta iota. rewrite rev_involutive.
  assert (KL : Z.of_nat k <= zlen D) by (rewrite ED, zlen_app; unfold zlen; rewrite repeat_length; lia).
  destruct (Z.eqb_spec (zlen D') 0) as [Z0|NZ].
  - (* all digits are zero, so there are none *)
    assert (D' = []) by (destruct D'; [reflexivity|rewrite zlen_cons in Z0; pose proof (zlen_nonneg D'); lia]). subst D'.
    cbn [app] in ED. assert (k = O) as ->.
    { destruct k as [|k]; [reflexivity|]. rewrite ED in H. cbn [repeat] in H. now destruct H. }
    cbn [repeat] in ED. subst D. change (0 >=? 0) with true. change (0 <? 0) with false. cbn [andb orb].
    replace (eexp >? INT_MAX - 0) with false by lia. cbn [negb].
    destruct (d2f_ok [0] (eexp + 0)) as (u & DU & RU).
    { constructor; [lia|constructor]. } { change (zlen [0]) with 1. lia. } { auto. }
    left. exists 0. split.
    + change (d2f [0] (eexp + 0)) with (Some 0). cbn [obind]. reflexivity.
    + change (dec_value []) with 0. apply rounds_zero.
  - set (m' := mexp + Z.of_nat k).
    assert (ME : forall x, x = ((m' >=? 0) && (eexp >? INT_MAX - m')) || ((m' <? 0) && (eexp <=? INT_MIN - (m' + 1))) ->
       x = true -> 2 ^ 31 <= Z.abs eexp + Z.max (- mexp) (zlen D)).
    { intros x -> X. unfold INT_MAX, INT_MIN, m' in *. lia. }
    destruct (((m' >=? 0) && (eexp >? INT_MAX - m')) || ((m' <? 0) && (eexp <=? INT_MIN - (m' + 1)))) eqn:OV.
    + right. split; [reflexivity|]. apply (ME true); auto.
    + left. cbn [negb].
      assert (FD : dec_digits D') by (unfold dec_digits in *; rewrite ED in F; apply Forall_app in F; tauto).
      assert (LD : 1 <= zlen D' <= 112).
      { rewrite ED, zlen_app in L. pose proof (zlen_nonneg D'). pose proof (zlen_nonneg (repeat 0 k)). lia. }
      destruct (d2f_ok D' (eexp + m') FD LD) as (u & DU & RU).
      { left. destruct D' as [|d t]; [now cbn in NZ|]. rewrite zget_cons_0. rewrite ED in H. cbn [app] in H. intros Q.
        apply some_inj in Q. congruence. }
      rewrite DU. cbn [obind].
      assert (UR : 0 <= u <= f32_inf).
      { unfold rounds_decimal, rounds_to in RU. destruct (eexp + m' >=? 0); apply RU. }
      exists u. split.
      * unfold s32. rewrite swrap_small by (unfold f32_inf in UR; lia). reflexivity.
      * rewrite ED. unfold dec_value. rewrite dec_from_app, dec_from_zeros.
        apply rounds_shift; [lia|]. unfold rounds_decimal in RU. replace (eexp + mexp + Z.of_nat k) with (eexp + m') by lia. exact RU.
Qed.

(** The digits GetNumber works with. *)
Lemma digits_ready l : Forall (fun c => is_dec c = true) l ->
  dec_digits (digit_nums (strip l)) /\
  match digit_nums (strip l) with [] => True | d :: _ => d <> 0 end.
Proof.
  intros F. split.
  - apply (strip_all _ _) in F. unfold dec_digits, digit_nums. rewrite Forall_map. eapply Forall_impl; [|exact F].
    cbv beta. unfold is_dec. lia.
  - pose proof (strip_head l) as H. destruct (strip l) as [|c t]; [exact I|]. cbn [digit_nums map]. lia.
Qed.
