(** strtof: the whole function against the longest subject sequence. *)
From Verif Require Import Base BaseLemmas CtypeModel FpModel FloatSpec FpProof FpMain NumModel NumSpec
  StrtolSpec StrtolProof NumProof NumFloat NumProps StrtofSpec StrtofModel StrtofProof.

Ltac Zify.zify_post_hook ::= idtac.

(** ** A number *)
(** The end of sf_number: exponent and value. *)
Definition sf_tail (s ds : list Z) (mexp : Z) : option (unit + Z * bool * list Z) :=
  let? c := at0 s in
  let? r :=
    if (c =? 69) || (c =? 101) then
      let? (esign, s1) := sf_sign (tl s) in
      let? r := sf_exp s1 0 false in
      Some (match r with
            | inl _ => inl tt
            | inr (s2, eexp, got) => inr (if (got : bool) then s2 else s, esign, eexp)
            end)
    else Some (inr (s, false, 0)) in
  match r with
  | inl _ => Some (inl tt)
  | inr (s, esign, eexp) =>
      let? u := sf_finish ds mexp esign eexp in
      Some (inr (u, u =? INFINITY, s))
  end.

Definition p_ip (t : list Z) := tw is_dec t.
Definition p_dot (t : list Z) := peek (dw is_dec t) =? 46.
Definition p_fp (t : list Z) := if p_dot t then tw is_dec (tl (dw is_dec t)) else [].
Definition p_s3 (t : list Z) := if p_dot t then dw is_dec (tl (dw is_dec t)) else dw is_dec t.

Lemma term_s3 t : term t -> term (p_s3 t).
Proof.
  intros T. unfold p_s3. pose proof (term_dw is_dec t T eq_refl) as T1. destruct (p_dot t) eqn:D; [|exact T1].
  apply term_dw; [|reflexivity]. apply (term_at _ T1). unfold p_dot in D. lia.
Qed.

Lemma sf_number_eq t : term t -> zlen t < 2 ^ 31 ->
  sf_number t =
  if zlen (p_ip t ++ p_fp t) =? 0 then Some (inl tt)
  else sf_tail (p_s3 t) (fst (mant (p_dot t) (p_ip t) (p_fp t))) (snd (mant (p_dot t) (p_ip t) (p_fp t))).
Proof.
  intros T L. unfold sf_number.
  destruct (sf_zeros_ok t T 0) as (k & -> & K1 & K2 & T1). cbn [obind]. rewrite (sf_int_ok _ T1).
  destruct (strip_tw t) as (ST & SD). rewrite int_digits_eq, ST, SD. fold (p_ip t) in *.
  set (r := dw is_dec t) in *. set (ip := p_ip t) in *.
  change (zlen (@nil Z)) with 0. change (Z.max 112 0) with 112. cbn [app].
  pose proof (strip_len ip) as LI. pose proof (zlen_tw is_dec t) as LT. fold (p_ip t) in LT. fold ip in LT.
  pose proof (zlen_dw is_dec t) as LD. fold r in LD. pose proof (zlen_tl r) as LR.
  pose proof (zlen_tw is_dec (tl r)) as LF. pose proof (zlen_dw is_dec (tl r)) as LE.
  change (0 + Z.max 0 (0 + zlen (strip ip) - 112)) with (Z.max 0 (0 + zlen (strip ip) - 112)).
  replace (0 + zlen (strip ip) - 112) with (zlen (strip ip) - 112) by lia.
  set (m0 := Z.max 0 (zlen (strip ip) - 112)). cbn [obind].
  replace (fits_int m0) with true by (unfold fits_int, m0; lia). cbn [guard obind].
  change (Z.to_nat 112) with 112%nat. set (ds0 := firstn 112 (digit_nums (strip ip))).
  assert (Z0 : (zlen ds0 =? 0) = (zlen (strip ip) =? 0)).
  { unfold ds0, zlen. rewrite firstn_length. unfold digit_nums. rewrite map_length. lia. }
  set (gi := if 0 + zlen (strip ip) >? 0 then 2 else if 0 + k >? 0 then 1 else 0).
  pose proof (term_dw is_dec t T eq_refl) as TR. fold r in TR.
  destruct (term_at r TR) as (-> & TL). cbn [obind].
  assert (G2 : (gi <? 2) = (zlen ds0 =? 0)).
  { rewrite Z0. unfold gi. destruct (Z.gtb_spec (0 + zlen (strip ip)) 0); [lia|]. destruct (0 + k >? 0); lia. }
  assert (PH : exists gf, (if peek r =? 46 then
      let s := tl r in
      let? (s, fz) := if gi <? 2 then sf_zeros s 0 else Some (s, 0) in
      let? (s, ds, mexp, nf) := sf_frac s ds0 (m0 - fz) 0 in
      Some (s, ds, mexp, if nf >? 0 then 2 else if fz >? 0 then 1 else 0)
    else Some (r, ds0, m0, 0)) =
    Some (p_s3 t, fst (mant (p_dot t) ip (p_fp t)), snd (mant (p_dot t) ip (p_fp t)), gf) /\
    ((gf = 0 /\ zlen (p_fp t) = 0) \/ ((gf = 1 \/ gf = 2) /\ zlen (p_fp t) <> 0))).
  { unfold mant. fold ds0 m0. unfold p_fp, p_s3, p_dot. fold r.
    destruct (Z.eqb_spec (peek r) 46) as [D|D]; [|exists 0; split; [reflexivity|left; split; [reflexivity|apply zlen_nil]]].
    cbv zeta. specialize (TL ltac:(lia)). rewrite G2. destruct (Z.eqb_spec (zlen ds0) 0) as [E0|NZ].
    - assert (N0 : ds0 = []) by (destruct ds0; [reflexivity|rewrite zlen_cons in E0; pose proof (zlen_nonneg ds0); lia]).
      assert (M0 : m0 = 0) by (unfold m0; lia).
      destruct (sf_zeros_ok _ TL 0) as (kf & -> & KF1 & KF2 & TF). cbn [obind]. rewrite (sf_frac_ok _ TF).
      rewrite frac_digits_eq. destruct (strip_tw (tl r)) as (ST2 & SD2). rewrite ST2, SD2.
      rewrite N0. change (zlen (@nil Z)) with 0. change (Z.max 112 0) with 112. change (Z.to_nat 112) with 112%nat. cbn [app fst snd].
      cbn [obind]. eexists. split.
      + do 2 f_equal. f_equal. lia.
      + pose proof (strip_len (tw is_dec (tl r))).
        destruct (Z.gtb_spec (0 + zlen (strip (tw is_dec (tl r)))) 0); [right; lia|].
        destruct (Z.gtb_spec (0 + kf) 0); [right; lia|left; lia].
    - cbn [obind]. rewrite (sf_frac_ok _ TL). rewrite frac_digits_eq. cbn [obind fst snd].
      assert (D112 : zlen ds0 <= 112) by (unfold ds0, zlen; rewrite firstn_length; lia).
      replace (Z.max 112 (zlen ds0)) with 112 by lia. change (Z.to_nat 112) with 112%nat.
      eexists. split.
      + do 3 f_equal. lia.
      + destruct (Z.gtb_spec (0 + zlen (tw is_dec (tl r))) 0); [right; lia|left]. change (0 >? 0) with false. lia. }
  destruct PH as (gf & PH & GF). cbv zeta in PH. rewrite PH. cbn [obind].
  assert (MB : fits_int (snd (mant (p_dot t) ip (p_fp t))) = true).
  { unfold mant. fold ds0 m0. unfold p_fp, p_dot, fits_int. fold r. destruct (peek r =? 46); [destruct (zlen ds0 =? 0)|]; cbn [snd]; unfold m0; lia. }
  rewrite MB. cbn [guard obind]. rewrite zlen_app.
  assert (LO : (Z.lor gi gf =? 0) = (zlen ip + zlen (p_fp t) =? 0)).
  { pose proof (zlen_nonneg (p_fp t)). unfold gi. destruct (Z.gtb_spec (0 + zlen (strip ip)) 0).
    - destruct GF as [(-> & ?)|([-> | ->] & ?)]; cbn [Z.lor]; [symmetry; lia|symmetry; cbn; lia|symmetry; cbn; lia].
    - destruct (Z.gtb_spec (0 + k) 0).
      + destruct GF as [(-> & ?)|([-> | ->] & ?)]; cbn; symmetry; lia.
      + destruct GF as [(-> & ?)|([-> | ->] & ?)]; cbn; symmetry; lia. }
  rewrite LO. reflexivity.
Qed.

(** ** The form at the start of a string, as computed *)
Definition esgn (s4 : list Z) : list Z := if (peek s4 =? 43) || (peek s4 =? 45) then tl s4 else s4.
(** Text of the exponent that starts [s3], its value, and what follows; none if there are no digits. *)
Definition p_exp (s3 : list Z) : list Z * Z * list Z :=
  if (peek s3 =? 69) || (peek s3 =? 101) then
    let s5 := esgn (tl s3) in
    let D := tw is_dec s5 in
    if zlen D =? 0 then ([], 0, s3)
    else (firstn (length s3 - length (dw is_dec s5)) s3,
          if peek (tl s3) =? 45 then - val_from 10 0 D else val_from 10 0 D, dw is_dec s5)
  else ([], 0, s3).

Lemma p_exp_app s3 : let '(et, ex, rest) := p_exp s3 in s3 = et ++ rest /\ (et = [] /\ ex = 0 \/ exp_text et ex).
Proof.
  unfold p_exp. destruct ((peek s3 =? 69) || (peek s3 =? 101)) eqn:PE; [|auto].
  cbv zeta. set (s5 := esgn (tl s3)). destruct (Z.eqb_spec (zlen (tw is_dec s5)) 0) as [Z0|NZ]; [auto|].
  destruct s3 as [|e s4]; [discriminate PE|]. cbn [peek tl] in *.
  assert (X : exists sg, s4 = sg ++ tw is_dec s5 ++ dw is_dec s5 /\ (sg = [] /\ (peek s4 =? 45) = false \/ sg = [43] /\ (peek s4 =? 45) = false \/ sg = [45] /\ (peek s4 =? 45) = true)).
  { rewrite <- tw_dw. unfold s5, esgn. destruct s4 as [|c t]; [exists []; auto|]. cbn [peek tl].
    destruct (Z.eqb_spec c 43) as [->|]; [exists [43]; split; [reflexivity|]; auto|].
    destruct (Z.eqb_spec c 45) as [->|]; [exists [45]; auto|]. exists []. auto. }
  destruct X as (sg & E4 & SG). set (D := tw is_dec s5) in *. set (R := dw is_dec s5) in *.
  assert (FD : dec_text D) by (apply Forall_dec_digit, tw_all).
  assert (ND : D <> []) by (intros Q; now rewrite Q in NZ).
  replace (firstn _ _) with (e :: sg ++ D).
  - split; [cbn [app]; rewrite <- app_assoc; congruence|]. right.
    destruct SG as [(-> & P)|[(-> & P)|(-> & P)]]; rewrite P.
    + apply exp_pos; auto; [lia|now apply value_exists].
    + apply exp_pos; auto; [lia|now apply value_exists].
    + apply (exp_neg e D); auto; [lia|now apply value_exists].
  - rewrite E4. change (e :: sg ++ D ++ R) with ((e :: sg) ++ D ++ R). rewrite app_assoc.
    rewrite app_length. replace (_ + _ - _)%nat with (length ((e :: sg) ++ D)) by lia.
    rewrite firstn_app, firstn_all, Nat.sub_diag. cbn [firstn]. now rewrite app_nil_r.
Qed.

(** What strtof returns for a number, given its parts. *)
Lemma sf_number_ok t : term t -> zlen t < 2 ^ 31 -> significant (p_ip t ++ p_fp t) <= 112 ->
  p_ip t ++ p_fp t <> [] ->
  let '(et, ex, rest) := p_exp (p_s3 t) in
  Z.abs ex < 2 ^ 31 ->
  exists u, sf_number t = Some (inr (u, u =? INFINITY, rest)) /\
    rounds_to (dec_value (digit_nums (p_ip t ++ p_fp t))) (ex - zlen (p_fp t)) u.
Proof.
  intros T L SG NE. rewrite (sf_number_eq t T L).
  assert (Z0 : (zlen (p_ip t ++ p_fp t) =? 0) = false).
  { destruct (p_ip t ++ p_fp t) as [|c x]; [congruence|]. rewrite zlen_cons. pose proof (zlen_nonneg x). lia. }
  rewrite Z0.
  rewrite mant_short; [|intros D; unfold p_fp; now rewrite D|exact SG]. cbn [fst snd].
  assert (FI : Forall (fun c => is_dec c = true) (p_ip t ++ p_fp t)).
  { apply Forall_app. split; [apply tw_all|]. unfold p_fp. destruct (p_dot t); [apply tw_all|constructor]. }
  destruct (digits_ready _ FI) as (DD & DH).
  set (D := digit_nums (strip (p_ip t ++ p_fp t))) in *.
  assert (LD : zlen D <= 112) by (unfold D; rewrite zlen_nums; rewrite significant_strip in SG; exact SG).
  assert (VD : dec_value D = dec_value (digit_nums (p_ip t ++ p_fp t))) by apply dec_value_strip.
  assert (LF : 0 <= zlen (p_fp t) <= zlen t).
  { unfold p_fp. pose proof (zlen_dw is_dec t). pose proof (zlen_tl (dw is_dec t)). pose proof (zlen_tw is_dec (tl (dw is_dec t))).
    pose proof (zlen_nonneg t). destruct (p_dot t); [lia|change (zlen (@nil Z)) with 0; lia]. }
  pose proof (term_s3 t T) as T3. set (s3 := p_s3 t) in *.
  unfold p_exp, sf_tail. destruct (term_at s3 T3) as (-> & TL). cbn [obind].
  assert (FIN : forall esign eexp ex, 0 <= eexp <= INT_MAX -> ex = (if (esign : bool) then - eexp else eexp) ->
    exists u, sf_finish D (- zlen (p_fp t)) esign eexp = Some u /\
      rounds_to (dec_value (digit_nums (p_ip t ++ p_fp t))) (ex - zlen (p_fp t)) u).
  { intros esign eexp ex E ->. destruct (sf_finish_ok D (- zlen (p_fp t)) esign eexp DD LD DH ltac:(lia) E) as (u & FU & RU).
    exists u. split; [exact FU|]. rewrite <- VD. exact RU. }
  destruct ((peek s3 =? 69) || (peek s3 =? 101)) eqn:PE.
  - specialize (TL ltac:(lia)). unfold sf_sign. destruct (term_at _ TL) as (-> & TL2). cbn [obind].
    set (sn := if peek (tl s3) =? 45 then (true, tl (tl s3)) else if peek (tl s3) =? 43 then (false, tl (tl s3)) else (false, tl s3)).
    assert (SN : sn = (peek (tl s3) =? 45, esgn (tl s3))).
    { unfold sn, esgn. destruct (Z.eqb_spec (peek (tl s3)) 45); [now rewrite orb_true_r|].
      destruct (peek (tl s3) =? 43); reflexivity. }
    rewrite SN. cbn [obind].
    assert (T5 : term (esgn (tl s3))).
    { unfold esgn. destruct ((peek (tl s3) =? 43) || (peek (tl s3) =? 45)) eqn:Q; [apply TL2; lia|exact TL]. }
    rewrite (sf_exp_ok _ T5) by (unfold INT_MAX; lia). set (s5 := esgn (tl s3)) in *. cbn [orb].
    destruct (Z.eqb_spec (zlen (tw is_dec s5)) 0) as [E0|E0].
    + intros _. assert (N0 : tw is_dec s5 = []) by (destruct (tw is_dec s5) as [|c x]; [reflexivity|rewrite zlen_cons in E0; pose proof (zlen_nonneg x); lia]).
      rewrite N0. change (val_from 10 0 []) with 0. change (0 <=? INT_MAX) with true. cbv iota. cbn [obind negb].
      destruct (FIN (peek (tl s3) =? 45) 0 0) as (u & FU & RU); [unfold INT_MAX; lia|now destruct (peek (tl s3) =? 45)|].
      exists u. rewrite FU. cbn [obind]. auto.
    + intros EX. pose proof (val_from_ge 10 (tw is_dec s5) 0 ltac:(lia) ltac:(lia)) as VG.
      set (V := val_from 10 0 (tw is_dec s5)) in *.
      assert (V < 2 ^ 31) by (destruct (peek (tl s3) =? 45); lia).
      replace (V <=? INT_MAX) with true by (unfold INT_MAX; lia). cbn [obind negb].
      destruct (FIN (peek (tl s3) =? 45) V _ ltac:(unfold INT_MAX; lia) eq_refl) as (u & FU & RU).
      exists u. rewrite FU. cbn [obind]. auto.
  - intros _. cbn [obind]. destruct (FIN false 0 0 ltac:(unfold INT_MAX; lia) eq_refl) as (u & FU & RU).
    exists u. rewrite FU. cbn [obind]. auto.
Qed.

Lemma sf_number_none t : term t -> zlen t < 2 ^ 31 -> p_ip t ++ p_fp t = [] -> sf_number t = Some (inl tt).
Proof. intros T L E. now rewrite (sf_number_eq t T L), E. Qed.
