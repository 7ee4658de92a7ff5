(** C47: strtof, strtod and atof convert the longest number at the start of the string. *)
From Verif Require Import Base BaseLemmas CtypeModel FpModel FloatSpec FpProof FpMain NumModel NumSpec
  StrtolSpec StrtolProof NumProof NumFloat NumProps StrtofSpec StrtofModel StrtofProof StrtofProof2 StrtofProof3.

Ltac Zify.zify_post_hook ::= idtac.

(** A C string, with whatever follows its terminator. *)
Definition cstr (s : list Z) : Prop := Forall byte s /\ In 0 s /\ zlen s < 2 ^ 31.

(** Numbers of up to 112 significant digits whose exponent is within the range of int (less the length
    of the text). *)
Definition ordinary (s : list Z) (v : fval) : Prop :=
  match v with FNum ds e => sig_digits ds <= 112 /\ Z.abs e + zlen s < 2 ^ 31 | _ => True end.

(** The longest subject sequence is converted correctly, *endptr points right after it, and errno is set
    exactly on overflow. *)
Theorem C47_value_partial s neg body v rest : cstr s -> flongest s neg body v rest -> ordinary s v ->
  exists b erange, strtof s = Some (b, erange, rest) /\ converted neg v b erange.
Proof.
  intros (FB & I0 & L) LG O. apply (strtof_longest s neg body); auto.
  destruct v as [| |ds e]; [exact I|exact I|]. destruct O as (O1 & O2). split; [exact O1|].
  apply longest_iff in LG. destruct LG as (_ & P). unfold pv in P.
  repeat match type of P with (if ?b then _ else _) = _ => destruct b; [discriminate P || (destruct (starts _ (skipn 3 (p_body s))); discriminate P)|] end.
  pose proof (p_body_len s) as LB.
  assert (LF : 0 <= zlen (p_fp (p_body s)) <= zlen s).
  { unfold p_fp. set (t := p_body s) in *. pose proof (zlen_dw is_dec t). pose proof (zlen_tl (dw is_dec t)). pose proof (zlen_tw is_dec (tl (dw is_dec t))).
    pose proof (zlen_nonneg t). destruct (p_dot t); [lia|change (zlen (@nil Z)) with 0; lia]. }
  destruct (p_exp (p_s3 (p_body s))) as [[et ex] r]. cbn [fst snd]. injection P as _ _ E _. lia.
Qed.

(** No conversion: 0, and *endptr is the string itself. *)
Theorem C47_none s : cstr s -> (forall neg body v rest, ~ fsubject s neg body v rest) -> strtof s = Some (0, false, s).
Proof. intros (FB & I0 & L). now apply strtof_none. Qed.

Corollary C47_strtod_partial s neg body v rest : cstr s -> flongest s neg body v rest -> ordinary s v ->
  exists b erange, strtod s = Some (b, erange, rest) /\ atof s = Some b /\ converted neg v b erange.
Proof.
  intros C L O. destruct (C47_value_partial s neg body v rest C L O) as (b & er & E & V). exists b, er.
  unfold atof, strtod. rewrite E. auto.
Qed.

(** One of the two holds of every string, and the subject sequence and its meaning are determined. *)
Theorem C47_total s : (exists neg body v rest, flongest s neg body v rest) \/ (forall neg body v rest, ~ fsubject s neg body v rest).
Proof.
  destruct (pv (p_body s)) as [[[b v] r]|] eqn:P.
  - left. exists (p_neg s), b, v, r. now apply longest_iff.
  - right. now apply none_iff.
Qed.
Theorem C47_unique s neg body v rest neg' body' v' rest' :
  flongest s neg body v rest -> flongest s neg' body' v' rest' -> neg = neg' /\ body = body' /\ v = v' /\ rest = rest'.
Proof. rewrite !longest_iff. intros (-> & A) (-> & B). rewrite A in B. injection B as -> -> ->. auto. Qed.

(** ** Safety, for every string *)
Lemma sf_finish_total D mexp esign eexp : dec_digits D -> zlen D <= 112 -> (match D with [] => True | d :: _ => d <> 0 end) ->
  - 2 ^ 31 < mexp < 2 ^ 31 - 112 -> 0 <= eexp <= INT_MAX -> exists u, sf_finish D mexp esign eexp = Some u.
Proof.
  intros F L H M E. unfold sf_finish.
  assert (SE : s32 eexp = eexp) by (unfold s32; apply swrap_small; unfold INT_MAX in E; lia). rewrite SE.
  set (e := if esign then - eexp else eexp).
  assert (ER : - INT_MAX <= e <= INT_MAX) by (unfold e; destruct esign; lia).
  destruct (drop_zeros_ok D mexp) as (D' & k & ED & DZ & HD). rewrite DZ. cbv zeta iota. rewrite rev_involutive.
  assert (KL : Z.of_nat k <= zlen D) by (rewrite ED, zlen_app; pose proof (zlen_nonneg D'); unfold zlen at 2; rewrite repeat_length; lia).
  replace (fits_int (mexp + Z.of_nat k)) with true by (unfold fits_int; lia). cbn [guard obind].
  unfold INT_MAX, INT_MIN in *.
  destruct (Z.eqb_spec (zlen D') 0) as [Z0|NZ].
  - change (0 >=? 0) with true. change (0 <? 0) with false. cbn [andb].
    replace (e >? 2 ^ 31 - 1 - 0) with false by lia.
    replace (fits_int (0 + e)) with true by (unfold fits_int; lia). cbn [guard obind]. exists 0. reflexivity.
  - assert (FD : dec_digits D') by (unfold dec_digits in *; rewrite ED in F; apply Forall_app in F; tauto).
    assert (LD : 1 <= zlen D' <= 112).
    { rewrite ED, zlen_app in L. pose proof (zlen_nonneg D'). pose proof (zlen_nonneg (repeat 0 k)). lia. }
    assert (H0 : zget D' 0 <> Some 0 \/ D' = [0]).
    { left. destruct D' as [|d t]; [now cbn in NZ|]. rewrite zget_cons_0. rewrite ED in H. cbn [app] in H. intros Q.
      apply some_inj in Q. congruence. }
    set (m' := mexp + Z.of_nat k) in *. cbv zeta.
    match goal with |- context [fits_int ?m] => set (M' := m); replace (fits_int M') with true end.
    + cbn [guard obind]. destruct (d2f_ok D' M' FD LD H0) as (u & DU & _). eauto.
    + unfold fits_int, M'. destruct ((m' >=? 0) && (e >? 2 ^ 31 - 1 - m')) eqn:C1; [lia|].
      destruct ((m' <? 0) && (e <? - 2 ^ 31 - m')) eqn:C2; [lia|]. unfold m' in *. lia.
Qed.

Lemma mant_ready t : zlen t < 2 ^ 31 ->
  let D := fst (mant (p_dot t) (p_ip t) (p_fp t)) in let m := snd (mant (p_dot t) (p_ip t) (p_fp t)) in
  dec_digits D /\ zlen D <= 112 /\ (match D with [] => True | d :: _ => d <> 0 end) /\ - 2 ^ 31 < m < 2 ^ 31 - 112.
Proof.
  intros L.
  assert (FI : Forall (fun c => is_dec c = true) (p_ip t)) by apply tw_all.
  assert (FF : Forall (fun c => is_dec c = true) (p_fp t)) by (unfold p_fp; destruct (p_dot t); [apply tw_all|constructor]).
  destruct (digits_ready _ FI) as (DI & HI). destruct (digits_ready _ FF) as (DF & HF).
  pose proof (zlen_tw is_dec t) as LT. fold (p_ip t) in LT.
  assert (LF : 0 <= zlen (p_fp t) <= zlen t).
  { unfold p_fp. pose proof (zlen_dw is_dec t). pose proof (zlen_tl (dw is_dec t)). pose proof (zlen_tw is_dec (tl (dw is_dec t))).
    pose proof (zlen_nonneg t). destruct (p_dot t); [lia|change (zlen (@nil Z)) with 0; lia]. }
  pose proof (strip_len (p_ip t)) as LS.
  assert (F1 : forall l, dec_digits l -> dec_digits (firstn 112 l)).
  { intros l H. unfold dec_digits in *. rewrite <- (firstn_skipn 112 l) in H. apply Forall_app in H. tauto. }
  assert (F2 : forall l : list Z, zlen (firstn 112 l) <= 112) by (intros l; unfold zlen; rewrite firstn_length; lia).
  assert (F3 : forall l : list Z, match l with [] => True | d :: _ => d <> 0 end -> match firstn 112 l with [] => True | d :: _ => d <> 0 end)
    by (intros [|d l]; auto).
  assert (DF2 : dec_digits (digit_nums (p_fp t))).
  { unfold dec_digits, digit_nums. rewrite Forall_map. eapply Forall_impl; [|exact FF]. cbv beta. unfold is_dec. lia. }
  unfold mant. destruct (p_dot t).
  - destruct (Z.eqb_spec (zlen (firstn 112 (digit_nums (strip (p_ip t))))) 0) as [E|E]; cbn [fst snd].
    + split; [now apply F1|]. split; [apply F2|]. split; [now apply F3|lia].
    + split; [apply F1; unfold dec_digits in *; apply Forall_app; split; [now apply F1|exact DF2]|]. split; [apply F2|]. split; [|lia].
      apply F3. specialize (F3 _ HI). destruct (firstn 112 (digit_nums (strip (p_ip t)))) as [|d x]; [now cbn in E|exact F3].
  - cbn [fst snd]. split; [now apply F1|]. split; [apply F2|]. split; [now apply F3|lia].
Qed.

Lemma sf_number_total t : term t -> zlen t < 2 ^ 31 ->
  sf_number t = Some (inl tt) \/ exists u er pre rest, sf_number t = Some (inr (u, er, rest)) /\ t = pre ++ rest.
Proof.
  intros T L. rewrite (sf_number_eq t T L). destruct (_ =? 0); [auto|].
  destruct (mant_ready t L) as (M1 & M2 & M3 & M4).
  set (D := fst (mant _ _ _)) in *. set (m := snd (mant _ _ _)) in *.
  assert (SX : exists pre, t = pre ++ p_s3 t).
  { unfold p_s3. pose proof (tw_dw is_dec t) as E. unfold p_dot. destruct (Z.eqb_spec (peek (dw is_dec t)) 46) as [P|P]; [|eauto].
    destruct (dw is_dec t) as [|c r]; [discriminate P|]. cbn [tl]. rewrite (tw_dw is_dec r) in E. exists (tw is_dec t ++ c :: tw is_dec r).
    rewrite <- app_assoc. exact E. }
  destruct SX as (pre & SX). pose proof (term_s3 t T) as T3. set (s3 := p_s3 t) in *.
  unfold sf_tail. destruct (term_at s3 T3) as (-> & TL). cbn [obind].
  destruct ((peek s3 =? 69) || (peek s3 =? 101)) eqn:PE.
  - specialize (TL ltac:(lia)). unfold sf_sign. destruct (term_at _ TL) as (-> & TL2). cbn [obind].
    set (sn := if peek (tl s3) =? 45 then (true, tl (tl s3)) else if peek (tl s3) =? 43 then (false, tl (tl s3)) else (false, tl s3)).
    assert (SN : sn = (peek (tl s3) =? 45, esgn (tl s3))).
    { unfold sn, esgn. destruct (Z.eqb_spec (peek (tl s3)) 45); [now rewrite orb_true_r|].
      destruct (peek (tl s3) =? 43); reflexivity. }
    rewrite SN. cbn [obind].
    assert (T5 : term (esgn (tl s3))).
    { unfold esgn. destruct ((peek (tl s3) =? 43) || (peek (tl s3) =? 45)) eqn:Q; [apply TL2; lia|exact TL]. }
    rewrite (sf_exp_ok _ T5) by (unfold INT_MAX; lia). set (s5 := esgn (tl s3)) in *. cbn [orb].
    destruct (Z.leb_spec (val_from 10 0 (tw is_dec s5)) INT_MAX) as [V|V]; [|left; reflexivity].
    pose proof (val_from_ge 10 (tw is_dec s5) 0 ltac:(lia) ltac:(lia)) as VG. cbn [obind].
    destruct (sf_finish_total D m (peek (tl s3) =? 45) _ M1 M2 M3 M4 (conj VG V)) as (u & ->). cbn [obind]. right.
    destruct (zlen (tw is_dec s5) =? 0); cbn [negb]; [eauto 8|].
    assert (X : exists p, s3 = p ++ dw is_dec s5).
    { pose proof (tw_dw is_dec s5) as E5. destruct s3 as [|e s4]; [discriminate PE|]. cbn [tl] in *. unfold s5, esgn in *.
      destruct ((peek s4 =? 43) || (peek s4 =? 45)) eqn:Q; [|exists (e :: tw is_dec s4); cbn [app]; congruence].
      destruct s4 as [|c s4]; [discriminate Q|]. cbn [tl] in *. exists (e :: c :: tw is_dec s4). cbn [app]. congruence. }
    destruct X as (p & X). exists u, (u =? INFINITY), (pre ++ p), (dw is_dec s5). split; [reflexivity|].
    rewrite <- app_assoc, <- X. exact SX.
  - cbn [obind]. destruct (sf_finish_total D m false 0 M1 M2 M3 M4 ltac:(unfold INT_MAX; lia)) as (u & ->). cbn [obind]. right. eauto 8.
Qed.

(** Whatever the string: no byte after the terminator is read, no int overflows, the conversion buffer is
    not overrun, and *endptr points into the string. *)
Theorem C47_safe s : cstr s -> exists b erange pre rest, strtof s = Some (b, erange, rest) /\ s = pre ++ rest.
Proof.
  intros (FB & I0 & L).
  assert (T : term s) by (split; assumption). destruct (front_ok s T) as (A1 & A2 & TB).
  destruct capitals as (C1 & C2 & C3 & C4).
  assert (NZ : forall pat, Forall capital pat -> Forall (fun p => p <> 0) pat).
  { intros pat C. eapply Forall_impl; [|exact C]. unfold capital. intros; lia. }
  assert (SX : exists pre, s = pre ++ p_body s).
  { pose proof (tw_dw spaceb s) as E. unfold p_body. cbv zeta. destruct (_ || _) eqn:Q; [|eauto].
    destruct (dw spaceb s) as [|c r]; [discriminate Q|]. cbn [tl]. exists (tw spaceb s ++ [c]). rewrite <- app_assoc. exact E. }
  destruct SX as (pre & SX).
  assert (SK : forall n, exists q, s = q ++ skipn n (p_body s)).
  { intros n. exists (pre ++ firstn n (p_body s)). rewrite <- app_assoc, firstn_skipn. exact SX. }
  unfold strtof. rewrite A1. cbn [obind]. rewrite A2. cbn [obind]. rewrite (match_ok _ (NZ _ C1) _ TB). cbn [obind].
  destruct (starts [78; 65; 78] (p_body s)) eqn:S1.
  - cbn [obind]. destruct (SK 3%nat) as (q & Q). eexists _, _, q, _. split; [reflexivity|exact Q].
  - rewrite (match_ok _ (NZ _ C2) _ TB). cbn [obind]. destruct (starts [73; 78; 70] (p_body s)) eqn:S2.
    + pose proof (term_skip _ _ C2 TB S2) as T3. cbn [length] in T3.
      rewrite (match_ok _ (NZ _ C3) _ T3). cbn [obind]. destruct (SK 3%nat) as (q & Q).
      destruct (starts [73; 78; 73; 84; 89] (skipn 3 (p_body s))).
      * eexists _, _, (q ++ firstn 5 (skipn 3 (p_body s))), _. split; [reflexivity|]. rewrite <- app_assoc, firstn_skipn. exact Q.
      * eexists _, _, q, _. split; [reflexivity|exact Q].
    + pose proof (p_body_len s) as LB. destruct (sf_number_total (p_body s) TB ltac:(lia)) as [->|(u & er & p & rest & -> & E)]; cbn [obind].
      * exists 0, false, [], s. auto.
      * eexists _, _, (pre ++ p), _. split; [reflexivity|]. rewrite <- app_assoc, <- E. exact SX.
Qed.

(** ** Examples *)
(** " -12.50e1x" is -125, "inFiniTyx", "+.5e+", "1e39" overflows. *)
Example C47_cases :
  strtof [32;45;49;50;46;53;48;101;49;120;0] = Some (2 ^ 31 + 1123680256, false, [120;0]) /\
  strtof [105;110;70;105;110;105;84;121;120;0] = Some (2139095040, false, [120;0]) /\
  strtof [43;46;53;101;43;0] = Some (1056964608, false, [101;43;0]) /\
  strtof [49;101;51;57;0] = Some (2139095040, true, [0]) /\
  strtof [32;46;101;53;0] = Some (0, false, [32;46;101;53;0]).
Proof. vm_compute. auto. Qed.
Example C47_hyps : let s := [32;45;49;50;46;53;48;101;49;120;0] in
  cstr s /\ flongest s true [49;50;46;53;48;101;49] (FNum [1;2;5;0] (-1)) [120;0] /\ ordinary s (FNum [1;2;5;0] (-1)).
Proof.
  cbv zeta. split; [|split].
  - split; [repeat constructor; lia|]. split; [cbn; tauto|now vm_compute].
  - apply longest_iff. split; reflexivity.
  - split; [vm_compute; discriminate|now vm_compute].
Qed.
Example C47_hyps_none : let s := [32;46;101;53;0] in cstr s /\ forall neg body v rest, ~ fsubject s neg body v rest.
Proof.
  cbv zeta. split.
  - split; [repeat constructor; lia|]. split; [cbn; tauto|now vm_compute].
  - apply none_iff. reflexivity.
Qed.

(** ** Where the claim fails *)
(** An exponent above INT_MAX: 1e2147483648 overflows, and C asks for infinity, ERANGE and the end of the
    number; strtof says that there is no number at all. *)
Theorem C47_exponent_refuted :
  ~ forall s neg body v rest, cstr s -> zlen s <= 20 -> flongest s neg body v rest ->
      exists b erange, strtof s = Some (b, erange, rest) /\ converted neg v b erange.
Proof.
  intros H.
  destruct (H [49;101;50;49;52;55;52;56;51;54;52;56;0] false [49;101;50;49;52;55;52;56;51;54;52;56] (FNum [1] 2147483648) [0]) as (b & er & E & _).
  - split; [repeat constructor; lia|]. split; [cbn; tauto|now vm_compute].
  - now vm_compute.
  - apply longest_iff. split; reflexivity.
  - vm_compute in E. discriminate E.
Qed.

(** More than 112 digits: 1. followed by 120 zeros is read as 1e-9. *)
Theorem C47_long_refuted :
  ~ forall s neg body ds e rest, cstr s -> flongest s neg body (FNum ds e) rest -> Z.abs e < 1000 ->
      exists b erange, strtof s = Some (b, erange, rest) /\ converted neg (FNum ds e) b erange.
Proof.
  intros H. set (fp := repeat 48 120).
  destruct (H (49 :: 46 :: fp ++ [0]) false (49 :: 46 :: fp) (digit_nums (49 :: fp)) (- 120) [0]) as (b & er & E & u & R & B & _).
  - split; [repeat constructor; lia|]. split; [right; right; apply in_or_app; right; now left|now vm_compute].
  - apply longest_iff. split; reflexivity.
  - lia.
  - assert (EU : strtof (49 :: 46 :: fp ++ [0]) = Some (814313567, false, [0])) by (vm_compute; reflexivity).
    rewrite EU in E. injection E as <- _. cbn [sign_bit] in B. rewrite Z.add_0_l in B. subst u.
    unfold rounds_decimal, rounds_to in R. change (- 120 >=? 0) with false in R. cbv iota in R.
    destruct R as (_ & R). specialize (R 1065353216 ltac:(unfold f32_inf; lia)). destruct R as (R & _).
    revert R. vm_compute. intros R. now apply R.
Qed.

Print Assumptions C47_value_partial.
Print Assumptions C47_strtod_partial.
Print Assumptions C47_none.
Print Assumptions C47_total.
Print Assumptions C47_unique.
Print Assumptions C47_safe.
Print Assumptions C47_exponent_refuted.
Print Assumptions C47_long_refuted.
