(** The value a floating point conversion stores. *)
From Verif Require Import Base BaseLemmas CtypeModel FpModel FloatSpec FpProof FpMain NumModel NumSpec
  StrtolSpec StrtolProof NumProof NumFloat NumProps StrtofSpec StrtofModel StrtofProof StrtofProof2 StrtofProof3 StrtofProps
  ScanModel ScanSpec ScanProof ScanProof2 ScanProof3.

Ltac Zify.zify_post_hook ::= idtac.

Lemma mant_ready' dot ip fp : dec_text ip -> dec_text fp -> zlen ip + zlen fp <= 2 ^ 30 ->
  let D := fst (mant dot ip fp) in let m := snd (mant dot ip fp) in
  dec_digits D /\ zlen D <= 112 /\ (match D with [] => True | d :: _ => d <> 0 end) /\ - 2 ^ 31 < m < 2 ^ 31 - 112.
Proof.
  intros FI FF L.
  assert (DT : forall l, dec_text l -> Forall (fun c => is_dec c = true) l).
  { intros l F. unfold dec_text in F. eapply Forall_impl; [|exact F]. intros c H1. rewrite is_dec_digit. now apply digitb_spec. }
  apply DT in FI. apply DT in FF.
  destruct (digits_ready _ FI) as (DI & HI). destruct (digits_ready _ FF) as (DF & HF).
  pose proof (zlen_nonneg fp). pose proof (zlen_nonneg ip).
  pose proof (strip_len ip) as LS.
  assert (F1 : forall l, dec_digits l -> dec_digits (firstn 112 l)).
  { intros l H1. unfold dec_digits in *. rewrite <- (firstn_skipn 112 l) in H1. apply Forall_app in H1. tauto. }
  assert (F2 : forall l : list Z, zlen (firstn 112 l) <= 112) by (intros l; unfold zlen; rewrite firstn_length; lia).
  assert (F3 : forall l : list Z, match l with [] => True | d :: _ => d <> 0 end -> match firstn 112 l with [] => True | d :: _ => d <> 0 end)
    by (intros [|d l]; auto).
  assert (DF2 : dec_digits (digit_nums fp)).
  { unfold dec_digits, digit_nums. rewrite Forall_map. eapply Forall_impl; [|exact FF]. cbv beta. unfold is_dec. lia. }
  unfold mant. destruct dot.
  - destruct (Z.eqb_spec (zlen (firstn 112 (digit_nums (strip ip)))) 0) as [E|E]; cbn [fst snd].
    + split; [now apply F1|]. split; [apply F2|]. split; [now apply F3|lia].
    + split; [apply F1; unfold dec_digits in *; apply Forall_app; split; [now apply F1|exact DF2]|]. split; [apply F2|]. split; [|lia].
      apply F3. specialize (F3 _ HI). destruct (firstn 112 (digit_nums (strip ip))) as [|d x]; [now cbn in E|exact F3].
  - cbn [fst snd]. split; [now apply F1|]. split; [apply F2|]. split; [now apply F3|lia].
Qed.

Lemma float_value_ok sgn v fv text : fgood sgn v fv text -> zlen text <= 2 ^ 30 ->
  exists b, float_value v = Some b /\
    (match fv with FNum ds _ => sig_digits ds <= 112 | _ => True end -> exists erange, converted (sgn =? 45) fv b erange).
Proof.
  intros (<- & G) L. unfold float_value.
  destruct fv as [| |ds e].
  - rewrite G. cbn [W_NAN obind]. change (78 =? 78) with true. cbv iota. eexists. split; [reflexivity|]. intros _. exists false.
    split; [|reflexivity]. unfold is_nan. destruct (fsign v =? 45); now vm_compute.
  - rewrite G. cbn [W_INF obind]. change (73 =? 78) with false. cbv iota. eexists. split; [reflexivity|]. intros _. exists false.
    split; [|reflexivity]. destruct (fsign v =? 45); now vm_compute.
  - destruct G as (-> & dot & ip & fp & ex & ED & EE & DI & DF & ND & M & LT & EX & SX). cbn [obind].
    assert (CAP : INT_CAP = 2 ^ 31 - 1) by reflexivity.
    destruct (mant_ready' dot ip fp DI DF ltac:(lia)) as (M1 & M2 & M3 & M4). rewrite <- M in M1, M2, M3, M4. cbn [fst snd] in M1, M2, M3, M4.
    assert (ER : 0 <= feexp v <= INT_MAX) by (rewrite EX, CAP; unfold INT_MAX; lia).
    destruct (sf_finish_total (fds v) (fmexp v) (fesign v =? 45) (feexp v) M1 M2 M3 M4 ER) as (u & FU). rewrite FU. cbn [obind].
    eexists. split; [reflexivity|]. intros SD. exists (u =? f32_inf). rewrite ED, sig_nums in SD.
    rewrite (mant_short dot ip fp ND SD) in M. injection M as MD MM.
    destruct (sf_finish_ok (fds v) (fmexp v) (fesign v =? 45) (feexp v) M1 M2 M3) as (u' & FU' & RU); [pose proof (zlen_nonneg fp); rewrite MM in *; lia|exact ER|].
    rewrite FU in FU'. injection FU' as <-. exists u.
    assert (RD : rounds_decimal ds e u).
    { unfold rounds_decimal. rewrite ED, <- dec_value_strip, <- MD, EE.
      assert (EX' : ex = (if fesign v =? 45 then - feexp v else feexp v) \/ 2 ^ 31 <= Z.abs ex /\ feexp v = 2 ^ 31 - 1).
      { rewrite EX, CAP. destruct (fesign v =? 45); lia. }
      pose proof (zlen_nonneg ip). pose proof (zlen_nonneg fp).
      destruct EX' as [EX'|(BX & CX)]; [rewrite EX'; now replace (_ - zlen fp) with ((if fesign v =? 45 then - feexp v else feexp v) + fmexp v) by lia|].
      rewrite CX in RU. destruct (Z.eq_dec (dec_value (fds v)) 0) as [Z0|Z0].
      { rewrite Z0 in *. rewrite (rounds_unique _ _ _ _ RU (rounds_zero _)). apply rounds_zero. }
      pose proof (dec_from_bounds (fds v) 0 M1 ltac:(lia)) as (B1 & B2). fold (dec_value (fds v)) in B1, B2.
      assert (10 ^ zlen (fds v) <= 10 ^ 112) by (apply Z.pow_le_mono_r; lia).
      assert (NB : 0 <= dec_value (fds v) < 10 ^ 112) by (split; [nia|]; unfold dec_value; eapply Z.lt_le_trans; [exact B2|]; lia).
      assert (N1 : 1 <= dec_value (fds v)) by (clear - Z0 NB; lia).
      clear EX ER FU. destruct (fesign v =? 45).
      - assert (u = 0) as -> by (apply (rounds_unique _ _ _ _ RU), rounds_tiny; [exact NB|lia]). apply rounds_tiny; [exact NB|lia].
      - assert (u = f32_inf) as -> by (apply (rounds_unique _ _ _ _ RU), rounds_inf; [exact N1|lia]). apply rounds_inf; [exact N1|lia]. }
    split; [exact RD|]. split; [|apply Z.eqb_eq].
    pose proof (rounds_range _ _ _ RD) as RR. unfold f32_inf in RR. destruct (fsign v =? 45); [apply fneg_ok; lia|reflexivity].
Qed.
