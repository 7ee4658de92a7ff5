(** What the parser accepts is in the grammar. *)
From Coq Require Import NArith.
From Verif Require Import Base BaseLemmas DeclSpec DeclModel DtorSpec DtorModel DtorRep DtorProof DtorProof2 DtorProof3 DtorProof4 DtorProof5 DtorProof6.
Ltac Zify.zify_post_hook ::= idtac.

Section M.
Variable W : Z.
Variable tdf : N -> option Z.
Variable tenv : N -> option ty.
Hypothesis ST : forall t, startsDecl W tdf t = starts W tenv t.
Notation derived := (derived W tdf).
Notation fxnParams := (fxnParams W tdf).

Lemma hd_st l : hdIs (startsDecl W tdf) l = hdIs (starts W tenv) l.
Proof. destruct l; [reflexivity|]. cbn [hdIs]. apply ST. Qed.

Lemma wordLoop_sound toks : forall a m m' r, wordLoop a m toks = (m', r) -> exists ws, toks = map TW ws ++ r.
Proof.
  induction toks as [|t toks IH]; intros a m m' r H; cbn [wordLoop] in H.
  - injection H as <- <-. now exists [].
  - destruct t; try (injection H as <- <-; now exists []).
    destruct (wordMask w) as [mm dd]. destruct (Z.land a mm =? 0).
    + injection H as <- <-. now exists [].
    + destruct (IH _ _ _ _ H) as [ws ->]. now exists (w :: ws).
Qed.
Lemma endBase_rest s r b r' : endBase W s r = Ok (b, r') -> r' = r.
Proof. unfold endBase. destruct s; try (destruct (W =? 2)); intros H; try discriminate; now injection H. Qed.
Lemma spec_sound toks b r : parseSpec W tdf toks = Ok (b, r) -> hdIs (starts W tenv) toks = true ->
  exists bs, wf_b W tenv bs = true /\ toks = pr_base bs ++ r.
Proof.
  unfold parseSpec. intros H HS.
  assert (HB : baseOf W tdf toks = Ok (b, r)).
  { destruct (baseOf W tdf toks) as [[b' [|t l]]| | | |]; try discriminate. exact H. }
  clear H. destruct toks as [|t toks]; [discriminate|]. cbn [hdIs] in HS.
  destruct t; try discriminate; cbn [baseOf] in HB.
  - destruct (tdf n) as [p|]; [|discriminate]. injection HB as <- <-. exists (BTypedef n). split; [exact HS|reflexivity].
  - assert (X : forall w0, w = w0 -> endBase W (match w0 with WVoid => SVoid | _ => SFloat end) toks = Ok (b, r) ->
                exists bs, wf_b W tenv bs = true /\ TW w :: toks = pr_base bs ++ r).
    { intros w0 <- E. apply endBase_rest in E. subst. exists (BWords [w]). split; [exact HS|reflexivity]. }
    destruct w; try (eapply X; [reflexivity|exact HB]); clear X;
    (match type of HB with (let '(m, r) := wordLoop _ _ ?x in _) = _ =>
       destruct (wordLoop 127 0 x) as [m r1] eqn:EW end;
     destruct (maskType m) as [s|]; [|discriminate]; apply endBase_rest in HB; subst r1;
     cbn [wordLoop wordMask] in EW;
     match type of EW with (if ?c then _ else _) = _ => change c with false in EW end; cbv iota in EW;
     destruct (wordLoop_sound _ _ _ _ _ EW) as [ws ->];
     match goal with |- exists bs, _ /\ TW ?w0 :: _ = _ => exists (BWords (w0 :: ws)) end; split; [exact HS|reflexivity]).
  - injection HB as <- <-. exists (BStruct j). split; [exact HS|reflexivity].
Qed.

Lemma dims_sound' m : forall toks, (length toks <= m)%nat -> forall st allow st' r, dims st toks allow = Ok (st', r) ->
  exists ss, wf_s W tenv false ss = true /\ toks = pr_s ss ++ r.
Proof.
  induction m as [|m IH]; intros toks LM st allow st' r H; destruct toks as [|t toks]; try (cbn in LM; lia).
  - injection H as <- <-. exists SNil. split; reflexivity.
  - injection H as <- <-. exists SNil. split; reflexivity.
  - destruct t; try (injection H as <- <-; exists SNil; split; reflexivity).
    cbn [dims] in H.
    destruct (push st [(KVoid, 0)]) as [s1| | | |]; cbn [rbind] in H; try discriminate.
    destruct (push s1 [(KLb, 0)]) as [s2| | | |]; cbn [rbind] in H; try discriminate.
    destruct toks as [|t toks]; [discriminate|]. destruct t; try discriminate.
    + destruct allow; [|discriminate].
      destruct (push s2 [(KNum, 0)]) as [s3| | | |]; cbn [rbind] in H; try discriminate.
      destruct (push s3 [(KRb, 0)]) as [s4| | | |]; cbn [rbind] in H; try discriminate.
      destruct (IH toks ltac:(cbn in LM; lia) _ _ _ _ H) as (ss & WS & ->).
      exists (SArr None ss). rewrite wf_s_arr, pr_s_arr. auto.
    + destruct toks as [|t toks]; [discriminate|]. destruct t; try discriminate.
      destruct (n <? 1); [discriminate|].
      destruct (push s2 [(KNum, n)]) as [s3| | | |]; cbn [rbind] in H; try discriminate.
      destruct (push s3 [(KRb, 0)]) as [s4| | | |]; cbn [rbind] in H; try discriminate.
      destruct (IH toks ltac:(cbn in LM; lia) _ _ _ _ H) as (ss & WS & ->).
      exists (SArr (Some n) ss). rewrite wf_s_arr, pr_s_arr. auto.
Qed.
Lemma dims_sound toks st allow st' r : dims st toks allow = Ok (st', r) ->
  exists ss, wf_s W tenv false ss = true /\ toks = pr_s ss ++ r.
Proof. eapply dims_sound'. apply le_n. Qed.
Lemma stars_sound toks s r : starsOf toks = (s, r) -> toks = repeat TStar s ++ r.
Proof.
  revert s r. induction toks as [|t toks IH]; intros s r H; cbn [starsOf] in H.
  - injection H as <- <-. reflexivity.
  - destruct t; try (injection H as <- <-; reflexivity).
    destruct (starsOf toks) as [n r'] eqn:E. injection H as <- <-. cbn [repeat app]. now rewrite <- (IH n r' eq_refl).
Qed.

Definition SD (f : nat) : Prop := forall st toks st' r, derived f st toks = Ok (st', r) ->
  exists d k rest, wf_d W tenv false d = true /\ toks = pr_d d ++ r /\ r = k :: rest /\ follows k = true.
Definition SP (f : nat) : Prop := forall st toks cnt ell st' r, 0 <= cnt -> fxnParams f st toks cnt ell = Ok (st', r) ->
  (exists rest, r = TRp :: rest) /\
  ((ell = false /\ exists ps, wf_p W tenv false ps = true /\ toks = pr_p ps ++ r) \/
   (ell = false /\ 0 < cnt /\ exists tr : bool, toks = TEll :: (if tr then [TComma] else []) ++ r) \/
   (ell = true /\ toks = r)).

Lemma isRp_hd toks : hdIs isRp toks = true -> exists rest, toks = TRp :: rest.
Proof. destruct toks as [|[] toks]; try discriminate. eauto. Qed.

Lemma step_p f : SD f -> SP f -> SP (S f).
Proof.
  intros HD HP st toks cnt ell st' r HC H. rewrite fxn_raw in H.
  destruct (hdIs isRp toks) eqn:ER.
  - injection H as <- <-. destruct (isRp_hd _ ER) as [rest ->]. split; [eauto|].
    destruct ell; [right; right; auto|]. left. split; [reflexivity|]. exists PNil. split; reflexivity.
  - destruct (phead W tdf f st toks cnt ell) as [[[[st1 b] toks1] ell1]| | | |] eqn:EH; cbn [rbind] in H; try discriminate.
    destruct (pushBase st1 b) as [st2| | | |]; cbn [rbind] in H; try discriminate.
    destruct (decay st2 (zlen st + 1)) as [st3| | | |]; cbn [rbind] in H; try discriminate.
    unfold phead in EH. rewrite hd_st in EH. destruct (hdIs (starts W tenv) toks) eqn:ES; cbn [negb] in EH.
    + destruct ell; [discriminate|].
      destruct (parseSpec W tdf toks) as [[b0 r0]| | | |] eqn:EP; cbn [rbind] in EH; try discriminate.
      destruct (derived f st r0) as [[st0 r1]| | | |] eqn:ED; cbn [rbind] in EH; try discriminate.
      injection EH as <- <- <- <-.
      destruct (spec_sound _ _ _ EP ES) as (bs & WB & ->).
      destruct (HD _ _ _ _ ED) as (d & k & rest & WD & -> & -> & HK).
      unfold ptail in H. destruct k; try discriminate.
      * destruct (voidParam st3 (cnt + 1) true); [discriminate|]. injection H as <- <-. split; [eauto|].
        left. split; [reflexivity|]. exists (PLast bs d). rewrite wf_p_last, WB, WD, pr_p_last, <- app_assoc. auto.
      * destruct (voidParam st3 (cnt + 1) false); [discriminate|].
        destruct (HP _ _ (cnt + 1) _ _ _ ltac:(lia) H) as ([rest' ->] & [(_ & ps & WP & ->)|[(_ & _ & tr & ->)|[? _]]]); [| |discriminate].
        -- split; [eauto|]. left. split; [reflexivity|]. exists (PCons bs d ps).
           rewrite wf_p_cons, WB, WD, WP, pr_p_cons, <- !app_assoc. cbn [app]. auto.
        -- split; [eauto|]. left. split; [reflexivity|]. exists (PEll bs d tr).
           rewrite wf_p_ell, WB, WD, pr_p_ell, <- !app_assoc. cbn [app]. auto.
    + destruct toks as [|t toks]; [discriminate|]. destruct t; try discriminate.
      destruct ((cnt =? 0) || ell) eqn:EC; [discriminate|]. apply orb_false_elim in EC. destruct EC as [EC ->].
      destruct (push st [(KIdent, -1)]) as [s1| | | |]; cbn [rbind] in EH; try discriminate.
      injection EH as <- <- <- <-. unfold ptail in H. destruct toks as [|t toks]; [discriminate|]. destruct t; try discriminate.
      * destruct (voidParam st3 (cnt + 1) true); [discriminate|]. injection H as <- <-. split; [eauto|].
        right. left. split; [reflexivity|]. split; [lia|]. exists false. reflexivity.
      * destruct (voidParam st3 (cnt + 1) false); [discriminate|].
        destruct (HP _ _ (cnt + 1) _ _ _ ltac:(lia) H) as ([rest' ->] & [(? & _)|[(? & _)|(_ & ->)]]); try discriminate.
        split; [eauto|]. right. left. split; [reflexivity|]. split; [lia|]. exists true. reflexivity.
Qed.

Lemma fun_sound f st toks st' r : SP f -> funpart W tdf f st toks = Ok (st', r) ->
  exists ps, wf_p W tenv false ps = true /\ toks = pr_p ps ++ TRp :: r.
Proof.
  intros HP. unfold funpart.
  destruct (push st [(KLp, 0)]) as [s1| | | |]; cbn [rbind]; try discriminate.
  destruct (fxnParams f s1 toks 0 false) as [[s2 r2]| | | |] eqn:EF; cbn [rbind]; try discriminate.
  destruct (push s2 [(KRp, 0)]) as [s3| | | |]; cbn [rbind]; try discriminate.
  intros E. injection E as <- <-.
  destruct (HP _ _ 0 _ _ _ ltac:(lia) EF) as ([rest ->] & [(_ & ps & WP & ->)|[(_ & ? & _)|(? & _)]]); [|lia|discriminate].
  exists ps. auto.
Qed.

Lemma step_D f : SD f -> SP f -> SD (S f).
Proof.
  intros HD HP st toks st' r H. rewrite derived_S in H.
  destruct (starsOf toks) as [s toks1] eqn:ES. apply stars_sound in ES. subst toks.
  destruct (corepart W tdf f st toks1) as [[[params st1] toks2]| | | |] eqn:EC; cbn [rbind] in H; try discriminate.
  destruct (sufpart W tdf f params st1 toks2) as [[st2 toks3]| | | |] eqn:EP; cbn [rbind] in H; try discriminate.
  assert (HE : exists k rest, toks3 = k :: rest /\ r = toks3 /\ follows k = true).
  { unfold endpart in H. destruct (pushStars s st2) as [s3| | | |]; cbn [rbind] in H; try discriminate.
    destruct toks3 as [|k rest]; [discriminate|]. cbn [hdIs] in H. destruct (follows k) eqn:EK; [|discriminate].
    injection H as <- <-. eauto. }
  destruct HE as (k & rest & -> & -> & HK). clear H.
  assert (CORE : exists c, wf_c W tenv false c = true /\
    if (params : bool) then c = CName None /\ toks1 = TLp :: toks2 else toks1 = pr_c c ++ toks2).
  { unfold corepart in EC.
    assert (DF : (let! st := push st [(KIdent, -1)] in Ok (false, st, toks1)) = Ok (params, st1, toks2) ->
                 exists c, wf_c W tenv false c = true /\ if (params : bool) then c = CName None /\ toks1 = TLp :: toks2 else toks1 = pr_c c ++ toks2).
    { destruct (push st [(KIdent, -1)]); cbn [rbind]; intros E; try discriminate. injection E as <- <- <-.
      exists (CName None). split; reflexivity. }
    destruct toks1 as [|t toks1]; [apply DF, EC|]. destruct t; try (apply DF, EC); clear DF.
    - rewrite hd_st in EC. destruct (hdIs isRp toks1 || hdIs (starts W tenv) toks1) eqn:EI.
      + injection EC as <- <- <-. exists (CName None). auto.
      + apply orb_false_elim in EI. destruct EI as [I1 I2].
        destruct (derived f st toks1) as [[s1 r1]| | | |] eqn:ED; cbn [rbind] in EC; try discriminate.
        destruct (HD _ _ _ _ ED) as (d & k1 & rest1 & WD & -> & -> & _).
        destruct k1; try discriminate. injection EC as <- <- <-.
        exists (CParen d). rewrite wf_c_paren, pr_c_paren, WD. cbn [app]. rewrite <- app_assoc. split; [|reflexivity].
        destruct (pr_d d) as [|t l]; [discriminate|]. cbn [app hdIs] in I2. cbn [inner_ok]. rewrite I2. reflexivity.
    - destruct (push st [(KIdent, Z.of_N n)]); cbn [rbind] in EC; try discriminate. injection EC as <- <- <-.
      exists (CName (Some n)). split; reflexivity. }
  destruct CORE as (c & WC & HC).
  assert (SUF : exists ss, wf_s W tenv false ss = true /\ (if (params : bool) then TLp :: toks2 else toks2) = pr_s ss ++ k :: rest).
  { unfold sufpart in EP. destruct params; cbn [orb] in EP.
    - assert (EF : exists s1, funpart W tdf f s1 toks2 = Ok (st2, k :: rest)).
      { destruct (topk st1) as [k1|]; [|discriminate]. destruct k1; try discriminate;
        (destruct (push st1 [(KIdent, -1)]) as [s1| | | |]; cbn [rbind] in EP; try discriminate; exists s1; exact EP). }
      destruct EF as [s1 EF]. destruct (fun_sound _ _ _ _ _ HP EF) as (ps & WP & ->).
      exists (SFun ps SNil). rewrite wf_s_fun, WP, pr_s_fun. cbn [app]. rewrite <- app_assoc. split; reflexivity.
    - destruct (hdIs isLp toks2) eqn:EL.
      + destruct toks2 as [|t toks2]; [discriminate|]. destruct t; try discriminate. cbn [rbind tl] in EP.
        assert (EF : exists s1, funpart W tdf f s1 toks2 = Ok (st2, k :: rest)).
        { exists st1. destruct (topk st1) as [k1|]; [|discriminate]. destruct k1; try discriminate; exact EP. }
        destruct EF as [s1 EF]. destruct (fun_sound _ _ _ _ _ HP EF) as (ps & WP & ->).
        exists (SFun ps SNil). rewrite wf_s_fun, WP, pr_s_fun. cbn [app]. rewrite <- app_assoc. split; reflexivity.
      + destruct (hdIs isLb toks2).
        * assert (EF : dims st1 toks2 true = Ok (st2, k :: rest)).
          { destruct (topk st1) as [k1|]; [|discriminate]. destruct k1; try discriminate; exact EP. }
          apply dims_sound in EF. exact EF.
        * injection EP as <- ->. exists SNil. split; reflexivity. }
  destruct SUF as (ss & WS & HS).
  exists (Dc s c ss), k, rest. rewrite wf_d_eq, WC, WS, pr_d_eq. split; [reflexivity|]. split; [|auto].
  rewrite <- !app_assoc. f_equal. destruct params.
  - destruct HC as [-> ->]. exact HS.
  - rewrite HC, HS. reflexivity.
Qed.

Lemma sound_all f : SD f /\ SP f.
Proof.
  induction f as [|f [HD HP]].
  - split; intros ?; intros; discriminate.
  - split; [now apply step_D|now apply step_p].
Qed.
End M.
