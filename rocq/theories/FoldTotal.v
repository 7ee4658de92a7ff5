(** Which arithmetic expressions are folded: exactly those whose value is determined and defined. *)
From Verif Require Import Base BaseLemmas ExprSpec FoldSpec FoldModel FoldProof FoldMain.

Section T.
Variable W : Z.
Hypothesis HW : W = 2 \/ W = 4.
Context {A St : Type}.
Variable opq : A -> St -> option (Z * St).
Variable bp : Z.
Variable rtl : bool.
Variable strict : bool.
Notation wd := (word W).
Notation seval := (seval W opq bp rtl strict).

Lemma noptr_ty (e : src A) : noptr e = true -> isptr (tyof e) = false.
Proof.
  assert (CC : forall a b, isptr (common a b) = false) by (intros; unfold common; destruct (_ || _); reflexivity).
  induction e as [u n|t x|esz o|u a IH|a IH|o a IHa b IHb|c a IHa b IHb|t a IH|a IHa b IHb|a IHa b IHb|c IHc a IHa b IHb|a IHa b IHb];
  cbn [noptr tyof]; intros H; try reflexivity.
  - destruct u; reflexivity.
  - destruct (isptr t); [discriminate|reflexivity].
  - discriminate.
  - specialize (IH H). destruct (tyof a); cbn in *; congruence.
  - apply andb_prop in H. destruct H as [Ha Hb]. specialize (IHa Ha). specialize (IHb Hb).
    destruct o; try apply CC; unfold sumty; rewrite ?IHa, ?IHb; try apply CC;
    destruct (tyof a); cbn in *; congruence.
  - apply andb_prop in H. destruct H as [Ha Hb]. destruct (isptr t); [discriminate|reflexivity].
  - apply andb_prop in H. destruct H as [H Hb]. apply andb_prop in H. destruct H as [Hc Ha].
    rewrite (IHa Ha), (IHb Hb). apply CC.
  - apply andb_prop in H. apply IHb, H.
Qed.
Lemma noptr_nomix (e : src A) : noptr e = true -> nomix e = true.
Proof.
  induction e as [u n|t x|esz o|u a IH|a IH|o a IHa b IHb|c a IHa b IHb|t a IH|a IHa b IHb|a IHa b IHb|c IHc a IHa b IHb|a IHa b IHb];
  cbn [noptr nomix]; intros H; try reflexivity; auto.
  all: try (apply andb_prop in H; destruct H as [Ha Hb]; rewrite ?IHa, ?IHb, ?IH; auto; fail).
  apply andb_prop in H. destruct H as [H Hb]. apply andb_prop in H. destruct H as [Hc Ha].
  rewrite IHc, IHa, IHb, (noptr_ty a Ha), (noptr_ty b Hb); auto.
Qed.

Lemma fold_ty (e : src A) r : wf W e = true -> noptr e = true -> fold W e = Some r -> snd (fst r) = tyof e.
Proof.
  intros H1 H2 F.
  pose proof (fold_den W HW opq bp rtl true e r H1 (or_intror eq_refl) F) as D.
  destruct r as [[t y] c]. apply D.
Qed.

(** the front end accepts every arithmetic expression *)
Lemma fold_accepts (e : src A) : wf W e = true -> noptr e = true -> exists r, fold W e = Some r.
Proof.
  induction e as [u n|t x|esz o|u a IH|a IH|o a IHa b IHb|c a IHa b IHb|t a IH|a IHa b IHb|a IHa b IHb|c IHc a IHa b IHb|a IHa b IHb];
  cbn [wf noptr fold]; intros Wf H; eauto; try discriminate.
  - destruct (IH Wf H) as [[[t y] c] F]. rewrite F. cbn [obind foldUn].
    pose proof (fold_ty a _ Wf H F) as E. cbn in E. rewrite E, (noptr_ty a H). eauto.
  - destruct (IH Wf H) as [[[t y] c] F]. rewrite F. cbn [obind]. unfold foldCmp.
    pose proof (fold_ty a _ Wf H F) as E. cbn in E. rewrite E, (noptr_ty a H). cbn. eauto.
  - apply andb_prop in Wf, H. destruct Wf as [Wa Wb], H as [Ha Hb].
    destruct (IHa Wa Ha) as [[[ta ya] ca] Fa]. destruct (IHb Wb Hb) as [[[tb yb] cb] Fb].
    rewrite Fa, Fb. cbn [obind].
    pose proof (fold_ty a _ Wa Ha Fa) as Ea. cbn in Ea. pose proof (fold_ty b _ Wb Hb Fb) as Eb. cbn in Eb.
    destruct o; unfold foldAdd, foldMul; rewrite Ea, Eb, (noptr_ty a Ha), (noptr_ty b Hb); cbn [orb andb negb]; cbv zeta; eauto;
    match goal with |- context [let '(_, _) := ?q in _] => destruct q end; eauto.
  - apply andb_prop in Wf, H. destruct Wf as [Wa Wb], H as [Ha Hb].
    destruct (IHa Wa Ha) as [[[ta ya] ca] Fa]. destruct (IHb Wb Hb) as [[[tb yb] cb] Fb].
    rewrite Fa, Fb. cbn [obind].
    pose proof (fold_ty a _ Wa Ha Fa) as Ea. cbn in Ea. pose proof (fold_ty b _ Wb Hb Fb) as Eb. cbn in Eb.
    unfold foldCmp. rewrite Ea, Eb, (noptr_ty a Ha), (noptr_ty b Hb). destruct c; cbn; eauto.
  - apply andb_prop in Wf, H. destruct Wf as [Wa Wb], H as [Ha Hb].
    destruct (IH Wb Hb) as [[[tb yb] cb] Fb]. rewrite Fb. cbn [obind]. unfold foldCast. cbv zeta.
    match goal with |- context [let '(_, _) := ?q in _] => destruct q end. eauto.
  - apply andb_prop in Wf, H. destruct Wf as [Wa Wb], H as [Ha Hb].
    destruct (IHa Wa Ha) as [ra Fa]. destruct (IHb Wb Hb) as [rb Fb]. rewrite Fa, Fb. cbn. eauto.
  - apply andb_prop in Wf, H. destruct Wf as [Wa Wb], H as [Ha Hb].
    destruct (IHa Wa Ha) as [ra Fa]. destruct (IHb Wb Hb) as [rb Fb]. rewrite Fa, Fb. cbn. eauto.
  - apply andb_prop in Wf, H. destruct Wf as [Wf Wb], H as [H Hb].
    apply andb_prop in Wf, H. destruct Wf as [Wc Wa], H as [Hc Ha].
    destruct (IHa Wa Ha) as [[[ta ya] ca] Fa]. destruct (IHb Wb Hb) as [[[tb yb] cb] Fb].
    destruct (IHc Wc Hc) as [[[tc yc] cc] Fc]. rewrite Fa, Fb, Fc. cbn [obind].
    pose proof (fold_ty a _ Wa Ha Fa) as Ea. cbn in Ea. pose proof (fold_ty b _ Wb Hb Fb) as Eb. cbn in Eb.
    unfold foldCond. rewrite Ea, Eb.
    pose proof (noptr_ty a Ha) as Pa. pose proof (noptr_ty b Hb) as Pb.
    destruct (tyof a), (tyof b); cbn in Pa, Pb; try discriminate; cbn; destruct cc as [s|]; eauto;
    destruct (truncUint W s =? 0); cbn; destruct ca, cb; eauto.
  - apply andb_prop in Wf, H. destruct Wf as [Wa Wb], H as [Ha Hb].
    destruct (IHa Wa Ha) as [ra Fa]. destruct (IHb Wb Hb) as [rb Fb]. rewrite Fa, Fb. cbn. eauto.
Qed.

Lemma div_def (m uns : bool) sl sr x y s :
  let t := if uns then TUint else TInt in
  wd sl = wd x -> wd sr = wd y -> divCalc W m sl sr uns true true = (true, s) ->
  exists z, arith W (if m then BMod else BDiv) t (cv W t x) (cv W t y) = Some z.
Proof.
  cbv zeta. intros H1 H2. unfold divCalc. cbn [negb].
  destruct uns; cbn [cv].
  - rewrite !(tU W HW), H1, H2.
    destruct (s32 (wd y) =? 0) eqn:Z0; [discriminate|]. intros _.
    assert (Y : wd y <> 0).
    { intros E. rewrite E in Z0. discriminate Z0. }
    change (wrap (8 * W)) with wd.
    assert (Q : Z.quot (wd x) (wd y) =? wd (Z.quot (wd x) (wd y)) = true).
    { apply Z.eqb_eq. symmetry. apply (wd_id W). pose proof (wd_range W HW x). pose proof (wd_range W HW y).
      split; [apply Z.quot_pos; lia|]. pose proof (quot_range (wd x) (wd y) Y). lia. }
    destruct m; cbn [arith cv]; change (wrap (8 * W)) with wd; apply Z.eqb_neq in Y; rewrite Y, Q; eauto.
  - rewrite !(tI W HW), (sint_eq W HW _ _ H1), (sint_eq W HW _ _ H2).
    destruct (sint W y =? 0) eqn:Y; [discriminate|]. cbn [negb andb].
    destruct (Z.quot (sint W x) (sint W y) =? sint W (Z.quot (sint W x) (sint W y))) eqn:Q.
    + intros _. change (swrap (8 * W)) with (sint W).
      destruct m; cbn [arith cv]; change (swrap (8 * W)) with (sint W); rewrite Y, Q; eauto.
    + rewrite orb_true_r. discriminate.
Qed.

Definition notnum (t : te A) (c : option Z) : Prop := c = None -> forall u n, t <> TNum u n.
Lemma notnum_simp t y c : (forall u n, t <> TNum u n) -> notnum (simp t y c) c.
Proof. intros H E. subst c. exact H. Qed.

(** what the results of the rules look like for numbers *)
Lemma fold_some (e : src A) t y c : wf W e = true -> noptr e = true -> fold W e = Some (t, y, c) -> notnum t c.
Proof.
  revert t y c.
  induction e as [u n|t x|esz o|u a IH|a IH|o a IHa b IHb|cm a IHa b IHb|t a IH|a IHa b IHb|a IHa b IHb|cd IHc a IHa b IHb|a IHa b IHb];
  cbn [wf noptr fold]; intros t' y c Wf H F.
  - apply some_inj in F. apply pair_inj in F. destruct F as [F <-]. discriminate.
  - apply some_inj in F. apply pair_inj in F. destruct F as [F <-]. apply pair_inj in F. destruct F as [<- _].
    intros _ u n. discriminate.
  - discriminate.
  - destruct (fold W a) as [[[ta ya] ca]|]; [|discriminate]. cbn [obind] in F. unfold foldUn in F.
    destruct (isptr ya); [discriminate|]. apply some_inj in F. apply pair_inj in F. destruct F as [F <-].
    apply pair_inj in F. destruct F as [<- _]. apply notnum_simp. discriminate.
  - destruct (fold W a) as [[[ta ya] ca]|]; [|discriminate]. cbn [obind] in F. unfold foldCmp in F. cbv zeta in F.
    match type of F with (if ?b then _ else _) = _ => destruct b; [discriminate|] end.
    apply some_inj in F. apply pair_inj in F. destruct F as [F <-].
    apply pair_inj in F. destruct F as [<- _]. apply notnum_simp. discriminate.
  - apply andb_prop in Wf, H. destruct Wf as [Wa Wb], H as [Ha Hb].
    destruct (fold W b) as [[[tb yb] cb]|] eqn:Fb; [|discriminate].
    destruct (fold W a) as [[[ta ya] ca]|] eqn:Fa; [|discriminate]. cbn [obind] in F.
    pose proof (fold_ty a _ Wa Ha Fa) as Ea. cbn in Ea. pose proof (fold_ty b _ Wb Hb Fb) as Eb. cbn in Eb.
    subst ya yb. pose proof (noptr_ty a Ha) as Pa. pose proof (noptr_ty b Hb) as Pb.
    destruct o; unfold foldAdd, foldMul in F; rewrite Pa, Pb in F; cbn [orb andb negb] in F; cbv zeta in F;
    try match type of F with context [let '(_, _) := ?q in _] => destruct q end;
    apply some_inj in F; apply pair_inj in F; destruct F as [F <-];
    apply pair_inj in F; destruct F as [<- _]; apply notnum_simp; discriminate.
  - apply andb_prop in Wf, H. destruct Wf as [Wa Wb], H as [Ha Hb].
    destruct (fold W b) as [[[tb yb] cb]|] eqn:Fb; [|discriminate].
    destruct (fold W a) as [[[ta ya] ca]|] eqn:Fa; [|discriminate]. cbn [obind] in F. unfold foldCmp in F. cbv zeta in F.
    match type of F with (if ?b then _ else _) = _ => destruct b; [discriminate|] end.
    apply some_inj in F. apply pair_inj in F. destruct F as [F <-].
    apply pair_inj in F. destruct F as [<- _]. apply notnum_simp. discriminate.
  - apply andb_prop in Wf, H. destruct Wf as [Wa Wb], H as [Ha Hb].
    destruct (fold W a) as [[[ta ya] ca]|] eqn:Fa; [|discriminate]. cbn [obind] in F. unfold foldCast in F. cbv zeta in F.
    specialize (IH _ _ _ Wb Hb eq_refl). unfold notnum in IH.
    destruct (isptr t) eqn:Pt; [discriminate|].
    destruct t as [| |sz|esz]; try discriminate Pt.
    + apply some_inj in F. apply pair_inj in F. destruct F as [F Ec]. apply pair_inj in F. destruct F as [<- _].
      intros ->. destruct ca as [s|]; [destruct ta; discriminate Ec|].
      destruct ta; try discriminate Ec; discriminate.
    + apply some_inj in F. apply pair_inj in F. destruct F as [F Ec]. apply pair_inj in F. destruct F as [<- _].
      intros ->. destruct ca as [s|]; [destruct ta; discriminate Ec|].
      destruct ta; try discriminate Ec; discriminate.
    + intros ->. destruct (sz =? 1); [|destruct (sz =? -1); [|destruct (sz =? 2)]];
      apply some_inj in F; apply pair_inj in F; destruct F as [F Ec]; apply pair_inj in F; destruct F as [<- _];
      destruct ca as [s|]; destruct ta; cbn in Ec; try discriminate Ec; discriminate.
  - apply andb_prop in Wf, H. destruct Wf as [Wa Wb], H as [Ha Hb].
    destruct (fold W b) as [rb|] eqn:Fb; [|discriminate]. destruct (fold W a) as [ra|] eqn:Fa; [|discriminate].
    cbn [obind] in F. apply some_inj in F. unfold foldLog in F.
    destruct (if iscmp a then ra else _) as [[ta ya] ca], (if iscmp b then rb else _) as [[tb yb] cb].
    cbv zeta in F. apply pair_inj in F. destruct F as [F <-]. apply pair_inj in F. destruct F as [<- _].
    apply notnum_simp. discriminate.
  - apply andb_prop in Wf, H. destruct Wf as [Wa Wb], H as [Ha Hb].
    destruct (fold W b) as [rb|] eqn:Fb; [|discriminate]. destruct (fold W a) as [ra|] eqn:Fa; [|discriminate].
    cbn [obind] in F. apply some_inj in F. unfold foldLog in F.
    destruct (if iscmp a then ra else _) as [[ta ya] ca], (if iscmp b then rb else _) as [[tb yb] cb].
    cbv zeta in F. apply pair_inj in F. destruct F as [F <-]. apply pair_inj in F. destruct F as [<- _].
    apply notnum_simp. discriminate.
  - apply andb_prop in Wf, H. destruct Wf as [Wf Wb], H as [H Hb].
    apply andb_prop in Wf, H. destruct Wf as [Wc Wa], H as [Hc Ha].
    destruct (fold W a) as [[[ta ya] ca]|] eqn:Fa; [|discriminate]. destruct (fold W b) as [[[tb yb] cb]|] eqn:Fb; [|discriminate].
    destruct (fold W cd) as [[[tc yc] cc]|] eqn:Fc; [|discriminate]. cbn [obind] in F. unfold foldCond in F.
    destruct (compat W _ _ ca cb) as [yy|]; [|discriminate].
    assert (PL : forall t0 c0, notnum t0 c0 -> c0 = None -> forall u n,
              match t0 with TOpq _ _ => TUn EPlus t0 | _ => t0 end <> TNum u n).
    { intros t0 c0 N E u n. specialize (N E). destruct t0; try discriminate. apply N. }
    destruct cc as [s|].
    + destruct (negb (truncUint W s =? 0)).
      * destruct ca; apply some_inj in F; apply pair_inj in F; destruct F as [F <-]; apply pair_inj in F;
        destruct F as [<- _]; [discriminate|]. intros _. apply (PL ta None); [|reflexivity].
        eapply IHa; eauto.
      * destruct cb; apply some_inj in F; apply pair_inj in F; destruct F as [F <-]; apply pair_inj in F;
        destruct F as [<- _]; [discriminate|]. intros _. apply (PL tb None); [|reflexivity].
        eapply IHb; eauto.
    + apply some_inj in F; apply pair_inj in F; destruct F as [F <-]; apply pair_inj in F;
      destruct F as [<- _]. discriminate.
  - apply andb_prop in Wf, H. destruct Wf as [Wa Wb], H as [Ha Hb].
    destruct (fold W b) as [[[tb yb] cb]|] eqn:Fb; [|discriminate].
    destruct (fold W a) as [[[ta ya] ca]|] eqn:Fa; [|discriminate].
    cbn [obind foldComma] in F. apply some_inj in F.
    destruct ca, cb; apply pair_inj in F; destruct F as [F <-]; apply pair_inj in F; destruct F as [<- _]; discriminate.
Qed.

Lemma wd01 : wd 0 = wd 1 -> False.
Proof. destruct HW; subst W; discriminate. Qed.
Definition Dn (e : src A) : Prop := forall st, exists z, seval e st = Some (z, st).
Lemma both_def f g (st : St) (x y : Z) : f st = Some (x, st) -> g st = Some (y, st) ->
  both rtl f g st = Some (x, y, st).
Proof.
  intros F G. destruct rtl eqn:R; unfold both; [rewrite G|rewrite F]; cbn [obind]; [rewrite F|rewrite G]; reflexivity.
Qed.
Lemma cst (c : option Z) : {s | c = Some s} + {c = None}.
Proof. destruct c as [s|]; [left; exists s|right]; reflexivity. Qed.

Lemma fold_val (e : src A) t y s st z : wf W e = true -> noptr e = true -> fold W e = Some (t, y, Some s) ->
  seval e st = Some (z, st) -> wd s = wd z.
Proof.
  intros Wf H F E.
  pose proof (fold_den W HW opq bp rtl strict e _ Wf (or_introl (noptr_nomix e H)) F) as D.
  destruct D as (_ & _ & _ & _ & _ & D). apply (D s eq_refl _ _ _ E).
Qed.
Lemma fold_st (e : src A) t y s st z st' : wf W e = true -> noptr e = true -> fold W e = Some (t, y, Some s) ->
  seval e st = Some (z, st') -> st' = st /\ wd s = wd z /\ cv W (tyof e) z = z.
Proof.
  intros Wf H F E.
  pose proof (fold_den W HW opq bp rtl strict e _ Wf (or_introl (noptr_nomix e H)) F) as D.
  destruct D as (_ & _ & _ & D4 & _ & D). destruct (D s eq_refl _ _ _ E) as (Q1 & Q2 & _).
  split; [exact Q1|]. split; [exact Q2|]. exact (D4 _ _ _ E).
Qed.

Lemma snd_operand (e : src A) (r : te A * ty * option Z) : let r' := if iscmp e then r else foldBool W r in
  snd r' = if iscmp e then snd r else option_map (fun s => b2z (negb (truncInt W s =? 0))) (snd r).
Proof. cbv zeta. destruct (iscmp e); [reflexivity|]. destruct r as [[t y] c]. reflexivity. Qed.

Lemma folded_defined (e : src A) t y s : wf W e = true -> noptr e = true -> noshift e = true ->
  fold W e = Some (t, y, Some s) -> Dn e.
Proof.
  revert t y s.
  induction e as [u n|t x|esz o|u a IH|a IH|o a IHa b IHb|cm a IHa b IHb|t a IH|a IHa b IHb|a IHa b IHb|cd IHc a IHa b IHb|a IHa b IHb];
  cbn [wf noptr noshift fold]; intros t' y s Wf H NS F st.
  - cbn. eauto.
  - discriminate.
  - discriminate.
  - destruct (fold W a) as [[[ta ya] ca]|] eqn:Fa; [|discriminate]. cbn [obind] in F. unfold foldUn in F.
    destruct (isptr ya); [discriminate|]. apply some_inj in F. apply pair_inj in F. destruct F as [_ F].
    destruct ca as [sa|]; [|discriminate].
    destruct (IH _ _ _ Wf H NS eq_refl st) as [z E]. cbn [FoldSpec.seval]. rewrite E. cbn. eauto.
  - destruct (fold W a) as [[[ta ya] ca]|] eqn:Fa; [|discriminate]. cbn [obind] in F. unfold foldCmp in F. cbv zeta in F.
    match type of F with (if ?b then _ else _) = _ => destruct b; [discriminate|] end.
    apply some_inj in F. apply pair_inj in F. destruct F as [_ F].
    destruct ca as [sa|]; [|discriminate].
    destruct (IH _ _ _ Wf H NS eq_refl st) as [z E]. cbn [FoldSpec.seval]. rewrite E. cbn. eauto.
  - apply andb_prop in Wf, H. destruct Wf as [Wa Wb], H as [Ha Hb].
    destruct (fold W b) as [[[tb yb] cb]|] eqn:Fb; [|discriminate].
    destruct (fold W a) as [[[ta ya] ca]|] eqn:Fa; [|discriminate]. cbn [obind] in F.
    pose proof (fold_ty a _ Wa Ha Fa) as Ea. cbn in Ea. pose proof (fold_ty b _ Wb Hb Fb) as Eb. cbn in Eb.
    subst ya yb. pose proof (noptr_ty a Ha) as Pa. pose proof (noptr_ty b Hb) as Pb.
    assert (NS2 : o <> BShl /\ o <> BShr /\ noshift a = true /\ noshift b = true).
    { destruct o; try discriminate NS; apply andb_prop in NS; destruct NS; repeat split; try discriminate; assumption. }
    destruct NS2 as (O1 & O2 & Na & Nb).
    assert (CC : exists sa sb, ca = Some sa /\ cb = Some sb).
    { destruct o; try congruence; unfold foldAdd, foldMul in F; rewrite Pa, Pb in F; cbn [orb andb negb] in F; cbv zeta in F;
      try match type of F with context [let '(_, _) := ?q in _] => destruct q end;
      apply some_inj in F; apply pair_inj in F; destruct F as [_ F];
      destruct ca as [sa|]; cbn [isc andb] in F; try discriminate F;
      destruct cb as [sb|]; cbn [isc andb] in F; try discriminate F; eauto. }
    destruct CC as (sa & sb & -> & ->).
    destruct (IHa _ _ _ Wa Ha Na eq_refl st) as [x Ex]. destruct (IHb _ _ _ Wb Hb Nb eq_refl st) as [v Ev].
    pose proof (fold_val _ _ _ _ _ _ Wa Ha Fa Ex) as Wx. pose proof (fold_val _ _ _ _ _ _ Wb Hb Fb Ev) as Wv.
    cbn [FoldSpec.seval]. rewrite (both_def _ _ _ _ _ Ex Ev). cbn [obind].
    assert (DV : forall m q, foldMul W (if m : bool then BMod else BDiv) (ta, tyof a, Some sa) (tb, tyof b, Some sb) = Some (t', y, Some s) ->
              q = (if m then BMod else BDiv) -> exists z, binary W strict q (tyof a) (tyof b) x v = Some z).
    { intros m q F' ->. unfold foldMul in F'. rewrite Pa, Pb in F'. cbn [orb andb isc host] in F'.
      assert (exists s', divCalc W m sa sb (isuns (tyof a) || isuns (tyof b)) true true = (true, s')) as [s' DC].
      { destruct m; cbv zeta in F'; destruct (divCalc W _ sa sb _ true true) as [ok s'] eqn:DC;
        apply some_inj in F'; apply pair_inj in F'; destruct F' as [_ F']; destruct ok; try discriminate F'; eauto. }
      destruct (div_def m _ sa sb x v s' Wx Wv DC) as [z Z0]. exists z.
      unfold common in *. destruct m; cbn [binary]; unfold common; exact Z0. }
    destruct o; try congruence;
    try (destruct (DV false BDiv F eq_refl) as [z ->]; cbn [obind]; eauto; fail);
    try (destruct (DV true BMod F eq_refl) as [z ->]; cbn [obind]; eauto; fail);
    cbn [binary]; rewrite ?Pa, ?Pb; cbn; eauto.
  - apply andb_prop in Wf, H, NS. destruct Wf as [Wa Wb], H as [Ha Hb], NS as [Na Nb].
    destruct (fold W b) as [[[tb yb] cb]|] eqn:Fb; [|discriminate].
    destruct (fold W a) as [[[ta ya] ca]|] eqn:Fa; [|discriminate]. cbn [obind] in F. unfold foldCmp in F. cbv zeta in F.
    match type of F with (if ?b then _ else _) = _ => destruct b; [discriminate|] end.
    apply some_inj in F. apply pair_inj in F. destruct F as [_ F].
    destruct ca as [sa|]; cbn [isc andb] in F; [|discriminate]. destruct cb as [sb|]; [|discriminate].
    destruct (IHa _ _ _ Wa Ha Na eq_refl st) as [x Ex]. destruct (IHb _ _ _ Wb Hb Nb eq_refl st) as [v Ev].
    cbn [FoldSpec.seval]. rewrite (both_def _ _ _ _ _ Ex Ev). cbn [obind]. eauto.
  - apply andb_prop in Wf, H. destruct Wf as [Wa Wb], H as [Ha Hb].
    destruct (fold W a) as [[[ta ya] ca]|] eqn:Fa; [|discriminate]. cbn [obind] in F.
    pose proof (fold_some a _ _ _ Wb Hb Fa) as NN. unfold notnum in NN.
    destruct ca as [sa|].
    + destruct (IH _ _ _ Wb Hb NS eq_refl st) as [z E]. cbn [FoldSpec.seval]. rewrite E. cbn. eauto.
    + exfalso. specialize (NN eq_refl). unfold foldCast in F. cbv zeta in F.
      destruct ta; try (exfalso; eapply NN; reflexivity); destruct t as [| |sz|esz];
      try (destruct (sz =? 1); [|destruct (sz =? -1); [|destruct (sz =? 2)]]);
      apply some_inj in F; apply pair_inj in F; destruct F as [_ F]; discriminate F.
  - apply andb_prop in Wf, H, NS. destruct Wf as [Wa Wb], H as [Ha Hb], NS as [Na Nb].
    destruct (fold W b) as [rb|] eqn:Fb; [|discriminate]. destruct (fold W a) as [ra|] eqn:Fa; [|discriminate].
    cbn [obind] in F. apply some_inj in F. unfold foldLog in F.
    pose proof (snd_operand a ra) as Sa. pose proof (snd_operand b rb) as Sb. cbv zeta in Sa, Sb.
    destruct (if iscmp a then ra else foldBool W ra) as [[ta ya] ca] eqn:Ra.
    destruct (if iscmp b then rb else foldBool W rb) as [[tb yb] cb] eqn:Rb. cbn [snd] in Sa, Sb.
    destruct ra as [[ta0 ya0] ca0], rb as [[tb0 yb0] cb0]. cbn [snd] in Sa, Sb.
    cbv zeta in F. apply pair_inj in F. destruct F as [_ F].
    destruct ca0 as [sa|].
    2: { assert (ca = None) by (subst ca; destruct (iscmp a); reflexivity). subst ca. rewrite H in F. discriminate F. }
    destruct (IHa _ _ _ Wa Ha Na eq_refl st) as [x Ex]. cbn [FoldSpec.seval]. rewrite Ex. cbn [obind].
    destruct (x =? 0) eqn:X0; [eauto|].
    destruct cb0 as [sb|].
    { destruct (IHb _ _ _ Wb Hb Nb eq_refl st) as [v Ev]. rewrite Ev. cbn. eauto. }
    exfalso. assert (EB : cb = None) by (subst cb; destruct (iscmp b); reflexivity). rewrite EB in F.
    pose proof (fold_den W HW opq bp rtl strict a _ Wa (or_introl (noptr_nomix a Ha)) Fa) as Da.
    destruct (operand W HW opq bp rtl strict a _ Da Fa) as [Do _]. cbv zeta in Do. rewrite Ra in Do.
    destruct ca as [s1|]; [|discriminate]. cbn [isc andb host] in F.
    destruct Do as (_ & _ & _ & _ & _ & Do).
    assert (ET : truth (seval a) st = Some (1, st)).
    { unfold truth, un1. rewrite Ex. cbn [obind]. rewrite X0. reflexivity. }
    destruct (Do s1 eq_refl _ _ _ ET) as (_ & E1 & _).
    assert (s1 <> 0).
    { intros ->. exact (wd01 E1). }
    replace (s1 =? 0) with false in F by lia. discriminate F.
  - apply andb_prop in Wf, H, NS. destruct Wf as [Wa Wb], H as [Ha Hb], NS as [Na Nb].
    destruct (fold W b) as [rb|] eqn:Fb; [|discriminate]. destruct (fold W a) as [ra|] eqn:Fa; [|discriminate].
    cbn [obind] in F. apply some_inj in F. unfold foldLog in F.
    pose proof (snd_operand a ra) as Sa. pose proof (snd_operand b rb) as Sb. cbv zeta in Sa, Sb.
    destruct (if iscmp a then ra else foldBool W ra) as [[ta ya] ca] eqn:Ra.
    destruct (if iscmp b then rb else foldBool W rb) as [[tb yb] cb] eqn:Rb. cbn [snd] in Sa, Sb.
    destruct ra as [[ta0 ya0] ca0], rb as [[tb0 yb0] cb0]. cbn [snd] in Sa, Sb.
    cbv zeta in F. apply pair_inj in F. destruct F as [_ F].
    destruct ca0 as [sa|].
    2: { assert (ca = None) by (subst ca; destruct (iscmp a); reflexivity). subst ca. rewrite H in F. discriminate F. }
    destruct (IHa _ _ _ Wa Ha Na eq_refl st) as [x Ex]. cbn [FoldSpec.seval]. rewrite Ex. cbn [obind].
    destruct (x =? 0) eqn:X0; cbn [negb]; [|eauto].
    destruct cb0 as [sb|].
    { destruct (IHb _ _ _ Wb Hb Nb eq_refl st) as [v Ev]. rewrite Ev. cbn. eauto. }
    exfalso. assert (EB : cb = None) by (subst cb; destruct (iscmp b); reflexivity). rewrite EB in F.
    pose proof (fold_den W HW opq bp rtl strict a _ Wa (or_introl (noptr_nomix a Ha)) Fa) as Da.
    destruct (operand W HW opq bp rtl strict a _ Da Fa) as [Do Ko]. cbv zeta in Do, Ko. rewrite Ra in Do, Ko.
    destruct ca as [s1|]; [|discriminate]. cbn [isc andb host] in F.
    destruct Do as (_ & _ & _ & _ & _ & Do).
    assert (ET : truth (seval a) st = Some (0, st)).
    { unfold truth, un1. rewrite Ex. cbn [obind]. rewrite X0. reflexivity. }
    destruct (Do s1 eq_refl _ _ _ ET) as (_ & E1 & _).
    assert (s1 = 0).
    { destruct (Ko s1 eq_refl) as [-> | ->]; [reflexivity|]. exfalso. exact (wd01 (eq_sym E1)). }
    replace (s1 =? 0) with true in F by lia. discriminate F.
  - apply andb_prop in Wf, H, NS. destruct Wf as [Wf Wb], H as [H Hb], NS as [NS Nb].
    apply andb_prop in Wf, H, NS. destruct Wf as [Wc Wa], H as [Hc Ha], NS as [Nc Na].
    destruct (fold W a) as [[[ta ya] ca]|] eqn:Fa; [|discriminate]. destruct (fold W b) as [[[tb yb] cb]|] eqn:Fb; [|discriminate].
    destruct (fold W cd) as [[[tc yc] cc]|] eqn:Fc; [|discriminate]. cbn [obind] in F. unfold foldCond in F.
    destruct (compat W _ _ ca cb) as [yy|]; [|discriminate].
    destruct cc as [sc|]; [|discriminate].
    destruct (IHc _ _ _ Wc Hc Nc eq_refl st) as [x Ex]. cbn [FoldSpec.seval]. rewrite Ex. cbn [obind].
    pose proof (fold_st _ _ _ _ _ _ _ Wc Hc Fc Ex) as (_ & Wx & Vx).
    assert (C0 : (truncUint W sc =? 0) = (x =? 0)).
    { rewrite (tU W HW), Wx.
      pose proof (fold_den W HW opq bp rtl strict cd _ Wc (or_introl (noptr_nomix cd Hc)) Fc) as Dc.
      apply (nz W HW (tyof cd)); [apply Dc|exact Vx]. }
    rewrite C0 in F. destruct (x =? 0); cbn [negb] in F.
    + destruct cb as [sb|]; [|discriminate]. destruct (IHb _ _ _ Wb Hb Nb eq_refl st) as [v ->]. cbn [obind]. eauto.
    + destruct ca as [sa|]; [|discriminate]. destruct (IHa _ _ _ Wa Ha Na eq_refl st) as [v ->]. cbn [obind]. eauto.
  - apply andb_prop in Wf, H, NS. destruct Wf as [Wa Wb], H as [Ha Hb], NS as [Na Nb].
    destruct (fold W b) as [[[tb yb] cb]|] eqn:Fb; [|discriminate].
    destruct (fold W a) as [[[ta ya] ca]|] eqn:Fa; [|discriminate].
    cbn [obind foldComma] in F. apply some_inj in F.
    destruct ca as [sa|]; [|destruct cb; discriminate]. destruct cb as [sb|]; [|discriminate].
    destruct (IHa _ _ _ Wa Ha Na eq_refl st) as [x Ex]. destruct (IHb _ _ _ Wb Hb Nb eq_refl st) as [v Ev].
    cbn [FoldSpec.seval]. rewrite Ex. cbn [obind]. eauto.
Qed.

(** constant expressions whose value is defined are folded *)
Lemma closed_folded (e : src A) t y c st z st' : wf W e = true -> noptr e = true -> closed e = true ->
  fold W e = Some (t, y, c) -> seval e st = Some (z, st') -> exists s, c = Some s.
Proof.
  revert t y c st z st'.
  induction e as [u n|t x|esz o|u a IH|a IH|o a IHa b IHb|cm a IHa b IHb|t a IH|a IHa b IHb|a IHa b IHb|cd IHc a IHa b IHb|a IHa b IHb];
  cbn [wf noptr closed fold]; intros t' y c st z st' Wf H CL F E.
  - apply some_inj in F. apply pair_inj in F. destruct F as [_ <-]. eauto.
  - discriminate.
  - discriminate.
  - destruct (fold W a) as [[[ta ya] ca]|] eqn:Fa; [|discriminate]. cbn [obind] in F. unfold foldUn in F.
    destruct (isptr ya); [discriminate|]. apply some_inj in F. apply pair_inj in F. destruct F as [_ F].
    cbn [FoldSpec.seval] in E. destruct (seval a st) as [[v s1]|] eqn:Ea; [|discriminate].
    destruct (IH _ _ _ _ _ _ Wf H CL eq_refl Ea) as [s ->]. cbn in F. eauto.
  - destruct (fold W a) as [[[ta ya] ca]|] eqn:Fa; [|discriminate]. cbn [obind] in F. unfold foldCmp in F. cbv zeta in F.
    match type of F with (if ?b then _ else _) = _ => destruct b; [discriminate|] end.
    apply some_inj in F. apply pair_inj in F. destruct F as [_ F].
    cbn [FoldSpec.seval] in E. destruct (seval a st) as [[v s1]|] eqn:Ea; [|discriminate].
    destruct (IH _ _ _ _ _ _ Wf H CL eq_refl Ea) as [s ->]. cbn [isc andb] in F. eauto.
  - apply andb_prop in Wf, H, CL. destruct Wf as [Wa Wb], H as [Ha Hb], CL as [La Lb].
    destruct (fold W b) as [[[tb yb] cb]|] eqn:Fb; [|discriminate].
    destruct (fold W a) as [[[ta ya] ca]|] eqn:Fa; [|discriminate]. cbn [obind] in F.
    pose proof (fold_ty a _ Wa Ha Fa) as Ea. cbn in Ea. pose proof (fold_ty b _ Wb Hb Fb) as Eb. cbn in Eb.
    subst ya yb. pose proof (noptr_ty a Ha) as Pa. pose proof (noptr_ty b Hb) as Pb.
    cbn [FoldSpec.seval] in E.
    destruct (both rtl (seval a) (seval b) st) as [[[x v] s1]|] eqn:B; [|discriminate]. cbn [obind] in E.
    destruct (binary W strict o (tyof a) (tyof b) x v) as [q|] eqn:Q; [|discriminate].
    apply both_inv in B.
    assert (EE : (exists sa, ca = Some sa /\ wd sa = wd x) /\ (exists sb, cb = Some sb /\ wd sb = wd v)).
    { destruct B as [st1 [(R & E1 & E2)|(R & E2 & E1)]];
      destruct (IHa _ _ _ _ _ _ Wa Ha La eq_refl E1) as [sa ->];
      destruct (IHb _ _ _ _ _ _ Wb Hb Lb eq_refl E2) as [sb ->];
      pose proof (fold_st _ _ _ _ _ _ _ Wa Ha Fa E1) as (_ & X1 & _);
      pose proof (fold_st _ _ _ _ _ _ _ Wb Hb Fb E2) as (_ & X2 & _); eauto 8. }
    destruct EE as [(sa & -> & Wx) (sb & -> & Wv)].
    destruct o; unfold foldAdd, foldMul in F; rewrite Pa, Pb in F; cbn [orb andb negb isc host] in F; cbv zeta in F;
    try (apply some_inj in F; apply pair_inj in F; destruct F as [_ F]; eauto; fail).
    + destruct (div_const W HW false (isuns (tyof a) || isuns (tyof b)) sa sb x v q Wx Wv) as (s' & D1 & _).
      { cbn [binary] in Q. unfold common in Q. exact Q. }
      rewrite D1 in F. apply some_inj in F; apply pair_inj in F; destruct F as [_ F]. eauto.
    + destruct (div_const W HW true (isuns (tyof a) || isuns (tyof b)) sa sb x v q Wx Wv) as (s' & D1 & _).
      { cbn [binary] in Q. unfold common in Q. exact Q. }
      rewrite D1 in F. apply some_inj in F; apply pair_inj in F; destruct F as [_ F]. eauto.
    + destruct (shiftCount W _ _). apply some_inj in F; apply pair_inj in F; destruct F as [_ F]. eauto.
    + destruct (shiftCount W _ _). apply some_inj in F; apply pair_inj in F; destruct F as [_ F]. eauto.
  - apply andb_prop in Wf, H, CL. destruct Wf as [Wa Wb], H as [Ha Hb], CL as [La Lb].
    destruct (fold W b) as [[[tb yb] cb]|] eqn:Fb; [|discriminate].
    destruct (fold W a) as [[[ta ya] ca]|] eqn:Fa; [|discriminate]. cbn [obind] in F. unfold foldCmp in F. cbv zeta in F.
    match type of F with (if ?b then _ else _) = _ => destruct b; [discriminate|] end.
    apply some_inj in F. apply pair_inj in F. destruct F as [_ F].
    cbn [FoldSpec.seval] in E.
    destruct (both rtl (seval a) (seval b) st) as [[[x v] s1]|] eqn:B; [|discriminate]. apply both_inv in B.
    destruct B as [st1 [(R & E1 & E2)|(R & E2 & E1)]];
    destruct (IHa _ _ _ _ _ _ Wa Ha La eq_refl E1) as [sa ->];
    destruct (IHb _ _ _ _ _ _ Wb Hb Lb eq_refl E2) as [sb ->]; cbn [isc andb] in F; eauto.
  - apply andb_prop in Wf, H. destruct Wf as [Wa Wb], H as [Ha Hb].
    destruct (fold W a) as [[[ta ya] ca]|] eqn:Fa; [|discriminate]. cbn [obind] in F.
    cbn [FoldSpec.seval] in E. destruct (seval a st) as [[v s1]|] eqn:Ea; [|discriminate].
    destruct (IH _ _ _ _ _ _ Wb Hb CL eq_refl Ea) as [s ->]. unfold foldCast in F. cbv zeta in F.
    destruct ta; destruct t as [| |sz|esz]; try discriminate Ha;
    try (destruct (sz =? 1); [|destruct (sz =? -1); [|destruct (sz =? 2)]]);
    apply some_inj in F; apply pair_inj in F; destruct F as [_ F]; cbn in F; eauto.
  - apply andb_prop in Wf, H, CL. destruct Wf as [Wa Wb], H as [Ha Hb], CL as [La Lb].
    destruct (fold W b) as [rb|] eqn:Fb; [|discriminate]. destruct (fold W a) as [ra|] eqn:Fa; [|discriminate].
    cbn [obind] in F. apply some_inj in F. unfold foldLog in F.
    pose proof (snd_operand a ra) as Sa. pose proof (snd_operand b rb) as Sb. cbv zeta in Sa, Sb.
    pose proof (fold_den W HW opq bp rtl strict a _ Wa (or_introl (noptr_nomix a Ha)) Fa) as Da.
    destruct (operand W HW opq bp rtl strict a _ Da Fa) as [Do Ko]. cbv zeta in Do, Ko.
    destruct (if iscmp a then ra else foldBool W ra) as [[ta ya] ca] eqn:Ra.
    destruct (if iscmp b then rb else foldBool W rb) as [[tb yb] cb] eqn:Rb. cbn [snd] in Sa, Sb.
    destruct ra as [[ta0 ya0] ca0], rb as [[tb0 yb0] cb0]. cbn [snd] in Sa, Sb.
    cbv zeta in F. apply pair_inj in F. destruct F as [_ F].
    cbn [FoldSpec.seval] in E. destruct (seval a st) as [[v s1]|] eqn:Ea; [|discriminate]. cbn [obind] in E.
    destruct (IHa _ _ _ _ _ _ Wa Ha La eq_refl Ea) as [s ->].
    assert (EC : exists s0, ca = Some s0) by (subst ca; destruct (iscmp a); cbn; eauto).
    destruct EC as [s0 EC]. rewrite EC in F. cbn [isc andb host] in F.
    destruct (s0 =? 0) eqn:S0; [eauto|].
    destruct (v =? 0) eqn:V0.
    { exfalso. destruct Do as (_ & _ & _ & _ & _ & Do).
      assert (ET : truth (seval a) st = Some (0, s1)).
      { unfold truth, un1. rewrite Ea. cbn [obind]. rewrite V0. reflexivity. }
      destruct (Do s0 EC _ _ _ ET) as (_ & E1 & _). destruct (Ko s0 EC) as [-> | ->]; [discriminate S0|].
      exact (wd01 (eq_sym E1)). }
    destruct (seval b s1) as [[v2 s2]|] eqn:Eb; [|discriminate].
    destruct (IHb _ _ _ _ _ _ Wb Hb Lb eq_refl Eb) as [sb ->].
    assert (EC2 : exists q, cb = Some q) by (subst cb; destruct (iscmp b); cbn; eauto).
    destruct EC2 as [q EC2]. rewrite EC2 in F. cbn [isc] in F. eauto.
  - apply andb_prop in Wf, H, CL. destruct Wf as [Wa Wb], H as [Ha Hb], CL as [La Lb].
    destruct (fold W b) as [rb|] eqn:Fb; [|discriminate]. destruct (fold W a) as [ra|] eqn:Fa; [|discriminate].
    cbn [obind] in F. apply some_inj in F. unfold foldLog in F.
    pose proof (snd_operand a ra) as Sa. pose proof (snd_operand b rb) as Sb. cbv zeta in Sa, Sb.
    pose proof (fold_den W HW opq bp rtl strict a _ Wa (or_introl (noptr_nomix a Ha)) Fa) as Da.
    destruct (operand W HW opq bp rtl strict a _ Da Fa) as [Do Ko]. cbv zeta in Do, Ko.
    destruct (if iscmp a then ra else foldBool W ra) as [[ta ya] ca] eqn:Ra.
    destruct (if iscmp b then rb else foldBool W rb) as [[tb yb] cb] eqn:Rb. cbn [snd] in Sa, Sb.
    destruct ra as [[ta0 ya0] ca0], rb as [[tb0 yb0] cb0]. cbn [snd] in Sa, Sb.
    cbv zeta in F. apply pair_inj in F. destruct F as [_ F].
    cbn [FoldSpec.seval] in E. destruct (seval a st) as [[v s1]|] eqn:Ea; [|discriminate]. cbn [obind] in E.
    destruct (IHa _ _ _ _ _ _ Wa Ha La eq_refl Ea) as [s ->].
    assert (EC : exists s0, ca = Some s0) by (subst ca; destruct (iscmp a); cbn; eauto).
    destruct EC as [s0 EC]. rewrite EC in F. cbn [isc andb host] in F.
    destruct (s0 =? 0) eqn:S0; [|eauto].
    destruct (v =? 0) eqn:V0; cbn [negb] in E.
    2: { exfalso. destruct Do as (_ & _ & _ & _ & _ & Do).
      assert (ET : truth (seval a) st = Some (1, s1)).
      { unfold truth, un1. rewrite Ea. cbn [obind]. rewrite V0. reflexivity. }
      destruct (Do s0 EC _ _ _ ET) as (_ & E1 & _). destruct (Ko s0 EC) as [-> | ->]; [|discriminate S0].
      exact (wd01 E1). }
    destruct (seval b s1) as [[v2 s2]|] eqn:Eb; [|discriminate].
    destruct (IHb _ _ _ _ _ _ Wb Hb Lb eq_refl Eb) as [sb ->].
    assert (EC2 : exists q, cb = Some q) by (subst cb; destruct (iscmp b); cbn; eauto).
    destruct EC2 as [q EC2]. rewrite EC2 in F. cbn [isc] in F. eauto.
  - apply andb_prop in Wf, H, CL. destruct Wf as [Wf Wb], H as [H Hb], CL as [CL Lb].
    apply andb_prop in Wf, H, CL. destruct Wf as [Wc Wa], H as [Hc Ha], CL as [Lc La].
    destruct (fold W a) as [[[ta ya] ca]|] eqn:Fa; [|discriminate]. destruct (fold W b) as [[[tb yb] cb]|] eqn:Fb; [|discriminate].
    destruct (fold W cd) as [[[tc yc] cc]|] eqn:Fc; [|discriminate]. cbn [obind] in F. unfold foldCond in F.
    destruct (compat W _ _ ca cb) as [yy|]; [|discriminate].
    cbn [FoldSpec.seval] in E. destruct (seval cd st) as [[x s1]|] eqn:Ex; [|discriminate]. cbn [obind] in E.
    destruct (IHc _ _ _ _ _ _ Wc Hc Lc eq_refl Ex) as [sc ->].
    pose proof (fold_st _ _ _ _ _ _ _ Wc Hc Fc Ex) as (_ & Wx & Vx).
    assert (C0 : (truncUint W sc =? 0) = (x =? 0)).
    { rewrite (tU W HW), Wx.
      pose proof (fold_den W HW opq bp rtl strict cd _ Wc (or_introl (noptr_nomix cd Hc)) Fc) as Dc.
      apply (nz W HW (tyof cd)); [apply Dc|exact Vx]. }
    rewrite C0 in F. destruct (x =? 0); cbn [negb] in F.
    + destruct (seval b s1) as [[v s2]|] eqn:Ev; [|discriminate].
      destruct (IHb _ _ _ _ _ _ Wb Hb Lb eq_refl Ev) as [sb ->].
      apply some_inj in F; apply pair_inj in F; destruct F as [_ F]. eauto.
    + destruct (seval a s1) as [[v s2]|] eqn:Ev; [|discriminate].
      destruct (IHa _ _ _ _ _ _ Wa Ha La eq_refl Ev) as [sb ->].
      apply some_inj in F; apply pair_inj in F; destruct F as [_ F]. eauto.
  - apply andb_prop in Wf, H, CL. destruct Wf as [Wa Wb], H as [Ha Hb], CL as [La Lb].
    destruct (fold W b) as [[[tb yb] cb]|] eqn:Fb; [|discriminate].
    destruct (fold W a) as [[[ta ya] ca]|] eqn:Fa; [|discriminate].
    cbn [obind foldComma] in F. apply some_inj in F.
    cbn [FoldSpec.seval] in E. destruct (seval a st) as [[v s1]|] eqn:Ea; [|discriminate]. cbn [obind] in E.
    destruct (IHa _ _ _ _ _ _ Wa Ha La eq_refl Ea) as [sa ->].
    destruct (IHb _ _ _ _ _ _ Wb Hb Lb eq_refl E) as [sb ->].
    apply pair_inj in F; destruct F as [_ F]. eauto.
Qed.
End T.
