(** Which case and default labels the compiler accepts. *)
From Verif Require Import Base BaseLemmas X86 ExprSpec ExprLemmas CgModel CgTree CgFuse MachSpec CgMach CgEmit CgSim CgCorrect CgProps StmtSpec StmtPre StmtModel StmtLab StmtLay StmtComp.

Section Cases.
Variable W : Z.
Hypothesis HW : W = 2 \/ W = 4.
Notation word := (ExprSpec.word W).
Definition slot (i : Z) (c : cst) : Z := match zget (cases c) (i - 1) with Some (_, d) => d | None => 0 end.
Definition cvs (i : Z) (vs : list Z) (nd : nat) (P : Prop) (c c' : cst) : Prop :=
  0 < lc c -> 0 <= i <= zlen (cases c) ->
  lc c <= lc c' /\ map fst (cases c') = map fst (cases c) ++ map (trunc_int W) vs /\
  (nd = 0%nat /\ slot i c' = slot i c \/ nd = 1%nat /\ slot i c = 0 /\ slot i c' <> 0) /\
  (i = 0 -> vs = [] /\ nd = 0%nat) /\ P.
Lemma cvs_eff i hl labs c c' : ceff W i false none hl labs c c' -> cvs i [] 0 True c c'.
Proof.
  intros H Hp Hi. destruct (H Hp Hi) as (A1 & (ext & A2 & A3 & _) & _). unfold crel in A2.
  assert (ext = []) as -> by (destruct ext as [|[v l] ext]; auto; destruct (A3 v l (or_introl eq_refl)) as (_ & Q & _); discriminate).
  rewrite app_nil_r in A2. unfold slot. rewrite A2. cbn [map]. rewrite app_nil_r. auto 10.
Qed.
Lemma cvs_app i v1 d1 P1 v2 d2 P2 c c1 c2 : cvs i v1 d1 P1 c c1 -> cvs i v2 d2 P2 c1 c2 -> cvs i (v1 ++ v2) (d1 + d2) (P1 /\ P2) c c2.
Proof.
  intros H1 H2 Hp Hi. destruct (H1 Hp Hi) as (A1 & A2 & A3 & A4 & A5).
  assert (Hz : zlen (cases c1) = zlen (cases c) + zlen v1).
  { apply (f_equal (@length _)) in A2. rewrite app_length, !map_length in A2. unfold zlen. lia. }
  pose proof (zlen_nonneg v1).
  destruct (H2 ltac:(lia) ltac:(lia)) as (B1 & B2 & B3 & B4 & B5).
  split; [lia|]. split; [rewrite B2, A2, map_app, app_assoc; reflexivity|]. split; [|split; [|auto]].
  - destruct A3 as [[-> A3]|(-> & A3 & A6)], B3 as [[-> B3]|(-> & B3 & B6)]; cbn; [left|right|right|exfalso]; repeat split; auto; congruence.
  - intros E. destruct (A4 E) as [-> ->], (B4 E) as [-> ->]. auto.
Qed.
Lemma cvs_use i vs nd P c c' vs' nd' (P' : Prop) : cvs i vs nd P c c' -> vs = vs' -> nd = nd' -> (P -> P') -> cvs i vs' nd' P' c c'.
Proof. intros H <- <- HP Hp Hi. destruct (H Hp Hi) as (A1 & A2 & A3 & A4 & A5). auto 10. Qed.

Lemma firstn_map {A B} (f : A -> B) n l : map f (firstn n l) = firstn n (map f l).
Proof. revert n. induction l; intros [|n]; cbn; congruence. Qed.
Lemma skipn_mp {A B} (f : A -> B) n l : map f (skipn n l) = skipn n (map f l).
Proof. revert n. induction l; intros [|n]; cbn; congruence. Qed.

Ltac ob H x y Hx := apply obind_Some in H as ([x y] & Hx & H).
Ltac fin H := apply some_inj, pair_inj in H as [<- <-].
Lemma comp_cvs s : forall x lvl last C code c', comp W x lvl last s C = Some (code, c') ->
  cvs (cidx x) (case_values s) (defaults s) (switches_ok W s) C c'.
Proof.
  induction s; intros X lvl last C code c' H; pose proof (comp_eff W HW _ _ _ _ _ _ _ H) as HE;
    cbn [comp case_values defaults switches_ok] in *.
  - fin H. eapply cvs_eff, ceff_refl.
  - eapply cvs_eff, ceff_expr; eauto.
  - ob H ca c1 H1. ob H cb c2 H2. fin H. apply IHs1 in H1. apply IHs2 in H2. exact (cvs_app _ _ _ _ _ _ _ _ _ _ H1 H2).
  - eauto.
  - ob H ct c1 H1. ob H ca c2 H2. fin H. apply (ceff_ctl W (cidx X)), cvs_eff in H1. apply IHs in H2.
    eapply cvs_use; [eapply cvs_app; [eapply cvs_eff, (ceff_lc W _ (lc C + 2)); lia|]; eapply cvs_app; [exact H1|exact H2]|..]; cbn; tauto.
  - ob H ct c1 H1. ob H ca c2 H2. ob H cb c3 H3. fin H. apply (ceff_ctl W (cidx X)), cvs_eff in H1. apply IHs1 in H2. apply IHs2 in H3.
    eapply cvs_use; [eapply cvs_app; [eapply cvs_eff, (ceff_lc W _ (lc C + 2)); lia|]; eapply cvs_app; [exact H1|]; eapply cvs_app; [exact H2|exact H3]|..]; cbn; tauto.
  - ob H ct c1 H1. ob H cb c2 H2. fin H. apply (ceff_ctl W (cidx X)), cvs_eff in H1. apply IHs in H2. cbn [cidx] in H2.
    eapply cvs_use; [eapply cvs_app; [eapply cvs_eff, (ceff_lc W _ (lc C + 2)); lia|]; eapply cvs_app; [exact H1|exact H2]|..]; cbn; tauto.
  - ob H cb c1 H1. ob H ct c2 H2. fin H. apply (ceff_ctl W (cidx X)), cvs_eff in H2. apply IHs in H1. cbn [cidx] in H1.
    eapply cvs_use; [eapply cvs_app; [eapply cvs_eff, (ceff_lc W _ (lc C + 3)); lia|]; eapply cvs_app; [exact H1|exact H2]|..]; cbn; try tauto.
    + apply app_nil_r.
    + lia.
  - ob H ci c1 H1. ob H ct c2 H2.
    assert (L1 : cvs (cidx X) [] 0 True (set_lc (lc C + 4) C) c1).
    { destruct i; [eapply cvs_eff, ceff_expr; eauto|]. fin H1. eapply cvs_eff, ceff_refl. }
    assert (L0 : cvs (cidx X) [] 0 True C c2).
    { apply (ceff_octl W (cidx X)), cvs_eff in H2. eapply cvs_use; [eapply cvs_app; [eapply cvs_eff, (ceff_lc W _ (lc C + 4)); lia|]; eapply cvs_app; [exact L1|exact H2]|..]; cbn; tauto. }
    destruct x as [e|].
    + pose proof (relabel_le e (lc c2)) as Hle. destruct (relabel e (lc c2)) as [e' n]. cbn [snd] in Hle.
      destruct (_ && _).
      * ob H cb c3 H3. apply obind_Some in H as (cx & H4 & H). fin H. apply IHs in H3. cbn [cidx] in H3.
        eapply cvs_use; [eapply cvs_app; [exact L0|]; eapply cvs_app; [eapply cvs_eff, (ceff_lc W _ n); lia|exact H3]|..]; cbn; tauto.
      * apply obind_Some in H as (cx & H4 & H). ob H cb c3 H3. fin H. apply IHs in H3. cbn [cidx] in H3.
        eapply cvs_use; [eapply cvs_app; [exact L0|]; eapply cvs_app; [eapply cvs_eff, (ceff_lc W _ n); lia|exact H3]|..]; cbn; tauto.
    + ob H cb c3 H3. fin H. apply IHs in H3. cbn [cidx] in H3.
      eapply cvs_use; [eapply cvs_app; [exact L0|exact H3]|..]; cbn; tauto.
  - destruct (brk X); [|discriminate]. fin H. eapply cvs_eff, ceff_refl.
  - destruct (cnt X =? 0); [discriminate|]. fin H. eapply cvs_eff, ceff_refl.
  - ob H ce c1 H1. fin H. destruct e; [eapply cvs_eff, ceff_expr; eauto|]. fin H1. eapply cvs_eff, ceff_refl.
  - (* switch *)
    ob H ce c1 H1. apply obind_Some in H as (c2 & H2 & H). ob H cb c3 H3. ob H q d H4. fin H.
    pose proof (comp_eff W HW _ _ _ _ _ _ _ H3) as HE3. apply IHs in H3. cbn [cidx] in *.
    apply (ceff_expr W (cidx X)), cvs_eff in H1. apply add_case_inv in H2.
    intros Hp Hi. destruct (H1 ltac:(cbn; lia) Hi) as (A1 & A2 & _). cbn [lc cases set_lc map] in A1, A2. rewrite app_nil_r in A2.
    assert (Hl2 : 0 < lc c2) by (subst c2; cbn; lia).
    destruct (H3 Hl2 (conj (zlen_nonneg _) (Z.le_refl _))) as (B1 & B2 & B3 & _ & B5).
    destruct (HE3 Hl2 (conj (zlen_nonneg _) (Z.le_refl _))) as (_ & (ext & C2 & _ & C4) & _).
    destruct (HE Hp Hi) as (D1 & (ext' & D2 & D3 & _) & _). cbn [has_default has_case] in D2, D3. unfold crel in D2.
    assert (ext' = []) as -> by (destruct ext' as [|[v l] ext']; auto; destruct (D3 v l (or_introl eq_refl)) as (_ & Q & _); discriminate).
    rewrite app_nil_r in D2. cbn [cases lc] in D1, D2.
    split; [cbn [lc]; lia|]. split; [cbn [cases map]; rewrite D2, app_nil_r; reflexivity|]. split; [left; split; auto; unfold slot; cbn [cases]; now rewrite D2|].
    split; [auto|]. split; [|split; [destruct B3 as [[-> _]|[-> _]]; lia|exact B5]].
    assert (Z3 : skipn (Z.to_nat (zlen (cases c2))) (cases c2) = []) by (unfold zlen; rewrite Nat2Z.id; apply skipn_all).
    rewrite Z3 in C4. specialize (C4 (NoDup_nil _)). rewrite skipn_mp, B2 in C4.
    replace (Z.to_nat (zlen (cases c2))) with (length (map fst (cases c2))) in C4 by (rewrite map_length; unfold zlen; lia).
    rewrite skipn_app, skipn_all, Nat.sub_diag in C4. cbn [app skipn] in C4.
    assert (EW : map word (case_values s) = map word (map (trunc_int W) (case_values s))).
    { rewrite map_map. apply map_ext. intros v. now rewrite word_trunc. }
    rewrite EW. clear - HW C4. induction (case_values s) as [|v l IH]; [constructor|]. cbn [map] in *. inversion C4; subst.
    constructor; [|auto]. intros Hin. apply H1. apply in_map_iff in Hin as (w & E & Hw).
    apply in_map_iff in Hw as (w0 & <- & Hw). apply in_map_iff. exists w0. split; auto.
    apply (trunc_word_inj W HW); auto using trunc_idem.
  - (* case *)
    destruct (Z.eqb_spec (cidx X) 0) as [|Hx]; [discriminate|]. destruct (existsb _ _) eqn:Hex; [discriminate|].
    apply obind_Some in H as (c1 & H1 & H). ob H ca c2 H2. fin H. apply add_case_inv in H1. subst c1. apply IHs in H2.
    assert (H0 : cvs (cidx X) [v] 0 True C (mkcst (lc C + 1) (cases C ++ [(trunc_int W v, lc C)]) (gotos C))).
    { intros Hp Hi. cbn [lc cases]. split; [lia|]. split; [rewrite map_app; reflexivity|]. split; [|split; [lia|auto]].
      left. split; auto. unfold slot. cbn [cases]. rewrite zget_app_l by lia. reflexivity. }
    eapply cvs_use; [exact (cvs_app _ _ _ _ _ _ _ _ _ _ H0 H2)|..]; cbn; tauto.
  - (* default *)
    destruct (Z.eqb_spec (cidx X) 0) as [|Hx]; [discriminate|]. ob H v d H0. destruct (d =? 0) eqn:Hd; [|discriminate]. cbn [negb] in H. apply Z.eqb_eq in Hd. subst d.
    apply obind_Some in H as (cs & H1 & H). ob H ca c2 H2. fin H. apply IHs in H2.
    assert (H3 : cvs (cidx X) [] 1 True C (mkcst (lc C + 1) cs (gotos C))).
    { intros Hp Hi. cbn [lc cases]. split; [lia|]. cbn [map]. rewrite app_nil_r. split; [|split; [|split; [lia|auto]]].
      - apply zset_inv in H1 as [H1 ->]. unfold zget in H0. destruct (_ <? 0); [discriminate|].
        apply nth_error_split in H0 as (a & b & E & Ha). rewrite E, <- Ha. clear. induction a; cbn; congruence.
      - right. split; auto. unfold slot. cbn [cases]. rewrite H0, (zset_get _ _ _ _ _ H1), Z.eqb_refl. split; auto. lia. }
    eapply cvs_use; [exact (cvs_app _ _ _ _ _ _ _ _ _ _ H3 H2)|..]; cbn; tauto.
  - ob H k c1 H1. fin H. eapply cvs_eff. eapply goto_eff in H1 as [_ H1]. exact H1.
  - ob H k c1 H1. ob H ca c2 H2. fin H. apply (goto_eff W (cidx X)) in H1 as [_ H1]. apply cvs_eff in H1. apply IHs in H2.
    eapply cvs_use; [exact (cvs_app _ _ _ _ _ _ _ _ _ _ H1 H2)|..]; cbn; tauto.
Qed.
End Cases.
