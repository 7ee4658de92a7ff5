(** Which case and default labels the compiler accepts, for MIPS. *)
From Verif Require Import Base BaseLemmas X86 ExprSpec ExprLemmas CgModel CgTree StmtSpec StmtPre StmtModel StmtLab StmtLay StmtComp StmtCases MipsModel MipsSpec MipsCode MipsEmit MipsGen MipsMach MipsSim MipsProps MipsStmtPre MipsStmtModel MipsStmtLab MipsStmtLay MipsStmtComp.
Local Notation HW4 := (or_intror eq_refl : 4 = 2 \/ 4 = 4).
Local Notation word := (ExprSpec.word 4).
Local Notation ceff_refl := (ceff_refl 4).
Local Notation ceff_lc := (ceff_lc 4).
Local Notation goto_eff := (goto_eff 4).
Local Notation trunc_idem := (trunc_idem 4 HW4).
Local Notation word_trunc := (word_trunc 4 HW4).
Ltac ob H x y Hx := apply obind_Some in H as ([x y] & Hx & H).
Ltac fin H := apply some_inj, pair_inj in H as [<- <-].
Lemma comp_cvs s : forall x lvl last C code c', comp x lvl last s C = Some (code, c') ->
  cvs 4 (cidx x) (case_values s) (defaults s) (switches_ok 4 s) C c'.
Proof.
  induction s; intros X lvl last C code c' H; pose proof (mcomp_eff _ _ _ _ _ _ _ H) as HE;
    cbn [comp case_values defaults switches_ok] in *.
  - fin H. eapply (cvs_eff 4), ceff_refl.
  - eapply (cvs_eff 4), ceff_expr; eauto.
  - ob H ca c1 H1. ob H cb c2 H2. fin H. apply IHs1 in H1. apply IHs2 in H2. exact (cvs_app 4 _ _ _ _ _ _ _ _ _ _ H1 H2).
  - eauto.
  - ob H ct c1 H1. ob H ca c2 H2. fin H. apply (ceff_ctl (cidx X)), (cvs_eff 4) in H1. apply IHs in H2.
    eapply (cvs_use 4); [eapply (cvs_app 4); [eapply (cvs_eff 4), (ceff_lc _ (lc C + 2)); lia|]; eapply (cvs_app 4); [exact H1|exact H2]|..]; cbn; tauto.
  - ob H ct c1 H1. ob H ca c2 H2. ob H cb c3 H3. fin H. apply (ceff_ctl (cidx X)), (cvs_eff 4) in H1. apply IHs1 in H2. apply IHs2 in H3.
    eapply (cvs_use 4); [eapply (cvs_app 4); [eapply (cvs_eff 4), (ceff_lc _ (lc C + 2)); lia|]; eapply (cvs_app 4); [exact H1|]; eapply (cvs_app 4); [exact H2|exact H3]|..]; cbn; tauto.
  - ob H ct c1 H1. ob H cb c2 H2. fin H. apply (ceff_ctl (cidx X)), (cvs_eff 4) in H1. apply IHs in H2. cbn [cidx] in H2.
    eapply (cvs_use 4); [eapply (cvs_app 4); [eapply (cvs_eff 4), (ceff_lc _ (lc C + 2)); lia|]; eapply (cvs_app 4); [exact H1|exact H2]|..]; cbn; tauto.
  - ob H cb c1 H1. ob H ct c2 H2. fin H. apply (ceff_ctl (cidx X)), (cvs_eff 4) in H2. apply IHs in H1. cbn [cidx] in H1.
    eapply (cvs_use 4); [eapply (cvs_app 4); [eapply (cvs_eff 4), (ceff_lc _ (lc C + 3)); lia|]; eapply (cvs_app 4); [exact H1|exact H2]|..]; cbn; try tauto.
    + apply app_nil_r.
    + lia.
  - ob H ci c1 H1. ob H ct c2 H2.
    assert (L1 : cvs 4 (cidx X) [] 0 True (set_lc (lc C + 4) C) c1).
    { destruct i; [eapply (cvs_eff 4), ceff_expr; eauto|]. fin H1. eapply (cvs_eff 4), ceff_refl. }
    assert (L0 : cvs 4 (cidx X) [] 0 True C c2).
    { apply (ceff_octl (cidx X)), (cvs_eff 4) in H2. eapply (cvs_use 4); [eapply (cvs_app 4); [eapply (cvs_eff 4), (ceff_lc _ (lc C + 4)); lia|]; eapply (cvs_app 4); [exact L1|exact H2]|..]; cbn; tauto. }
    destruct x as [e|].
    + pose proof (relabel_le e (lc c2)) as Hle. destruct (relabel e (lc c2)) as [e' n]. cbn [snd] in Hle.
      destruct (_ && _).
      * ob H cb c3 H3. apply obind_Some in H as (cx & H4 & H). fin H. apply IHs in H3. cbn [cidx] in H3.
        eapply (cvs_use 4); [eapply (cvs_app 4); [exact L0|]; eapply (cvs_app 4); [eapply (cvs_eff 4), (ceff_lc _ n); lia|exact H3]|..]; cbn; tauto.
      * apply obind_Some in H as (cx & H4 & H). ob H cb c3 H3. fin H. apply IHs in H3. cbn [cidx] in H3.
        eapply (cvs_use 4); [eapply (cvs_app 4); [exact L0|]; eapply (cvs_app 4); [eapply (cvs_eff 4), (ceff_lc _ n); lia|exact H3]|..]; cbn; tauto.
    + ob H cb c3 H3. fin H. apply IHs in H3. cbn [cidx] in H3.
      eapply (cvs_use 4); [eapply (cvs_app 4); [exact L0|exact H3]|..]; cbn; tauto.
  - destruct (brk X); [|discriminate]. fin H. eapply (cvs_eff 4), ceff_refl.
  - destruct (cnt X =? 0); [discriminate|]. fin H. eapply (cvs_eff 4), ceff_refl.
  - ob H ce c1 H1. fin H. destruct e; [eapply (cvs_eff 4), ceff_expr; eauto|]. fin H1. eapply (cvs_eff 4), ceff_refl.
  - (* switch *)
    ob H ce c1 H1. apply obind_Some in H as (c2 & H2 & H). ob H cb c3 H3. ob H q d H4. fin H.
    pose proof (mcomp_eff _ _ _ _ _ _ _ H3) as HE3. apply IHs in H3. cbn [cidx] in *.
    apply (ceff_expr (cidx X)), (cvs_eff 4) in H1. apply add_case_inv in H2.
    intros Hp Hi. destruct (H1 ltac:(cbn; lia) Hi) as (A1 & A2 & _). cbn [lc cases set_lc map] in A1, A2. rewrite app_nil_r in A2.
    assert (Hl2 : 0 < lc c2) by (subst c2; cbn; lia).
    destruct (H3 Hl2 (conj (zlen_nonneg _) (Z.le_refl _))) as (B1 & B2 & B3 & _ & B5).
    destruct (HE3 Hl2 (conj (zlen_nonneg _) (Z.le_refl _))) as (_ & (ext & C2 & _ & C4) & _).
    destruct (HE Hp Hi) as (D1 & (ext' & D2 & D3 & _) & _). cbn [has_default has_case] in D2, D3. unfold crel in D2.
    assert (ext' = []) as -> by (destruct ext' as [|[v l] ext']; auto; destruct (D3 v l (or_introl eq_refl)) as (_ & Q & _); discriminate).
    rewrite app_nil_r in D2. cbn [cases lc] in D1, D2.
    split; [cbn [lc]; lia|]. split; [cbn [cases map]; rewrite D2, app_nil_r; reflexivity|]. split; [left; split; auto; unfold slot; cbn [cases]; now rewrite D2|].
    split; [auto|]. split; [|split; [destruct B3 as [[-> _]|[-> _]]; lia|exact B5]].
    assert (Z3 : skipn (Z.to_nat (zlen (cases c2))) (cases c2) = []) by (unfold zlen; rewrite Nat2Z.id; apply skipn_all).
    rewrite Z3 in C4. specialize (C4 (NoDup_nil _)). rewrite skipn_mp, B2 in C4.
    replace (Z.to_nat (zlen (cases c2))) with (length (map fst (cases c2))) in C4 by (rewrite map_length; unfold zlen; lia).
    rewrite skipn_app, skipn_all, Nat.sub_diag in C4. cbn [app skipn] in C4.
    assert (EW : map word (case_values s) = map word (map (trunc_int 4) (case_values s))).
    { rewrite map_map. apply map_ext. intros v. now rewrite word_trunc. }
    rewrite EW. clear - C4. induction (case_values s) as [|v l IH]; [constructor|]. cbn [map] in *. inversion C4; subst.
    constructor; [|auto]. intros Hin. apply H1. apply in_map_iff in Hin as (w & E & Hw).
    apply in_map_iff in Hw as (w0 & <- & Hw). apply in_map_iff. exists w0. split; auto.
    apply (trunc_word_inj 4 HW4); auto using trunc_idem.
  - (* case *)
    destruct (Z.eqb_spec (cidx X) 0) as [|Hx]; [discriminate|]. destruct (existsb _ _) eqn:Hex; [discriminate|].
    apply obind_Some in H as (c1 & H1 & H). ob H ca c2 H2. fin H. apply add_case_inv in H1. subst c1. apply IHs in H2.
    assert (H0 : cvs 4 (cidx X) [v] 0 True C (mkcst (lc C + 1) (cases C ++ [(trunc_int 4 v, lc C)]) (gotos C))).
    { intros Hp Hi. cbn [lc cases]. split; [lia|]. split; [rewrite map_app; reflexivity|]. split; [|split; [lia|auto]].
      left. split; auto. unfold slot. cbn [cases]. rewrite zget_app_l by lia. reflexivity. }
    eapply (cvs_use 4); [exact (cvs_app 4 _ _ _ _ _ _ _ _ _ _ H0 H2)|..]; cbn; tauto.
  - (* default *)
    destruct (Z.eqb_spec (cidx X) 0) as [|Hx]; [discriminate|]. ob H v d H0. destruct (d =? 0) eqn:Hd; [|discriminate]. cbn [negb] in H. apply Z.eqb_eq in Hd. subst d.
    apply obind_Some in H as (cs & H1 & H). ob H ca c2 H2. fin H. apply IHs in H2.
    assert (H3 : cvs 4 (cidx X) [] 1 True C (mkcst (lc C + 1) cs (gotos C))).
    { intros Hp Hi. cbn [lc cases]. split; [lia|]. cbn [map]. rewrite app_nil_r. split; [|split; [|split; [lia|auto]]].
      - apply zset_inv in H1 as [H1 ->]. unfold zget in H0. destruct (_ <? 0); [discriminate|].
        apply nth_error_split in H0 as (a & b & E & Ha). rewrite E, <- Ha. clear. induction a; cbn; congruence.
      - right. split; auto. unfold slot. cbn [cases]. rewrite H0, (zset_get _ _ _ _ _ H1), Z.eqb_refl. split; auto. lia. }
    eapply (cvs_use 4); [exact (cvs_app 4 _ _ _ _ _ _ _ _ _ _ H3 H2)|..]; cbn; tauto.
  - ob H k c1 H1. fin H. eapply (cvs_eff 4). eapply goto_eff in H1 as [_ H1]. exact H1.
  - ob H k c1 H1. ob H ca c2 H2. fin H. apply (goto_eff (cidx X)) in H1 as [_ H1]. apply (cvs_eff 4) in H1. apply IHs in H2.
    eapply (cvs_use 4); [exact (cvs_app 4 _ _ _ _ _ _ _ _ _ _ H1 H2)|..]; cbn; tauto.
Qed.
