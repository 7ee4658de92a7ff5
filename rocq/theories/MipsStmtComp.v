(** The MIPS code of a statement has the layout that the simulation needs. *)
From Verif Require Import Base BaseLemmas X86 ExprSpec ExprLemmas CgModel CgTree StmtSpec StmtPre StmtModel StmtLab StmtLay StmtComp MipsModel MipsSpec MipsCode MipsEmit MipsGen MipsMach MipsSim MipsProps MipsStmtPre MipsStmtModel MipsStmtLab MipsStmtLay.
Local Notation HW4 := (or_intror eq_refl : 4 = 2 \/ 4 = 4).
Local Notation word := (ExprSpec.word 4).
Local Notation ceff := (ceff 4).
Local Notation ceff_refl := (ceff_refl 4).
Local Notation ceff_lc := (ceff_lc 4).
Local Notation ceff_app := (ceff_app 4).
Local Notation ceff_use := (ceff_use 4).
Local Notation goto_eff := (goto_eff 4).
Local Notation trunc_idem := (trunc_idem 4 HW4).
Local Notation word_trunc := (word_trunc 4 HW4).

Lemma ceff_expr i e tail c code c' : comp_expr e tail c = Some (code, c') -> ceff i false none none [] c c'.
Proof.
  unfold comp_expr. pose proof (relabel_le e (lc c)) as Hn. destruct (relabel e (lc c)) as [e' n].
  intros H. apply obind_Some in H as (cd & _ & H). apply some_inj, pair_inj in H as [_ <-]. now apply ceff_lc.
Qed.
Lemma ceff_ctl i t neg l c code c' : comp_ctl t neg l c = Some (code, c') -> ceff i false none none [] c c'.
Proof.
  destruct t as [v|e]; cbn [comp_ctl]; intros H.
  - apply some_inj, pair_inj in H as [_ <-]. apply ceff_refl.
  - destruct e; try (apply obind_Some in H as ([c1 c2] & H1 & H); apply some_inj, pair_inj in H as [_ <-]; eapply ceff_expr; eauto).
    eapply ceff_expr; eauto.
Qed.
Lemma ceff_octl i t l c code c' : comp_octl t l c = Some (code, c') -> ceff i false none none [] c c'.
Proof. destruct t; cbn; [apply ceff_ctl|]. intros H. apply some_inj, pair_inj in H as [_ <-]. apply ceff_refl. Qed.

Ltac ob H x y Hx := apply obind_Some in H as ([x y] & Hx & H).
Ltac fin H := apply some_inj, pair_inj in H as [<- <-].
Ltac inc := let y := fresh in let Hy := fresh in intros y Hy; repeat (progress (rewrite ?mlabels_app, ?in_app_iff; cbn [labels In app]));
  repeat (progress (rewrite ?in_app_iff in Hy; cbn [In app] in Hy)); tauto.

Lemma mcomp_eff s : forall x lvl last C code c', comp x lvl last s C = Some (code, c') ->
  ceff (cidx x) (has_default s) (fun v => has_case 4 v s) (fun l => has_label l s) (labels code) C c'.
Proof.
  induction s; intros X lvl last C code c' H; cbn [comp has_default has_case has_label] in *.
  - fin H. apply ceff_refl.
  - eapply ceff_use; [eapply ceff_expr; eauto|reflexivity|inc|discriminate|discriminate].
  - ob H ca c1 H1. ob H cb c2 H2. fin H. rewrite mlabels_app. apply IHs1 in H1. apply IHs2 in H2.
    exact (ceff_app _ _ _ _ _ _ _ _ _ _ _ _ H1 H2).
  - apply IHs in H. exact H.
  - ob H ct c1 H1. ob H ca c2 H2. fin H. apply (ceff_ctl (cidx X)) in H1. apply IHs in H2.
    eapply ceff_use; [eapply ceff_app; [apply (ceff_lc _ (lc C + 2)); lia|]; eapply ceff_app; [exact H1|exact H2]|..]; cbn; auto. inc.
  - ob H ct c1 H1. ob H ca c2 H2. ob H cb c3 H3. fin H. apply (ceff_ctl (cidx X)) in H1. apply IHs1 in H2. apply IHs2 in H3.
    eapply ceff_use; [eapply ceff_app; [apply (ceff_lc _ (lc C + 2)); lia|]; eapply ceff_app; [exact H1|]; eapply ceff_app; [exact H2|exact H3]|..]; cbn; auto. inc.
  - ob H ct c1 H1. ob H cb c2 H2. fin H. apply (ceff_ctl (cidx X)) in H1. apply IHs in H2. cbn [cidx] in H2.
    eapply ceff_use; [eapply ceff_app; [apply (ceff_lc _ (lc C + 2)); lia|]; eapply ceff_app; [exact H1|exact H2]|..]; cbn; auto. inc.
  - ob H cb c1 H1. ob H ct c2 H2. fin H. apply (ceff_ctl (cidx X)) in H2. apply IHs in H1. cbn [cidx] in H1.
    eapply ceff_use; [eapply ceff_app; [apply (ceff_lc _ (lc C + 3)); lia|]; eapply ceff_app; [exact H1|exact H2]|..]; cbn; auto; try (now rewrite orb_false_r).
    + inc.
    + intros v Hv. now rewrite orb_false_r in Hv.
    + intros v Hv. now rewrite orb_false_r in Hv.
  - ob H ci c1 H1. ob H ct c2 H2.
    assert (L1 : ceff (cidx X) false none none [] (set_lc (lc C + 4) C) c1).
    { destruct i; [eapply ceff_expr; eauto|]. fin H1. apply ceff_refl. }
    assert (L0 : ceff (cidx X) false none none [] C c2).
    { apply (ceff_octl (cidx X)) in H2. eapply ceff_use; [eapply ceff_app; [apply (ceff_lc _ (lc C + 4)); lia|]; eapply ceff_app; [exact L1|exact H2]|..]; cbn; auto. inc. }
    destruct x as [e|].
    + pose proof (relabel_le e (lc c2)) as Hle. destruct (relabel e (lc c2)) as [e' n]. cbn [snd] in Hle.
      destruct (_ && _).
      * ob H cb c3 H3. apply obind_Some in H as (cx & H4 & H). fin H. apply IHs in H3. cbn [cidx] in H3.
        eapply ceff_use; [eapply ceff_app; [exact L0|]; eapply ceff_app; [apply (ceff_lc _ n); lia|exact H3]|..]; cbn; auto. inc.
      * apply obind_Some in H as (cx & H4 & H). ob H cb c3 H3. fin H. apply IHs in H3. cbn [cidx] in H3.
        eapply ceff_use; [eapply ceff_app; [exact L0|]; eapply ceff_app; [apply (ceff_lc _ n); lia|exact H3]|..]; cbn; auto. inc.
    + ob H cb c3 H3. fin H. apply IHs in H3. cbn [cidx] in H3.
      eapply ceff_use; [eapply ceff_app; [exact L0|exact H3]|..]; cbn; auto. inc.
  - destruct (brk X); [|discriminate]. fin H. apply ceff_refl.
  - destruct (cnt X =? 0); [discriminate|]. fin H. apply ceff_refl.
  - ob H ce c1 H1. fin H. destruct e.
    + eapply ceff_use; [eapply ceff_expr; eauto|reflexivity|inc|discriminate|discriminate].
    + fin H1. eapply ceff_use; [apply ceff_refl|reflexivity|inc|discriminate|discriminate].
  - ob H ce c1 H1. apply obind_Some in H as (c2 & H2 & H). ob H cb c3 H3. ob H q d H4. fin H.
    assert (E1 : cases c1 = cases C /\ gotos c1 = gotos C /\ lc C <= lc c1).
    { revert H1. unfold comp_expr. pose proof (relabel_le e (lc (set_lc (lc C + 2) C))) as Hn. destruct (relabel e _) as [e' n].
      intros H1. apply obind_Some in H1 as (cd & _ & H1). apply some_inj, pair_inj in H1 as [_ <-]. cbn in *. split; auto. split; auto. lia. }
    destruct E1 as (E1 & E2 & E3). apply add_case_inv in H2. apply IHs in H3. cbn [cidx] in H3. subst c2.
    intros Hp Hi. pose proof (zlen_nonneg (cases C)). 
    destruct (H3 ltac:(cbn; lia) (conj (zlen_nonneg _) (Z.le_refl _))) as (A1 & (ext & A2 & A3 & _) & A5 & A6). cbn [lc cases gotos] in *.
    assert (EF : firstn (Z.to_nat (zlen (cases C))) (cases c3) = cases C).
    { unfold crel in A2. unfold zlen. rewrite Nat2Z.id. rewrite E1 in A2. destruct (has_default s).
      - destruct A2 as (a & v & b & l & Ea & Eb & _ & _ & ->). 
        rewrite zlen_app in Eb. change (zlen [(0, 0)]) with 1 in Eb. 
        apply app_split in Ea as [<- _]; [|unfold zlen in *; lia].
        rewrite firstn_app, Nat.sub_diag, firstn_all. cbn [firstn]. apply app_nil_r.
      - rewrite A2, <- app_assoc, firstn_app, Nat.sub_diag, firstn_all. cbn [firstn]. apply app_nil_r. }
    rewrite EF. split; [lia|]. split; [|rewrite <- E2; split; auto].
    { exists []. unfold crel. rewrite app_nil_r. split; auto. split; auto. intros v l []. }
    intros l k Hg. apply A6 in Hg as [Hg|[Hg Hk]]; [auto|right]. split; auto. rewrite !mlabels_app, !in_app_iff. auto.
  - destruct (cidx X =? 0); [discriminate|]. destruct (existsb _ _) eqn:Hex; [discriminate|].
    apply obind_Some in H as (c1 & H1 & H). ob H ca c2 H2. fin H. apply add_case_inv in H1. subst c1. apply IHs in H2.
    assert (H0 : ceff (cidx X) false (fun w => word v =? w) none [lc C] C (mkcst (lc C + 1) (cases C ++ [(trunc_int 4 v, lc C)]) (gotos C))).
    { intros Hp Hi. cbn [lc cases gotos]. split; [lia|]. split; [|split; eauto].
      exists [(trunc_int 4 v, lc C)]. split; [reflexivity|]. split.
      - intros w l [E|[]]. injection E as <- <-. rewrite word_trunc, Z.eqb_refl, trunc_idem. cbn; auto.
      - intros Hn. rewrite skipn_app, map_app. unfold zlen in *.
        replace (Z.to_nat (cidx X) - length (cases C))%nat with 0%nat by lia. apply NoDup_snoc; auto.
        now apply existsb_fst. }
    exact (ceff_app _ _ _ _ _ _ _ _ _ _ _ _ H0 H2).
  - destruct (cidx X =? 0); [discriminate|]. ob H v d H0. destruct (d =? 0) eqn:Hd; [|discriminate]. cbn [negb] in H. apply Z.eqb_eq in Hd. subst d.
    apply obind_Some in H as (cs & H1 & H). ob H ca c2 H2. fin H. apply IHs in H2.
    assert (H3 : ceff (cidx X) true none none [lc C] C (mkcst (lc C + 1) cs (gotos C))).
    { intros Hp Hi. cbn [lc cases gotos]. split; [lia|]. split; [|split; eauto].
      assert (HC : crel (cidx X) true [lc C] (cases C) cs []).
      { unfold crel. apply zset_inv in H1 as [H1 ->]. unfold zget in H0. destruct (_ <? 0); [discriminate|].
        apply nth_error_split in H0 as (a & b & E & Ha). exists a, v, b, (lc C). rewrite E, app_nil_r.
        split; auto. split; [unfold zlen; lia|]. split; auto. split; [cbn; auto|].
        rewrite <- Ha. clear. induction a; cbn; congruence. }
      exists []. split; [exact HC|]. split; [intros w l []|]. rewrite (crel_skipn _ _ _ _ _ _ Hi HC), app_nil_r. auto. }
    eapply ceff_use; [exact (ceff_app _ _ _ _ _ _ _ _ _ _ _ _ H3 H2)|..]; cbn; auto. apply incl_refl.
  - ob H k c1 H1. fin H. eapply ceff_use; [eapply goto_eff; eauto|..]; cbn; auto. apply incl_refl.
  - ob H k c1 H1. ob H ca c2 H2. fin H. apply (goto_eff (cidx X)) in H1 as [_ H1]. apply IHs in H2.
    eapply ceff_use; [exact (ceff_app _ _ _ _ _ _ _ _ _ _ _ _ H1 H2)|..]; cbn; auto. apply incl_refl.
Qed.

Lemma find_label_nth l prog : forall q, find_label l prog = Some q -> nth_error prog q = Some (Mlab l).
Proof.
  induction prog as [|i t IH]; intros q H; [discriminate|]. cbn [find_label] in H.
  assert (A : (let? k := find_label l t in Some (S k)) = Some q -> nth_error (i :: t) q = Some (Mlab l)).
  { intros E. apply obind_Some in E as (k & E1 & E2). injection E2 as <-. cbn [nth_error]. auto. }
  destruct i; auto. match type of H with context [?x =? l] => destruct (Z.eqb_spec x l) as [->|]; [|auto] end.
  injection H as <-. reflexivity.
Qed.

Section CompLay.
Variables (addr : Z -> Z) (bp lo top : Z) (prot : Z -> Prop).
Hypothesis Hlo : 0 <= lo.
Hypothesis Htop : top < 2 ^ 32.
Hypothesis Hprot : forall a, prot a -> ~ (lo <= a < top).
Variables (callee : Z -> mst -> option mst) (ext : Z -> list Z -> mem -> option (Z * mem)) (room : Z).
Hypothesis Hroom : 0 <= room.
Hypothesis Hcallee : callee_ok bp lo top prot ext callee room.
Variable prog : list mins.
Hypothesis Huniq : forall l p, nth_error prog p = Some (Mlab l) -> find_label l prog = Some p.
Variable D : Z.
Variable gF : list (Z * Z * bool).
Variable pE : nat.
Variable is_main : bool.
Hypothesis HgF : forall l k, goto_find l gF = Some (k, true) -> exists q, find_label k prog = Some q.
Definition G (l : Z) (q : nat) : Prop := exists k, goto_find l gF = Some (k, true) /\ find_label k prog = Some q.

Notation mstep := (mstep addr callee prog).
Notation mstar := (mstar addr callee prog).
Notation msteps := (msteps addr callee prog).
Notation regs := (mregs bp). Notation agree := (agree lo top prot). Notation keeps := (mkeeps top prot).
Notation silent := (silent addr callee prog). Notation hop := (hop addr callee prog).
Notation ecode := (ecode addr bp lo top prot callee ext room prog D).
Notation oecode := (oecode addr bp lo top prot callee ext room prog D).
Notation ccode := (ccode addr bp lo top prot callee ext room prog D).
Notation occode := (occode addr bp lo top prot callee ext room prog D).
Notation dispatch := (dispatch addr bp lo top prot callee prog).
Notation okk := (okk bp lo top prot).
Notation lay := (lay addr bp lo top prot callee ext room prog D G pE).
Notation loop := (loop addr bp lo top prot callee ext room prog D).
Notation code_at := (code_at prog).
Notation space := (space lo top room D).
Lemma code_at_cat pc a b : code_at pc (a ++ b) -> code_at pc a /\ code_at (pc + length a) b.
Proof. apply code_at_app. Qed.

Lemma hop_lab p l : code_at p [Mlab l] -> hop p (S p).
Proof.
  intros H s. exists 0%nat. econstructor; [|constructor]. apply code_at_hd in H as [H _]. unfold MipsSpec.mstep. now rewrite H.
Qed.
Lemma hop_jump p l q : code_at p (gen_jump l) -> find_label l prog = Some q -> hop p q.
Proof.
  intros H Hq s. exists 0%nat. econstructor; [|constructor]. apply code_at_hd in H as [H _]. unfold MipsSpec.mstep, branch. rewrite H. cbn [obind]. now rewrite Hq.
Qed.
Lemma lab_at p l : code_at p [Mlab l] -> find_label l prog = Some p.
Proof. intros H. apply code_at_hd in H as [H _]. now apply Huniq. Qed.
Lemma find_in p code l : code_at p code -> In l (labels code) -> exists q, find_label l prog = Some q.
Proof.
  revert p. induction code as [|i code IH]; intros p H Hin; [destruct Hin|]. apply code_at_hd in H as [H0 H].
  destruct i; cbn [labels] in Hin; try (now apply (IH _ H)). destruct Hin as [<-|Hin]; [|now apply (IH _ H)]. eauto.
Qed.

Lemma ecode_comp e tail c code c' p : mwfx e -> 0 < lc c -> tail = [] \/ tail = [TReturn] -> mdepth e <= D ->
  comp_expr e tail c = Some (code, c') -> code_at p code -> ecode (match tail with [] => false | _ => true end) e p (p + length code)%nat.
Proof.
  intros Hw Hlc Ht Hd H Hat. destruct (comp_expr_inv _ _ _ _ _ H) as (e' & E & Hg & _).
  destruct (relabel_mwf e (lc c) Hlc Hw) as (W1 & T1 & W2 & _). rewrite E in W1, T1, W2. cbn [fst] in *.
  intros s m HR HA HS Hsp. rewrite <- W2 in HS. apply msafe_strip in HS.
  assert (Hsp' : lo + room + mdepth e' <= R s 29 <= top).
  { rewrite <- (mdepth_strip e'), W2. unfold MipsStmtLay.space in Hsp. lia. }
  assert (Z1 : forall v m', esteps 4 addr bp ext (e', m) (EVal v, m') -> esteps 4 addr bp ext (e, m) (EVal v, m')).
  { intros v m' Q1. apply esteps_strip in Q1. cbn [fst snd strip] in Q1. rewrite W2 in Q1. exact Q1. }
  destruct Ht as [->| ->].
  - rewrite app_nil_r, gen_stmt in Hg by assumption. apply some_inj in Hg. subst code.
    destruct (top_ok addr bp lo top prot Hlo Htop Hprot callee ext room Hroom prog Huniq (cdepth e') (cdepth_nonneg e') Hcallee e' m W1 (depth0 e') HS p s)
      as (v & m1 & s1 & E1 & X1 & R1 & A1 & K1); auto.
    exists v, m1, s1. split; [apply Z1; exact E1|]. split; [exact X1|]. split; [split; auto|discriminate].
  - rewrite gen_value in Hg by assumption. apply some_inj in Hg. subst code.
    destruct (sem_all addr bp lo top prot Hlo Htop Hprot callee ext room Hroom prog Huniq (cdepth e') (cdepth_nonneg e') Hcallee e' rV0 0 m W1) with (pc := p) (s := s)
      as (v & m1 & s1 & [E1 _] & X1 & R1 & A1 & K1 & V1 & _); auto using depth0.
    + split; [now left|intros _; split; [lia|reflexivity]].
    + exists v, m1, s1. split; [apply Z1; exact E1|]. split; [exact X1|]. split; [split; auto|auto].
Qed.

Lemma jz_ok p s l q : code_at p (gen_jump_if_zero rV0 l) -> find_label l prog = Some q -> mstar (p, s) (if R s 2 =? 0 then q else (p + 1)%nat, s).
Proof.
  intros H Hq. apply code_at_hd in H as [H _]. econstructor; [|constructor]. unfold MipsSpec.mstep, branch. rewrite H. cbn [obind].
  change (reg s rV0) with (R s 2). change (reg s 0) with 0. destruct (R s 2 =? 0); cbn [Bool.eqb]; [rewrite Hq; reflexivity|]. now rewrite Nat.add_1_r.
Qed.
Lemma jnz_ok p s l q : code_at p (gen_jump_if_not_zero rV0 l) -> find_label l prog = Some q -> mstar (p, s) (if R s 2 =? 0 then (p + 1)%nat else q, s).
Proof.
  intros H Hq. apply code_at_hd in H as [H _]. econstructor; [|constructor]. unfold MipsSpec.mstep, branch. rewrite H. cbn [obind].
  change (reg s rV0) with (R s 2). change (reg s 0) with 0. destruct (R s 2 =? 0); cbn [Bool.eqb]; [now rewrite Nat.add_1_r|]. rewrite Hq; reflexivity.
Qed.

Lemma ccode_comp t neg l c code c' p q : cmwfx t -> 0 < lc c -> mcdepth t <= D ->
  comp_ctl t neg l c = Some (code, c') -> code_at p code -> find_label l prog = Some q ->
  ccode t p (if neg then (p + length code)%nat else q) (if neg then q else (p + length code)%nat).
Proof.
  intros Hw Hlc Hd H Hat Hq s m HR HA HS Hsp. destruct t as [v|e].
  - cbn [comp_ctl] in H. apply some_inj, pair_inj in H as [<- <-]. rewrite trunc_zero in * by auto.
    exists (negb (word v =? 0)), m, s. split; [split; reflexivity|]. split; [|split; [auto|split; [auto|split; auto]]].
    destruct (word v =? 0), neg; cbn [Bool.eqb negb] in *; first [apply hop_silent; eapply hop_jump; eauto; fail | cbn [length]; rewrite Nat.add_0_r; constructor].
  - cbn [comp_ctl cmwfx MipsStmtLay.csafe mcdepth] in *.
    assert (Gen : forall code1 c2, comp_expr e [TReturn] c = Some (code1, c2) ->
       code = code1 ++ (if neg then gen_jump_if_zero rV0 l else gen_jump_if_not_zero rV0 l) ->
       exists b m' s', holds 4 addr bp ext (CExpr e) m b m' /\
         mstar (p, s) ((if b : bool then if neg then (p + length code)%nat else q else if neg then q else (p + length code)%nat), s') /\ okk s m' s').
    { intros code1 c2 H1 E. subst code. apply code_at_cat in Hat as [Hat1 Hat2].
      destruct (ecode_comp e [TReturn] c code1 c2 p Hw Hlc (or_intror eq_refl) Hd H1 Hat1 s m HR HA HS Hsp) as (v & m' & s' & Q1 & Q2 & Q3 & Q6).
      specialize (Q6 eq_refl).
      exists (negb (v =? 0)), m', s'. split; [exists v; auto|]. split; [|exact Q3].
      eapply mstar_trans; [exact Q2|]. rewrite app_length, Nat.add_assoc.
      destruct neg.
      - pose proof (jz_ok _ s' l q Hat2 Hq) as JZ. rewrite Q6 in JZ. destruct (v =? 0); exact JZ.
      - pose proof (jnz_ok _ s' l q Hat2 Hq) as JN. rewrite Q6 in JN. destruct (v =? 0); exact JN. }
    destruct e as [| | | | | | | | | |o el er| | | | | | |];
      try (apply obind_Some in H as ([c1 c2] & H1 & H); apply some_inj, pair_inj in H as [<- <-]; eapply Gen; eauto; fail).
    clear Gen. destruct (comp_expr_inv _ _ _ _ _ H) as (e' & E & Hg & _).
    destruct (relabel_mwf (ECmp o el er) (lc c) Hlc Hw) as (W1 & T1 & W2 & _). rewrite E in W1, T1, W2. cbn [fst] in *.
    assert (Hg' : gen_expr (rpn 4 e' ++ [tif (negb neg) l]) = Some code) by (destruct neg; exact Hg).
    assert (Hv : isvoid e' = false) by (rewrite <- isvoid_strip, W2; reflexivity).
    rewrite gen_cond in Hg' by assumption. apply some_inj in Hg'. subst code.
    rewrite <- W2 in HS. apply msafe_strip in HS.
    assert (Hsp' : lo + room + mdepth e' <= R s 29 <= top).
    { rewrite <- (mdepth_strip e'), W2. unfold MipsStmtLay.space in Hsp. lia. }
    apply find_label_nth in Hq.
    assert (DD : decides addr bp lo top prot callee ext room prog e' m (Cif e' (negb neg) l) (negb neg) l q).
    { pose proof (val_decides addr bp lo top prot Hlo Htop Hprot callee ext room Hroom prog Huniq (cdepth e') (cdepth_nonneg e') Hcallee e' m (negb neg) l q Hq W1 (depth0 e') HS) as D0.
      destruct e'; try exact D0.
      refine (cmp_decides addr bp lo top prot Hlo Htop Hprot callee ext room Hroom prog Huniq _ (cdepth_nonneg _) Hcallee _ _ _ m (negb neg) l q Hq W1 (depth0 _) HS). }
    destruct (DD p s Hat HR HA Hsp') as (v & m' & s' & Q1 & Q2 & Q3 & Q4 & Q5).
    exists (negb (v =? 0)), m', s'. split; [|split; [|split; auto]].
    + exists v. split; [|reflexivity]. apply esteps_strip in Q1. cbn [fst snd strip] in Q1. rewrite W2 in Q1. exact Q1.
    + destruct neg, (v =? 0); exact Q2.
Qed.

(** ** Switch tables *)
Definition tab (t : list (Z * Z)) (w : Z) : option nat :=
  match List.find (fun y => word (fst y) =? w) t with Some (_, l) => find_label l prog | None => None end.


Lemma chain_ok t : forall p s m, code_at p (gen_chain t) -> regs s -> agree m (MM s) -> (forall v l, In (v, l) t -> exists q, find_label l prog = Some q) ->
  exists s', mstar (p, s) (match tab t (R s 2) with Some q => q | None => (p + length (gen_chain t))%nat end, s') /\ okk s m s'.
Proof.
  induction t as [|[v l] t IH]; intros p s m Hat HR HA Hl.
  - exists s. cbn. rewrite Nat.add_0_r. split; [constructor|]. split; auto. split; auto. split; auto.
  - change (gen_chain ((v, l) :: t)) with (gen_jump_if_equal v l ++ gen_chain t) in *.
    apply code_at_cat in Hat as [H1 H2]. apply code_at_hd in H1 as [Ha H1]. apply code_at_hd in H1 as [Hb _].
    destruct (Hl v l (or_introl eq_refl)) as [q Hq].
    set (s1 := setr rTB (w32 v) s).
    assert (K1 : okk s m s1).
    { destruct HR as (R1 & R2 & R3). split; [|split; [exact HA|split; auto]]. split; [|auto].
      intros r. unfold s1. rewrite R_setr by discriminate. destruct (r =? rTB); [apply w32_rng|apply R1]. }
    assert (V1 : R s1 2 = R s 2) by reflexivity.
    assert (S2 : mstar (p, s) (if word v =? R s 2 then q else (p + 2)%nat, s1)).
    { econstructor; [apply exec_mstep with (1 := Ha); reflexivity|]. fold s1.
      econstructor; [|constructor]. unfold MipsSpec.mstep, branch. rewrite Hb. cbn [obind].
      change (reg s1 rV0) with (R s 2). change (reg s1 rTB) with (w32 v). change (word v) with (w32 v).
      rewrite (Z.eqb_sym (w32 v)). destruct (R s 2 =? w32 v); cbn [Bool.eqb]; [rewrite Hq; reflexivity|]. repeat f_equal. lia. }
    unfold tab. cbn [List.find fst]. destruct (word v =? R s 2) eqn:E.
    + exists s1. rewrite Hq. split; [exact S2|exact K1].
    + change (length (gen_jump_if_equal v l)) with 2%nat in H2. destruct K1 as (K1 & K2 & K3).
      destruct (IH (p + 2)%nat s1 m H2 K1 K2) as (s2 & Hf & L1 & L2 & L3). { intros. apply (Hl v0). now right. }
      exists s2. split; [|split; [exact L1|split; [exact L2|eapply keeps_trans; [exact K3|exact L3]]]].
      eapply mstar_trans; [exact S2|]. rewrite V1 in Hf.
      unfold tab in Hf. destruct (List.find _ t) as [[v2 l2]|] eqn:Ef.
      * destruct (find_some _ _ Ef) as [Hin _]. destruct (Hl v2 l2 (or_intror Hin)) as [q2 Hq2]. rewrite Hq2 in *. exact Hf.
      * rewrite app_length. change (length (gen_jump_if_equal v l)) with 2%nat. rewrite Nat.add_assoc. exact Hf.
Qed.
Lemma tab_in t v l q : NoDup (map fst t) -> (forall a b, In (a, b) t -> trunc_int 4 a = a) -> In (v, l) t -> find_label l prog = Some q ->
  tab t (word v) = Some q.
Proof.
  intros Hn Ht Hin Hq. unfold tab. destruct (List.find _ t) as [[v2 l2]|] eqn:Ef.
  - destruct (find_some _ _ Ef) as [Hin2 E]. cbn in E. apply Z.eqb_eq in E.
    apply (trunc_word_inj 4 HW4) in E; eauto. subst v2. rewrite (nodup_fst t v l2 l Hn Hin2 Hin). exact Hq.
  - apply find_none with (x := (v, l)) in Ef; auto. cbn in Ef. rewrite Z.eqb_refl in Ef. discriminate.
Qed.

(** ** Layout of a compiled statement *)
Definition pre (i : Z) (c : cst) : Prop := ginv c /\ 0 <= i <= zlen (cases c).
Definition tabs (X : lctx) (i : Z) (c : cst) : Prop :=
  (forall v l q, In (v, l) (skipn (Z.to_nat i) (cases c)) -> i <> 0 -> find_label l prog = Some q -> tbl X (word v) = Some q) /\
  (forall v d q, i <> 0 -> zget (cases c) (i - 1) = Some (v, d) -> d <> 0 -> find_label d prog = Some q -> dfl X = Some q) /\
  (forall l k d, goto_find l (gotos c) = Some (k, d) -> goto_find l gF = Some (k, true)).
Definition stp (i : Z) (c c' : cst) : Prop := pre i c -> pre i c' /\ forall X, tabs X i c' -> tabs X i c.

Lemma stp_trans i c c1 c2 : stp i c c1 -> stp i c1 c2 -> stp i c c2.
Proof. intros H1 H2 Hp. destruct (H1 Hp) as [P1 T1]. destruct (H2 P1) as [P2 T2]. split; auto. Qed.
Lemma stp_lc i n c : lc c <= n -> stp i c (set_lc n c).
Proof.
  intros Hn [(I1 & I2 & I3 & I4) Hi]. split.
  - split; [|exact Hi]. split; [cbn; lia|]. split; [exact I2|]. split; [exact I3|]. intros x Hx. apply I4 in Hx. cbn. lia.
  - intros X H. exact H.
Qed.
Lemma stp_eff i d h g l l' c c' : L c l' c' -> ceff i d h g l c c' -> stp i c c'.
Proof.
  intros HL H [Hp Hi]. destruct (HL Hp) as (P' & _). destruct (H (proj1 Hp) Hi) as (A1 & (e1 & A2 & A3 & A4) & A5 & A6).
  split.
  - split; auto. pose proof (crel_len _ _ _ _ _ _ A2). pose proof (zlen_nonneg e1). lia.
  - intros X (T1 & T2 & T3). split; [|split].
    + intros v k q Hin. apply T1. rewrite (crel_skipn _ _ _ _ _ _ Hi A2). apply in_or_app. auto.
    + intros v k q Hi0 Hg Hk. apply (T2 v k q Hi0); auto. unfold crel in A2. destruct d.
      * destruct A2 as (a & v' & b & k' & E & Ea & _ & _ & _). rewrite E in Hg. rewrite zget_app_r in Hg by lia.
        replace (i - 1 - zlen a) with 0 in Hg by lia. rewrite zget_cons_0 in Hg. congruence.
      * rewrite A2, zget_app_l; auto. apply zget_Some_range in Hg. lia.
    + intros k j e Hg. apply A5 in Hg as [d' Hg]. eauto.
Qed.
Lemma stp_expr i e tail c code c' : mwfx e -> mtail e tail -> comp_expr e tail c = Some (code, c') -> stp i c c'.
Proof. intros. eapply stp_eff; [eapply comp_expr_L; eauto|eapply ceff_expr; eauto]. Qed.
Lemma stp_ctl i t neg l c code c' : cmwfx t -> comp_ctl t neg l c = Some (code, c') -> stp i c c'.
Proof. intros. eapply stp_eff; [eapply comp_ctl_L; eauto|eapply ceff_ctl; eauto]. Qed.
Lemma stp_octl i t l c code c' : ocmwfx t -> comp_octl t l c = Some (code, c') -> stp i c c'.
Proof. intros. eapply stp_eff; [eapply comp_octl_L; eauto|eapply ceff_octl; eauto]. Qed.
Lemma stp_comp x lvl last s c code c' : mswf s -> comp x lvl last s c = Some (code, c') -> stp (cidx x) c c'.
Proof. intros. eapply stp_eff; [eapply comp_L; eauto|eapply mcomp_eff; eauto]. Qed.
Lemma stp_goto i l def c k c' : add_goto_label l def c = Some (k, c') -> stp i c c'.
Proof. intros. eapply stp_eff; [eapply (goto_L 4 HW4); eauto|eapply goto_eff; eauto]. Qed.

Record ctxok (x : ctx) (X : lctx) : Prop := {
  co_brk : forall l, brk x = Some l -> exists q, xb X = Some q /\ find_label l prog = Some q;
  co_cnt : cnt x <> 0 -> exists q, xc X = Some q /\ find_label (cnt x) prog = Some q;
  co_epi : find_label (epi x) prog = Some pE;
  co_main : main x = is_main
}.
Definition tailc (last : bool) (lvl : Z) (s : stmt) (p' : nat) : Prop :=
  last && (lvl =? 1) && negb is_main = true -> tail_ret true s = true \/ (silent p' pE /\ tail_ret false s = true).
Lemma silent_trans p q r : silent p q -> silent q r -> silent p r.
Proof. apply MipsStmtLay.silent_trans. Qed.
Lemma lab_silent p l : code_at p [Mlab l] -> silent p (S p).
Proof. intros. eapply hop_silent, hop_lab; eauto. Qed.
Lemma jump_silent p l q : code_at p (gen_jump l) -> find_label l prog = Some q -> silent p q.
Proof. intros. eapply hop_silent, hop_jump; eauto. Qed.
Lemma tailc_sub last lvl s s' p p' : tailc last lvl s p' -> (forall b, tail_ret b s = tail_ret b s') -> silent p p' -> tailc last lvl s' p.
Proof.
  intros H E Hs Hl. rewrite <- !E. destruct (H Hl) as [|[H1 H2]]; [auto|]. right. split; auto. eapply silent_trans; eauto.
Qed.
Lemma tailc_false lvl s p : tailc false lvl s p.
Proof. intros H. discriminate. Qed.
Lemma tailc_loop last lvl s s' p p' : tailc last lvl s p' -> (forall b, tail_ret b s = tail_ret true s') -> tailc last lvl s' p.
Proof. intros H E Hl. left. destruct (H Hl) as [Q|[_ Q]]; rewrite E in Q; exact Q. Qed.

Lemma never_jump t l c code c' p q : never 4 t = true -> comp_ctl t true l c = Some (code, c') -> code_at p code -> find_label l prog = Some q ->
  silent p q.
Proof.
  destruct t; [|discriminate]. cbn [never comp_ctl]. intros -> H Hat Hq. cbn in H. apply some_inj, pair_inj in H as [<- <-].
  eapply jump_silent; eauto.
Qed.
Ltac cat H H1 H2 := apply code_at_cat in H as [H1 H2].

Lemma ctx_loop x X l1 l2 q1 q2 b2 : ctxok x X -> find_label l1 prog = Some q1 -> find_label l2 prog = Some q2 ->
  ctxok (mkctx (Some l1) l2 (cidx x) (epi x) (main x) b2) (inloop X q1 q2).
Proof.
  intros [H1 H2 H3 H4] E1 E2. split; cbn; auto.
  - intros l H. apply some_inj in H. subst l. eauto.
  - eauto.
Qed.
Lemma tabs_loop X q1 q2 i c : tabs X i c -> tabs (inloop X q1 q2) i c.
Proof. intros H. exact H. Qed.

Lemma pre_pos i c : pre i c -> 0 < lc c.
Proof. intros [[H _] _]. exact H. Qed.

Lemma comp_lay s : forall x lvl last C code c' p p' X, mswf s -> msdepth s <= D -> 1 <= lvl ->
  comp x lvl last s C = Some (code, c') -> pre (cidx x) C -> code_at p code -> p' = (p + length code)%nat ->
  ctxok x X -> tabs X (cidx x) c' -> tailc last lvl s p' -> lay s X p p'.
Proof.
  induction s; intros Xc lvl last C code c' p p' X Hw Hd Hlv H HP Hat Hp' HX HT HTL; cbn [comp mswf msdepth] in *.
  - fin H. rewrite Nat.add_0_r in Hp'. subst p'. constructor.
  - subst p'. constructor. eapply (ecode_comp e []); eauto using pre_pos.
  - ob H ca c1 H1. ob H cb c2 H2. fin H. destruct Hw as [Hw1 Hw2]. cat Hat A1 A2. rewrite app_length, Nat.add_assoc in Hp'.
    pose proof (stp_comp _ _ _ _ _ _ _ Hw1 H1 HP) as [P1 _]. pose proof (stp_comp _ _ _ _ _ _ _ Hw2 H2 P1) as [_ T2].
    eapply l_seq; [eapply IHs1|eapply IHs2]; eauto; try lia. apply tailc_false.
  - apply l_block. eapply (IHs Xc (lvl + 1)); eauto; [lia|]. intros Hl. apply andb_prop in Hl as [Hl _]. apply andb_prop in Hl as [_ Hl]. lia.
  - (* if *)
    ob H ct c1 H1. ob H ca c2 H2. fin H. destruct Hw as [Hw1 Hw2]. cat Hat A1 A2. cat A2 A2 A3.
    rewrite !app_length in Hp'. cbn [length] in Hp'.
    pose proof (stp_lc (cidx Xc) (lc C + 2) C ltac:(lia) HP) as [P0 _].
    pose proof (stp_ctl (cidx Xc) _ _ _ _ _ _ Hw1 H1 P0) as [P1 _]. pose proof (stp_comp _ _ _ _ _ _ _ Hw2 H2 P1) as [P2 T2].
    pose proof (lab_at _ _ A3) as F1.
    assert (S1 : silent (p + length ct + length ca) p') by (replace p' with (S (p + length ct + length ca)) by lia; eapply lab_silent; eauto).
    assert (CC : ccode c p (p + length ct) (p + length ct + length ca)) by (apply (ccode_comp c true _ _ _ _ p (p + length ct + length ca)%nat Hw1) in H1; auto; [eauto using pre_pos|lia]).
    eapply l_if; [exact CC|exact S1| |exact S1].
    eapply IHs; eauto; [lia|]. eapply tailc_sub; [exact HTL|reflexivity|exact S1].
  - (* if else *)
    ob H ct c1 H1. ob H ca c2 H2. ob H cb c3 H3. fin H. destruct Hw as (Hw1 & Hw2 & Hw3).
    cat Hat A1 A2. cat A2 A2 A3. cat A3 A3 A4. cat A4 A4 A5. cat A5 A5 A6.
    rewrite !app_length in Hp'. cbn [length gen_jump gen1] in *.
    pose proof (stp_lc (cidx Xc) (lc C + 2) C ltac:(lia) HP) as [P0 _].
    pose proof (stp_ctl (cidx Xc) _ _ _ _ _ _ Hw1 H1 P0) as [P1 _]. pose proof (stp_comp _ _ _ _ _ _ _ Hw2 H2 P1) as [P2 T2].
    pose proof (stp_comp _ _ _ _ _ _ _ Hw3 H3 P2) as [P3 T3].
    pose proof (lab_at _ _ A4) as F1. pose proof (lab_at _ _ A6) as F2.
    set (q1 := (p + length ct + length ca + 1)%nat) in *. set (q2 := (q1 + 1 + length cb)%nat) in *.
    assert (S1 : silent q2 p') by (replace p' with (S q2) by (subst q2 q1; lia); eapply lab_silent; eauto).
    assert (S0 : silent q1 (q1 + 1)) by (rewrite Nat.add_1_r; eapply lab_silent; eauto).
    apply l_ifelse with (p1 := (p + length ct)%nat) (p2 := (p + length ct + length ca)%nat) (pf := q1) (p3 := (q1 + 1)%nat) (p4 := q2).
    + apply (ccode_comp c true _ _ _ _ p q1 Hw1) in H1; auto; [eauto using pre_pos|lia].
    + exact S0.
    + eapply IHs1; eauto; [lia|]. apply tailc_false.
    + eapply silent_trans; [eapply jump_silent; eauto|exact S1].
    + eapply IHs2; eauto; [lia|]. eapply tailc_sub; [exact HTL|reflexivity|exact S1].
    + exact S1.
  - (* while *)
    ob H ct c1 H1. ob H cb c2 H2. fin H. destruct Hw as (Hw1 & Hw2).
    cat Hat A1 A2. cat A2 A2 A3. cat A3 A3 A4. cat A4 A4 A5.
    rewrite !app_length in Hp'. cbn [length] in *.
    pose proof (stp_lc (cidx Xc) (lc C + 2) C ltac:(lia) HP) as [P0 _].
    pose proof (stp_ctl (cidx Xc) _ _ _ _ _ _ Hw1 H1 P0) as [P1 _].
    pose proof (stp_comp _ _ _ _ _ _ _ Hw2 H2 P1) as [P2 T2]. cbn [cidx] in *.
    pose proof (lab_at _ _ A1) as F1. pose proof (lab_at _ _ A5) as F2.
    set (J := if never 4 c then [] else gen_jump (lc C)) in *.
    set (p1 := (p + 1)%nat) in *. set (p2 := (p1 + length ct)%nat) in *. set (p3 := (p2 + length cb)%nat) in *. set (p4 := (p3 + length J)%nat) in *.
    assert (E' : p' = S p4) by (subst p4 p3 p2 p1; lia).
    assert (S0 : hop p p1) by (subst p1; rewrite Nat.add_1_r; eapply hop_lab; eauto).
    assert (S4 : silent p4 p') by (rewrite E'; eapply lab_silent; eauto).
    assert (CC : ccode c p1 p2 p4) by (apply (ccode_comp c true _ _ _ _ p1 p4 Hw1) in H1; auto; [eauto using pre_pos|lia]).
    assert (HB : lay s (inloop X p4 p) p2 p3).
    { eapply IHs; [exact Hw2|lia|exact Hlv|exact H2|exact P1|exact A3|reflexivity| | |]; cbn [cidx].
      - now apply ctx_loop.
      - apply tabs_loop. exact HT.
      - eapply tailc_loop; [exact HTL|reflexivity]. }
    destruct (never 4 c) eqn:Hn; subst J.
    + assert (E3 : p4 = p3) by (subst p4; cbn; lia). rewrite <- E3 in HB.
      apply l_while with (p1 := p1) (p2 := p2) (p3 := p4) (px := p') (qb := p4) (qc := p); [|exact S4|exact HB]. split.
      * exact S0.
      * exists p2, p4. split; [exact CC|]. split; [apply silent_refl|exact S4].
      * reflexivity.
      * right. split; [exact Hn|apply silent_refl].
      * exact S4.
      * eapply silent_trans; [apply hop_silent; exact S0|]. eapply silent_trans; [|exact S4]. eapply never_jump; eauto.
    + assert (S3 : silent p3 p) by (eapply jump_silent; eauto).
      apply l_while with (p1 := p1) (p2 := p2) (p3 := p3) (px := p) (qb := p4) (qc := p); [|exact S3|exact HB]. split.
      * exact S0.
      * exists p2, p4. split; [exact CC|]. split; [apply silent_refl|exact S4].
      * reflexivity.
      * left. apply silent_refl.
      * exact S4.
      * apply silent_refl.
  - (* do *)
    ob H cb c1 H1. ob H ct c2 H2. fin H. destruct Hw as (Hw1 & Hw2).
    cat Hat A1 A2. cat A2 A2 A3. cat A3 A3 A4. cat A4 A4 A5.
    rewrite !app_length in Hp'. cbn [length] in *.
    pose proof (stp_lc (cidx Xc) (lc C + 3) C ltac:(lia) HP) as [P0 _].
    pose proof (stp_comp _ _ _ _ _ _ _ Hw2 H1 P0) as [P1 T1]. cbn [cidx] in *.
    pose proof (stp_ctl (cidx Xc) _ _ _ _ _ _ Hw1 H2 P1) as [P2 T2].
    pose proof (lab_at _ _ A1) as F1. pose proof (lab_at _ _ A3) as F2. pose proof (lab_at _ _ A5) as F3.
    set (p1 := (p + 1)%nat) in *. set (p2 := (p1 + length cb)%nat) in *. set (pw := (p2 + 1)%nat) in *. set (p4 := (pw + length ct)%nat) in *.
    assert (E' : p' = S p4) by (subst p4 pw p2 p1; lia).
    assert (S4 : silent p4 p') by (rewrite E'; eapply lab_silent; eauto).
    assert (S2 : silent p2 pw) by (subst pw; rewrite Nat.add_1_r; eapply lab_silent; eauto).
    apply l_do with (p1 := p1) (p2 := p2) (pw := pw) (pt := p) (pf := p4) (qb := p4) (qc := p2); auto.
    + subst p1. rewrite Nat.add_1_r. eapply hop_lab; eauto.
    + eapply IHs; [exact Hw2|lia|exact Hlv|exact H1|exact P0|exact A2|reflexivity| | |]; cbn [cidx].
      * now apply ctx_loop.
      * apply tabs_loop, T2, HT.
      * apply tailc_false.
    + apply (ccode_comp c false _ _ _ _ pw p Hw1) in H2; auto; [eauto using pre_pos|lia].
    + apply silent_refl.
  - (* for *)
    ob H ci c1 H1. ob H ct c2 H2. destruct Hw as (Wi & Wc & Wx & Wb).
    pose proof (stp_lc (cidx Xc) (lc C + 4) C ltac:(lia) HP) as [P0 _].
    assert (P1 : pre (cidx Xc) c1).
    { destruct i; [eapply (stp_expr _ _ []) in H1; eauto using mtail_nil; apply H1; exact P0|]. fin H1. exact P0. }
    pose proof (stp_octl (cidx Xc) _ _ _ _ _ Wc H2 P1) as [P2 _].
    assert (Hinit : forall q, lay (SFor None c x s) X (p + length ci) q -> code_at p ci -> lay (SFor i c x s) X p q).
    { intros q Hq Ha. destruct i as [e|].
      - eapply l_for; [|exact Hq]. eapply (ecode_comp e [] _ _ _ _ Wi (pre_pos _ _ P0) (or_introl eq_refl)); [cbn [modepth] in Hd; lia|exact H1|exact Ha].
      - apply some_inj, pair_inj in H1 as [<- _]. rewrite Nat.add_0_r in Hq. exact Hq. }
    assert (Hcond : forall q1 q2, code_at q1 ct -> find_label (lc C + 3) prog = Some q2 -> occode c q1 (q1 + length ct) q2).
    { intros q1 q2 Ha Hf. destruct c as [c|]; cbn [occode comp_octl StmtLay.occode] in *.
      - apply (ccode_comp c true _ _ _ _ q1 q2 Wc (pre_pos _ _ P1)) in H2; auto. cbn [mocdepth] in Hd. lia.
      - apply some_inj, pair_inj in H2 as [<- _]. cbn. lia. }
    assert (Hnev : onever 4 c = true -> forall q1 q2, code_at q1 ct -> find_label (lc C + 3) prog = Some q2 -> silent q1 q2).
    { intros Hn q1 q2 Ha Hf. destruct c as [c|]; [|discriminate]. eapply never_jump; eauto. }
    destruct x as [e|].
    + destruct (relabel e (lc c2)) as [e' n] eqn:Er.
      assert (Hle : lc c2 <= n) by (pose proof (relabel_le e (lc c2)) as Q; rewrite Er in Q; exact Q).
      pose proof (stp_lc (cidx Xc) n c2 Hle P2) as [P3 _].
      assert (Hx : forall cx q, gen_expr (rpn 4 e') = Some cx -> code_at q cx -> oecode false (Some e) q (q + length cx)).
      { intros cx q Hg Ha. cbn [MipsStmtLay.oecode]. apply (ecode_comp e [] c2 cx (set_lc n c2) q Wx (pre_pos _ _ P2) (or_introl eq_refl)); auto.
        - cbn [modepth] in Hd. lia.
        - unfold comp_expr. rewrite Er, app_nil_r, Hg. reflexivity. }
      destruct (_ && _).
      * ob H cb c3 H3. apply obind_Some in H as (cx & H4 & H). fin H.
        cat Hat A0 A1. cat A1 A1 A2. cat A2 A2 A3. cat A3 A3 A4. cat A4 A4 A5. cat A5 A5 A6. cat A6 A6 A7.
        rewrite !app_length in Hp'. cbn [length] in *.
        pose proof (stp_comp _ _ _ _ _ _ _ Wb H3 P3) as [P4 T4]. cbn [cidx] in *.
        pose proof (lab_at _ _ A1) as F1. pose proof (lab_at _ _ A4) as F2. pose proof (lab_at _ _ A7) as F3.
        set (J := if onever 4 c then [] else gen_jump (lc C)) in *.
        set (q0 := (p + length ci)%nat) in *. set (p1 := (q0 + 1)%nat) in *. set (p2 := (p1 + length ct)%nat) in *. set (p3 := (p2 + length cb)%nat) in *.
        set (px := (p3 + 1)%nat) in *. set (py := (px + length cx)%nat) in *. set (p5 := (py + length J)%nat) in *.
        assert (E' : p' = S p5) by (subst p5 py px p3 p2 p1 q0; lia).
        assert (S5 : silent p5 p') by (rewrite E'; eapply lab_silent; eauto).
        assert (S3 : silent p3 px) by (subst px; rewrite Nat.add_1_r; eapply lab_silent; eauto).
        apply Hinit; auto.
        apply l_for0 with (p1 := p1) (p2 := p2) (p3 := p3) (px := px) (py := py) (qb := p5) (qc := p3); [|exact S3|].
        -- split; auto.
           ++ subst p1. rewrite Nat.add_1_r. eapply hop_lab; eauto.
           ++ exists p2, p5. split; [apply Hcond; auto|]. split; [apply silent_refl|exact S5].
           ++ exact (Hx cx px H4 A5).
           ++ destruct (onever 4 c) eqn:Hn; subst J.
              ** right. split; auto. replace py with p5 by (subst p5; cbn; lia). exact S5.
              ** left. eapply jump_silent; eauto.
        -- eapply IHs; [exact Wb|lia|exact Hlv|exact H3|exact P3|exact A3|reflexivity| | |]; cbn [cidx].
           ++ now apply ctx_loop.
           ++ apply tabs_loop, HT.
           ++ eapply tailc_loop; [exact HTL|reflexivity].
      * apply obind_Some in H as (cx & H4 & H). ob H cb c3 H3. fin H.
        cat Hat A0 A1. cat A1 A1 A2. cat A2 A2 A3. cat A3 A3 A4. cat A4 A4 A5. cat A5 A5 A6. cat A6 A6 A7. cat A7 A7 A8. cat A8 A8 A9. cat A9 A9 A10.
        rewrite !app_length in Hp'. cbn [length gen_jump gen1] in *.
        pose proof (stp_comp _ _ _ _ _ _ _ Wb H3 P3) as [P4 T4]. cbn [cidx] in *.
        pose proof (lab_at _ _ A1) as F1. pose proof (lab_at _ _ A4) as F2. pose proof (lab_at _ _ A7) as F3. pose proof (lab_at _ _ A10) as F4.
        set (q0 := (p + length ci)%nat) in *. set (p1 := (q0 + 1)%nat) in *. set (pt := (p1 + length ct)%nat) in *. set (qx := (pt + 1)%nat) in *.
        set (px := (qx + 1)%nat) in *. set (py := (px + length cx)%nat) in *. set (qd := (py + 1)%nat) in *. set (p2 := (qd + 1)%nat) in *.
        set (p3 := (p2 + length cb)%nat) in *. set (p5 := (p3 + 1)%nat) in *.
        assert (E' : p' = S p5) by (subst p5 p3 p2 qd py px qx pt p1 q0; lia).
        assert (S5 : silent p5 p') by (rewrite E'; eapply lab_silent; eauto).
        assert (Sx : silent qx px) by (subst px; rewrite Nat.add_1_r; eapply lab_silent; eauto).
        assert (S3 : silent p3 px) by (eapply silent_trans; [eapply jump_silent; eauto|exact Sx]).
        apply Hinit; auto.
        apply l_for0 with (p1 := p1) (p2 := p2) (p3 := p3) (px := px) (py := py) (qb := p5) (qc := qx); [|exact S3|].
        -- split; auto.
           ++ subst p1. rewrite Nat.add_1_r. eapply hop_lab; eauto.
           ++ exists pt, p5. split; [apply Hcond; auto|]. split; [|exact S5].
              eapply silent_trans; [eapply jump_silent; eauto|]. subst p2. rewrite Nat.add_1_r. eapply lab_silent; eauto.
           ++ exact (Hx cx px H4 A5).
           ++ left. eapply jump_silent; eauto.
        -- eapply IHs; [exact Wb|lia|exact Hlv|exact H3|exact P3|exact A8|reflexivity| | |]; cbn [cidx].
           ++ now apply ctx_loop.
           ++ apply tabs_loop, HT.
           ++ eapply tailc_loop; [exact HTL|reflexivity].
    + ob H cb c3 H3. fin H.
      cat Hat A0 A1. cat A1 A1 A2. cat A2 A2 A3. cat A3 A3 A4. cat A4 A4 A5.
      rewrite !app_length in Hp'. cbn [length] in *.
      pose proof (stp_comp _ _ _ _ _ _ _ Wb H3 P2) as [P4 T4]. cbn [cidx] in *.
      pose proof (lab_at _ _ A1) as F1. pose proof (lab_at _ _ A5) as F3.
      set (J := if onever 4 c then [] else gen_jump (lc C)) in *.
      set (q0 := (p + length ci)%nat) in *. set (p1 := (q0 + 1)%nat) in *. set (p2 := (p1 + length ct)%nat) in *. set (p3 := (p2 + length cb)%nat) in *.
      set (p5 := (p3 + length J)%nat) in *.
      assert (E' : p' = S p5) by (subst p5 p3 p2 p1 q0; lia).
      assert (S5 : silent p5 p') by (rewrite E'; eapply lab_silent; eauto).
      assert (S0 : hop q0 p1) by (subst p1; rewrite Nat.add_1_r; eapply hop_lab; eauto).
      apply Hinit; auto.
      assert (HB : lay s (inloop X p5 (if onever 4 c then p5 else q0)) p2 p3).
      { eapply IHs; [exact Wb|lia|exact Hlv|exact H3|exact P2|exact A3|reflexivity| | |]; cbn [cidx].
        - apply ctx_loop; auto. destruct (onever 4 c); auto.
        - apply tabs_loop, HT.
        - eapply tailc_loop; [exact HTL|reflexivity]. }
      assert (HC : exists pt pf, occode c p1 pt pf /\ silent pt p2 /\ silent pf p').
      { exists p2, p5. split; [apply Hcond; auto|]. split; [apply silent_refl|exact S5]. }
      destruct (onever 4 c) eqn:Hn; subst J.
      * replace p3 with p5 in * by (subst p5; cbn; lia).
        apply l_for0 with (p1 := p1) (p2 := p2) (p3 := p5) (px := p') (py := p') (qb := p5) (qc := p5); [|exact S5|exact HB].
        split; auto; [reflexivity|]. right. split; auto. apply silent_refl.
      * assert (S3 : silent p3 q0) by (eapply jump_silent; eauto).
        apply l_for0 with (p1 := p1) (p2 := p2) (p3 := p3) (px := q0) (py := q0) (qb := p5) (qc := q0); [|exact S3|exact HB].
        split; auto; [reflexivity| |apply silent_refl]. left. apply silent_refl.
  - destruct (brk Xc) eqn:Hb; [|discriminate]. fin H. destruct (co_brk _ _ HX _ Hb) as (q & Q1 & Q2). eapply l_break; eauto. eapply hop_jump; eauto.
  - destruct (Z.eqb_spec (cnt Xc) 0); [discriminate|]. fin H. destruct (co_cnt _ _ HX n) as (q & Q1 & Q2). eapply l_continue; eauto. eapply hop_jump; eauto.
  - (* return *)
    ob H ce c1 H1. fin H. cat Hat A1 A2. rewrite (co_main _ _ HX) in *.
    apply l_return with (p1 := (p + length ce)%nat).
    + destruct e as [e|].
      * cbn [MipsStmtLay.oecode]. eapply (ecode_comp e [TReturn]); eauto using pre_pos.
      * apply some_inj, pair_inj in H1 as [<- _]. cbn. lia.
    + destruct (last && (lvl =? 1) && negb is_main) eqn:Hl.
      * rewrite app_length in Hp'. cbn [length] in Hp'. rewrite Nat.add_0_r in Hp'. subst p'. destruct (HTL Hl) as [Q|[Q _]]; [discriminate|exact Q].
      * eapply jump_silent; eauto. apply (co_epi _ _ HX).
  - (* switch *)
    ob H ce c1 H1. apply obind_Some in H as (c2 & H2 & H). ob H cb c3 H3. ob H q d H4. fin H. destruct Hw as (Hw1 & Hw2).
    cat Hat A0 A1. cat A1 A1 A2. cat A2 A2 A3. cat A3 A3 A4. cat A4 A4 A5. cat A5 A5 A6. cat A6 A6 A7.
    rewrite !app_length in Hp'. cbn [length gen_jump gen1] in *.
    pose proof (stp_lc (cidx Xc) (lc C + 2) C ltac:(lia) HP) as [P0 _].
    pose proof (stp_expr (cidx Xc) _ _ _ _ _ Hw1 (mtail_ret e) H1 P0) as [P1 _].
    assert (E1 : cases c1 = cases C) by (destruct (comp_expr_inv _ _ _ _ _ H1) as (e' & _ & _ & ->); reflexivity).
    apply add_case_inv in H2. rewrite E1 in H2. subst c2.
    set (c2 := mkcst (lc c1) (cases C ++ [(0, 0)]) (gotos c1)) in *.
    assert (P2 : pre (zlen (cases c2)) c2).
    { split; [exact (proj1 P1)|]. split; [apply zlen_nonneg|lia]. }
    pose proof (mcomp_eff s _ _ _ _ _ _ H3 (pre_pos _ _ P2) (proj2 P2)) as (B1 & (ext1 & B2 & B3 & B4) & B5 & B6). cbn [cidx] in *.
    assert (Z2 : zlen (cases c2) = zlen (cases C) + 1) by (subst c2; cbn [cases]; rewrite zlen_app; reflexivity).
    pose proof (crel_skipn _ _ _ _ _ _ (proj2 P2) B2) as B7.
    assert (Z3 : skipn (Z.to_nat (zlen (cases c2))) (cases c2) = []) by (unfold zlen; rewrite Nat2Z.id; apply skipn_all).
    rewrite Z3 in B7, B4. cbn [app map] in B7, B4. specialize (B4 (NoDup_nil _)). rewrite B7 in B4.
    assert (B8 : skipn (Z.to_nat (zlen (cases C) + 1)) (cases c3) = ext1) by (rewrite <- Z2; exact B7).
    rewrite B8 in A5, A6, A7, Hp'.
    pose proof (lab_at _ _ A4) as F1. pose proof (lab_at _ _ A7) as F2.
    set (p1 := (p + length ce)%nat) in *. set (p2 := (p1 + 1)%nat) in *. set (p3 := (p2 + length cb)%nat) in *. set (p4 := (p3 + 1)%nat) in *.
    set (p5 := (p4 + 1)%nat) in *. set (p6 := (p5 + length (gen_chain ext1))%nat) in *.
    set (dl := if d =? 0 then lc C else d) in *.
    set (J := if dl =? lc C then [] else gen_jump dl) in *.
    assert (EJ : dl = lc C -> J = []) by (intros ->; subst J; now rewrite Z.eqb_refl).
    assert (EJ2 : dl <> lc C -> J = gen_jump dl) by (intros Hne; subst J; destruct (Z.eqb_spec dl (lc C)); congruence).
    clearbody J. set (p7 := (p6 + length J)%nat) in *.
    assert (Hdd : has_default s = false /\ d = 0 \/ has_default s = true /\ 0 < d /\ In d (labels cb)).
    { unfold crel in B2. subst c2. cbn [cases] in *. destruct (has_default s); [right|left]; split; auto.
      - destruct B2 as (a & v & b & l & E2 & Ea & Hl & Hin & E3). rewrite Z2 in Ea.
        assert (Ha : length (cases C) = length a) by (unfold zlen in Ea; lia).
        destruct (app_split _ _ _ _ Ha E2) as [<- _].
        rewrite E3, zget_app_r, Z.sub_diag, zget_cons_0 in H4 by lia. apply some_inj, pair_inj in H4 as [_ <-]. auto.
      - rewrite B2, <- app_assoc, zget_app_r, Z.sub_diag in H4 by lia. cbn [app] in H4. rewrite zget_cons_0 in H4. congruence. }
    assert (E' : p' = S p7) by (subst p7 p6 p5 p4 p3 p2 p1; lia).
    assert (S7 : silent p7 p') by (rewrite E'; eapply lab_silent; eauto).
    assert (S3 : silent p3 p') by (eapply silent_trans; [eapply jump_silent; eauto|exact S7]).
    assert (FL : forall v l, In (v, l) ext1 -> exists q, find_label l prog = Some q).
    { intros v l Hin. apply B3 in Hin as (Hin & _ & _). exact (find_in _ _ _ A2 Hin). }
    set (dopt := if d =? 0 then None else find_label d prog).
    assert (Hdn : d <> 0 -> exists qd, find_label d prog = Some qd).
    { intros Hd0. destruct Hdd as [[_ ?]|(_ & _ & Hin)]; [contradiction|]. exact (find_in _ _ _ A2 Hin). }
    apply l_switch with (p1 := p1) (p2 := p2) (p3 := p3) (T := tab ext1) (d := dopt) (qb := p7); auto.
    + eapply (ecode_comp e [TReturn] _ _ _ _ Hw1 (pre_pos _ _ P0) (or_intror eq_refl)); [lia|exact H1|exact A0].
    + (* dispatch *)
      intros st m HR HA.
      assert (J1 : hop p1 p5).
      { eapply hop_trans; [eapply hop_jump; eauto|]. subst p5. rewrite Nat.add_1_r. eapply lab_silent; eauto. }
      destruct (chain_ok ext1 p5 st m A5 HR HA FL) as (s5 & Hf & K5). destruct (J1 st) as [n Hn].
      assert (KK : forall q, mstar (p1, st) (p1, st) -> silent (match tab ext1 (R st 2) with Some q => q | None => p6 end) q ->
        exists n s', msteps (S n) (p1, st) (q, s') /\ okk st m s').
      { intros qq _ Hs. assert (MS : mstar (p5, st) (qq, s5)) by (eapply mstar_trans; [exact Hf|apply Hs]).
        apply mstar_msteps in MS as [n2 M2]. exists (n + n2)%nat, s5. split; [|exact K5].
        exact (msteps_trans _ _ _ (S n) n2 _ _ _ Hn M2). }
      destruct (tab ext1 (R st 2)) as [qt|].
      * apply KK; [constructor|apply silent_refl].
      * assert (E67 : J = [] -> p6 = p7) by (intros ->; subst p7; cbn [length]; lia).
        subst dopt dl. destruct (Z.eqb_spec d 0) as [Hd0|Hd0].
        -- apply KK; [constructor|]. rewrite (E67 (EJ eq_refl)). exact S7.
        -- destruct (Hdn Hd0) as [qd Hqd]. rewrite Hqd. apply KK; [constructor|]. destruct (Z.eq_dec d (lc C)) as [Hd1|Hd1].
           ++ rewrite (E67 (EJ Hd1)). rewrite <- Hd1, Hqd in F2. apply some_inj in F2. rewrite F2. apply silent_refl.
           ++ rewrite (EJ2 Hd1) in A6. eapply jump_silent; eauto.
    + intros v Hv. unfold tab in Hv. destruct (List.find _ ext1) as [[v1 l1]|] eqn:Ef; [|contradiction].
      destruct (find_some _ _ Ef) as [Hin E2]. apply Z.eqb_eq in E2. cbn in E2. subst v. apply B3 in Hin. tauto.
    + intros Hn. destruct Hdd as [[_ Hd0]|[Hd0 _]]; [|exact Hd0]. exfalso. apply Hn. subst dopt. rewrite Hd0. reflexivity.
    + eapply IHs; [exact Hw2|lia|exact Hlv|exact H3|exact P2|exact A2|reflexivity| | |]; cbn [cidx].
      * destruct HX as [X1 X2 X3 X4]. split; cbn [brk cnt epi main xb xc]; auto. intros l Hl. apply some_inj in Hl. subst l. eauto.
      * split; [|split]; cbn [tbl dfl].
        -- intros v l q1 Hin _ Hq. rewrite B7 in Hin. eapply tab_in; eauto. intros a b Hab. apply B3 in Hab. tauto.
        -- intros v d1 q1 _ Hg Hd1 Hq. replace (zlen (cases c2) - 1) with (zlen (cases C)) in Hg by lia. rewrite H4 in Hg.
           apply some_inj, pair_inj in Hg as [_ <-]. subst dopt. destruct (Z.eqb_spec d 0); [contradiction|exact Hq].
        -- destruct HT as (_ & _ & T3). exact T3.
      * eapply tailc_sub; [exact HTL|reflexivity|exact S3].
  - (* case *)
    destruct (Z.eqb_spec (cidx Xc) 0); [discriminate|]. destruct (existsb _ _) eqn:Hex; [discriminate|].
    apply obind_Some in H as (c1 & H1 & H). ob H ca c2 H2. fin H. apply add_case_inv in H1. subst c1. cbn [lc] in *.
    cat Hat A1 A2. rewrite app_length in Hp'. cbn [length] in *. pose proof (lab_at _ _ A1) as F1.
    assert (P1 : pre (cidx Xc) (set_lc (lc C + 1) (mkcst (lc C) (cases C ++ [(trunc_int 4 v, lc C)]) (gotos C)))).
    { destruct (stp_lc (cidx Xc) (lc C + 1) C ltac:(lia) HP) as [[I1 _] _]. split; [exact I1|]. cbn [cases set_lc]. rewrite zlen_app.
      change (zlen [(trunc_int 4 v, lc C)]) with 1. destruct HP. lia. }
    pose proof (stp_comp _ _ _ _ _ _ _ Hw H2 P1) as [P2 T2]. destruct (T2 _ HT) as (T3 & _ & _).
    apply l_case with (p1 := (p + 1)%nat).
    + rewrite <- (word_trunc v). apply (T3 _ (lc C)); auto. cbn [cases set_lc]. rewrite skipn_app. apply in_or_app. right.
      destruct HP as [_ HP]. unfold zlen in HP. replace (Z.to_nat (cidx Xc) - length (cases C))%nat with 0%nat by lia. cbn. auto.
    + rewrite Nat.add_1_r. eapply hop_lab; eauto.
    + eapply IHs; [exact Hw|exact Hd|exact Hlv|exact H2|exact P1|exact A2|lia|exact HX|exact HT|].
      eapply tailc_sub; [exact HTL|reflexivity|apply silent_refl].
  - (* default *)
    destruct (Z.eqb_spec (cidx Xc) 0); [discriminate|]. ob H v d H0. destruct (d =? 0) eqn:Hd0; [|discriminate]. cbn [negb] in H.
    apply obind_Some in H as (cs & H1 & H). ob H ca c2 H2. fin H.
    cat Hat A1 A2. rewrite app_length in Hp'. cbn [length] in *. pose proof (lab_at _ _ A1) as F1.
    assert (P1 : pre (cidx Xc) (mkcst (lc C + 1) cs (gotos C))).
    { destruct (stp_lc (cidx Xc) (lc C + 1) C ltac:(lia) HP) as [[I1 _] _]. split; [exact I1|]. cbn [cases]. apply zset_len in H1. rewrite H1. apply HP. }
    pose proof (stp_comp _ _ _ _ _ _ _ Hw H2 P1) as [P2 T2]. destruct (T2 _ HT) as (_ & T3 & _).
    apply l_default with (p1 := (p + 1)%nat).
    + apply (T3 v (lc C)); auto; [|pose proof (pre_pos _ _ HP); lia]. cbn [cases]. rewrite (zset_get _ _ _ _ _ H1), Z.eqb_refl. reflexivity.
    + rewrite Nat.add_1_r. eapply hop_lab; eauto.
    + eapply IHs; [exact Hw|exact Hd|exact Hlv|exact H2|exact P1|exact A2|lia|exact HX|exact HT|].
      eapply tailc_sub; [exact HTL|reflexivity|apply silent_refl].
  - (* goto *)
    ob H k c1 H1. fin H. destruct (goto_eff (cidx Xc) _ _ _ _ _ H1) as [[d Hg] _]. destruct HT as (_ & _ & T3). apply T3 in Hg.
    destruct (HgF _ _ Hg) as [q Hq]. apply l_goto with (q := q); [exists k; auto|]. eapply hop_jump; eauto.
  - (* label *)
    ob H k c1 H1. ob H ca c2 H2. fin H. pose proof (goto_eff (cidx Xc) _ _ _ _ _ H1) as [[d Hg] _].
    pose proof (stp_goto (cidx Xc) _ _ _ _ _ H1 HP) as [P1 _]. pose proof (stp_comp _ _ _ _ _ _ _ Hw H2 P1) as [P2 T2].
    destruct (T2 _ HT) as (_ & _ & T3). apply T3 in Hg.
    cat Hat A1 A2. rewrite app_length in Hp'. cbn [length] in *. pose proof (lab_at _ _ A1) as F1.
    apply l_label with (p1 := (p + 1)%nat).
    + exists k. auto.
    + rewrite Nat.add_1_r. eapply hop_lab; eauto.
    + eapply IHs; [exact Hw|exact Hd|exact Hlv|exact H2|exact P1|exact A2|lia|exact HX|exact HT|].
      eapply tailc_sub; [exact HTL|reflexivity|apply silent_refl].
Qed.
End CompLay.
