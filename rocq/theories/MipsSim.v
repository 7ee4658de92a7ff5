(** Running the code of an expression evaluates it: framework, and expressions without calls. *)
From Verif Require Import Base BaseLemmas X86 ExprSpec CgModel CgTree CgFuse CgMach CgSim MipsModel MipsSpec MipsCode MipsEmit MipsEmit2 MipsGen MipsMach.
Ltac Zify.zify_post_hook ::= idtac.
Local Notation HW4 := (or_intror eq_refl : 4 = 2 \/ 4 = 4).
Local Notation nop := (fun _ : Z => False).

Lemma mdepth_nonneg e : 0 <= mdepth e.
Proof. induction e using ex_ind2; cbn [mdepth]; try lia. pose proof (zlen_nonneg args). lia. Qed.

Section Sim.
Variable addr : Z -> Z.
Variable bp : Z.
Variables lo top : Z.
Variable prot : Z -> Prop.
Hypothesis Hlo : 0 <= lo.
Hypothesis Htop : top < 2 ^ 32.
Hypothesis Hprot : forall a, prot a -> ~ (lo <= a < top).
Variable callee : Z -> mst -> option mst.
Variable ext : Z -> list Z -> mem -> option (Z * mem).
Variable room : Z.
Hypothesis Hroom : 0 <= room.
Variable prog : list mins.
Hypothesis Huniq : forall l p, nth_error prog p = Some (Mlab l) -> MipsSpec.find_label l prog = Some p.
Variable mcd : Z.
Hypothesis Hmcd : 0 <= mcd.

Notation P32 := (2 ^ 32).
Notation agree := (MipsSpec.agree lo top prot).
Notation mregs := (MipsSpec.mregs bp).
Notation mkeeps := (MipsSpec.mkeeps top prot).
Notation execs := (MipsMach.execs addr).
Notation paddr := (MipsMach.paddr addr).
Notation updm := (MipsMach.updm lo top prot).
Notation valid := (valid_size 4).
Notation load := (ExprSpec.load 4).
Notation red := (ExprSpec.red 4 addr bp ext).
Notation esteps := (ExprSpec.esteps 4 addr bp ext).
Notation safe := (ExprSpec.safe 4 addr bp ext).
Notation msafe := (MipsSpec.msafe addr bp ext).
Notation mstep := (MipsSpec.mstep addr callee prog).
Notation mstar := (MipsSpec.mstar addr callee prog).
Notation C := (MipsCode.C mcd). Notation rk := (MipsCode.rk mcd).
Notation wpush := (MipsCode.wpush mcd). Notation pushc := (MipsCode.pushc mcd). Notation popc := (MipsCode.popc mcd).
Notation lreg := (MipsCode.lreg mcd). Notation rreg := (MipsCode.rreg mcd). Notation two := (MipsCode.two mcd).
Notation depthok := (MipsEmit.depthok mcd).

(** *** Evaluations *)
Lemma ms_steps e m e' m' : esteps (e, m) (e', m') -> msafe e m -> msafe e' m'.
Proof.
  intros H [S A]. split; [eapply safe_steps; eauto|]. intros e2 m2 H2. eapply A. eapply esteps_trans; eauto.
Qed.
Lemma ms_in F e m : msafe (plug F e) m -> msafe e m.
Proof.
  intros [S A]. split; [eapply safe_in; eauto|]. intros e2 m2 H2 U. eapply A; [apply esteps_in; exact H2|]. now constructor.
Qed.
Lemma ms_here e m : msafe e m -> red e m = Some None -> False.
Proof. intros [S _]. now apply safe_here. Qed.
Lemma ms_al e m sz a : msafe e m -> access e = Some (sz, a) -> a mod Z.abs sz = 0.
Proof.
  intros [_ A] H. destruct (Z.eq_dec (a mod Z.abs sz) 0) as [E|E]; [exact E|]. exfalso. apply (A e m); [constructor|]. eapply una_here; eauto.
Qed.
Definition Ev (e : ex) (m : mem) (v : Z) (m' : mem) : Prop :=
  esteps (e, m) (EVal v, m') /\ (boolish e = true -> v = 0 \/ v = 1).

(** *** Running code *)
Definition code_at (pc : nat) (c : list mins) : Prop :=
  forall i x, nth_error c i = Some x -> nth_error prog (pc + i) = Some x.
Lemma code_at_app pc a b : code_at pc (a ++ b) -> code_at pc a /\ code_at (pc + length a) b.
Proof.
  intros H. split; intros i x Hi.
  - apply H. rewrite nth_error_app1; auto. apply nth_error_Some. congruence.
  - replace (pc + length a + i)%nat with (pc + (length a + i))%nat by lia. apply H.
    rewrite nth_error_app2 by lia. replace (length a + i - length a)%nat with i by lia. exact Hi.
Qed.
Lemma code_at_hd pc x c : code_at pc (x :: c) -> nth_error prog pc = Some x /\ code_at (S pc) c.
Proof.
  intros H. split.
  - specialize (H O x eq_refl). now rewrite Nat.add_0_r in H.
  - intros i y Hi. specialize (H (S i) y Hi). now rewrite <- plus_n_Sm in H.
Qed.
Lemma mstar_trans x y z : mstar x y -> mstar y z -> mstar x z.
Proof. induction 1; auto. intros. econstructor; eauto. Qed.
Definition runs (pc : nat) (s : mst) (c : list mins) (s' : mst) : Prop :=
  mstar (pc, s) ((pc + length c)%nat, s').
Lemma runs_nil pc s : runs pc s [] s.
Proof. unfold runs. cbn. rewrite Nat.add_0_r. constructor. Qed.
Lemma runs_app pc s a s1 b s2 : runs pc s a s1 -> runs (pc + length a) s1 b s2 -> runs pc s (a ++ b) s2.
Proof. unfold runs. intros. eapply mstar_trans; eauto. rewrite app_length, Nat.add_assoc. auto. Qed.
Lemma exec_mstep pc i s s' :
  nth_error prog pc = Some i -> MipsSpec.exec addr i s = Some s' -> mstep (pc, s) = Some (S pc, s').
Proof.
  intros Hi He. unfold MipsSpec.mstep. rewrite Hi. cbn [obind].
  destruct i; try (rewrite He; reflexivity); discriminate.
Qed.
Lemma runs_exec c : forall pc s s', code_at pc c -> execs c s = Some s' -> runs pc s c s'.
Proof.
  induction c as [|i c IH]; intros pc s s' Hc He; cbn [MipsMach.execs] in He.
  - injection He as <-. apply runs_nil.
  - apply obind_Some in He as (s1 & E1 & E2). apply code_at_hd in Hc as [H1 H2].
    unfold runs. econstructor; [eapply exec_mstep; eauto|].
    specialize (IH _ _ _ H2 E2). unfold runs in IH. cbn [length]. rewrite <- plus_n_Sm. exact IH.
Qed.
Lemma runs_one pc i s s' : nth_error prog pc = Some i -> mstep (pc, s) = Some (S pc, s') -> runs pc s [i] s'.
Proof. intros Hi H. unfold runs. cbn. replace (pc + 1)%nat with (S pc) by lia. econstructor; eauto. constructor. Qed.
Lemma runs_lab pc l s : code_at pc [Mlab l] -> runs pc s [Mlab l] s.
Proof. intros H. apply code_at_hd in H as [H _]. apply runs_one with (1 := H). unfold MipsSpec.mstep. now rewrite H. Qed.

(** *** What has to be shown *)
Definition kept (w n : Z) (s s' : mst) : Prop :=
  forall x, x <> w -> x <> 1 -> x <> 24 -> x <> 25 -> (mcd = 0 -> forall k, n < k -> x <> wreg k) -> R s' x = R s x.
Definition wok (w n : Z) : Prop := (w = 2 \/ 4 <= w <= 15) /\ (mcd = 0 -> 0 <= n /\ w = wreg n).
Definition space (d : Z) (s : mst) : Prop := lo + room + d <= R s 29 <= top.
Definition post (nc : bool) (w n : Z) (s s' : mst) (m' : mem) (v : Z) : Prop :=
  mregs s' /\ agree m' (MM s') /\ mkeeps s s' /\ R s' w = v /\ (nc = true -> kept w n s s').
Definition doing (m : mem) (c : list mins) (w n d : Z) (nc : bool) (E : Z -> mem -> Prop) : Prop :=
  forall pc s, code_at pc c -> mregs s -> agree m (MM s) -> space d s ->
  exists v m' s', E v m' /\ runs pc s c s' /\ post nc w n s s' m' v.
Definition sem (e : ex) : Prop := forall w n m, wf 4 e -> wok w n -> depthok (cdepth e) w -> msafe e m ->
  doing m (C e w n) w n (mdepth e) (cdepth e =? 0) (Ev e m).
(** Straight code that only accesses C objects. *)
Definition lstep (w n : Z) (s s' : mst) (m' : mem) (v : Z) : Prop :=
  wd s' /\ agree m' (MM s') /\ (forall a, lo <= a < top \/ prot a -> MM s' a = MM s a) /\ R s' w = v /\ kept w n s s'.

Lemma wreg_rng n : 0 <= n -> wreg n = 2 \/ 8 <= wreg n <= 15.
Proof. intros H. unfold wreg, rV0. destruct (Z.eqb_spec n 0); [left; reflexivity|right; lia]. Qed.
Lemma wok_gp w n : wok w n -> gp w.
Proof. intros [H _]. split; lia. Qed.
Lemma kept_fix w n s s' x : wok w n -> kept w n s s' -> x = 29 \/ x = 30 -> R s' x = R s x.
Proof.
  intros [H H0] K Hx. apply K; try lia. intros E k Hk. destruct (H0 E) as [Hn _]. pose proof (wreg_rng k ltac:(lia)). lia.
Qed.
Lemma kept_trans w n s s1 s2 : kept w n s s1 -> kept w n s1 s2 -> kept w n s s2.
Proof. intros K1 K2 x H1 H2 H3 H4 H5. rewrite K2, K1; auto. Qed.
Lemma kept_refl w n s : kept w n s s.
Proof. intros x _ _ _ _ _. reflexivity. Qed.
Lemma kept_upd w n s s' r v : r = w \/ r = 24 \/ r = 25 -> upd s s' r v -> kept w n s s'.
Proof. intros Hr (_ & U & _) x H1 H2 H3 H4 _. apply U; auto. lia. Qed.
Lemma kept_updm w n s s' m' : updm s s' m' -> kept w n s s'.
Proof. intros (U & _) x H1 H2 H3 H4 _. apply U; auto. Qed.
Lemma mregs_wd s : mregs s -> wd s.
Proof. intros [H _]. exact H. Qed.
Lemma lstep_post w n s s' m' v : wok w n -> mregs s -> lo <= R s 29 -> lstep w n s s' m' v -> post true w n s s' m' v.
Proof.
  intros Hw (H1 & H2 & H3) Hs (L1 & L2 & L3 & L4 & L5).
  pose proof (kept_fix _ _ _ _ 29 Hw L5 ltac:(auto)) as E29. pose proof (kept_fix _ _ _ _ 30 Hw L5 ltac:(auto)) as E30.
  split; [split; [exact L1|split; congruence]|]. split; [exact L2|]. split; [|auto]. split; [exact E29|].
  intros a Ha. apply L3. destruct Ha; [left; lia|auto].
Qed.
Lemma upd_lstep w n s s' m v : upd s s' w v -> wd s -> 0 <= v < P32 -> agree m (MM s) -> lstep w n s s' m v.
Proof.
  intros U W V A. pose proof U as (U1 & U2 & U3 & U4). split; [eapply upd_wd; eauto|]. rewrite U3. split; [exact A|]. split; [reflexivity|].
  split; [exact U1|]. eapply kept_upd; [left; reflexivity|exact U].
Qed.
Lemma lstep_trans w n s s1 s2 m1 m2 v1 v2 : lstep w n s s1 m1 v1 -> lstep w n s1 s2 m2 v2 -> lstep w n s s2 m2 v2.
Proof.
  intros (A1 & A2 & A3 & A4 & A5) (B1 & B2 & B3 & B4 & B5). split; [exact B1|]. split; [exact B2|]. split; [|split; [exact B4|eapply kept_trans; eauto]].
  intros a Ha. rewrite B3, A3; auto.
Qed.
Lemma space_le d d' s : d <= d' -> space d' s -> space d s.
Proof. unfold space. lia. Qed.
Lemma keeps_refl s : mkeeps s s.
Proof. split; auto. Qed.
Lemma keeps_trans s s1 s2 : mkeeps s s1 -> mkeeps s1 s2 -> mkeeps s s2.
Proof. intros [E1 H1] [E2 H2]. split; [congruence|]. intros a Ha. rewrite H2 by (rewrite E1; auto). auto. Qed.
Lemma space_keeps d s s' : mkeeps s s' -> space d s -> space d s'.
Proof. unfold space. intros [-> _]. auto. Qed.

Lemma post_trans nc1 nc2 w n s s1 s2 m1 m2 v1 v2 : post nc1 w n s s1 m1 v1 -> post nc2 w n s1 s2 m2 v2 -> post (nc1 && nc2) w n s s2 m2 v2.
Proof.
  intros (A1 & A2 & A3 & A4 & A5) (B1 & B2 & B3 & B4 & B5). split; [exact B1|]. split; [exact B2|]. split; [eapply keeps_trans; eauto|].
  split; [exact B4|]. intros H. apply andb_prop in H as [H1 H2]. eapply kept_trans; eauto.
Qed.

(** Code after code. *)
Lemma do_then m c w n d nc E c2 E2 : wok w n -> 0 <= d -> doing m c w n d nc E ->
  (forall v m' s, E v m' -> mregs s -> agree m' (MM s) -> R s w = v ->
     exists v2 m2 s2, E2 v2 m2 /\ execs c2 s = Some s2 /\ lstep w n s s2 m2 v2) ->
  doing m (c ++ c2) w n d nc E2.
Proof.
  intros Hw Hd D F pc s Hc HR HA HS. apply code_at_app in Hc as [Hc1 Hc2].
  destruct (D pc s Hc1 HR HA HS) as (v & m1 & s1 & E1 & X1 & P1). pose proof P1 as (R1 & A1 & K1 & V1 & _).
  destruct (F v m1 s1 E1 R1 A1 V1) as (v2 & m2 & s2 & E2' & X2 & L2). exists v2, m2, s2. split; [exact E2'|].
  split; [eapply runs_app; [exact X1|]; now apply runs_exec|]. rewrite <- (andb_true_r nc). eapply post_trans; [exact P1|].
  apply lstep_post; auto. destruct K1 as [-> _]. unfold space in HS. lia.
Qed.
Lemma do_only m w n d c2 E2 : wok w n -> 0 <= d ->
  (forall s, mregs s -> agree m (MM s) -> exists v2 m2 s2, E2 v2 m2 /\ execs c2 s = Some s2 /\ lstep w n s s2 m2 v2) ->
  doing m c2 w n d true E2.
Proof.
  intros Hw Hd F pc s Hc HR HA HS. destruct (F s HR HA) as (v2 & m2 & s2 & E2' & X2 & L2). exists v2, m2, s2. split; [exact E2'|].
  split; [now apply runs_exec|]. apply lstep_post; auto. unfold space in HS. lia.
Qed.
Lemma doing_le m c w n d d' nc (E E' : Z -> mem -> Prop) : d <= d' -> (forall v m', E v m' -> E' v m') -> doing m c w n d nc E -> doing m c w n d' nc E'.
Proof.
  intros Hd HE D pc s Hc HR HA HS. destruct (D pc s Hc HR HA (space_le _ _ _ Hd HS)) as (v & m1 & s1 & E1 & X). exists v, m1, s1. auto.
Qed.
Lemma doing_nc m c w n d nc nc' E : (nc' = true -> nc = true) -> doing m c w n d nc E -> doing m c w n d nc' E.
Proof.
  intros Hn D pc s Hc HR HA HS. destruct (D pc s Hc HR HA HS) as (v & m1 & s1 & E1 & X & P1 & P2 & P3 & P4 & P5). exists v, m1, s1.
  split; [exact E1|]. split; [exact X|]. split; [exact P1|]. split; [exact P2|]. split; [exact P3|]. split; auto.
Qed.

(** *** Two operands *)
Lemma rk_true n : rk n = true -> mcd = 0 /\ n < 8.
Proof. unfold MipsCode.rk, can_use, MAX_TEMP_REGS. intros H. apply andb_prop in H. lia. Qed.
Lemma winc_wreg n : 0 <= n < 8 -> winc (wreg n) = wreg (n + 1).
Proof.
  intros H. unfold winc, wreg, rV0, rT0. destruct (Z.eqb_spec n 0) as [->|Hn]; [reflexivity|].
  replace (7 + Z.min n 8 =? 2) with false by lia. replace (n + 1 =? 0) with false by lia. lia.
Qed.
Lemma wreg_inj n k : 0 <= n < 8 -> n < k -> wreg n <> wreg k.
Proof. intros H Hk. unfold wreg, rV0. replace (k =? 0) with false by lia. destruct (Z.eqb_spec n 0); lia. Qed.
Lemma wok_push w n : wok w n -> wok (wpush w n) (n + 1).
Proof.
  intros [H H0]. unfold MipsCode.wpush. destruct (rk n) eqn:E.
  - apply rk_true in E as [E1 E2]. destruct (H0 E1) as [Hn ->]. rewrite winc_wreg by lia. split.
    + pose proof (wreg_rng (n + 1) ltac:(lia)). lia.
    + intros _. split; [lia|reflexivity].
  - split; [exact H|]. intros E1. destruct (H0 E1) as [Hn Hw]. split; [lia|].
    unfold MipsCode.rk, can_use, MAX_TEMP_REGS in E. rewrite E1 in E. cbn [Z.eqb andb] in E.
    rewrite Hw. unfold wreg. replace (n =? 0) with false by lia. replace (n + 1 =? 0) with false by lia. lia.
Qed.
Lemma agree_stack m f g : agree m f -> (forall a, ~ (lo <= a < top) -> g a = f a) -> agree m g.
Proof. intros A H a b Ha. destruct (A a b Ha) as (B1 & B2 & B3 & B4). rewrite H by assumption. auto. Qed.

(** Saving a register. *)
Lemma push_run w n d pc s m : gp w -> w <> 29 -> rk n = false -> 0 <= d -> code_at pc (pushc w n) -> mregs s -> agree m (MM s) -> space (4 + d) s ->
  exists s1, runs pc s (pushc w n) s1 /\ mregs s1 /\ agree m (MM s1) /\ R s1 29 = R s 29 - 4 /\
    (forall x, x <> 1 -> x <> 29 -> R s1 x = R s x) /\ (forall a, R s 29 <= a < top \/ prot a -> MM s1 a = MM s a) /\
    ldn 4 4 (MM s1) (R s1 29) = R s w.
Proof.
  intros G W29 Rk Hd Hc (HR1 & HR2 & HR3) HA HS. unfold space in HS. pose proof HR1 as W. fold (wd s) in W.
  unfold MipsCode.pushc in *. rewrite Rk in *.
  destruct (gen3c_ok addr Msubu rSP rSP 4 s W ltac:(split; discriminate) ltac:(discriminate)) as (s1 & E1 & U1).
  pose proof U1 as (V1 & O1 & M1 & T1). cbn [aluv] in V1. change rSP with 29 in *. change (w32 4) with 4 in V1.
  pose proof (HR1 29) as H29. rewrite w32_small in V1 by lia.
  pose proof (upd_wd _ _ _ _ U1 W ltac:(change (w32 4) with 4; cbn [aluv]; rewrite w32_small by lia; lia)) as W1.
  assert (Al : (R s 29 - 4) mod 4 = 0) by (rewrite Zminus_mod, HR3; reflexivity).
  assert (E : exists s2, execs (gen3c Msubu 29 29 4 ++ [Mstore 4 w (AInd 0 29)]) s = Some s2 /\
     s2 = setr 1 (w32 0) (setm (stn 4 4 (MM s1) (R s 29 - 4) (R s w)) s1)).
  { eexists. split; [|reflexivity]. rewrite execs_app, E1. cbn [obind MipsMach.execs MipsSpec.exec].
    assert (Ea : ea addr s1 (AInd 0 29) = R s 29 - 4) by (unfold ea; rewrite reg_gp, V1, Z.add_0_r by lia; apply w32_small; lia).
    rewrite Ea, Al. cbn [Z.eqb obind clobA]. rewrite reg_gp by apply G. rewrite (O1 w) by (auto; apply G). reflexivity. }
  destruct E as (s2 & E2 & S2). exists s2. split; [now apply runs_exec|].
  assert (RR : forall x, x <> 1 -> R s2 x = R s1 x).
  { intros x Hx. rewrite S2, R_setr by lia. replace (x =? 1) with false by lia. reflexivity. }
  assert (MMe : MM s2 = stn 4 4 (MM s) (R s 29 - 4) (R s w)) by (rewrite S2, MM_setr; cbn [setm MM]; now rewrite M1).
  assert (Fr : forall x, x < R s 29 - 4 \/ R s 29 - 4 + 4 <= x -> MM s2 x = MM s x).
  { intros x Hx. rewrite MMe. apply (stn_other 4 HW4 addr nop 4); [lia|change (2 ^ (8 * 4)) with P32; lia|exact Hx]. }
  split; [split; [|split]|].
  - intros x. destruct (Z.eq_dec x 1) as [->|Hx]; [rewrite S2, R_setr by lia; cbn [Z.eqb Pos.eqb]; apply w32_rng|]. rewrite RR by assumption. apply W1.
  - rewrite RR, O1 by lia. exact HR2.
  - rewrite RR, V1 by lia. exact Al.
  - split. { eapply agree_stack; [exact HA|]. intros a Ha. apply Fr. lia. }
    split; [rewrite RR, V1 by lia; reflexivity|]. split; [intros x H1 H2; rewrite RR, O1; auto|]. split.
    + intros a Ha. apply Fr. destruct Ha as [Ha|Ha]; [lia|]. apply Hprot in Ha. lia.
    + rewrite RR, V1 by lia. rewrite MMe. rewrite (ldn_stn 4 HW4 addr nop 4) by (change (2 ^ (8 * 4)) with P32; lia).
      apply Z.mod_small. apply HR1.
Qed.
(** And getting it back. *)
Lemma pop_run n pc s m : rk n = false -> code_at pc (popc n) -> mregs s -> agree m (MM s) -> 0 <= R s 29 -> R s 29 + 4 <= top ->
  exists s1, runs pc s (popc n) s1 /\ mregs s1 /\ MM s1 = MM s /\ R s1 29 = R s 29 + 4 /\
    (forall x, x <> 1 -> x <> 29 -> x <> 24 -> R s1 x = R s x) /\ R s1 24 = ldn 4 4 (MM s) (R s 29).
Proof.
  intros Rk Hc (HR1 & HR2 & HR3) HA H0 H1. pose proof HR1 as W. fold (wd s) in W. unfold MipsCode.popc in *. rewrite Rk in *.
  set (s1 := setr 24 (ldn 4 4 (MM s) (R s 29)) (setr 1 (w32 0) s)).
  assert (U1 : upd s s1 24 (ldn 4 4 (MM s) (R s 29))) by (apply setr_upd1; [split; discriminate|apply w32_rng]).
  pose proof (ldn_range 4 HW4 addr nop 4 (MM s) (R s 29)) as LR. change (2 ^ (8 * Z.of_nat 4)) with P32 in LR.
  pose proof (upd_wd _ _ _ _ U1 W LR) as W1. pose proof U1 as (V1 & O1 & M1 & T1).
  destruct (gen3c_ok addr Maddu rSP rSP 4 s1 W1 ltac:(split; discriminate) ltac:(discriminate)) as (s2 & E2 & U2).
  pose proof U2 as (V2 & O2 & M2 & T2). change rSP with 29 in *. cbn [aluv] in V2. change (w32 4) with 4 in V2.
  rewrite (O1 29) in V2 by lia. rewrite w32_small in V2 by lia.
  assert (E : execs (Mload 4 rTA (AInd 0 29) :: gen3c Maddu 29 29 4) s = Some s2).
  { cbn [MipsMach.execs MipsSpec.exec]. assert (Ea : ea addr s (AInd 0 29) = R s 29) by (unfold ea; rewrite reg_gp, Z.add_0_r by lia; apply w32_small, W).
    rewrite Ea. change (Z.abs 4) with 4. rewrite HR3. cbn [Z.eqb obind Z.ltb Z.compare]. exact E2. }
  exists s2. split; [now apply runs_exec|]. split; [split; [|split]|].
  - eapply upd_wd; [exact U2|exact W1|]. cbn [aluv]. apply w32_rng.
  - rewrite O2, O1 by lia. exact HR2.
  - rewrite V2, Zplus_mod, HR3. reflexivity.
  - split; [congruence|]. split; [exact V2|]. split; [|rewrite O2 by lia; exact V1]. intros x X1 X2 X3. rewrite O2, O1; auto.
Qed.

Lemma two_do m w n cl cr dl dr d ncl ncr El Er : wok w n -> 0 <= dl -> 0 <= dr -> dl <= d -> 4 + dr <= d ->
  (mcd = 0 -> ncl = true /\ ncr = true) ->
  doing m cl w n dl ncl El ->
  (forall va m1, El va m1 -> doing m1 cr (wpush w n) (n + 1) dr ncr (Er va)) ->
  forall pc s, code_at pc (two w n cl cr) -> mregs s -> agree m (MM s) -> space d s ->
  exists va vb m1 m2 s3, El va m1 /\ Er va vb m2 /\ runs pc s (two w n cl cr) s3 /\ mregs s3 /\ agree m2 (MM s3) /\ mkeeps s s3 /\
    R s3 (lreg w n) = va /\ R s3 (rreg w n) = vb /\ (ncl && ncr = true -> kept w n s s3).
Proof.
  intros Hw Hdl Hdr Hd1 Hd2 Hnc Dl Dr pc s Hc HR HA HS. unfold MipsCode.two in *.
  apply code_at_app in Hc as [Hc1 Hc]. apply code_at_app in Hc as [Hc2 Hc]. apply code_at_app in Hc as [Hc3 Hc4].
  destruct (Dl pc s Hc1 HR HA (space_le _ _ _ Hd1 HS)) as (va & m1 & s1 & E1 & X1 & R1 & A1 & K1 & V1 & Kp1).
  pose proof (space_keeps _ _ _ K1 HS) as HS1. pose proof Hw as [Hw1 Hw2].
  destruct (rk n) eqn:Rk.
  - pose proof (rk_true n Rk) as [Em Hn]. destruct (Hnc Em) as [-> ->]. destruct (Hw2 Em) as [Hn0 Hwr].
    unfold MipsCode.pushc, MipsCode.popc, MipsCode.wpush, MipsCode.lreg, MipsCode.rreg in *. rewrite Rk in *. cbn [app length] in *.
    rewrite Nat.add_0_r in Hc3. destruct (Dr va m1 E1 _ s1 Hc3 R1 A1 (space_le dr d _ ltac:(lia) HS1)) as (vb & m2 & s2 & E2 & X2 & R2 & A2 & K2 & V2 & Kp2).
    specialize (Kp1 eq_refl). specialize (Kp2 eq_refl).
    exists va, vb, m1, m2, s2. split; [exact E1|]. split; [exact E2|].
    split; [eapply runs_app; [exact X1|]; now rewrite app_nil_r|]. split; [exact R2|]. split; [exact A2|].
    split; [eapply keeps_trans; eauto|]. rewrite Hwr in *. rewrite winc_wreg in * by lia. split; [|split; [exact V2|]].
    + rewrite Kp2; [exact V1|..]; try (pose proof (wreg_rng n Hn0); lia). { apply wreg_inj; lia. } intros _ k Hk. apply wreg_inj; lia.
    + intros _. eapply kept_trans; [exact Kp1|]. intros x X1' X2' X3' X4' X5'. apply Kp2; auto. { apply X5'; [assumption|lia]. }
      intros E k Hk. apply X5'; [assumption|lia].
  - assert (G : gp w) by (split; lia).
    destruct (push_run w n (d - 4) _ s1 m1 G ltac:(lia) Rk ltac:(lia) Hc2 R1 A1 ltac:(now replace (4 + (d - 4)) with d by lia))
      as (s2 & X2 & R2 & A2 & SP2 & O2 & M2 & L2).
    assert (HS2 : space dr s2) by (unfold space in *; rewrite SP2; lia).
    destruct (Dr va m1 E1 _ s2 Hc3 R2 A2 HS2) as (vb & m2 & s3 & E3 & X3 & R3 & A3 & K3 & V3 & Kp3).
    pose proof K3 as [SP3 M3].
    destruct (pop_run n _ s3 m2 Rk Hc4 R3 A3) as (s4 & X4 & R4 & M4 & SP4 & O4 & L4).
    { apply R3. } { unfold space in *. lia. }
    unfold MipsCode.wpush, MipsCode.lreg, MipsCode.rreg in *. rewrite Rk in *.
    exists va, vb, m1, m2, s4. split; [exact E1|]. split; [exact E3|].
    split. { eapply runs_app; [exact X1|]. eapply runs_app; [exact X2|]. eapply runs_app; [exact X3|exact X4]. }
    split; [exact R4|]. rewrite M4. split; [exact A3|]. split.
    { eapply keeps_trans; [exact K1|]. split; [lia|]. intros a Ha. rewrite M4, M3 by (destruct Ha; [left; lia|auto]). now apply M2. }
    split. { change rTA with 24. rewrite L4, SP3. rewrite <- V1, <- L2. apply (ldn_ext 4 HW4 addr nop 4).
      - unfold space in HS2. lia. - change (2 ^ (8 * 4)) with P32. unfold space in HS1. lia.
      - intros a Ha. apply M3. left. unfold space in HS1. lia. }
    split. { rewrite O4 by lia. exact V3. }
    intros Hncc. apply andb_prop in Hncc as [N1 N2]. specialize (Kp1 N1). specialize (Kp3 N2).
    eapply kept_trans; [exact Kp1|]. intros x Y1 Y2 Y3 Y4 Y5. destruct (Z.eq_dec x 29) as [->|Y6]; [lia|].
    rewrite O4, Kp3, O2; auto. intros E k Hk. apply Y5; [assumption|lia].
Qed.

(** Two operands, then straight code. *)
Lemma two_then m w n cl cr dl dr d ncl ncr El Er c2 E2 : wok w n -> 0 <= dl -> 0 <= dr -> dl <= d -> 4 + dr <= d ->
  (mcd = 0 -> ncl = true /\ ncr = true) ->
  doing m cl w n dl ncl El ->
  (forall va m1, El va m1 -> doing m1 cr (wpush w n) (n + 1) dr ncr (Er va)) ->
  (forall va vb m1 m2 s, El va m1 -> Er va vb m2 -> mregs s -> agree m2 (MM s) -> R s (lreg w n) = va -> R s (rreg w n) = vb ->
     exists v m' s', E2 v m' /\ execs c2 s = Some s' /\ lstep w n s s' m' v) ->
  doing m (two w n cl cr ++ c2) w n d (ncl && ncr) E2.
Proof.
  intros Hw Hdl Hdr Hd1 Hd2 Hnc Dl Dr F pc s Hc HR HA HS. apply code_at_app in Hc as [Hc1 Hc2].
  destruct (two_do m w n cl cr dl dr d ncl ncr El Er Hw Hdl Hdr Hd1 Hd2 Hnc Dl Dr pc s Hc1 HR HA HS)
    as (va & vb & m1 & m2 & s1 & E1 & E2' & X1 & R1 & A1 & K1 & V1 & V2 & Kp1).
  destruct (F va vb m1 m2 s1 E1 E2' R1 A1 V1 V2) as (v & m' & s' & E3 & X2 & L2). exists v, m', s'. split; [exact E3|].
  split; [eapply runs_app; [exact X1|]; now apply runs_exec|].
  assert (P1 : post (ncl && ncr) w n s s1 m2 (R s1 w)) by (split; [exact R1|split; [exact A1|split; [exact K1|split; [reflexivity|exact Kp1]]]]).
  rewrite <- (andb_true_r (ncl && ncr)). eapply post_trans; [exact P1|]. apply lstep_post; auto. destruct K1 as [-> _]. unfold space in HS. lia.
Qed.

(** *** Straight code *)
Lemma lst_upd w n s s' r v m : r = w \/ r = 24 \/ r = 25 -> upd s s' r v -> wd s -> 0 <= v < P32 -> agree m (MM s) -> lstep w n s s' m (R s' w).
Proof.
  intros Hr U W V A. pose proof U as (U1 & U2 & U3 & U4). split; [eapply upd_wd; eauto|]. rewrite U3. split; [exact A|]. split; [reflexivity|].
  split; [reflexivity|]. eapply kept_upd; eauto.
Qed.
Lemma lst_updm w n s s' m' : updm s s' m' -> wd s -> lstep w n s s' m' (R s' w).
Proof.
  intros U W. pose proof U as (U1 & U2 & U3 & U4). split; [eapply updm_wd; eauto|]. split; [exact U3|]. split; [exact U4|]. split; [reflexivity|eapply kept_updm; eauto].
Qed.
Lemma lst_mregs w n s s' m v : wok w n -> mregs s -> lstep w n s s' m v -> mregs s'.
Proof.
  intros Hw (H1 & H2 & H3) (L1 & L2 & L3 & L4 & L5). split; [exact L1|].
  rewrite (kept_fix _ _ _ _ 29 Hw L5), (kept_fix _ _ _ _ 30 Hw L5) by auto. auto.
Qed.
Definition pfree (p : place) (r : Z) : Prop := match p with PReg q => q <> r | _ => True end.
Lemma paddr_upd s s' r v p : upd s s' r v -> pgp p -> pfree p r -> r <> 30 -> paddr s' p = paddr s p.
Proof.
  intros (_ & U & _) G F H. destruct p as [id|o|q]; cbn [MipsMach.paddr]; [reflexivity| |].
  - now rewrite U by lia.
  - destruct G. rewrite U; auto.
Qed.
Lemma w32_mod sz x : valid sz -> w32 x mod 2 ^ (8 * Z.abs sz) = x mod 2 ^ (8 * Z.abs sz).
Proof.
  intros H. symmetry. apply Znumtheory.Zmod_div_mod; [apply Z.pow_pos_nonneg; lia|reflexivity|].
  exact (P_div 4 HW4 addr nop sz H).
Qed.
Lemma conv_w32 sz x : valid sz -> conv 4 sz (w32 x) = conv 4 sz x.
Proof. intros H. apply (conv_ext 4 HW4 addr nop); auto. now apply w32_mod. Qed.
Lemma conv_rng sz x : valid sz -> 0 <= conv 4 sz x < P32.
Proof. apply (conv_range 4 HW4 addr nop). Qed.
Lemma conv_conv sz x : valid sz -> conv 4 sz (conv 4 sz x) = conv 4 sz x.
Proof. intros H. apply (conv_ext 4 HW4 addr nop); auto. now apply (conv_mod 4 HW4 addr nop). Qed.
Lemma load_conv_id sz m a v : valid sz -> load sz m a = Some v -> conv 4 sz v = v /\ 0 <= v < P32.
Proof.
  intros H L. unfold ExprSpec.load in L. apply obind_Some in L as (x & _ & [= <-]). split; [now apply conv_conv|now apply conv_rng].
Qed.

Lemma sem_num u k : sem (ENum u k).
Proof.
  intros w n m _ Hw _ _. cbn [MipsCode.C cdepth mdepth]. change (0 =? 0) with true. apply do_only; auto; [lia|]. intros s HR HA.
  destruct (li_ok addr w k s (mregs_wd _ HR) (wok_gp _ _ Hw)) as (s' & E & U). exists (w32 k), m, s'. split; [|split; [exact E|]].
  - split; [apply esteps_red; reflexivity|]. cbn [boolish]. intros H. apply orb_prop in H as [H|H]; apply Z.eqb_eq in H; subst k; auto.
  - eapply upd_lstep; eauto; [now apply mregs_wd|apply w32_rng].
Qed.
Lemma sem_ident id : sem (EIdent id).
Proof.
  intros w n m _ Hw _ _. cbn [MipsCode.C cdepth mdepth]. change (0 =? 0) with true. apply do_only; auto; [lia|]. intros s HR HA.
  destruct (la_ok addr w id s (mregs_wd _ HR) (wok_gp _ _ Hw)) as (s' & E & U). exists (w32 (addr id)), m, s'. split; [|split; [exact E|]].
  - split; [apply esteps_red; reflexivity|discriminate].
  - eapply upd_lstep; eauto; [now apply mregs_wd|apply w32_rng].
Qed.
Lemma sem_local o : sem (ELocal o).
Proof.
  intros w n m _ Hw _ _. cbn [MipsCode.C cdepth mdepth]. change (0 =? 0) with true. apply do_only; auto; [lia|]. intros s HR HA.
  destruct (gen3c_ok addr Maddu w rFP o s (mregs_wd _ HR) (wok_gp _ _ Hw) ltac:(discriminate)) as (s' & E & U). exists (w32 (bp + o)), m, s'. split; [|split; [exact E|]].
  - split; [apply esteps_red; reflexivity|discriminate].
  - cbn [aluv] in U. destruct HR as (HR1 & HR2 & HR3). change rFP with 30 in U. rewrite HR2 in U. unfold w32 in U at 1 2. rewrite wrap_add_r in U.
    eapply upd_lstep; eauto. apply w32_rng.
Qed.
Lemma pl_ok a p s m : pl a = Some p -> mregs s -> esteps (a, m) (EVal (paddr s p), m) /\ pgp p /\ (forall r, pfree p r) /\ cdepth a = 0.
Proof.
  intros Hp (HR1 & HR2 & HR3). destruct a; try discriminate Hp; injection Hp as <-; cbn [MipsMach.paddr]; (split; [|repeat split]).
  - apply esteps_red. reflexivity.
  - apply esteps_red. rewrite HR2. reflexivity.
Qed.

(** *** Operators on one object *)
Lemma acc_sem (Fr : frame) a (K : place -> list mins) w n m (r : Z) (pre : list mins) :
  sem a -> wf 4 a -> wok w n -> depthok (cdepth a) w -> msafe (plug Fr a) m -> boolish (plug Fr a) = false ->
  (r = w /\ pre = [] \/ r = 24 /\ pre = [Mmove rTA w]) ->
  (forall p s m', mregs s -> agree m' (MM s) -> pgp p -> (forall q, p = PReg q -> q = r) -> msafe (plug Fr (EVal (paddr s p))) m' ->
     exists v2 m2 s2, esteps (plug Fr (EVal (paddr s p)), m') (EVal v2, m2) /\ execs (K p) s = Some s2 /\ lstep w n s s2 m2 v2) ->
  doing m (match pl a with Some p => K p | None => C a w n ++ pre ++ K (PReg r) end) w n (mdepth a) (cdepth a =? 0) (Ev (plug Fr a) m).
Proof.
  intros Sa Hwa Hw Hd HS Hb Hr HK. pose proof (mdepth_nonneg a) as Md.
  assert (EE : forall v m1 v2 m2, esteps (a, m) (EVal v, m1) -> esteps (plug Fr (EVal v), m1) (EVal v2, m2) -> Ev (plug Fr a) m v2 m2).
  { intros v m1 v2 m2 E1 E2. split; [|congruence]. eapply esteps_trans; [apply esteps_in; exact E1|exact E2]. }
  destruct (pl a) as [p|] eqn:Ep.
  - assert (Dz : cdepth a = 0) by (destruct a; try discriminate Ep; reflexivity). rewrite Dz. change (0 =? 0) with true.
    apply do_only; auto. intros s HR HA. destruct (pl_ok a p s m Ep HR) as (E1 & G & F & _).
    destruct (HK p s m HR HA G) as (v2 & m2 & s2 & E2 & X2 & L2).
    + intros q ->. elim (F q). reflexivity.
    + eapply ms_steps; [apply esteps_in; exact E1|exact HS].
    + exists v2, m2, s2. split; [eapply EE; eauto|auto].
  - apply (do_then m (C a w n) w n (mdepth a) (cdepth a =? 0) (Ev a m)); auto.
    + apply Sa; auto. eapply ms_in; eauto.
    + intros v m1 s [E1 _] HR HA V. pose proof (ms_steps _ _ _ _ (esteps_in _ _ _ _ Fr _ _ _ _ E1) HS) as HS1.
      destruct Hr as [[-> ->]|[-> ->]].
      * destruct (HK (PReg w) s m1 HR HA (wok_gp _ _ Hw)) as (v2 & m2 & s2 & E2 & X2 & L2).
        { congruence. } { cbn [MipsMach.paddr]. now rewrite V. }
        cbn [MipsMach.paddr] in E2. rewrite V in E2. exists v2, m2, s2. split; [eapply EE; eauto|auto].
      * destruct (move_ok addr 24 w s (mregs_wd _ HR) ltac:(split; discriminate) (proj1 (wok_gp _ _ Hw))) as (s1 & X1 & U1).
        pose proof (lst_upd w n s s1 24 (R s w) m1 ltac:(auto) U1 (mregs_wd _ HR) (proj1 HR w) HA) as L1.
        pose proof (lst_mregs _ _ _ _ _ _ Hw HR L1) as HR1. pose proof U1 as (V1 & O1 & M1 & _).
        destruct (HK (PReg 24) s1 m1 HR1 ltac:(now rewrite M1) ltac:(split; discriminate)) as (v2 & m2 & s2 & E2 & X2 & L2).
        { congruence. } { cbn [MipsMach.paddr]. rewrite V1, V. exact HS1. }
        cbn [MipsMach.paddr] in E2. rewrite V1, V in E2. exists v2, m2, s2. split; [eapply EE; eauto|].
        split; [|eapply lstep_trans; eauto]. rewrite execs_app. change (execs [Mmove rTA w] s) with (execs [Mmove 24 w] s). rewrite X1. exact X2.
Qed.

Lemma sem_deref sz a : sem a -> sem (EDeref sz a).
Proof.
  intros Sa w n m [Hv Hwa] Hw Hd HS. pose proof (acc_sem (FDeref sz) a (fun p => gread p w sz) w n m w [] Sa Hwa Hw Hd HS eq_refl ltac:(auto)) as D.
  cbn [plug app] in D. cbn [MipsCode.C cdepth mdepth]. apply D. clear D HS m.
  intros p s m HR HA G _ HS. destruct (load sz m (paddr s p)) as [v|] eqn:L.
  2:{ exfalso. eapply ms_here; [exact HS|]. cbn. now rewrite L. }
  destruct (gread_ok addr lo top prot p w sz s m v (mregs_wd _ HR) HA Hv L (ms_al _ _ _ _ HS eq_refl) (wok_gp _ _ Hw) G) as (s2 & X & U).
  exists v, m, s2. split; [apply esteps_red; cbn; now rewrite L|]. split; [exact X|]. eapply upd_lstep; eauto; [now apply mregs_wd|].
  eapply load_conv_id; eauto.
Qed.

(** Reading, changing and writing back. *)
Lemma rmw_ok w n p sz s m m1 v0 v1 op k : wok w n -> mregs s -> agree m (MM s) -> valid sz -> pgp p -> pfree p w ->
  load sz m (paddr s p) = Some v0 -> store sz m (paddr s p) v1 = Some m1 -> paddr s p mod Z.abs sz = 0 ->
  aluv op v0 (w32 k) = w32 v1 ->
  exists s', execs (gread p w sz ++ gen3c op w w k ++ gwrite p w sz) s = Some s' /\ lstep w n s s' m1 (w32 v1).
Proof.
  intros Hw HR HA Hv G F L S Al HV. pose proof (wok_gp _ _ Hw) as Gw. destruct (load_conv_id _ _ _ _ Hv L) as [_ V0].
  assert (W30 : w <> 30) by (destruct Hw; lia).
  destruct (gread_ok addr lo top prot p w sz s m v0 (mregs_wd _ HR) HA Hv L Al Gw G) as (s1 & X1 & U1).
  pose proof (upd_wd _ _ _ _ U1 (mregs_wd _ HR) V0) as W1. pose proof U1 as (V1 & O1 & M1 & _).
  destruct (gen3c_ok addr op w w k s1 W1 Gw (proj1 Gw)) as (s2 & X2 & U2). rewrite V1, HV in U2.
  pose proof (upd_wd _ _ _ _ U2 W1 (w32_rng _)) as W2. pose proof U2 as (V2 & O2 & M2 & _).
  assert (Pa : paddr s2 p = paddr s p).
  { rewrite (paddr_upd _ _ _ _ _ U2 G F W30). exact (paddr_upd _ _ _ _ _ U1 G F W30). }
  destruct (gwrite_ok addr lo top prot p w sz s2 m m1 v1 W2 ltac:(rewrite M2, M1; exact HA) Hv ltac:(now rewrite Pa) ltac:(now rewrite Pa) G (proj2 Gw)) as (s3 & X3 & U3).
  { rewrite reg_gp, V2 by apply Gw. now apply w32_mod. }
  exists s3. split; [rewrite !execs_app, X1; cbn [obind]; rewrite execs_app, X2; exact X3|].
  pose proof (lst_upd w n s s1 w v0 m ltac:(auto) U1 (mregs_wd _ HR) V0 HA) as L1.
  pose proof (lst_upd w n s1 s2 w _ m ltac:(auto) U2 W1 (w32_rng _) ltac:(rewrite M1; exact HA)) as L2.
  pose proof (lst_updm w n s2 s3 m1 U3 W2) as L3. destruct U3 as (U3 & _). rewrite (U3 w), V2 in L3 by apply Gw.
  eapply lstep_trans; [exact L1|]. eapply lstep_trans; eauto.
Qed.
Lemma then_ext w n sz s c s1 m v : wok w n -> mregs s -> valid sz -> execs c s = Some s1 -> lstep w n s s1 m v ->
  exists s', execs (c ++ gen_extend w sz) s = Some s' /\ lstep w n s s' m (conv 4 sz v).
Proof.
  intros Hw HR Hv X L. pose proof L as (W1 & A1 & _ & V1 & _).
  destruct (extend_ok addr lo prot w sz s1 W1 Hv (wok_gp _ _ Hw)) as (s2 & X2 & U2). exists s2. split; [rewrite execs_app, X; exact X2|].
  rewrite V1 in U2. eapply lstep_trans; [exact L|]. eapply upd_lstep; eauto. now apply conv_rng.
Qed.

Definition incv (inc : bool) (v : Z) := if inc then v + 1 else v - 1.
Lemma incv_alu (inc : bool) v : aluv (if inc then Maddu else Msubu) v (w32 1) = w32 (incv inc v).
Proof. destruct inc; reflexivity. Qed.
Lemma incv_back (inc : bool) v : aluv (if inc then Maddu else Msubu) (w32 (incv inc v)) (w32 (-1)) = w32 v.
Proof.
  destruct inc; cbn [aluv incv]; unfold w32; [rewrite wrap_add_l, wrap_add_r|rewrite wrap_sub_l, wrap_sub_r]; f_equal; lia.
Qed.
Lemma sem_pre inc sz a : sem a -> sem (EPre inc sz a).
Proof.
  intros Sa w n m [Hv Hwa] Hw Hd HS.
  pose proof (acc_sem (FPre inc sz) a (fun p => gen_incdec inc p w sz) w n m 24 [Mmove rTA w] Sa Hwa Hw Hd HS eq_refl ltac:(auto)) as D.
  cbn [plug app] in D. cbn [MipsCode.C cdepth mdepth]. apply D. clear D HS m.
  intros p s m HR HA G Hp HS. destruct (load sz m (paddr s p)) as [v|] eqn:L.
  2:{ exfalso. eapply ms_here; [exact HS|]. cbn. now rewrite L. }
  destruct (store sz m (paddr s p) (incv inc v)) as [m1|] eqn:S.
  2:{ exfalso. eapply ms_here; [exact HS|]. cbn. rewrite L. cbn [obind]. unfold incv in S. now rewrite S. }
  assert (F : pfree p w) by (destruct p; cbn; auto; rewrite (Hp _ eq_refl); destruct Hw; lia).
  destruct (rmw_ok w n p sz s m m1 v _ (if inc then Maddu else Msubu) 1 Hw HR HA Hv G F L S (ms_al _ _ _ _ HS eq_refl) (incv_alu inc v)) as (s1 & X1 & L1).
  destruct (then_ext w n sz s _ s1 m1 _ Hw HR Hv X1 L1) as (s2 & X2 & L2). rewrite conv_w32 in L2 by assumption.
  exists (conv 4 sz (incv inc v)), m1, s2. split; [|split; [|exact L2]].
  - apply esteps_red. cbn. rewrite L. cbn [obind]. unfold incv in *. now rewrite S.
  - unfold gen_incdec. rewrite <- X2. f_equal. now rewrite <- !app_assoc.
Qed.
Lemma sem_post inc sz a : sem a -> sem (EPost inc sz a).
Proof.
  intros Sa w n m [Hv Hwa] Hw Hd HS.
  pose proof (acc_sem (FPost inc sz) a (fun p => gen_postincdec inc p w sz) w n m 24 [Mmove rTA w] Sa Hwa Hw Hd HS eq_refl ltac:(auto)) as D.
  cbn [plug app] in D. cbn [MipsCode.C cdepth mdepth]. apply D. clear D HS m.
  intros p s m HR HA G Hp HS. destruct (load sz m (paddr s p)) as [v|] eqn:L.
  2:{ exfalso. eapply ms_here; [exact HS|]. cbn. now rewrite L. }
  destruct (store sz m (paddr s p) (incv inc v)) as [m1|] eqn:S.
  2:{ exfalso. eapply ms_here; [exact HS|]. cbn. rewrite L. cbn [obind]. unfold incv in S. now rewrite S. }
  assert (F : pfree p w) by (destruct p; cbn; auto; rewrite (Hp _ eq_refl); destruct Hw; lia).
  destruct (rmw_ok w n p sz s m m1 v _ (if inc then Maddu else Msubu) 1 Hw HR HA Hv G F L S (ms_al _ _ _ _ HS eq_refl) (incv_alu inc v)) as (s1 & X1 & L1).
  pose proof L1 as (W1 & A1 & _ & V1 & _). pose proof (wok_gp _ _ Hw) as Gw.
  destruct (gen3c_ok addr (if inc then Maddu else Msubu) w w (-1) s1 W1 Gw (proj1 Gw)) as (s2 & X2 & U2). rewrite V1, incv_back in U2.
  pose proof (upd_lstep w n s1 s2 m1 _ U2 W1 (w32_rng _) A1) as L2. pose proof (lstep_trans _ _ _ _ _ _ _ _ _ L1 L2) as L12.
  destruct (then_ext w n sz s _ s2 m1 _ Hw HR Hv ltac:(rewrite execs_app, X1; exact X2) L12) as (s3 & X3 & L3). rewrite conv_w32 in L3 by assumption.
  destruct (load_conv_id _ _ _ _ Hv L) as [Cv _]. rewrite Cv in L3.
  exists v, m1, s3. split; [|split; [|exact L3]].
  - apply esteps_red. cbn. rewrite L. cbn [obind]. unfold incv in *. now rewrite S.
  - unfold gen_postincdec. cbv zeta. rewrite <- X3. f_equal. now rewrite <- !app_assoc.
Qed.
Lemma sem_un u x : sem x -> sem (EUn u x).
Proof.
  intros Sx w n m [_ Hwx] Hw Hd HS. cbn [MipsCode.C cdepth mdepth].
  apply (do_then m (C x w n) w n (mdepth x) (cdepth x =? 0) (Ev x m)); auto using mdepth_nonneg.
  - apply Sx; auto. apply (ms_in (FUn u)). exact HS.
  - intros v m1 s [E1 _] HR HA V. destruct (unc_ok addr u w s (mregs_wd _ HR) (wok_gp _ _ Hw)) as (s2 & X2 & U2). rewrite V in U2.
    assert (Rv : 0 <= v < P32) by (rewrite <- V; apply HR).
    exists (unop_val 4 u v), m1, s2. split; [|split; [exact X2|]].
    + split; [eapply esteps_trans; [apply (esteps_in _ _ _ _ (FUn u)); exact E1|apply esteps_red; reflexivity]|].
      destruct u; cbn [boolish]; try discriminate. cbn. destruct (v =? 0); auto.
    + eapply upd_lstep; eauto; [now apply mregs_wd|]. destruct u; cbn [unop_val]; try assumption; try apply w32_rng; try (destruct (v =? 0); lia);
        apply conv_rng; unfold valid_size; auto 6.
Qed.

(** *** Operators with two operands *)
Lemma nc_max l r : (cdepth l =? 0) && (cdepth r =? 0) = (Z.max (cdepth l) (cdepth r) =? 0).
Proof. pose proof (cdepth_nonneg l). pose proof (cdepth_nonneg r). destruct (Z.eqb_spec (cdepth l) 0), (Z.eqb_spec (cdepth r) 0); cbn; lia. Qed.
Lemma dep0 d w : depthok d w -> mcd = 0 -> d = 0.
Proof. intros [H|H]; lia. Qed.
Lemma two_sem (B : ex -> ex -> ex) (fl fr : ex -> frame) l r w n m c2 d E2 :
  (forall l r, plug (fl r) l = B l r) -> (forall l r, plug (fr l) r = B l r) ->
  sem l -> sem r -> wf 4 l -> wf 4 r -> wok w n -> depthok (Z.max (cdepth l) (cdepth r)) w -> msafe (B l r) m ->
  mdepth l <= d -> 4 + mdepth r <= d ->
  (forall va vb m2 s, esteps (B l r, m) (B (EVal va) (EVal vb), m2) -> mregs s -> agree m2 (MM s) ->
     R s (lreg w n) = va -> R s (rreg w n) = vb ->
     exists v m' s', E2 v m' /\ execs c2 s = Some s' /\ lstep w n s s' m' v) ->
  doing m (two w n (C l w n) (C r (wpush w n) (n + 1)) ++ c2) w n d (Z.max (cdepth l) (cdepth r) =? 0) E2.
Proof.
  intros Hfl Hfr Sl Sr Hl Hr Hw Hd HS D1 D2 F. pose proof (cdepth_nonneg l). pose proof (cdepth_nonneg r). rewrite <- nc_max.
  apply (two_then m w n _ _ (mdepth l) (mdepth r) d (cdepth l =? 0) (cdepth r =? 0) (Ev l m)
     (fun va vb m2 => esteps (B l r, m) (B (EVal va) (EVal vb), m2))); auto using mdepth_nonneg.
  - intros Em. pose proof (dep0 _ _ Hd Em). lia.
  - apply Sl; auto. { eapply (depthok_le mcd Hmcd); [exact Hd|lia]. } apply (ms_in (fl r)). now rewrite Hfl.
  - intros va m1 [E1 _]. apply (esteps_in _ _ _ _ (fl r)) in E1. rewrite !Hfl in E1. pose proof (ms_steps _ _ _ _ E1 HS) as HS1.
    eapply doing_le; [reflexivity| |apply Sr; auto].
    + intros vb m2 [E2' _]. cbn beta. eapply esteps_trans; [exact E1|]. apply (esteps_in _ _ _ _ (fr (EVal va))) in E2'. now rewrite !Hfr in E2'.
    + now apply wok_push.
    + destruct Hd as [Hd|(Hd1 & Hd2 & Hd3)]; [left; lia|right]. unfold MipsCode.wpush.
      replace (rk n) with false by (unfold MipsCode.rk, can_use; replace (mcd =? 0) with false by lia; reflexivity). lia.
    + apply (ms_in (fr (EVal va))). now rewrite Hfr.
  - intros va vb m1 m2 s _ E2' HR HA V1 V2. apply (F va vb m2 s); auto.
Qed.
Lemma lreg_gp w n : wok w n -> lreg w n <> 0 /\ gp (lreg w n).
Proof. intros [H _]. unfold MipsCode.lreg, rTA. destruct (rk n); unfold gp; lia. Qed.
Lemma rreg_gp w n : wok w n -> rreg w n <> 0 /\ gp (rreg w n).
Proof. intros [H _]. unfold MipsCode.rreg, winc, rV0, rT0. destruct (rk n); unfold gp; [destruct (Z.eqb_spec w 2)|]; lia. Qed.

(** A constant operand. *)
Definition tokval (t : tok) (k a b v : Z) : Prop :=
  match t with
  | TArith a' _ => exists o, a' = tok_arith o /\ arith_val 4 o a b = Some v
  | TCmp c' _ => exists c, c' = tok_cmp c /\ cmp_fit c k /\ v = b2 (cmp_val 4 c a b)
  | _ => False
  end.
Lemma arith_rng o a b v : 0 <= a < P32 -> 0 <= b < P32 -> arith_val 4 o a b = Some v -> 0 <= v < P32.
Proof.
  intros Ha Hb. pose proof (logic_range 4 HW4 addr nop a b Ha Hb) as (L1 & L2 & L3).
  destruct o; cbn [arith_val]; try (intros [= <-]; first [apply w32_rng|assumption]); change (8 * 4) with 32.
  - destruct (_ || _); [discriminate|]. intros [= <-]. apply w32_rng.
  - destruct (Z.eqb_spec b 0); [discriminate|]. intros [= <-]. split; [apply Z.div_pos; lia|]. apply Z.div_lt_upper_bound; nia.
  - destruct (_ || _); [discriminate|]. intros [= <-]. apply w32_rng.
  - destruct (Z.eqb_spec b 0); [discriminate|]. intros [= <-]. pose proof (Z.mod_pos_bound a b ltac:(lia)). lia.
  - destruct (b <? 32); [|discriminate]. intros [= <-]. apply w32_rng.
  - destruct (b <? 32); [|discriminate]. intros [= <-]. apply w32_rng.
  - destruct (b <? 32); [|discriminate]. intros [= <-]. pose proof (Z.pow_pos_nonneg 2 b ltac:(lia) ltac:(lia)).
    split; [apply Z.div_pos; lia|]. apply Z.div_lt_upper_bound; nia.
Qed.
Lemma bin_code_ok t k w L Rr s v : wd s -> gp w -> tokval t k (reg s L) (reg s Rr) v ->
  exists s', execs (bin_code t w L Rr) s = Some s' /\ upd s s' w v /\ 0 <= v < P32.
Proof.
  intros W G T. destruct t; try contradiction; cbn [tokval bin_code] in *.
  - destruct T as (o & -> & V). destruct (gen_bin_ok addr o w L Rr s v W G V) as (s' & X & U). exists s'. split; [exact X|]. split; [exact U|].
    eapply arith_rng; [| |exact V]; now apply reg_rng.
  - destruct T as (c' & -> & _ & ->). destruct (cmp_reg_ok addr c' w L Rr s W G) as (s' & X & U). exists s'. split; [exact X|]. split; [exact U|apply b2_rng].
Qed.
Lemma imm_code_ok t k w s v : wd s -> gp w -> isimm t = true -> tokval t k (R s w) (w32 k) v ->
  exists s', execs (imm_code t k w) s = Some s' /\ upd s s' w v /\ 0 <= v < P32.
Proof.
  intros W G Hi T. destruct t; try contradiction; cbn [tokval imm_code] in *.
  - destruct T as (o & -> & V). destruct (gen3c_ok addr (alu_of (tok_arith o)) w w k s W G (proj1 G)) as (s' & X & U).
    assert (Nd : is_div (tok_arith o) = None) by (destruct o; try discriminate Hi; reflexivity).
    rewrite (aluv_ok o _ _ v (W w) (w32_rng k) Nd V) in U. exists s'. split; [exact X|]. split; [exact U|].
    eapply arith_rng; [apply W|apply w32_rng|exact V].
  - destruct T as (c' & -> & Hf & ->). destruct (cmp_imm_ok addr c' k w s W G Hf) as (s' & X & U). exists s'. split; [exact X|]. split; [exact U|apply b2_rng].
Qed.
Lemma const_sem (Fr : frame) x w n m t k d E2 : sem x -> wf 4 x -> wok w n -> depthok (cdepth x) w -> msafe (plug Fr x) m ->
  mdepth x <= d -> 4 <= d ->
  (forall va m1, esteps (plug Fr x, m) (plug Fr (EVal va), m1) -> 0 <= va < P32 -> exists v, E2 v m1 /\ tokval t k va (w32 k) v) ->
  doing m (C x w n ++ MipsCode.const_code mcd t k w n) w n d (cdepth x =? 0) E2.
Proof.
  intros Sx Hx Hw Hd HS D1 D2 F. pose proof (wok_gp _ _ Hw) as G.
  assert (Dx : doing m (C x w n) w n (mdepth x) (cdepth x =? 0) (fun va m1 => esteps (plug Fr x, m) (plug Fr (EVal va), m1))).
  { eapply doing_le; [reflexivity| |apply Sx; auto; eapply ms_in; eauto]. intros v m1 [E1 _]. now apply esteps_in. }
  unfold MipsCode.const_code. destruct (isimm t) eqn:Ei.
  - apply (do_then m _ w n d (cdepth x =? 0) (fun va m1 => esteps (plug Fr x, m) (plug Fr (EVal va), m1))); auto; [lia| |].
    { eapply doing_le; [exact D1| |exact Dx]. auto. }
    intros va m1 s E1 HR HA V. destruct (F va m1 E1) as (v & E2' & T); [rewrite <- V; apply HR|]. rewrite <- V in T.
    destruct (imm_code_ok t k w s v (mregs_wd _ HR) G Ei T) as (s' & X & U & Rv). exists v, m1, s'. split; [exact E2'|]. split; [exact X|].
    eapply upd_lstep; eauto. now apply mregs_wd.
  - replace (C x w n ++ pushc w n ++ [Mli (wpush w n) k] ++ popc n ++ bin_code t w (lreg w n) (rreg w n))
      with (two w n (C x w n) (C (ENum false k) (wpush w n) (n + 1)) ++ bin_code t w (lreg w n) (rreg w n))
      by (unfold MipsCode.two; cbn [MipsCode.C]; now rewrite <- !app_assoc).
    rewrite <- (andb_true_r (cdepth x =? 0)).
    apply (two_then m w n _ _ (mdepth x) 0 d (cdepth x =? 0) true (fun va m1 => esteps (plug Fr x, m) (plug Fr (EVal va), m1))
      (fun va vb m1 => esteps (plug Fr x, m) (plug Fr (EVal va), m1) /\ vb = w32 k)); auto using mdepth_nonneg; try lia.
    + intros Em. pose proof (dep0 _ _ Hd Em). split; [lia|reflexivity].
    + intros va m1 E1. eapply (doing_le m1 _ _ _ 0 0); [reflexivity| |].
      2:{ apply (doing_nc m1 _ _ _ _ (cdepth (ENum false k) =? 0)); [reflexivity|]. apply (do_only m1 (wpush w n) (n + 1) 0 _ (fun v m' => m' = m1 /\ v = w32 k)).
          - now apply wok_push. - lia.
          - intros s HR HA. destruct (li_ok addr (wpush w n) k s (mregs_wd _ HR) (wok_gp _ _ (wok_push _ _ Hw))) as (s' & E & U).
            exists (w32 k), m1, s'. split; [auto|]. split; [exact E|]. eapply upd_lstep; eauto; [now apply mregs_wd|apply w32_rng]. }
      intros vb m2 [-> ->]. auto.
    + intros va vb m1 m2 s _ [E1 ->] HR HA V1 V2. destruct (F va m2 E1) as (v & E2' & T).
      { rewrite <- V1. apply HR. }
      destruct (lreg_gp w n Hw) as [L0 _]. destruct (rreg_gp w n Hw) as [R0 _].
      rewrite <- V1, <- V2, <- (reg_gp s _ L0), <- (reg_gp s _ R0) in T.
      destruct (bin_code_ok t k w _ _ s v (mregs_wd _ HR) G T) as (s' & X & U & Rv). exists v, m2, s'. split; [exact E2'|]. split; [exact X|].
      eapply upd_lstep; eauto. now apply mregs_wd.
Qed.

(** What GenPrep makes of constant operands. *)
Lemma pow2_log m : 0 <= m < P32 -> pow2 m = true -> 0 <= Z.log2 m < 32 /\ 2 ^ Z.log2 m = m.
Proof.
  intros H Hp. unfold pow2 in Hp. apply andb_prop in Hp as [H0 H1]. apply Z.eqb_eq in H1. apply negb_true_iff, Z.eqb_neq in H0.
  assert (Hm : 0 < m) by lia. pose proof (Z.log2_spec m Hm) as [L1 L2]. pose proof (Z.log2_nonneg m) as L0.
  split. { split; [lia|]. apply Z.log2_lt_pow2; lia. }
  destruct (Z.eq_dec (2 ^ Z.log2 m) m) as [E|E]; [exact E|exfalso].
  assert (EL : Z.log2 (m - 1) = Z.log2 m) by (apply Z.log2_unique; [lia|split; lia]).
  assert (B : Z.testbit (Z.land m (m - 1)) (Z.log2 m) = true).
  { rewrite Z.land_spec, Z.bit_log2 by lia. cbn [andb]. rewrite <- EL. apply Z.bit_log2.
    pose proof (Z.pow_pos_nonneg 2 (Z.log2 m) ltac:(lia) ltac:(lia)). lia. }
  rewrite H1, Z.bits_0 in B. discriminate.
Qed.
Definition opeq (o o' : earith) (b b' : Z) : Prop := forall a v, 0 <= a < P32 -> arith_val 4 o a b = Some v -> arith_val 4 o' a b' = Some v.
Lemma udiv_pow j : pow2 (tru j) = true -> opeq EUDiv EUShr (w32 j) (w32 (Z.log2 (tru j))).
Proof.
  intros Hp a v Ha. change (tru j) with (w32 j) in *. destruct (pow2_log _ (w32_rng j) Hp) as [L1 L2]. cbn [arith_val]. change (8 * 4) with 32.
  rewrite (w32_small (Z.log2 (w32 j))) by lia. rewrite L2. destruct (Z.eqb_spec (w32 j) 0); [discriminate|]. replace (_ <? 32) with true by lia. auto.
Qed.
Lemma umod_pow j : pow2 (tru j) = true -> opeq EUMod EAnd (w32 j) (w32 (tru j - 1)).
Proof.
  intros Hp a v Ha. change (tru j) with (w32 j) in *. destruct (pow2_log _ (w32_rng j) Hp) as [L1 L2]. cbn [arith_val].
  destruct (Z.eqb_spec (w32 j) 0); [discriminate|]. intros [= <-]. pose proof (w32_rng j). rewrite (w32_small (w32 j - 1)) by lia. f_equal.
  rewrite <- L2, Z.sub_1_r, <- Z.ones_equiv. apply Z.land_ones. lia.
Qed.
Lemma mul_pow j : pow2 (tru j) = true -> opeq EMul EShl (w32 j) (w32 (Z.log2 (tru j))).
Proof.
  intros Hp a v Ha. change (tru j) with (w32 j) in *. destruct (pow2_log _ (w32_rng j) Hp) as [L1 L2]. cbn [arith_val]. change (8 * 4) with 32.
  rewrite (w32_small (Z.log2 (w32 j))) by lia. rewrite L2. replace (_ <? 32) with true by lia. auto.
Qed.
Lemma opeq_refl o b : opeq o o b b.
Proof. intros a v _ H. exact H. Qed.
Ltac idop := first [(exists EAdd; split; [reflexivity|apply opeq_refl])|(exists ESub; split; [reflexivity|apply opeq_refl])|(exists EMul; split; [reflexivity|apply opeq_refl])|(exists EAnd; split; [reflexivity|apply opeq_refl])|(exists EXor; split; [reflexivity|apply opeq_refl])|(exists EOr; split; [reflexivity|apply opeq_refl])|(exists EDiv; split; [reflexivity|apply opeq_refl])|(exists EUDiv; split; [reflexivity|apply opeq_refl])|(exists EMod; split; [reflexivity|apply opeq_refl])|(exists EUMod; split; [reflexivity|apply opeq_refl])|(exists EShl; split; [reflexivity|apply opeq_refl])|(exists EShr; split; [reflexivity|apply opeq_refl])|(exists EUShr; split; [reflexivity|apply opeq_refl])].
Lemma rc_arith o j k t : rconst (TArith (tok_arith o) 0) j = (k, t) ->
  exists o', t = TArith (tok_arith o') 0 /\ opeq o o' (w32 j) (w32 k).
Proof.
  intros E. unfold rconst in E. destruct o; cbn [tok_arith iscomm special_const] in E; try (injection E as <- <-; idop).
  all: destruct (pow2 (tru j)) eqn:Hp; injection E as <- <-; [|idop].
  - exists EShl. split; [reflexivity|now apply mul_pow].
  - exists EUShr. split; [reflexivity|now apply udiv_pow].
  - exists EAnd. split; [reflexivity|now apply umod_pow].
Qed.
Lemma rc_aop o j : exists o', aop (tok_arith o) (ENum false j) = tok_arith o' /\ opeq o o' (w32 j) (w32 (fst (rconst (TAssignOp (tok_arith o) 0) j))).
Proof.
  unfold aop, rconst. destruct o; cbn [tok_arith iscomm special_const]; try (cbn [fst]; idop).
  all: destruct (pow2 (tru j)) eqn:Hp; cbn [fst]; [|idop].
  - exists EUShr. split; [reflexivity|now apply udiv_pow].
  - exists EAnd. split; [reflexivity|now apply umod_pow].
Qed.
Lemma comm_val o a b : iscomm (TArith (tok_arith o) 0) = true -> arith_val 4 o a b = arith_val 4 o b a.
Proof.
  destruct o; try discriminate; intros _; cbn [arith_val]; f_equal; first [f_equal; lia|apply Z.land_comm|apply Z.lor_comm|apply Z.lxor_comm].
Qed.
Lemma sc_arith o j : iscomm (TArith (tok_arith o) 0) = true -> special_const (TArith (tok_arith o) 0) j = rconst (TArith (tok_arith o) 0) j.
Proof. destruct o; try discriminate; reflexivity. Qed.
Ltac apid ID := first [apply (ID ELt)|apply (ID EULt)|apply (ID EGt)|apply (ID EUGt)|apply (ID ELe)|apply (ID EULe)|apply (ID EGe)|apply (ID EUGe)|apply (ID EEq)|apply (ID ENe)].
Ltac sc j x E ID := destruct (Z.eqb_spec (w32 j) x) as [Ej|Ej]; injection E as <- <-; [|apid ID; cbn [cmp_fit]; exact Ej];
  rewrite Ej; cbn [tokval cmp_val]; change (w32 0) with 0.
Lemma sc_cmp c j k t a : 0 <= a < P32 -> special_const (TCmp (tok_cmp c) 0) j = (k, t) -> tokval t k a (w32 k) (b2 (cmp_val 4 c a (w32 j))).
Proof.
  intros Ha E. pose proof (w32_rng j) as Hj.
  assert (SA : s32 a <= 2147483647) by (rewrite s32_eq by assumption; destruct (Z.ltb_spec a 2147483648); change P32 with 4294967296 in *; lia).
  assert (ID : forall c0 : ecmp, cmp_fit c0 j -> tokval (TCmp (tok_cmp c0) 0) j a (w32 j) (b2 (cmp_val 4 c0 a (w32 j)))).
  { intros c0 Hf. cbn [tokval]. exists c0. auto. }
  destruct c; cbn [tok_cmp special_const] in E; try (injection E as <- <-; apid ID; exact Logic.I).
  all: change (tru j) with (w32 j) in *.
  - sc j 2147483647 E ID. exists EAnd. split; [reflexivity|]. cbn [arith_val]. rewrite Z.land_0_r. change (sint 4) with s32. change (s32 2147483647) with 2147483647.
    rewrite Z.gtb_ltb. replace (_ <? _) with false by lia. reflexivity.
  - sc j 4294967295 E ID. exists EAnd. split; [reflexivity|]. cbn [arith_val]. rewrite Z.land_0_r. rewrite Z.gtb_ltb. change P32 with 4294967296 in *. replace (_ <? _) with false by lia. reflexivity.
  - sc j 2147483647 E ID. exists EUGe. split; [reflexivity|]. split; [exact Logic.I|]. change (sint 4) with s32. change (s32 2147483647) with 2147483647. cbn [cmp_val]. rewrite Z.geb_leb.
    replace (_ <=? 2147483647) with true by lia. replace (0 <=? a) with true by lia. reflexivity.
  - sc j 4294967295 E ID. exists EUGe. split; [reflexivity|]. split; [exact Logic.I|]. cbn [cmp_val]. rewrite Z.geb_leb. change P32 with 4294967296 in *.
    replace (_ <=? 4294967295) with true by lia. replace (0 <=? a) with true by lia. reflexivity.
Qed.
Lemma flip_cmp c : exists c', flip (TCmp (tok_cmp c) 0) = TCmp (tok_cmp c') 0 /\ forall a b, cmp_val 4 c' b a = cmp_val 4 c a b.
Proof.
  destruct c; cbn [tok_cmp flip];
    [exists EGt|exists EUGt|exists ELt|exists EULt|exists EGe|exists EUGe|exists ELe|exists EULe|exists EEq|exists ENe];
    (split; [reflexivity|]); intros a b; cbn [cmp_val]; rewrite ?Z.gtb_ltb, ?Z.geb_leb, 1?(Z.eqb_sym b a); reflexivity.
Qed.
Ltac bc E := match type of E with context [special_const ?a ?b] => destruct (special_const a b) as [k0 t0] eqn:E0; injection E as <- <- <- end.
Lemma bconst_inv t l r sw k t' : bconst t l r = Some (sw, k, t') ->
  (sw = false /\ exists u j, r = ENum u j /\ rconst t j = (k, t')) \/
  (sw = true /\ iscomm t = true /\ exists u j, l = ENum u j /\ special_const (flip t) j = (k, t')).
Proof.
  intros E. unfold bconst in E. destruct r; try (destruct l; try discriminate E; destruct (iscomm t); [|discriminate E];
    bc E; right; split; [reflexivity|split; [reflexivity|eexists; eexists; split; [reflexivity|eassumption]]]).
  match type of E with context [rconst ?a ?b] => destruct (rconst a b) as [k0 t0] eqn:E0 end. injection E as <- <- <-. left. split; [reflexivity|]. eexists. eexists. split; [reflexivity|exact E0].
Qed.

Lemma sem_arith o l r : sem l -> sem r -> sem (EArith o l r).
Proof.
  intros Sl Sr w n m [Hl Hr] Hw Hd HS. cbn [MipsCode.C cdepth mdepth] in *. pose proof (mdepth_nonneg l). pose proof (mdepth_nonneg r).
  assert (VV : forall va vb m2, esteps (EArith o l r, m) (EArith o (EVal va) (EVal vb), m2) ->
     exists v, arith_val 4 o va vb = Some v /\ Ev (EArith o l r) m v m2).
  { intros va vb m2 E. pose proof (ms_steps _ _ _ _ E HS) as HS1. destruct (arith_val 4 o va vb) as [v|] eqn:V.
    2:{ exfalso. eapply ms_here; [exact HS1|]. cbn. now rewrite V. }
    exists v. split; [reflexivity|]. split; [|discriminate]. eapply esteps_trans; [exact E|]. apply esteps_red. cbn. now rewrite V. }
  destruct (bconst _ l r) as [[[sw k] t]|] eqn:Eb.
  - apply bconst_inv in Eb as [[-> (u & j & -> & Er)]|[-> (Hc & u & j & -> & Er)]].
    + cbn [cdepth] in *. assert (Emx : Z.max (cdepth l) 0 = cdepth l) by (pose proof (cdepth_nonneg l); lia). rewrite Emx in *. destruct (rc_arith _ _ _ _ Er) as (o' & -> & Ho).
      apply (const_sem (FArithL o (ENum u j))); auto; [lia|lia|]. cbn [plug]. intros va m1 E1 Rv.
      destruct (VV va (w32 j) m1) as (v & V & EV).
      { eapply esteps_trans; [exact E1|]. apply (esteps_in _ _ _ _ (FArithR o (EVal va))). apply esteps_red. reflexivity. }
      exists v. split; [exact EV|]. exists o'. auto.
    + cbn [cdepth] in *. assert (Emx : Z.max 0 (cdepth r) = cdepth r) by (pose proof (cdepth_nonneg r); lia). rewrite Emx in *. cbn [flip] in Er. rewrite sc_arith in Er by assumption.
      destruct (rc_arith _ _ _ _ Er) as (o' & -> & Ho).
      apply (const_sem (FArithR o (ENum u j))); auto; [lia|lia|]. cbn [plug]. intros vb m1 E1 Rv.
      destruct (VV (w32 j) vb m1) as (v & V & EV).
      { eapply esteps_trans; [exact E1|]. apply (esteps_in _ _ _ _ (FArithL o (EVal vb))). apply esteps_red. reflexivity. }
      exists v. split; [exact EV|]. exists o'. split; [reflexivity|]. apply Ho; [assumption|]. now rewrite <- comm_val.
  - apply (two_sem (EArith o) (FArithL o) (FArithR o)); auto; [lia|lia|].
    intros va vb m2 s E HR HA V1 V2. destruct (VV va vb m2 E) as (v & V & EV). destruct (lreg_gp w n Hw) as [L0 _]. destruct (rreg_gp w n Hw) as [R0 _].
    destruct (bin_code_ok (TArith (tok_arith o) 0) 0 w (lreg w n) (rreg w n) s v (mregs_wd _ HR) (wok_gp _ _ Hw)) as (s' & X & U & Rv).
    { exists o. rewrite !reg_gp, V1, V2 by assumption. auto. }
    exists v, m2, s'. split; [exact EV|]. split; [exact X|]. eapply upd_lstep; eauto. now apply mregs_wd.
Qed.
Lemma sem_cmp c l r : sem l -> sem r -> sem (ECmp c l r).
Proof.
  intros Sl Sr w n m [Hl Hr] Hw Hd HS. cbn [MipsCode.C cdepth mdepth] in *. pose proof (mdepth_nonneg l). pose proof (mdepth_nonneg r).
  assert (VV : forall va vb m2, esteps (ECmp c l r, m) (ECmp c (EVal va) (EVal vb), m2) -> Ev (ECmp c l r) m (b2 (cmp_val 4 c va vb)) m2).
  { intros va vb m2 E. split; [eapply esteps_trans; [exact E|]; apply esteps_red; reflexivity|]. intros _. unfold b2. destruct (cmp_val 4 c va vb); auto. }
  destruct (bconst _ l r) as [[[sw k] t]|] eqn:Eb.
  - apply bconst_inv in Eb as [[-> (u & j & -> & Er)]|[-> (_ & u & j & -> & Er)]].
    + cbn [cdepth] in *. assert (Emx : Z.max (cdepth l) 0 = cdepth l) by (pose proof (cdepth_nonneg l); lia). rewrite Emx in *.
      assert (Er' : special_const (TCmp (tok_cmp c) 0) j = (k, t)) by (rewrite <- Er; reflexivity).
      apply (const_sem (FCmpL c (ENum u j))); auto; [lia|lia|]. cbn [plug]. intros va m1 E1 Rv. eexists. split.
      * apply VV with (va := va) (vb := w32 j). eapply esteps_trans; [exact E1|]. apply (esteps_in _ _ _ _ (FCmpR c (EVal va))). apply esteps_red. reflexivity.
      * now apply sc_cmp.
    + cbn [cdepth] in *. assert (Emx : Z.max 0 (cdepth r) = cdepth r) by (pose proof (cdepth_nonneg r); lia). rewrite Emx in *. destruct (flip_cmp c) as (c' & Ec & Hc). rewrite Ec in Er.
      apply (const_sem (FCmpR c (ENum u j))); auto; [lia|lia|]. cbn [plug]. intros vb m1 E1 Rv. eexists. split.
      * apply VV with (va := w32 j) (vb := vb). eapply esteps_trans; [exact E1|]. apply (esteps_in _ _ _ _ (FCmpL c (EVal vb))). apply esteps_red. reflexivity.
      * rewrite <- Hc. now apply sc_cmp.
  - apply (two_sem (ECmp c) (FCmpL c) (FCmpR c)); auto; [lia|lia|].
    intros va vb m2 s E HR HA V1 V2. destruct (lreg_gp w n Hw) as [L0 _]. destruct (rreg_gp w n Hw) as [R0 _].
    destruct (cmp_reg_ok addr c w (lreg w n) (rreg w n) s (mregs_wd _ HR) (wok_gp _ _ Hw)) as (s' & X & U).
    rewrite !reg_gp, V1, V2 in U by assumption.
    exists (b2 (cmp_val 4 c va vb)), m2, s'. split; [now apply VV|]. split; [exact X|]. eapply upd_lstep; eauto; [now apply mregs_wd|apply b2_rng].
Qed.

(** *** Assignments *)
Lemma sem_assign sz l r : sem l -> sem r -> sem (EAssign sz l r).
Proof.
  intros Sl Sr w n m (Hv & Hl & Hr) Hw Hd HS. cbn [MipsCode.C cdepth mdepth] in *. pose proof (mdepth_nonneg l). pose proof (mdepth_nonneg r).
  pose proof (wok_gp _ _ Hw) as G.
  assert (VV : forall va vb m2, esteps (EAssign sz l r, m) (EAssign sz (EVal va) (EVal vb), m2) ->
     exists m3, store sz m2 va vb = Some m3 /\ va mod Z.abs sz = 0 /\ Ev (EAssign sz l r) m (conv 4 sz vb) m3).
  { intros va vb m2 E. pose proof (ms_steps _ _ _ _ E HS) as HS1. destruct (store sz m2 va vb) as [m3|] eqn:V.
    2:{ exfalso. eapply ms_here; [exact HS1|]. cbn. now rewrite V. }
    exists m3. split; [reflexivity|]. split; [exact (ms_al _ _ _ _ HS1 eq_refl)|]. split; [|discriminate].
    eapply esteps_trans; [exact E|]. apply esteps_red. cbn. now rewrite V. }
  destruct (pl l) as [p|] eqn:Ep.
  - assert (Dz : cdepth l = 0) by (destruct l; try discriminate Ep; reflexivity). rewrite Dz in *. assert (Emx : Z.max 0 (cdepth r) = cdepth r) by (pose proof (cdepth_nonneg r); lia). rewrite Emx in *.
    apply (do_then m (C r w n) w n (Z.max (4 + mdepth l) (4 + mdepth r)) (cdepth r =? 0) (Ev r m)); auto; [lia| |].
    + eapply doing_le; [| |apply Sr; auto]; [lia|auto|]. apply (ms_in (FAssignR sz l)). exact HS.
    + intros vb m2 s [E1 _] HR HA V. destruct (pl_ok l p s m2 Ep HR) as (E2 & Gp & F & _).
      destruct (VV (paddr s p) vb m2) as (m3 & St & Al & EV).
      { eapply esteps_trans; [apply (esteps_in _ _ _ _ (FAssignR sz l)); exact E1|]. apply (esteps_in _ _ _ _ (FAssignL sz (EVal vb))). exact E2. }
      destruct (gwrite_ok addr lo top prot p w sz s m2 m3 vb (mregs_wd _ HR) HA Hv St Al Gp (proj2 G)) as (s1 & X1 & U1).
      { rewrite reg_gp, V by apply G. reflexivity. }
      pose proof (lst_updm w n s s1 m3 U1 (mregs_wd _ HR)) as L1.
      destruct (then_ext w n sz s _ s1 m3 _ Hw HR Hv X1 L1) as (s2 & X2 & L2). exists (conv 4 sz vb), m3, s2. split; [exact EV|]. split; [exact X2|].
      destruct U1 as (U1 & _). rewrite (U1 w), V in L2 by apply G. exact L2.
  - rewrite (app_assoc (write_ind _ _ _)). apply (two_sem (EAssign sz) (FAssignL sz) (FAssignR sz)); auto; [lia|lia|].
    intros va vb m2 s E HR HA V1 V2. destruct (VV va vb m2 E) as (m3 & St & Al & EV).
    destruct (lreg_gp w n Hw) as [L0 GL]. destruct (rreg_gp w n Hw) as [R0 GR].
    destruct (gwrite_ok addr lo top prot (PReg (lreg w n)) (rreg w n) sz s m2 m3 vb (mregs_wd _ HR) HA Hv) as (s1 & X1 & U1).
    { cbn [MipsMach.paddr]. now rewrite V1. } { cbn [MipsMach.paddr]. now rewrite V1. } { exact GL. } { apply GR. } { now rewrite reg_gp, V2. }
    pose proof (lst_updm w n s s1 m3 U1 (mregs_wd _ HR)) as L1. pose proof L1 as (W1 & A1 & _).
    assert (HM : exists s2, execs (write_ind (lreg w n) (rreg w n) sz ++ (if w =? rreg w n then [] else [Mmove w (rreg w n)])) s = Some s2 /\ lstep w n s s2 m3 vb).
    { destruct U1 as (U1 & _). destruct (Z.eqb_spec w (rreg w n)) as [Ew|Ew].
      - exists s1. rewrite app_nil_r. split; [exact X1|]. rewrite <- V2, <- (U1 (rreg w n)), <- Ew by apply GR. exact L1.
      - destruct (move_ok addr w (rreg w n) s1 W1 G R0) as (s2 & X2 & U2). exists s2. split; [rewrite execs_app; change (write_ind (lreg w n) (rreg w n) sz) with (gwrite (PReg (lreg w n)) (rreg w n) sz); rewrite X1; exact X2|].
        rewrite (U1 (rreg w n)), V2 in U2 by apply GR. eapply lstep_trans; [exact L1|]. eapply upd_lstep; eauto. rewrite <- V2. apply HR. }
    destruct HM as (s2 & X2 & L2). destruct (then_ext w n sz s _ s2 m3 _ Hw HR Hv X2 L2) as (s3 & X3 & L3).
    exists (conv 4 sz vb), m3, s3. auto.
Qed.

Definition acode (o : earith) (r : ex) (w n : Z) : list mins := match anum (tok_arith o) r with Some k => [Mli w k] | None => C r w n end.
Lemma opnd_sem o r w n m : sem r -> wf 4 r -> wok w n -> depthok (cdepth r) w -> msafe r m ->
  exists o', aop (tok_arith o) r = tok_arith o' /\
  doing m (acode o r w n) w n (mdepth r) (cdepth r =? 0) (fun vb m2 => exists vb', esteps (r, m) (EVal vb', m2) /\ opeq o o' vb' vb).
Proof.
  intros Sr Hr Hw Hd HS.
  assert (D : forall r, (forall u j, r <> ENum u j) -> anum (tok_arith o) r = None /\ aop (tok_arith o) r = tok_arith o).
  { intros r0 N. destruct r0; try (split; reflexivity). elim (N uns n0). reflexivity. }
  assert (K : (exists u j, r = ENum u j) \/ forall u j, r <> ENum u j).
  { destruct r; try (right; discriminate). left. eauto. }
  destruct K as [(u & j & ->)|N].
  - destruct (rc_aop o j) as (o' & Ea & Ho). exists o'. split; [exact Ea|]. unfold acode. cbn [anum cdepth mdepth]. change (0 =? 0) with true.
    apply do_only; auto; [lia|]. intros s HR HA. set (k := fst (rconst (TAssignOp (tok_arith o) 0) j)) in *.
    destruct (li_ok addr w k s (mregs_wd _ HR) (wok_gp _ _ Hw)) as (s' & E & U). exists (w32 k), m, s'. split; [|split; [exact E|]].
    + exists (w32 j). split; [apply esteps_red; reflexivity|exact Ho].
    + eapply upd_lstep; eauto; [now apply mregs_wd|apply w32_rng].
  - destruct (D r N) as [E1 E2]. exists o. split; [exact E2|]. unfold acode. rewrite E1. eapply doing_le; [reflexivity| |apply Sr; auto].
    intros v m' [Es _]. exists v. split; [exact Es|apply opeq_refl].
Qed.

(** Reading, operating and writing back. *)
Lemma aop_tail w n p p2 q rs sz o s m m3 v0 v vb : wok w n -> mregs s -> agree m (MM s) -> valid sz ->
  pgp p -> pgp p2 -> pfree p2 q -> pfree p2 w -> paddr s p2 = paddr s p -> q = w \/ q = 25 -> rs <> q -> gp rs -> R s rs = vb ->
  load sz m (paddr s p) = Some v0 -> arith_val 4 o v0 vb = Some v -> store sz m (paddr s p) v = Some m3 -> paddr s p mod Z.abs sz = 0 ->
  exists s', execs (gread p q sz ++ gen_bin (tok_arith o) w q rs ++ gwrite p2 w sz) s = Some s' /\ lstep w n s s' m3 v.
Proof.
  intros Hw HR HA Hv G G2 F1 F2 Pe Hq Nr Gr Vr L V St Al. pose proof (wok_gp _ _ Hw) as Gw. destruct (load_conv_id _ _ _ _ Hv L) as [_ V0].
  assert (W30 : w <> 30 /\ q <> 30) by (destruct Hw; lia). assert (Gq : gp q) by (destruct Hq as [->| ->]; [exact Gw|split; discriminate]).
  destruct (gread_ok addr lo top prot p q sz s m v0 (mregs_wd _ HR) HA Hv L Al Gq G) as (s1 & X1 & U1).
  pose proof (upd_wd _ _ _ _ U1 (mregs_wd _ HR) V0) as W1. pose proof U1 as (V1 & O1 & M1 & _).
  destruct (gen_bin_ok addr o w q rs s1 v W1 Gw) as (s2 & X2 & U2).
  { rewrite !reg_gp, V1 by (apply Gq || apply Gr). rewrite (O1 rs) by (auto; apply Gr). now rewrite Vr. }
  assert (Rv : 0 <= v < P32) by (eapply arith_rng; [exact V0| |exact V]; rewrite <- Vr; apply HR).
  pose proof (upd_wd _ _ _ _ U2 W1 Rv) as W2. pose proof U2 as (V2 & O2 & M2 & _).
  assert (Pa : paddr s2 p2 = paddr s p).
  { rewrite (paddr_upd _ _ _ _ _ U2 G2 F2 (proj1 W30)), (paddr_upd _ _ _ _ _ U1 G2 F1 (proj2 W30)). exact Pe. }
  destruct (gwrite_ok addr lo top prot p2 w sz s2 m m3 v W2 ltac:(rewrite M2, M1; exact HA) Hv ltac:(now rewrite Pa) ltac:(now rewrite Pa) G2 (proj2 Gw)) as (s3 & X3 & U3).
  { now rewrite reg_gp, V2 by apply Gw. }
  exists s3. split; [rewrite !execs_app, X1; cbn [obind]; rewrite execs_app, X2; exact X3|].
  pose proof (lst_upd w n s s1 q v0 m ltac:(destruct Hq; auto) U1 (mregs_wd _ HR) V0 HA) as L1.
  pose proof (lst_upd w n s1 s2 w _ m ltac:(auto) U2 W1 Rv ltac:(rewrite M1; exact HA)) as L2.
  pose proof (lst_updm w n s2 s3 m3 U3 W2) as L3. destruct U3 as (U3 & _). rewrite (U3 w), V2 in L3 by apply Gw.
  eapply lstep_trans; [exact L1|]. eapply lstep_trans; eauto.
Qed.
(** Where the operands are after a pair has been evaluated. *)
Lemma lr_cases w n : wok w n -> (lreg w n = w /\ rreg w n <> w /\ 8 <= rreg w n <= 15) \/ (lreg w n = 24 /\ rreg w n = w).
Proof.
  intros [H1 H2]. unfold MipsCode.lreg, MipsCode.rreg. destruct (rk n) eqn:E; [left|right; auto]. apply rk_true in E as [E1 E2]. destruct (H2 E1) as [H3 ->].
  rewrite winc_wreg by lia. split; [reflexivity|]. split; [apply not_eq_sym, wreg_inj; lia|]. unfold wreg. replace (n + 1 =? 0) with false by lia. lia.
Qed.
Lemma sem_assignop o sz l r : sem l -> sem r -> sem (EAssignOp o sz l r).
Proof.
  intros Sl Sr w n m (Hv & Hl & Hr) Hw Hd HS. cbn [MipsCode.C cdepth mdepth] in *. pose proof (mdepth_nonneg l). pose proof (mdepth_nonneg r).
  pose proof (cdepth_nonneg l) as Cl. pose proof (cdepth_nonneg r) as Cr. pose proof (wok_gp _ _ Hw) as G.
  assert (VV : forall va vb m2, esteps (EAssignOp o sz l r, m) (EAssignOp o sz (EVal va) (EVal vb), m2) ->
     exists v0 v m3, load sz m2 va = Some v0 /\ arith_val 4 o v0 vb = Some v /\ store sz m2 va v = Some m3 /\ va mod Z.abs sz = 0 /\ 0 <= v0 < P32 /\
     Ev (EAssignOp o sz l r) m (conv 4 sz v) m3).
  { intros va vb m2 E. pose proof (ms_steps _ _ _ _ E HS) as HS1. destruct (load sz m2 va) as [v0|] eqn:L.
    2:{ exfalso. eapply ms_here; [exact HS1|]. cbn. now rewrite L. }
    destruct (arith_val 4 o v0 vb) as [v|] eqn:V.
    2:{ exfalso. eapply ms_here; [exact HS1|]. cbn. rewrite L. cbn [obind]. now rewrite V. }
    destruct (store sz m2 va v) as [m3|] eqn:St.
    2:{ exfalso. eapply ms_here; [exact HS1|]. cbn. rewrite L. cbn [obind]. rewrite V. cbn [obind]. now rewrite St. }
    exists v0, v, m3. do 3 (split; [first [reflexivity|assumption]|]). split; [exact (ms_al _ _ _ _ HS1 eq_refl)|]. split; [eapply load_conv_id; eauto|]. split; [|discriminate].
    eapply esteps_trans; [exact E|]. apply esteps_red. cbn. rewrite L. cbn [obind]. rewrite V. cbn [obind]. now rewrite St. }
  destruct (pl l) as [p|] eqn:Ep.
  - assert (Dz : cdepth l = 0) by (destruct l; try discriminate Ep; reflexivity). rewrite Dz in *. assert (Emx : Z.max 0 (cdepth r) = cdepth r) by lia. rewrite Emx in *.
    destruct (opnd_sem o r w n m Sr Hr Hw Hd ltac:(apply (ms_in (FAssignOpR o sz l)); exact HS)) as (o' & Ea & Do). rewrite Ea.
    eapply (do_then m (acode o r w n) w n (Z.max (4 + mdepth l) (4 + mdepth r)) (cdepth r =? 0)); auto; [lia| |].
    + eapply doing_le; [| |exact Do]; [lia|]. intros v m' HE. exact HE.
    + intros vb m2 s (vb' & E1 & Ho) HR HA V. destruct (pl_ok l p s m2 Ep HR) as (E2 & Gp & F & _).
      destruct (VV (paddr s p) vb' m2) as (v0 & v & m3 & L & Va & St & Al & R0 & EV).
      { eapply esteps_trans; [apply (esteps_in _ _ _ _ (FAssignOpR o sz l)); exact E1|]. apply (esteps_in _ _ _ _ (FAssignOpL o sz (EVal vb'))). exact E2. }
      destruct (aop_tail w n p p 25 w sz o' s m2 m3 v0 v vb Hw HR HA Hv Gp Gp (F _) (F _) eq_refl) as (s1 & X1 & L1); auto.
      { destruct Hw; lia. }
      destruct (then_ext w n sz s _ s1 m3 _ Hw HR Hv X1 L1) as (s2 & X2 & L2). exists (conv 4 sz v), m3, s2. split; [exact EV|]. split; [|exact L2].
      rewrite <- X2. f_equal. now rewrite <- !app_assoc.
  - assert (HO : exists o', aop (tok_arith o) r = tok_arith o' /\ forall va m1, esteps (l, m) (EVal va, m1) ->
       doing m1 (acode o r (wpush w n) (n + 1)) (wpush w n) (n + 1) (mdepth r) (cdepth r =? 0) (fun vb m2 => exists vb', esteps (r, m1) (EVal vb', m2) /\ opeq o o' vb' vb)).
    { assert (HH : forall m1, msafe r m1 -> exists o', aop (tok_arith o) r = tok_arith o' /\
       doing m1 (acode o r (wpush w n) (n + 1)) (wpush w n) (n + 1) (mdepth r) (cdepth r =? 0) (fun vb m2 => exists vb', esteps (r, m1) (EVal vb', m2) /\ opeq o o' vb' vb)).
      { intros m1 HS1. apply opnd_sem; auto using wok_push.
        destruct Hd as [Hd|(Hd1 & Hd2 & Hd3)]; [left; lia|right]. unfold MipsCode.wpush.
        replace (rk n) with false by (unfold MipsCode.rk, can_use; replace (mcd =? 0) with false by lia; reflexivity). lia. }
      destruct (HH m ltac:(apply (ms_in (FAssignOpR o sz l)); exact HS)) as (o' & Ea & _). exists o'. split; [exact Ea|].
      intros va m1 E1. destruct (HH m1) as (o2 & Ea2 & D2).
      - apply (ms_in (FAssignOpR o sz (EVal va))). eapply ms_steps; [|exact HS]. apply (esteps_in _ _ _ _ (FAssignOpL o sz r)). exact E1.
      - rewrite Ea in Ea2. assert (o' = o2) as -> by (destruct o', o2; try discriminate Ea2; reflexivity). exact D2. }
    destruct HO as (o' & Ea & Do). rewrite Ea. rewrite <- nc_max.
    apply (two_then m w n _ (acode o r (wpush w n) (n + 1)) (mdepth l) (mdepth r) (Z.max (4 + mdepth l) (4 + mdepth r)) (cdepth l =? 0) (cdepth r =? 0) (Ev l m)
      (fun va vb m2 => exists vb', esteps (EAssignOp o sz l r, m) (EAssignOp o sz (EVal va) (EVal vb'), m2) /\ opeq o o' vb' vb)); auto; try lia.
    + intros Em. pose proof (dep0 _ _ Hd Em). lia.
    + apply Sl; auto. { eapply (depthok_le mcd Hmcd); [exact Hd|lia]. } apply (ms_in (FAssignOpL o sz r)). exact HS.
    + intros va m1 [E1 _]. eapply doing_le; [reflexivity| |exact (Do va m1 E1)]. intros vb m2 (vb' & E2 & Ho). exists vb'. split; [|exact Ho].
      eapply esteps_trans; [apply (esteps_in _ _ _ _ (FAssignOpL o sz r)); exact E1|]. apply (esteps_in _ _ _ _ (FAssignOpR o sz (EVal va))). exact E2.
    + intros va vb m1 m2 s _ (vb' & E1 & Ho) HR HA V1 V2. destruct (VV va vb' m2 E1) as (v0 & v & m3 & L & Va & St & Al & R0 & EV).
      assert (HT : exists s1, execs (gen_assignop (tok_arith o') w (lreg w n) (rreg w n) sz) s = Some s1 /\ lstep w n s s1 m3 v).
      { unfold gen_assignop. destruct (lr_cases w n Hw) as [(Le & Ln & Lr)|(Le & Re)].
        - rewrite Le in *. replace (w =? w) with true by lia.
          destruct (move_ok addr 25 w s (mregs_wd _ HR) ltac:(split; discriminate) (proj1 G)) as (s1 & X1 & U1). pose proof U1 as (V3 & O1 & M1 & _).
          pose proof (lst_upd w n s s1 25 (R s w) m2 ltac:(auto) U1 (mregs_wd _ HR) (proj1 HR w) HA) as L1.
          assert (W5 : w <> 25) by (destruct Hw; lia).
          destruct (aop_tail w n (PReg w) (PReg 25) w (rreg w n) sz o' s1 m2 m3 v0 v vb Hw (lst_mregs _ _ _ _ _ _ Hw HR L1) ltac:(now rewrite M1) Hv) as (s2 & X2 & L2); cbn [MipsMach.pgp pfree MipsMach.paddr]; auto; try lia.
          { split; discriminate. } { rewrite V3, (O1 w) by (try apply G; lia). reflexivity. } { unfold gp; lia. }
          { rewrite (O1 (rreg w n)) by lia. exact V2. } all: try (rewrite (O1 w), V1 by (try apply G; lia); assumption).
          exists s2. split; [|eapply lstep_trans; eauto]. change (Mmove rTB w :: read_ind w w sz ++ gen_bin (tok_arith o') w w (rreg w n) ++ write_ind rTB w sz)
            with ([Mmove 25 w] ++ gread (PReg w) w sz ++ gen_bin (tok_arith o') w w (rreg w n) ++ gwrite (PReg 25) w sz). rewrite execs_app, X1. exact X2.
        - rewrite Le, Re in *. replace (w =? 24) with false by (destruct Hw; lia).
          destruct (move_ok addr 25 w s (mregs_wd _ HR) ltac:(split; discriminate) (proj1 G)) as (s1 & X1 & U1). pose proof U1 as (V3 & O1 & M1 & _).
          pose proof (lst_upd w n s s1 25 (R s w) m2 ltac:(auto) U1 (mregs_wd _ HR) (proj1 HR w) HA) as L1.
          assert (W5 : w <> 25 /\ w <> 24) by (destruct Hw; lia).
          destruct (aop_tail w n (PReg 24) (PReg 24) w 25 sz o' s1 m2 m3 v0 v vb Hw (lst_mregs _ _ _ _ _ _ Hw HR L1) ltac:(now rewrite M1) Hv) as (s2 & X2 & L2); cbn [MipsMach.pgp pfree MipsMach.paddr]; auto; try lia; try (split; discriminate).
          all: try (rewrite (O1 24), V1 by lia; assumption).
          exists s2. split; [|eapply lstep_trans; eauto]. change (Mmove rTB w :: read_ind w 24 sz ++ gen_bin (tok_arith o') w w rTB ++ write_ind 24 w sz)
            with ([Mmove 25 w] ++ gread (PReg 24) w sz ++ gen_bin (tok_arith o') w w 25 ++ gwrite (PReg 24) w sz). rewrite execs_app, X1. exact X2. }
      destruct HT as (s1 & X1 & L1). destruct (then_ext w n sz s _ s1 m3 _ Hw HR Hv X1 L1) as (s2 & X2 & L2). exists (conv 4 sz v), m3, s2. auto.
Qed.

Lemma li_two (Fr : frame) x w n m k c2 d E2 : sem x -> wf 4 x -> wok w n -> depthok (cdepth x) w -> msafe (plug Fr x) m ->
  mdepth x <= d -> 4 <= d ->
  (forall va m1 s, esteps (plug Fr x, m) (plug Fr (EVal va), m1) -> mregs s -> agree m1 (MM s) -> R s (lreg w n) = va -> R s (rreg w n) = w32 k ->
     exists v m' s', E2 v m' /\ execs c2 s = Some s' /\ lstep w n s s' m' v) ->
  doing m (two w n (C x w n) [Mli (wpush w n) k] ++ c2) w n d (cdepth x =? 0) E2.
Proof.
  intros Sx Hx Hw Hd HS D1 D2 F.
  assert (Dx : doing m (C x w n) w n (mdepth x) (cdepth x =? 0) (fun va m1 => esteps (plug Fr x, m) (plug Fr (EVal va), m1))).
  { eapply doing_le; [reflexivity| |apply Sx; auto; eapply ms_in; eauto]. intros v m1 [E1 _]. now apply esteps_in. }
  rewrite <- (andb_true_r (cdepth x =? 0)).
  apply (two_then m w n _ _ (mdepth x) 0 d (cdepth x =? 0) true (fun va m1 => esteps (plug Fr x, m) (plug Fr (EVal va), m1))
    (fun va vb m1 => esteps (plug Fr x, m) (plug Fr (EVal va), m1) /\ vb = w32 k)); auto using mdepth_nonneg; try lia.
  - intros Em. pose proof (dep0 _ _ Hd Em). split; [lia|reflexivity].
  - intros va m1 E1. apply (do_only m1 (wpush w n) (n + 1) 0).
    + now apply wok_push. + lia.
    + intros s HR HA. destruct (li_ok addr (wpush w n) k s (mregs_wd _ HR) (wok_gp _ _ (wok_push _ _ Hw))) as (s' & E & U).
      exists (w32 k), m1, s'. split; [auto|]. split; [exact E|]. eapply upd_lstep; eauto; [now apply mregs_wd|apply w32_rng].
  - intros va vb m1 m2 s _ [E1 ->] HR HA V1 V2. eapply F; eauto.
Qed.
Definition addv (add : bool) (v k : Z) := if add then v + k else v - k.
Lemma postby_tail w n p t rs sz add k s m m3 v0 : wok w n -> mregs s -> agree m (MM s) -> valid sz ->
  pgp p -> pfree p t -> pfree p w -> t = 24 \/ t = 25 -> rs <> w -> gp rs -> R s rs = w32 k ->
  load sz m (paddr s p) = Some v0 -> store sz m (paddr s p) (addv add v0 k) = Some m3 -> paddr s p mod Z.abs sz = 0 ->
  exists s', execs (gread p w sz ++ gen3 (if add then Maddu else Msubu) t w rs ++ gwrite p t sz) s = Some s' /\ lstep w n s s' m3 v0.
Proof.
  intros Hw HR HA Hv G F1 F2 Ht Nr Gr Vr L St Al. pose proof (wok_gp _ _ Hw) as Gw. destruct (load_conv_id _ _ _ _ Hv L) as [_ V0].
  assert (W30 : w <> 30 /\ w <> t) by (destruct Hw; lia). assert (Gt : gp t) by (unfold gp; lia).
  destruct (gread_ok addr lo top prot p w sz s m v0 (mregs_wd _ HR) HA Hv L Al Gw G) as (s1 & X1 & U1).
  pose proof (upd_wd _ _ _ _ U1 (mregs_wd _ HR) V0) as W1. pose proof U1 as (V1 & O1 & M1 & _).
  destruct (gen3_ok addr (if add then Maddu else Msubu) t w rs s1 W1 Gt) as (s2 & X2 & U2).
  rewrite !reg_gp, V1 in U2 by (apply Gw || apply Gr). rewrite (O1 rs), Vr in U2 by (auto; apply Gr).
  assert (VA : aluv (if add then Maddu else Msubu) v0 (w32 k) = w32 (addv add v0 k)).
  { destruct add; cbn [aluv addv]; unfold w32; [apply wrap_add_r|apply wrap_sub_r]. }
  rewrite VA in U2. pose proof (upd_wd _ _ _ _ U2 W1 (w32_rng _)) as W2. pose proof U2 as (V2 & O2 & M2 & _).
  assert (Pa : paddr s2 p = paddr s p).
  { rewrite (paddr_upd _ _ _ _ _ U2 G F1 ltac:(lia)). exact (paddr_upd _ _ _ _ _ U1 G F2 (proj1 W30)). }
  destruct (gwrite_ok addr lo top prot p t sz s2 m m3 (addv add v0 k) W2 ltac:(rewrite M2, M1; exact HA) Hv ltac:(now rewrite Pa) ltac:(now rewrite Pa) G (proj2 Gt)) as (s3 & X3 & U3).
  { rewrite reg_gp, V2 by apply Gt. now apply w32_mod. }
  exists s3. split; [rewrite !execs_app, X1; cbn [obind]; rewrite execs_app, X2; exact X3|].
  pose proof (lst_upd w n s s1 w v0 m ltac:(auto) U1 (mregs_wd _ HR) V0 HA) as L1.
  pose proof (lst_upd w n s1 s2 t _ m ltac:(destruct Ht; auto) U2 W1 (w32_rng _) ltac:(rewrite M1; exact HA)) as L2.
  pose proof (lst_updm w n s2 s3 m3 U3 W2) as L3. destruct U3 as (U3 & _). rewrite (U3 w), (O2 w), V1 in L3 by (try apply Gw; lia).
  eapply lstep_trans; [exact L1|]. eapply lstep_trans; eauto.
Qed.
Lemma sem_postby add sz k a : sem a -> sem (EPostBy add sz k a).
Proof.
  intros Sa w n m (Hv & Ha) Hw Hd HS. cbn [MipsCode.C cdepth mdepth] in *. pose proof (mdepth_nonneg a). pose proof (wok_gp _ _ Hw) as G.
  apply (li_two (FPostBy add sz k)); auto; [lia|lia|]. cbn [plug]. intros va m2 s E HR HA V1 V2.
  pose proof (ms_steps _ _ _ _ E HS) as HS1. destruct (load sz m2 va) as [v0|] eqn:L.
  2:{ exfalso. eapply ms_here; [exact HS1|]. cbn. now rewrite L. }
  destruct (store sz m2 va (addv add v0 k)) as [m3|] eqn:St.
  2:{ exfalso. eapply ms_here; [exact HS1|]. cbn. rewrite L. cbn [obind]. unfold addv in St. now rewrite St. }
  pose proof (ms_al _ _ _ _ HS1 eq_refl) as Al.
  assert (EV : Ev (EPostBy add sz k a) m v0 m3).
  { split; [|discriminate]. eapply esteps_trans; [exact E|]. apply esteps_red. cbn. rewrite L. cbn [obind]. unfold addv in St. now rewrite St. }
  unfold gen_postby. destruct (lr_cases w n Hw) as [(Le & Ln & Lr)|(Le & Re)].
  - rewrite Le in *. replace (w =? w) with true by lia.
    destruct (move_ok addr 25 w s (mregs_wd _ HR) ltac:(split; discriminate) (proj1 G)) as (s1 & X1 & U1). pose proof U1 as (V3 & O1 & M1 & _).
    pose proof (lst_upd w n s s1 25 (R s w) m2 ltac:(auto) U1 (mregs_wd _ HR) (proj1 HR w) HA) as L1.
    assert (W5 : w <> 25) by (destruct Hw; lia).
    destruct (postby_tail w n (PReg 25) 24 (rreg w n) sz add k s1 m2 m3 v0 Hw (lst_mregs _ _ _ _ _ _ Hw HR L1) ltac:(now rewrite M1) Hv) as (s2 & X2 & L2); cbn [MipsMach.pgp pfree MipsMach.paddr]; auto; try lia.
    { split; discriminate. } { unfold gp; lia. } { rewrite (O1 (rreg w n)) by lia. exact V2. } all: try (rewrite V3, V1; assumption).
    exists v0, m3, s2. split; [exact EV|]. split; [|eapply lstep_trans; eauto].
    change (Mmove rTB w :: read_ind w rTB sz ++ gen3 (if add then Maddu else Msubu) rTA w (rreg w n) ++ write_ind rTB rTA sz)
      with ([Mmove 25 w] ++ gread (PReg 25) w sz ++ gen3 (if add then Maddu else Msubu) 24 w (rreg w n) ++ gwrite (PReg 25) 24 sz). rewrite execs_app, X1. exact X2.
  - rewrite Le, Re in *. replace (w =? 24) with false by (destruct Hw; lia).
    destruct (move_ok addr 25 w s (mregs_wd _ HR) ltac:(split; discriminate) (proj1 G)) as (s1 & X1 & U1). pose proof U1 as (V3 & O1 & M1 & _).
    pose proof (lst_upd w n s s1 25 (R s w) m2 ltac:(auto) U1 (mregs_wd _ HR) (proj1 HR w) HA) as L1.
    assert (W5 : w <> 25 /\ w <> 24) by (destruct Hw; lia).
    destruct (postby_tail w n (PReg 24) 25 25 sz add k s1 m2 m3 v0 Hw (lst_mregs _ _ _ _ _ _ Hw HR L1) ltac:(now rewrite M1) Hv) as (s2 & X2 & L2); cbn [MipsMach.pgp pfree MipsMach.paddr]; auto; try lia; try (split; discriminate).
    all: try (rewrite (O1 24), V1 by lia; assumption).
    exists v0, m3, s2. split; [exact EV|]. split; [|eapply lstep_trans; eauto].
    change (Mmove rTB w :: read_ind w 24 sz ++ gen3 (if add then Maddu else Msubu) rTB w rTB ++ write_ind 24 rTB sz)
      with ([Mmove 25 w] ++ gread (PReg 24) w sz ++ gen3 (if add then Maddu else Msubu) 25 w 25 ++ gwrite (PReg 24) 25 sz). rewrite execs_app, X1. exact X2.
Qed.

(** *** Sequences and branches *)
Lemma do_seq m c1 c2 w n d d1 d2 nc1 nc2 (E1 E2 : Z -> mem -> Prop) : d1 <= d -> d2 <= d -> doing m c1 w n d1 nc1 E1 ->
  (forall v m1, E1 v m1 -> doing m1 c2 w n d2 nc2 E2) -> doing m (c1 ++ c2) w n d (nc1 && nc2) E2.
Proof.
  intros Hd1 Hd2 D1 D2 pc s Hc HR HA HS. apply code_at_app in Hc as [Hc1 Hc2].
  destruct (D1 pc s Hc1 HR HA (space_le _ _ _ Hd1 HS)) as (v & m1 & s1 & HE & X1 & P1). pose proof P1 as (R1 & A1 & K1 & _).
  destruct (D2 v m1 HE _ s1 Hc2 R1 A1 (space_le _ _ _ Hd2 (space_keeps _ _ _ K1 HS))) as (v2 & m2 & s2 & HE2 & X2 & P2).
  exists v2, m2, s2. split; [exact HE2|]. split; [eapply runs_app; eauto|]. eapply post_trans; eauto.
Qed.
Lemma sem_comma l r : sem l -> sem r -> sem (EComma l r).
Proof.
  intros Sl Sr w n m [Hl Hr] Hw Hd HS. cbn [MipsCode.C cdepth mdepth] in *. pose proof (cdepth_nonneg l). pose proof (cdepth_nonneg r). rewrite <- nc_max.
  apply (do_seq m _ _ w n _ (mdepth l) (mdepth r) _ _ (Ev l m)); [lia|lia| |].
  - apply Sl; auto. { eapply (depthok_le mcd Hmcd); [exact Hd|lia]. } apply (ms_in (FComma r)). exact HS.
  - intros v m1 [E1 _].
    assert (E2 : esteps (EComma l r, m) (r, m1)).
    { eapply esteps_trans; [apply (esteps_in _ _ _ _ (FComma r)); exact E1|]. apply esteps_red. reflexivity. }
    eapply doing_le; [reflexivity| |apply Sr; auto].
    + intros v2 m2 [E3 _]. split; [eapply esteps_trans; eauto|discriminate].
    + eapply (depthok_le mcd Hmcd); [exact Hd|lia].
    + eapply ms_steps; eauto.
Qed.
Lemma br_yes pc eq w k s q : nth_error prog pc = Some (Mbr eq w 0 k) -> nth_error prog q = Some (Mlab k) -> w <> 0 -> Bool.eqb eq (R s w =? 0) = true ->
  mstar (pc, s) (S q, s).
Proof.
  intros H1 H2 Hw Hb. econstructor.
  - cbn [MipsSpec.mstep]. rewrite H1. cbn [obind]. rewrite reg_gp by assumption. change (reg s 0) with 0. rewrite Hb. cbn [branch]. rewrite (Huniq _ _ H2). reflexivity.
  - econstructor; [|constructor]. cbn [MipsSpec.mstep]. rewrite H2. reflexivity.
Qed.
Lemma br_no pc eq w k s : nth_error prog pc = Some (Mbr eq w 0 k) -> w <> 0 -> Bool.eqb eq (R s w =? 0) = false -> mstar (pc, s) (S pc, s).
Proof.
  intros H1 Hw Hb. econstructor; [|constructor]. cbn [MipsSpec.mstep]. rewrite H1. cbn [obind]. rewrite reg_gp by assumption. change (reg s 0) with 0. now rewrite Hb.
Qed.
(** [l && r] and [l || r]. *)
Lemma circuit m k w n cl cr eq d dl dr ncl ncr (El E : Z -> mem -> Prop) : wok w n -> dl <= d -> dr <= d -> doing m cl w n dl ncl El ->
  (forall v m1, El v m1 -> Bool.eqb eq (v =? 0) = true -> E v m1) ->
  (forall v m1, El v m1 -> Bool.eqb eq (v =? 0) = false -> doing m1 cr w n dr ncr E) ->
  doing m (cl ++ [Mbr eq w 0 k] ++ cr ++ [Mlab k]) w n d (ncl && ncr) E.
Proof.
  intros Hw Hd1 Hd2 Dl Hy Hn pc s Hc HR HA HS. pose proof (wok_gp _ _ Hw) as G.
  apply code_at_app in Hc as [Hc1 Hc]. apply code_at_app in Hc as [Hc2 Hc]. apply code_at_app in Hc as [Hc3 Hc4].
  destruct (Dl pc s Hc1 HR HA (space_le _ _ _ Hd1 HS)) as (v & m1 & s1 & HE & X1 & P1). pose proof P1 as (R1 & A1 & K1 & V1 & Kp1).
  apply code_at_hd in Hc2 as [Hb _]. pose proof (proj1 (code_at_hd _ _ _ Hc4)) as Hk.
  destruct (Bool.eqb eq (v =? 0)) eqn:Eb.
  - exists v, m1, s1. split; [now apply Hy|]. split.
    + unfold runs. eapply mstar_trans; [exact X1|].
      pose proof (br_yes _ _ _ _ s1 _ Hb Hk (proj1 G) ltac:(now rewrite V1)) as X. cbn [length] in X.
      replace (pc + length (cl ++ [Mbr eq w 0 k] ++ cr ++ [Mlab k]))%nat with (S (pc + length cl + 1 + length cr)) by (rewrite !app_length; cbn [length]; lia). exact X.
    + split; [exact R1|]. split; [exact A1|]. split; [exact K1|]. split; [exact V1|]. intros Hnc. apply andb_prop in Hnc as [Hnc _]. auto.
  - pose proof (br_no _ _ _ _ s1 Hb (proj1 G) ltac:(now rewrite V1)) as X.
    destruct (Hn v m1 HE Eb _ s1 Hc3 R1 A1 (space_le _ _ _ Hd2 (space_keeps _ _ _ K1 HS))) as (v2 & m2 & s2 & HE2 & X2 & P2).
    exists v2, m2, s2. split; [exact HE2|]. split; [|eapply post_trans; eauto].
    eapply runs_app; [exact X1|]. eapply (runs_app _ _ [_]); [unfold runs; cbn [length]; rewrite Nat.add_1_r; exact X|].
    eapply runs_app; [exact X2|]. now apply runs_lab.
Qed.
Lemma sem_and2 k l r : sem l -> sem r -> sem (EAnd2 k l r).
Proof.
  intros Sl Sr w n m (Hk & Bl & Br & Hl & Hr) Hw Hd HS. cbn [MipsCode.C cdepth mdepth] in *. pose proof (cdepth_nonneg l). pose proof (cdepth_nonneg r). rewrite <- nc_max.
  apply (circuit m k w n _ _ true _ (mdepth l) (mdepth r) _ _ (Ev l m)); auto; [lia|lia| | |].
  - apply Sl; auto. { eapply (depthok_le mcd Hmcd); [exact Hd|lia]. } apply (ms_in (FAnd2 k r)). exact HS.
  - intros v m1 [E1 Hb] Hz. assert (v = 0) as -> by (destruct (Z.eqb_spec v 0); [auto|discriminate]). split; [|auto].
    eapply esteps_trans; [apply (esteps_in _ _ _ _ (FAnd2 k r)); exact E1|]. apply esteps_red. reflexivity.
  - intros v m1 [E1 Hb] Hz. assert (Ez : (v =? 0) = false) by (destruct (v =? 0); [discriminate|reflexivity]).
    assert (E2 : esteps (EAnd2 k l r, m) (EUn EBool r, m1)).
    { eapply esteps_trans; [apply (esteps_in _ _ _ _ (FAnd2 k r)); exact E1|]. apply esteps_red. cbn. rewrite Ez. reflexivity. }
    eapply doing_le; [reflexivity| |apply Sr; auto].
    + intros v2 m2 [E3 H3]. specialize (H3 Br). split; [|auto]. eapply esteps_trans; [exact E2|]. eapply esteps_trans; [apply (esteps_in _ _ _ _ (FUn EBool)); exact E3|].
      apply esteps_red. destruct H3 as [-> | ->]; reflexivity.
    + eapply (depthok_le mcd Hmcd); [exact Hd|lia].
    + apply (ms_in (FUn EBool)). eapply ms_steps; eauto.
Qed.
Lemma sem_or2 k l r : sem l -> sem r -> sem (EOr2 k l r).
Proof.
  intros Sl Sr w n m (Hk & Bl & Br & Hl & Hr) Hw Hd HS. cbn [MipsCode.C cdepth mdepth] in *. pose proof (cdepth_nonneg l). pose proof (cdepth_nonneg r). rewrite <- nc_max.
  apply (circuit m k w n _ _ false _ (mdepth l) (mdepth r) _ _ (Ev l m)); auto; [lia|lia| | |].
  - apply Sl; auto. { eapply (depthok_le mcd Hmcd); [exact Hd|lia]. } apply (ms_in (FOr2 k r)). exact HS.
  - intros v m1 [E1 Hb] Hz. assert (v = 1) as -> by (destruct (Hb Bl) as [-> | ->]; [discriminate|reflexivity]). split; [|auto].
    eapply esteps_trans; [apply (esteps_in _ _ _ _ (FOr2 k r)); exact E1|]. apply esteps_red. reflexivity.
  - intros v m1 [E1 Hb] Hz. assert (Ez : (v =? 0) = true) by (destruct (v =? 0); [reflexivity|discriminate]).
    assert (E2 : esteps (EOr2 k l r, m) (EUn EBool r, m1)).
    { eapply esteps_trans; [apply (esteps_in _ _ _ _ (FOr2 k r)); exact E1|]. apply esteps_red. cbn. rewrite Ez. reflexivity. }
    eapply doing_le; [reflexivity| |apply Sr; auto].
    + intros v2 m2 [E3 H3]. specialize (H3 Br). split; [|auto]. eapply esteps_trans; [exact E2|]. eapply esteps_trans; [apply (esteps_in _ _ _ _ (FUn EBool)); exact E3|].
      apply esteps_red. destruct H3 as [-> | ->]; reflexivity.
    + eapply (depthok_le mcd Hmcd); [exact Hd|lia].
    + apply (ms_in (FUn EBool)). eapply ms_steps; eauto.
Qed.
Lemma sem_cond k c t f : sem c -> sem t -> sem f -> sem (ECond k c t f).
Proof.
  intros Sc St Sf w n m (Hk & Hwc & Hwt & Hwf) Hw Hd HS. cbn [MipsCode.C cdepth mdepth] in *.
  pose proof (cdepth_nonneg c). pose proof (cdepth_nonneg t). pose proof (cdepth_nonneg f). pose proof (wok_gp _ _ Hw) as G.
  assert (HSc : msafe c m) by (apply (ms_in (FCond k t f)); exact HS).
  intros pc s Hc HR HA Hs. apply code_at_app in Hc as [Hc1 Hc]. apply code_at_app in Hc as [Hc2 Hc]. apply code_at_app in Hc as [Hc3 Hc].
  apply code_at_app in Hc as [Hc4 Hc]. apply code_at_app in Hc as [Hc5 Hc]. apply code_at_app in Hc as [Hc6 Hc7].
  destruct (Sc w n m Hwc Hw ltac:(eapply (depthok_le mcd Hmcd); [exact Hd|lia]) HSc pc s Hc1 HR HA ltac:(eapply space_le; [|exact Hs]; lia)) as (v & m1 & s1 & [E1 _] & X1 & P1).
  pose proof P1 as (R1 & A1 & K1 & V1 & Kp1).
  apply code_at_hd in Hc2 as [Hb _]. pose proof (proj1 (code_at_hd _ _ _ Hc4)) as Hj. pose proof (proj1 (code_at_hd _ _ _ Hc5)) as Hk1. pose proof (proj1 (code_at_hd _ _ _ Hc7)) as Hk2.
  pose proof (space_keeps _ _ _ K1 Hs) as Hs1.
  assert (NC : forall e2, cdepth e2 <= Z.max (cdepth c) (Z.max (cdepth t) (cdepth f)) -> 0 <= cdepth e2 -> forall s2 v2 m2, post (cdepth e2 =? 0) w n s1 s2 m2 v2 ->
     post (Z.max (cdepth c) (Z.max (cdepth t) (cdepth f)) =? 0) w n s s2 m2 v2).
  { intros e2 He2 He0 s2 v2 m2 P2. pose proof (post_trans _ _ _ _ _ _ _ _ _ _ _ P1 P2) as (Q1 & Q2 & Q3 & Q4 & Q5).
    split; [exact Q1|]. split; [exact Q2|]. split; [exact Q3|]. split; [exact Q4|]. intros Hz. apply Q5. apply andb_true_intro. lia. }
  destruct (v =? 0) eqn:Ez.
  - assert (E2 : esteps (ECond k c t f, m) (f, m1)).
    { eapply esteps_trans; [apply (esteps_in _ _ _ _ (FCond k t f)); exact E1|]. apply esteps_red. cbn. rewrite Ez. reflexivity. }
    pose proof (br_no _ _ _ _ s1 Hb (proj1 G) ltac:(rewrite V1, Ez; reflexivity)) as X.
    destruct (Sf w n m1 Hwf Hw ltac:(eapply (depthok_le mcd Hmcd); [exact Hd|lia]) ltac:(eapply ms_steps; eauto) _ s1 Hc3 R1 A1 ltac:(eapply space_le; [|exact Hs1]; lia)) as (v2 & m2 & s2 & [E3 _] & X2 & P2).
    exists v2, m2, s2. split; [split; [eapply esteps_trans; eauto|discriminate]|]. split; [|apply (NC f); [lia|lia|exact P2]].
    unfold runs in *. eapply mstar_trans; [exact X1|]. cbn [length] in X2. rewrite Nat.add_1_r in X2. eapply mstar_trans; [exact X|]. eapply mstar_trans; [exact X2|].
    cbn [length] in *. econstructor.
    + cbn [MipsSpec.mstep]. rewrite Nat.add_1_r in Hj. rewrite Hj. cbn [obind branch]. rewrite (Huniq _ _ Hk2). reflexivity.
    + econstructor; [cbn [MipsSpec.mstep]; rewrite Hk2; reflexivity|].
      match goal with |- mstar (?a, _) (?b, _) => replace b with a; [constructor|] end. rewrite !app_length. cbn [length]. lia.
  - assert (E2 : esteps (ECond k c t f, m) (t, m1)).
    { eapply esteps_trans; [apply (esteps_in _ _ _ _ (FCond k t f)); exact E1|]. apply esteps_red. cbn. rewrite Ez. reflexivity. }
    pose proof (br_yes _ _ _ _ s1 _ Hb Hk1 (proj1 G) ltac:(rewrite V1, Ez; reflexivity)) as X.
    destruct (St w n m1 Hwt Hw ltac:(eapply (depthok_le mcd Hmcd); [exact Hd|lia]) ltac:(eapply ms_steps; eauto) _ s1 Hc6 R1 A1 ltac:(eapply space_le; [|exact Hs1]; lia)) as (v2 & m2 & s2 & [E3 _] & X2 & P2).
    exists v2, m2, s2. split; [split; [eapply esteps_trans; eauto|discriminate]|]. split; [|apply (NC t); [lia|lia|exact P2]].
    unfold runs in *. eapply mstar_trans; [exact X1|]. cbn [length] in *. rewrite Nat.add_1_r in X2 at 1.
    eapply mstar_trans; [exact X|].
    match type of X2 with MipsSpec.mstar _ _ _ (?a, _) _ => match goal with |- mstar (?b, _) _ => replace b with a by lia end end.
    eapply mstar_trans; [exact X2|]. econstructor; [cbn [MipsSpec.mstep]; rewrite Hk2; reflexivity|].
    match goal with |- mstar (?a, _) (?b, _) => replace b with a; [constructor|] end. rewrite !app_length. cbn [length]. lia.
Qed.

(** *** Calls *)
Hypothesis Hcallee : MipsSpec.callee_ok bp lo top prot ext callee room.
Definition dargs := fix go l := match l with [] => 0 | a :: l => Z.max (go l) (mdepth a) end.
Lemma dargs_nonneg l : 0 <= dargs l.
Proof. induction l as [|a l IH]; cbn [dargs]; [lia|]. fold (dargs l). lia. Qed.
Lemma push_rk n : mcd <> 0 -> rk n = false.
Proof. intros H. unfold MipsCode.rk, can_use. now replace (mcd =? 0) with false by lia. Qed.
Definition pushed (l : list ex) (c : list mins) : Prop :=
  forall f bef pc s m, code_at pc c -> mregs s -> agree m (MM s) -> msafe (ECall f (bef ++ l)) m -> space (4 * zlen l + dargs l) s ->
  exists vs m' s', esteps (ECall f (bef ++ l), m) (ECall f (bef ++ map EVal vs), m') /\ length vs = length l /\ runs pc s c s' /\ mregs s' /\ agree m' (MM s') /\
    R s' 29 = R s 29 - 4 * zlen l /\
    (forall j v, nth_error vs j = Some v -> ldn 4 4 (MM s') (R s' 29 + 4 * Z.of_nat j) = v) /\
    (forall a, R s 29 <= a < top \/ prot a -> MM s' a = MM s a).
Lemma ldn_keep f g a : 0 <= a -> a + 4 <= P32 -> (forall x, a <= x < a + 4 -> f x = g x) -> ldn 4 4 f a = ldn 4 4 g a.
Proof. intros H1 H2 H3. apply (ldn_ext 4 HW4 addr nop 4); auto. Qed.
Lemma push_step a l c n : mcd <> 0 -> sem a -> wf 4 a -> cdepth a <= mcd -> pushed l c -> pushed (a :: l) (c ++ C a rV0 n ++ pushc rV0 0).
Proof.
  intros Hm Sa Hwa Hda Hp f bef pc s m Hc HR HA HS Hs. apply code_at_app in Hc as [Hc1 Hc]. apply code_at_app in Hc as [Hc2 Hc3].
  cbn [dargs] in Hs. fold (dargs l) in Hs. rewrite zlen_cons in *. pose proof (zlen_nonneg l) as Zl. pose proof (mdepth_nonneg a) as Ma. pose proof (dargs_nonneg l) as Dl.
  destruct (Hp f (bef ++ [a]) pc s m Hc1 HR HA ltac:(now rewrite <- app_assoc) ltac:(eapply space_le; [|exact Hs]; lia)) as (vs & m1 & s1 & Es1 & Len & X1 & R1 & A1 & S1 & AT1 & K1).
  rewrite <- !app_assoc in Es1. cbn [app] in Es1. pose proof (ms_steps _ _ _ _ Es1 HS) as HS1.
  assert (Wk : wok rV0 n) by (split; [now left|lia]).
  destruct (Sa rV0 n m1 Hwa Wk ltac:(right; auto) ltac:(apply (ms_in (FCallA f bef (map EVal vs))); exact HS1) _ s1 Hc2 R1 A1 ltac:(unfold space in *; rewrite S1; lia)) as (v & m2 & s2 & [E2 _] & X2 & R2 & A2 & K2 & V2 & _).
  pose proof (proj1 K2) as S2.
  destruct (push_run rV0 0 0 _ s2 m2 ltac:(split; discriminate) ltac:(discriminate) (push_rk 0 Hm) ltac:(lia) Hc3 R2 A2 ltac:(unfold space in *; rewrite S2, S1; lia)) as (s3 & X3 & R3 & A3 & S3 & O3 & K3 & L3).
  apply (esteps_in _ _ _ _ (FCallA f bef (map EVal vs))) in E2. cbn [plug] in E2.
  exists (v :: vs), m2, s3. split; [eapply esteps_trans; [exact Es1|exact E2]|]. split; [cbn; lia|]. split; [eapply runs_app; [exact X1|eapply runs_app; eauto]|].
  split; [exact R3|]. split; [exact A3|]. split; [lia|]. unfold space in Hs. pose proof (proj1 R3 29). split.
  - intros j x Hj. destruct j as [|j]; cbn in Hj; [injection Hj as <-; rewrite Z.mul_0_r, Z.add_0_r; congruence|].
    rewrite <- (AT1 j x Hj). assert (Bj : Z.of_nat j < zlen l) by (unfold zlen; rewrite <- Len; apply Nat2Z.inj_lt, nth_error_Some; congruence).
    replace (R s3 29 + 4 * Z.of_nat (S j)) with (R s1 29 + 4 * Z.of_nat j) by lia. apply ldn_keep; [lia|lia|]. intros x0 Hx.
    rewrite K3, (proj2 K2) by lia. reflexivity.
  - intros x Hx. rewrite K3 by (destruct Hx; [left; lia|auto]). rewrite (proj2 K2) by (destruct Hx; [left; lia|auto]). apply K1. exact Hx.
Qed.
Lemma pushed_nil : pushed [] [].
Proof.
  intros f bef pc s m _ HR HA HS Hs. exists [], m, s. split; [constructor|]. split; [reflexivity|]. split; [apply runs_nil|]. do 2 (split; [assumption|]).
  split; [change (zlen (@nil ex)) with 0; lia|]. split; [intros j v Hj; destruct j; discriminate|reflexivity].
Qed.
Lemma args_push n l : mcd <> 0 -> Forall sem l -> wf_args 4 l -> cdepth_args l <= mcd -> forall i, mcd <> 1 \/ 5 <= i ->
  pushed l (C_args mcd n l i ++ argpush mcd (isnil l)).
Proof.
  intros Hm. induction 1 as [|a l Sa Sl IH]; intros Hw Hd i Hi; [exact pushed_nil|].
  destruct Hw as [Hwa Hwl]. change (cdepth_args (a :: l)) with (Z.max (cdepth_args l) (cdepth a)) in Hd.
  change (C_args mcd n (a :: l) i) with (C_args mcd n l (i + 1) ++ (if one mcd && (i <? 4) then C a (rA0 + i) n
       else argpush mcd (isnil l) ++ C a rV0 n ++ (if one mcd && (i =? 4) then pushc rV0 0 else []))).
  replace (one mcd && (i <? 4)) with false by (unfold one; destruct (Z.eqb_spec mcd 1); cbn; lia).
  replace (one mcd && (i =? 4)) with false by (unfold one; destruct (Z.eqb_spec mcd 1); cbn; lia).
  rewrite app_nil_r. cbn [isnil argpush]. rewrite <- !app_assoc, app_assoc. apply push_step; auto; [lia|]. apply IH; [exact Hwl|lia|lia].
Qed.
(** Calls that are not nested: the first four arguments in registers. *)
Lemma args_regs n l : mcd = 1 -> Forall sem l -> wf_args 4 l -> cdepth_args l <= 0 -> forall i, 0 <= i <= 4 ->
  forall f bef pc s m, code_at pc (C_args mcd n l i) -> mregs s -> agree m (MM s) -> msafe (ECall f (bef ++ l)) m -> space (4 * zlen l + dargs l) s ->
  exists vs m' s', esteps (ECall f (bef ++ l), m) (ECall f (bef ++ map EVal vs), m') /\ length vs = length l /\ runs pc s (C_args mcd n l i) s' /\ mregs s' /\ agree m' (MM s') /\
    R s' 29 = R s 29 - 4 * Z.max 0 (i + zlen l - 4) /\
    (forall j v, nth_error vs j = Some v -> if i + Z.of_nat j <? 4 then R s' (4 + (i + Z.of_nat j)) = v
       else ldn 4 4 (MM s') (R s' 29 + 4 * (i + Z.of_nat j - 4)) = v) /\
    (forall a, R s 29 <= a < top \/ prot a -> MM s' a = MM s a).
Proof.
  intros Hm. assert (Hm0 : mcd <> 0) by lia. induction 1 as [|a l Sa Sl IH]; intros Hw Hd i Hi f bef pc s m Hc HR HA HS Hs.
  { exists [], m, s. split; [constructor|]. split; [reflexivity|]. split; [apply runs_nil|]. do 2 (split; [assumption|]).
    split; [change (zlen (@nil ex)) with 0; lia|]. split; [intros j v Hj; destruct j; discriminate|reflexivity]. }
  destruct Hw as [Hwa Hwl]. change (cdepth_args (a :: l)) with (Z.max (cdepth_args l) (cdepth a)) in Hd. pose proof (cdepth_nonneg a) as Ca.
  pose proof (zlen_nonneg l) as Zl. pose proof (mdepth_nonneg a) as Ma. pose proof (dargs_nonneg l) as Dl.
  assert (Hone : one mcd = true) by (unfold one; lia).
  destruct (Z.eq_dec i 4) as [->|Ni].
  - assert (Ec : C_args mcd n (a :: l) 4 = (C_args mcd n l 5 ++ argpush mcd (isnil l)) ++ C a rV0 n ++ pushc rV0 0).
    { change (C_args mcd n (a :: l) 4) with (C_args mcd n l (4 + 1) ++ (if one mcd && (4 <? 4) then C a (rA0 + 4) n
       else argpush mcd (isnil l) ++ C a rV0 n ++ (if one mcd && (4 =? 4) then pushc rV0 0 else []))). rewrite Hone. cbn [andb Z.ltb Z.eqb Z.compare Pos.compare Pos.compare_cont Pos.eqb].
      change (4 + 1) with 5. now rewrite <- !app_assoc. }
    rewrite Ec in *.
    destruct (push_step a l _ n Hm0 Sa Hwa ltac:(lia) (args_push n l Hm0 Sl Hwl ltac:(lia) 5 ltac:(lia)) f bef pc s m Hc HR HA HS Hs) as (vs & m1 & s1 & Es1 & Len & X1 & R1 & A1 & S1 & AT1 & K1).
    exists vs, m1, s1. do 5 (split; [assumption|]). split; [rewrite zlen_cons in *; lia|]. split; [|exact K1].
    intros j v Hj. replace (4 + Z.of_nat j <? 4) with false by lia. replace (4 + Z.of_nat j - 4) with (Z.of_nat j) by lia. now apply AT1.
  - assert (Ec : C_args mcd n (a :: l) i = C_args mcd n l (i + 1) ++ C a (rA0 + i) n).
    { change (C_args mcd n (a :: l) i) with (C_args mcd n l (i + 1) ++ (if one mcd && (i <? 4) then C a (rA0 + i) n
       else argpush mcd (isnil l) ++ C a rV0 n ++ (if one mcd && (i =? 4) then pushc rV0 0 else []))). rewrite Hone. cbn [andb]. now replace (i <? 4) with true by lia. }
    rewrite Ec in *. clear Ec. apply code_at_app in Hc as [Hc1 Hc2]. cbn [dargs] in Hs. fold (dargs l) in Hs. rewrite zlen_cons in *.
    destruct (IH Hwl ltac:(lia) (i + 1) ltac:(lia) f (bef ++ [a]) pc s m Hc1 HR HA ltac:(now rewrite <- app_assoc) ltac:(eapply space_le; [|exact Hs]; lia)) as (vs & m1 & s1 & Es1 & Len & X1 & R1 & A1 & S1 & AT1 & K1).
    rewrite <- !app_assoc in Es1. cbn [app] in Es1. pose proof (ms_steps _ _ _ _ Es1 HS) as HS1.
    assert (Wk : wok (rA0 + i) n) by (unfold rA0; split; lia).
    destruct (Sa (rA0 + i) n m1 Hwa Wk ltac:(left; lia) ltac:(apply (ms_in (FCallA f bef (map EVal vs))); exact HS1) _ s1 Hc2 R1 A1 ltac:(unfold space in *; rewrite S1; lia)) as (v & m2 & s2 & [E2 _] & X2 & R2 & A2 & K2 & V2 & Kp).
    pose proof (proj1 K2) as S2. specialize (Kp ltac:(lia)).
    apply (esteps_in _ _ _ _ (FCallA f bef (map EVal vs))) in E2. cbn [plug] in E2.
    exists (v :: vs), m2, s2. split; [eapply esteps_trans; [exact Es1|exact E2]|]. split; [cbn; lia|]. split; [eapply runs_app; eauto|].
    split; [exact R2|]. split; [exact A2|]. split; [lia|]. unfold space in Hs. pose proof (proj1 R2 29). split.
    + intros j x Hj. destruct j as [|j]; cbn in Hj.
      * injection Hj as <-. change (Z.of_nat 0) with 0. rewrite Z.add_0_r. replace (i <? 4) with true by lia. exact V2.
      * specialize (AT1 j x Hj). assert (Bj : Z.of_nat j < zlen l) by (unfold zlen; rewrite <- Len; apply Nat2Z.inj_lt, nth_error_Some; congruence).
        replace (i + Z.of_nat (S j)) with (i + 1 + Z.of_nat j) by lia. destruct (i + 1 + Z.of_nat j <? 4) eqn:Ej.
        -- rewrite <- AT1. apply Kp; unfold rA0; lia.
        -- rewrite <- AT1, S2. apply ldn_keep; [lia|lia|]. intros x0 Hx. apply (proj2 K2). lia.
    + intros x Hx. rewrite (proj2 K2) by (destruct Hx; [left; lia|auto]). apply K1. exact Hx.
Qed.

Lemma grow_run k pc s : code_at pc (gen_grow k) -> mregs s -> k mod 4 = 0 -> 0 <= R s 29 - k < P32 ->
  exists s', runs pc s (gen_grow k) s' /\ mregs s' /\ MM s' = MM s /\ R s' 29 = R s 29 - k /\ forall x, x <> 1 -> x <> 29 -> R s' x = R s x.
Proof.
  intros Hc HR Hk Hb. unfold gen_grow in *. destruct (Z.eqb_spec k 0) as [->|Nk].
  - exists s. split; [apply runs_nil|]. split; [exact HR|]. split; [reflexivity|]. split; [lia|auto].
  - destruct (gen3c_ok addr Msubu rSP rSP k s (mregs_wd _ HR) ltac:(split; discriminate) ltac:(discriminate)) as (s1 & E1 & U1).
    pose proof U1 as (V1 & O1 & M1 & T1). cbn [aluv] in V1. change rSP with 29 in *. unfold w32 in V1 at 2. unfold w32 in V1. rewrite wrap_sub_r in V1.
    change (wrap 32 (R s 29 - k)) with (w32 (R s 29 - k)) in V1. rewrite w32_small in V1 by lia.
    exists s1. split; [now apply runs_exec|]. split; [|split; [exact M1|split; [exact V1|intros x H1 H2; apply O1; auto]]].
    destruct HR as (H1 & H2 & H3). split; [eapply upd_wd; [exact U1|exact H1|cbn [aluv]; apply w32_rng]|]. split; [rewrite O1 by lia; exact H2|].
    rewrite V1, Zminus_mod, H3, Hk. reflexivity.
Qed.
Lemma ld_arg (b : bool) i ofs r s : r = 4 + i -> ofs = 4 * i -> 0 <= i < 4 -> mregs s -> R s 29 + 16 < P32 ->
  exists s', execs (if b then [Mload 4 r (AInd ofs rSP)] else []) s = Some s' /\ mregs s' /\ MM s' = MM s /\
    (forall x, x <> 1 -> x <> 4 + i -> R s' x = R s x) /\ (b = true -> R s' (4 + i) = ldn 4 4 (MM s) (R s 29 + 4 * i)).
Proof.
  intros -> -> Hi HR Hb. destruct b.
  2:{ exists s. split; [reflexivity|]. split; [exact HR|]. split; [reflexivity|]. split; [auto|discriminate]. }
  pose proof HR as (H1 & H2 & H3). pose proof (H1 29) as H29. change rSP with 29.
  assert (Ea : ea addr s (AInd (4 * i) 29) = R s 29 + 4 * i) by (unfold ea; rewrite reg_gp by lia; apply w32_small; lia).
  set (s1 := setr (4 + i) (ldn 4 4 (MM s) (R s 29 + 4 * i)) (clobA (AInd (4 * i) 29) s)).
  assert (T : exists t, clobA (AInd (4 * i) 29) s = setr 1 (w32 t) s) by (eexists; reflexivity). destruct T as (t & T).
  pose proof (ldn_range 4 HW4 addr nop 4 (MM s) (R s 29 + 4 * i)) as LR. change (2 ^ (8 * Z.of_nat 4)) with P32 in LR.
  assert (U1 : upd s s1 (4 + i) (ldn 4 4 (MM s) (R s 29 + 4 * i))) by (unfold s1; rewrite T; apply setr_upd1; [unfold gp; lia|apply w32_rng]).
  pose proof U1 as (V1 & O1 & M1 & _). exists s1. split; [|split; [split; [|split]|split; [exact M1|split; [auto|auto]]]].
  - cbn [MipsMach.execs MipsSpec.exec]. rewrite Ea. change (Z.abs 4) with 4. rewrite Zplus_mod, H3, (Z.mul_comm 4 i), Z.mod_mul by lia. change ((0 + 0) mod 4) with 0.
    cbn [Z.eqb obind Z.ltb Z.compare]. unfold s1. rewrite (Z.mul_comm i 4). reflexivity.
  - eapply upd_wd; eauto.
  - rewrite O1 by lia. exact H2.
  - rewrite O1 by lia. exact H3.
Qed.
Lemma loadargs_ok v s : mregs s -> R s 29 + 16 < P32 ->
  exists s', execs (loadargs v) s = Some s' /\ mregs s' /\ MM s' = MM s /\ (forall x, x <> 1 -> ~ 4 <= x <= 7 -> R s' x = R s x) /\
    forall i, 0 <= i < 4 -> 4 * i + 4 <= v -> R s' (4 + i) = ldn 4 4 (MM s) (R s 29 + 4 * i).
Proof.
  intros HR Hb. unfold loadargs.
  destruct (ld_arg (4 <=? v) 0 0 rA0 s eq_refl eq_refl ltac:(lia) HR Hb) as (s1 & X1 & R1 & M1 & O1 & V1).
  destruct (ld_arg (8 <=? v) 1 4 (rA0 + 1) s1 eq_refl eq_refl ltac:(lia) R1 ltac:(rewrite O1 by lia; lia)) as (s2 & X2 & R2 & M2 & O2 & V2).
  destruct (ld_arg (12 <=? v) 2 8 (rA0 + 2) s2 eq_refl eq_refl ltac:(lia) R2 ltac:(rewrite O2, O1 by lia; lia)) as (s3 & X3 & R3 & M3 & O3 & V3).
  destruct (ld_arg (16 <=? v) 3 12 (rA0 + 3) s3 eq_refl eq_refl ltac:(lia) R3 ltac:(rewrite O3, O2, O1 by lia; lia)) as (s4 & X4 & R4 & M4 & O4 & V4).
  exists s4. rewrite execs_app, X1. cbn [obind]. rewrite execs_app, X2. cbn [obind]. rewrite execs_app, X3. split; [exact X4|]. split; [exact R4|]. split; [congruence|].
  split; [intros x Hx1 Hx2; rewrite O4, O3, O2, O1 by lia; reflexivity|].
  assert (Sp : R s1 29 = R s 29 /\ R s2 29 = R s 29 /\ R s3 29 = R s 29) by (rewrite O3, O2, O1 by lia; auto).
  intros i Hi Hv. assert (Ci : i = 0 \/ i = 1 \/ i = 2 \/ i = 3) by lia. destruct Ci as [->|[->|[->| ->]]].
  - rewrite O4, O3, O2 by lia. apply V1. lia.
  - rewrite O4, O3 by lia. rewrite V2 by lia. rewrite M1. now rewrite (proj1 Sp).
  - rewrite O4 by lia. rewrite V3 by lia. rewrite M2, M1. now rewrite (proj1 (proj2 Sp)).
  - rewrite V4 by lia. rewrite M3, M2, M1. now rewrite (proj2 (proj2 Sp)).
Qed.

Definition fcode (f : ex) (n : Z) : list mins := match f with EIdent _ => [] | _ => C f rV0 n end.
Definition callins (f : ex) : list mins := match f with EIdent id => [Mjal id] | _ => [Mjalr rV0] end.
Lemma fun_ok f n pc s m : mcd <> 0 -> sem f -> wf 4 f -> cdepth f <= mcd -> msafe f m -> code_at pc (fcode f n) -> mregs s -> agree m (MM s) -> space (mdepth f) s ->
  exists fv m' s', esteps (f, m) (EVal fv, m') /\ runs pc s (fcode f n) s' /\ mregs s' /\ agree m' (MM s') /\ mkeeps s s' /\
    (cdepth f = 0 -> forall x, 4 <= x <= 7 -> R s' x = R s x) /\
    forall q s2, code_at q (callins f) -> R s2 2 = R s' 2 -> mstep (q, s2) = let? s3 := callee fv s2 in Some (S q, s3).
Proof.
  intros Hm Sf Hf Hd HS Hc HR HA Hs.
  assert (K : (exists id, f = EIdent id) \/ (fcode f n = C f rV0 n /\ callins f = [Mjalr rV0])) by (destruct f; try (right; split; reflexivity); left; eauto).
  destruct K as [(id & ->)|[E1 E2]].
  - exists (w32 (addr id)), m, s. split; [apply esteps_red; reflexivity|]. split; [apply runs_nil|]. split; [exact HR|]. split; [exact HA|]. split; [apply keeps_refl|]. split; [auto|].
    intros q s2 Hq _. cbn [callins] in Hq. apply code_at_hd in Hq as [Hq _]. cbn [MipsSpec.mstep]. rewrite Hq. reflexivity.
  - rewrite E1 in *. assert (Wk : wok rV0 n) by (split; [now left|lia]).
    destruct (Sf rV0 n m Hf Wk ltac:(right; auto) HS pc s Hc HR HA Hs) as (fv & m' & s' & [Es _] & X & R1 & A1 & K1 & V1 & Kp).
    exists fv, m', s'. do 5 (split; [assumption|]). split.
    + intros Hz x Hx. apply Kp; unfold rV0; try lia.
    + intros q s2 Hq V2. rewrite E2 in Hq. apply code_at_hd in Hq as [Hq _]. cbn [MipsSpec.mstep]. rewrite Hq. cbn [obind]. rewrite reg_gp by discriminate.
      change rV0 with 2 in *. rewrite V2, V1. reflexivity.
Qed.

Lemma zlen_vs {A B} (vs : list A) (l : list B) : length vs = length l -> zlen vs = zlen l.
Proof. unfold zlen. lia. Qed.
Lemma sem_call f args : sem f -> Forall sem args -> sem (ECall f args).
Proof.
  intros Sf Sa w n m [Hf Ha] Hw Hd HS. change (wf_args 4 args) in Ha. rewrite cdepth_call in *.
  change (mdepth (ECall f args)) with (20 + 4 * zlen args + Z.max (mdepth f) (dargs args)).
  pose proof (cdepth_nonneg f) as Cf. pose proof (mdepth_nonneg f) as Mf. pose proof (dargs_nonneg args) as Dl. pose proof (zlen_nonneg args) as Zn.
  destruct Hd as [Hd|(Hm & -> & Hd)]; [lia|].
  replace (1 + Z.max (cdepth f) (cdepth_args args) =? 0) with false by lia.
  rewrite C_call. set (v := 4 * zlen args) in *. set (AB := Z.max 16 v).
  replace (gen_grow (- (if v <? 16 then 16 else v))) with (gen_grow (- AB)) by (f_equal; unfold AB; destruct (Z.ltb_spec v 16); lia).
  fold (fcode f n). fold (callins f).
  intros pc s Hc HR HA Hs. unfold space in Hs.
  (* up to the call instruction *)
  assert (Pre : exists c1, C_args mcd n args 0 = C_args mcd n args 0 /\
    (if one mcd then [] else if v <? 16 then gen_grow (16 - v) else []) ++ C_args mcd n args 0 ++ (if one mcd then [] else argpush mcd (isnil args)) ++
      fcode f n ++ (if one mcd then gen_grow 16 else loadargs v) ++ callins f ++ gen_grow (- AB) = c1 ++ callins f ++ gen_grow (- AB) /\
    exists fv vs m3 s3, esteps (ECall f args, m) (ECall (EVal fv) (map EVal vs), m3) /\ runs pc s c1 s3 /\ mregs s3 /\ agree m3 (MM s3) /\
      margs s3 vs /\ length vs = length args /\ R s3 29 = R s 29 - AB /\ (forall a, R s 29 <= a < top \/ prot a -> MM s3 a = MM s a) /\
      forall q, code_at q (callins f) -> mstep (q, s3) = let? s4 := callee fv s3 in Some (S q, s4)).
  { destruct (one mcd) eqn:Eo.
    - exists (C_args mcd n args 0 ++ fcode f n ++ gen_grow 16). split; [reflexivity|]. split; [cbn [app]; now rewrite <- !app_assoc|].
      cbn [app] in Hc. apply code_at_app in Hc as [Hc1 Hc]. apply code_at_app in Hc as [Hc2 Hc]. apply code_at_app in Hc as [Hc3 _].
      unfold one in Eo. assert (Em : mcd = 1) by lia.
      destruct (args_regs n args Em Sa Ha ltac:(lia) 0 ltac:(lia) f [] pc s m Hc1 HR HA HS ltac:(unfold space; fold v; lia)) as (vs & m1 & s1 & Es1 & Len & X1 & R1 & A1 & S1 & AT1 & K1).
      cbn [app] in Es1. pose proof (ms_steps _ _ _ _ Es1 HS) as HS1.
      destruct (fun_ok f n _ s1 m1 Hm Sf Hf ltac:(lia) ltac:(apply (ms_in (FCallF (map EVal vs))); exact HS1) Hc2 R1 A1 ltac:(unfold space; rewrite S1; fold v; lia)) as (fv & m2 & s2 & Es2 & X2 & R2 & A2 & K2 & Kp & Cl).
      pose proof (proj1 K2) as S2.
      destruct (grow_run 16 _ s2 Hc3 R2 eq_refl) as (s3 & X3 & R3 & M3 & S3 & O3).
      { pose proof (proj1 R2 29). lia. }
      exists fv, vs, m2, s3. split; [eapply esteps_trans; [exact Es1|]; apply (esteps_in _ _ _ _ (FCallF (map EVal vs))); exact Es2|].
      split; [eapply runs_app; [exact X1|]; eapply runs_app; eauto|]. split; [exact R3|]. split; [now rewrite M3|].
      assert (EAB : R s3 29 = R s 29 - AB) by (unfold AB; lia).
      split; [|split; [exact Len|split; [exact EAB|split]]].
      + intros j x Hj. specialize (AT1 j x Hj). rewrite Z.add_0_l in AT1.
        assert (Bj : Z.of_nat j < zlen args) by (unfold zlen; rewrite <- Len; apply Nat2Z.inj_lt, nth_error_Some; congruence).
        destruct (Z.ltb_spec (Z.of_nat j) 4), (Nat.ltb_spec j 4); try lia.
        * rewrite O3, Kp by lia. exact AT1.
        * rewrite <- AT1, M3. replace (R s3 29 + 4 * Z.of_nat j) with (R s1 29 + 4 * (Z.of_nat j - 4)) by lia. apply ldn_keep; [lia|lia|].
          intros y Hy. apply (proj2 K2). lia.
      + intros a Hx. rewrite M3, (proj2 K2) by (destruct Hx; [left; lia|auto]). now apply K1.
      + intros q Hq. apply Cl; [exact Hq|]. apply O3; lia.
    - unfold one in Eo. assert (Em : mcd <> 1) by lia.
      exists ((if v <? 16 then gen_grow (16 - v) else []) ++ (C_args mcd n args 0 ++ argpush mcd (isnil args)) ++ fcode f n ++ loadargs v). split; [reflexivity|].
      split; [now rewrite <- !app_assoc|].
      apply code_at_app in Hc as [Hc0 Hc]. rewrite app_assoc in Hc. apply code_at_app in Hc as [Hc1 Hc]. apply code_at_app in Hc as [Hc2 Hc]. apply code_at_app in Hc as [Hc3 _].
      assert (G0 : exists s0, runs pc s (if v <? 16 then gen_grow (16 - v) else []) s0 /\ mregs s0 /\ MM s0 = MM s /\ R s0 29 = R s 29 - (AB - v)).
      { unfold AB. destruct (Z.ltb_spec v 16).
        - destruct (grow_run (16 - v) _ s Hc0 HR) as (s0 & X0 & R0 & M0 & S0 & _).
          + unfold v. rewrite Zminus_mod, (Z.mul_comm 4), Z.mod_mul by lia. reflexivity.
          + pose proof (proj1 HR 29). lia.
          + exists s0. do 3 (split; [assumption|]). lia.
        - exists s. split; [apply runs_nil|]. split; [exact HR|]. split; [reflexivity|lia]. }
      destruct G0 as (s0 & X0 & R0 & M0 & S0).
      destruct (args_push n args Hm Sa Ha ltac:(lia) 0 ltac:(now left) f [] _ s0 m Hc1 R0 ltac:(now rewrite M0) HS ltac:(unfold space; fold v; unfold AB in *; lia)) as (vs & m1 & s1 & Es1 & Len & X1 & R1 & A1 & S1 & AT1 & K1).
      cbn [app] in Es1. pose proof (ms_steps _ _ _ _ Es1 HS) as HS1. fold v in S1.
      destruct (fun_ok f n _ s1 m1 Hm Sf Hf ltac:(lia) ltac:(apply (ms_in (FCallF (map EVal vs))); exact HS1) Hc2 R1 A1 ltac:(unfold space; unfold AB in *; lia)) as (fv & m2 & s2 & Es2 & X2 & R2 & A2 & K2 & Kp & Cl).
      pose proof (proj1 K2) as S2. assert (EAB2 : R s2 29 = R s 29 - AB) by lia.
      destruct (loadargs_ok v s2 R2) as (s3 & X3 & R3 & M3 & O3 & V3). { unfold AB in *. lia. }
      assert (EAB : R s3 29 = R s 29 - AB) by (rewrite O3 by lia; exact EAB2).
      exists fv, vs, m2, s3. split; [eapply esteps_trans; [exact Es1|]; apply (esteps_in _ _ _ _ (FCallF (map EVal vs))); exact Es2|].
      split; [eapply runs_app; [exact X0|]; eapply runs_app; [exact X1|]; eapply runs_app; [exact X2|]; now apply runs_exec|]. split; [exact R3|]. split; [now rewrite M3|].
      split; [|split; [exact Len|split; [exact EAB|split]]].
      + intros j x Hj. specialize (AT1 j x Hj).
        assert (Bj : Z.of_nat j < zlen args) by (unfold zlen; rewrite <- Len; apply Nat2Z.inj_lt, nth_error_Some; congruence).
        assert (LK : ldn 4 4 (MM s2) (R s2 29 + 4 * Z.of_nat j) = x).
        { rewrite <- AT1, S2. apply ldn_keep; [pose proof (proj1 R1 29); lia|unfold AB in *; lia|]. intros y Hy. apply (proj2 K2). unfold AB in *; lia. }
        destruct (Nat.ltb_spec j 4).
        * rewrite V3 by lia. exact LK.
        * rewrite M3, EAB, <- EAB2. exact LK.
      + intros a Hx. rewrite M3, (proj2 K2) by (destruct Hx; [left; unfold AB in *; lia|auto]). rewrite K1, M0; [reflexivity|]. destruct Hx; [left; unfold AB in *; lia|auto].
      + intros q Hq. apply Cl; [exact Hq|]. apply O3; lia. }
  destruct Pre as (c1 & _ & Ec & fv & vs & m3 & s3 & Es & X3 & R3 & A3 & AR & Len & S3 & K3 & Cl). rewrite Ec in *. clear Ec.
  apply code_at_app in Hc as [_ Hc]. apply code_at_app in Hc as [Hc1 Hc2]. pose proof (ms_steps _ _ _ _ Es HS) as HS3.
  assert (Av : argbytes vs = AB) by (unfold argbytes, AB, v; rewrite (zlen_vs vs args Len); reflexivity).
  destruct (ext fv vs m3) as [[rv m4]|] eqn:Ex.
  2:{ exfalso. eapply ms_here; [exact HS3|]. cbn. rewrite values_map, Ex. reflexivity. }
  destruct (Hcallee fv vs m3 rv m4 s3 Ex R3 A3 AR) as (s4 & C4 & V4 & R4 & A4 & S4 & K4).
  { unfold AB in *. lia. } { rewrite Av. lia. }
  assert (Ls : length (callins f) = 1%nat) by (destruct f; reflexivity).
  destruct (grow_run (- AB) _ s4 Hc2 R4) as (s5 & X5 & R5 & M5 & S5 & O5).
  { unfold AB, v. destruct (Z.max_spec 16 (4 * zlen args)) as [[_ ->]|[_ ->]]; [|reflexivity]. rewrite Z.mod_opp_l_z; [reflexivity|lia|]. rewrite Z.mul_comm. apply Z.mod_mul. lia. }
  { lia. }
  exists rv, m4, s5. split; [split; [|discriminate]|].
  - eapply esteps_trans; [exact Es|]. apply esteps_red. cbn. rewrite values_map, Ex. reflexivity.
  - split.
    + eapply runs_app; [exact X3|]. eapply runs_app; [|exact X5]. unfold runs. rewrite Ls, Nat.add_1_r. econstructor; [|constructor].
      rewrite (Cl _ Hc1), C4. reflexivity.
    + split; [exact R5|]. split; [now rewrite M5|]. split; [split; [lia|]|split; [rewrite O5 by discriminate; exact V4|discriminate]].
      intros a Hx. rewrite M5, K4 by (rewrite Av; destruct Hx; [left; lia|auto]). now apply K3.
Qed.

Theorem sem_all e : sem e.
Proof.
  induction e using ex_ind2.
  - intros w n m [].
  - apply sem_num.
  - apply sem_ident.
  - apply sem_local.
  - now apply sem_deref.
  - now apply sem_pre.
  - now apply sem_post.
  - now apply sem_postby.
  - now apply sem_un.
  - now apply sem_arith.
  - now apply sem_cmp.
  - now apply sem_assign.
  - now apply sem_assignop.
  - now apply sem_comma.
  - now apply sem_and2.
  - now apply sem_or2.
  - now apply sem_cond.
  - now apply sem_call.
Qed.

(** *** Conditions *)
Definition brs (code : list mins) (s : mst) (w : Z) (yes : bool) (lab : Z) (b : bool) : Prop :=
  exists c1 i s', code = c1 ++ [i] /\ execs c1 s = Some s' /\ (s' = s \/ exists v, upd s s' w v /\ 0 <= v < P32) /\
    forall pc, nth_error prog pc = Some i -> mstep (pc, s') = branch prog (Bool.eqb yes b) lab pc s'.
Lemma brs_b c s w yes lab b b' : b = b' -> brs c s w yes lab b -> brs c s w yes lab b'.
Proof. now intros ->. Qed.
Lemma brs_here i s w yes lab b : (forall pc, nth_error prog pc = Some i -> mstep (pc, s) = branch prog (Bool.eqb yes b) lab pc s) -> brs [i] s w yes lab b.
Proof. intros H. exists [], i, s. repeat split; auto. Qed.
Lemma step_br eq r1 r2 lab s pc : nth_error prog pc = Some (Mbr eq r1 r2 lab) -> mstep (pc, s) = branch prog (Bool.eqb eq (reg s r1 =? reg s r2)) lab pc s.
Proof. intros H. cbn [MipsSpec.mstep]. rewrite H. reflexivity. Qed.
Lemma step_bz c r lab s pc : nth_error prog pc = Some (Mbz c r lab) -> mstep (pc, s) = branch prog (bzv c (reg s r)) lab pc s.
Proof. intros H. cbn [MipsSpec.mstep]. rewrite H. reflexivity. Qed.
(** A truth value, then a branch on it. *)
Lemma brs_then c1 s w (yes : bool) lab x (pos : bool) : wd s -> gp w -> (exists s', execs c1 s = Some s' /\ upd s s' w x) -> 0 <= x < P32 ->
  brs (c1 ++ [Mbr (if pos then negb yes else yes) w 0 lab]) s w yes lab (if pos then negb (x =? 0) else x =? 0).
Proof.
  intros W G (s' & X & U) Rx. exists c1, (Mbr (if pos then negb yes else yes) w 0 lab), s'. split; [reflexivity|]. split; [exact X|]. split; [right; eauto|].
  intros pc Hpc. rewrite (step_br _ _ _ _ _ _ Hpc), reg_gp by apply G. change (reg s' 0) with 0. rewrite (proj1 U). destruct pos, yes, (x =? 0); reflexivity.
Qed.
Lemma b2_z b : (b2 b =? 0) = negb b.
Proof. destruct b; reflexivity. Qed.
Lemma brs_b2 c1 s w (yes : bool) lab x (pos : bool) : wd s -> gp w -> (exists s', execs c1 s = Some s' /\ upd s s' w (b2 x)) ->
  brs (c1 ++ [Mbr (if pos then negb yes else yes) w 0 lab]) s w yes lab (if pos then x else negb x).
Proof.
  intros W G H. eapply brs_b; [|apply (brs_then c1 s w yes lab (b2 x) pos W G H (b2_rng x))]. rewrite b2_z. destruct pos, x; reflexivity.
Qed.
Lemma br_reg_ok c w L Rr s yes lab : wd s -> gp w -> brs (br_code (tok_cmp c) 2 0 w L Rr yes lab) s w yes lab (cmp_val 4 c (reg s L) (reg s Rr)).
Proof.
  intros W G. set (a := reg s L) in *. set (b := reg s Rr) in *.
  assert (LT : exists s', execs (gen3 Mslt w L Rr) s = Some s' /\ upd s s' w (b2 (s32 a <? s32 b))) by exact (gen3_ok addr Mslt w L Rr s W G).
  assert (LTU : exists s', execs (gen3 Msltu w L Rr) s = Some s' /\ upd s s' w (b2 (a <? b))) by exact (gen3_ok addr Msltu w L Rr s W G).
  assert (GT : exists s', execs (gen3 Mslt w Rr L) s = Some s' /\ upd s s' w (b2 (s32 b <? s32 a))) by exact (gen3_ok addr Mslt w Rr L s W G).
  assert (GTU : exists s', execs (gen3 Msltu w Rr L) s = Some s' /\ upd s s' w (b2 (b <? a))) by exact (gen3_ok addr Msltu w Rr L s W G).
  unfold br_code. destruct c; cbn [tok_cmp cmp_op cmp_blocks Z.eqb Z.ltb Z.compare Pos.compare Pos.compare_cont Pos.eqb andb negb map gen_blk concat app cmp_val];
    rewrite ?app_nil_r; change (sint 4) with s32.
  - exact (brs_b2 _ _ _ _ _ _ true W G LT).
  - exact (brs_b2 _ _ _ _ _ _ true W G LTU).
  - rewrite Z.gtb_ltb. exact (brs_b2 _ _ _ _ _ _ true W G GT).
  - rewrite Z.gtb_ltb. exact (brs_b2 _ _ _ _ _ _ true W G GTU).
  - rewrite Z.leb_antisym. exact (brs_b2 _ _ _ _ _ _ false W G GT).
  - rewrite Z.leb_antisym. exact (brs_b2 _ _ _ _ _ _ false W G GTU).
  - rewrite Z.geb_leb, Z.leb_antisym. exact (brs_b2 _ _ _ _ _ _ false W G LT).
  - rewrite Z.geb_leb, Z.leb_antisym. exact (brs_b2 _ _ _ _ _ _ false W G LTU).
  - apply brs_here. intros pc H. rewrite (step_br _ _ _ _ _ _ H). reflexivity.
  - apply brs_here. intros pc H. rewrite (step_br _ _ _ _ _ _ H). fold a b. destruct yes, (a =? b); reflexivity.
Qed.
Lemma br_imm_ok c k w s yes lab : wd s -> gp w -> cmp_fit c k ->
  brs (br_code (tok_cmp c) (if k =? 0 then 0 else 1) (if k =? 0 then 0 else tri k) w 0 0 yes lab) s w yes lab (cmp_val 4 c (R s w) (w32 k)).
Proof.
  intros W G Hf. pose proof (W w) as HL. set (a := R s w) in *. pose proof (proj1 G) as G0.
  assert (rw : reg s w = a) by now apply reg_gp.
  assert (LI : forall op n, exists s', execs (gen3c op w w n) s = Some s' /\ upd s s' w (aluv op a (w32 n))) by (intros; now apply gen3c_ok).
  assert (LT : exists s', execs (gen3c Mslt w w (tri k)) s = Some s' /\ upd s s' w (b2 (s32 a <? s32 (w32 k)))).
  { pose proof (LI Mslt (tri k)) as H. cbn [aluv] in H. rewrite tri_w in H. exact H. }
  assert (LTU : exists s', execs (gen3c Msltu w w (tri k)) s = Some s' /\ upd s s' w (b2 (a <? w32 k))).
  { pose proof (LI Msltu (tri k)) as H. cbn [aluv] in H. rewrite tri_w in H. exact H. }
  assert (LE : match c with ELe | EGt => True | _ => False end -> exists s', execs (gen3c Mslt w w (tri k + 1)) s = Some s' /\ upd s s' w (b2 (s32 a <=? s32 (w32 k)))).
  { intros Hc. pose proof (LI Mslt (tri k + 1)) as H. cbn [aluv] in H. rewrite tri_w1, (le_succ c) in H by assumption. rewrite s32_w. exact H. }
  assert (LEU : match c with EULe | EUGt => True | _ => False end -> exists s', execs (gen3c Msltu w w (tri k + 1)) s = Some s' /\ upd s s' w (b2 (a <=? w32 k))).
  { intros Hc. pose proof (LI Msltu (tri k + 1)) as H. cbn [aluv] in H. rewrite tri_w1, (leu_succ c) in H by assumption. exact H. }
  assert (XO : exists s', execs (gen3c Mxor w w (tri k)) s = Some s' /\ upd s s' w (Z.lxor a (w32 k))).
  { pose proof (LI Mxor (tri k)) as H. cbn [aluv] in H. rewrite tri_w in H. exact H. }
  pose proof (lxor_rng addr a (w32 k) HL (w32_rng k)) as XR.
  assert (BZ : forall bz b, bzv bz a = Bool.eqb yes b -> brs [Mbz bz w lab] s w yes lab b).
  { intros bz b H. apply brs_here. intros pc Hpc. rewrite (step_bz _ _ _ _ _ Hpc), rw, H. reflexivity. }
  rewrite kval. unfold br_code. destruct (Z.eqb_spec k 0) as [->|Hk].
  - change (w32 0) with 0 in *. destruct c; cbn [tok_cmp cmp_op cmp_blocks Z.eqb Z.ltb Z.compare Pos.compare Pos.compare_cont Pos.eqb andb negb map gen_blk concat app cmp_val];
      rewrite ?app_nil_r; change (sint 4) with s32; change (s32 0) with 0 in *.
    + apply BZ. destruct yes; cbn [bzv]; rewrite ?Z.leb_antisym; destruct (s32 a <? 0); reflexivity.
    + exact (brs_b2 _ _ _ _ _ _ true W G LTU).
    + rewrite Z.gtb_ltb. apply BZ. destruct yes; cbn [bzv]; rewrite ?Z.leb_antisym; destruct (0 <? s32 a); reflexivity.
    + apply brs_here. intros pc H. rewrite (step_br _ _ _ _ _ _ H), rw. change (reg s 0) with 0. rewrite Z.gtb_ltb.
      replace (0 <? a) with (negb (a =? 0)) by (destruct (Z.eqb_spec a 0), (Z.ltb_spec 0 a); try reflexivity; lia). destruct yes, (a =? 0); reflexivity.
    + apply BZ. destruct yes; cbn [negb bzv]; rewrite ?Z.ltb_antisym; destruct (s32 a <=? 0); reflexivity.
    + exact (brs_b2 _ _ _ _ _ _ true W G (LEU Logic.I)).
    + rewrite Z.geb_leb. apply BZ. destruct yes; cbn [negb bzv]; rewrite ?Z.leb_antisym; destruct (s32 a <? 0); reflexivity.
    + rewrite Z.geb_leb, Z.leb_antisym. exact (brs_b2 _ _ _ _ _ _ false W G LTU).
    + apply brs_here. intros pc H. rewrite (step_br _ _ _ _ _ _ H), rw. reflexivity.
    + apply brs_here. intros pc H. rewrite (step_br _ _ _ _ _ _ H), rw. change (reg s 0) with 0. destruct yes, (a =? 0); reflexivity.
  - destruct c; cbn [tok_cmp cmp_op cmp_blocks Z.eqb Z.ltb Z.compare Pos.compare Pos.compare_cont Pos.eqb andb negb map gen_blk concat app cmp_val];
      rewrite ?app_nil_r; change (sint 4) with s32.
    + exact (brs_b2 _ _ _ _ _ _ true W G LT).
    + exact (brs_b2 _ _ _ _ _ _ true W G LTU).
    + rewrite Z.gtb_ltb, Z.ltb_antisym. exact (brs_b2 _ _ _ _ _ _ false W G (LE Logic.I)).
    + rewrite Z.gtb_ltb, Z.ltb_antisym. exact (brs_b2 _ _ _ _ _ _ false W G (LEU Logic.I)).
    + exact (brs_b2 _ _ _ _ _ _ true W G (LE Logic.I)).
    + exact (brs_b2 _ _ _ _ _ _ true W G (LEU Logic.I)).
    + rewrite Z.geb_leb, Z.leb_antisym. exact (brs_b2 _ _ _ _ _ _ false W G LT).
    + rewrite Z.geb_leb, Z.leb_antisym. exact (brs_b2 _ _ _ _ _ _ false W G LTU).
    + rewrite <- lxor_0. exact (brs_then _ _ _ _ _ _ false W G XO XR).
    + rewrite <- lxor_0. exact (brs_then _ _ _ _ _ _ true W G XO XR).
Qed.
Lemma jmp_ok s yes lab : brs (jmp yes lab) s rV0 yes lab (negb (R s rV0 =? 0)).
Proof.
  apply brs_here. intros pc H. rewrite (step_br _ _ _ _ _ _ H), reg_gp by discriminate. change (reg s 0) with 0. destruct yes, (R s rV0 =? 0); reflexivity.
Qed.
(** The outcome of the code of a condition. *)
Definition decides (e : ex) (m : mem) (c : list mins) (yes : bool) (lab : Z) (q : nat) : Prop :=
  forall pc s, code_at pc c -> mregs s -> agree m (MM s) -> space (mdepth e) s ->
  exists v m' s', esteps (e, m) (EVal v, m') /\ mstar (pc, s) (if Bool.eqb yes (negb (v =? 0)) then q else (pc + length c)%nat, s') /\
    mregs s' /\ agree m' (MM s') /\ mkeeps s s'.
Lemma br_fin pc s c0 tl s1 m1 yes lab q b : nth_error prog q = Some (Mlab lab) -> code_at pc (c0 ++ tl) -> runs pc s c0 s1 -> mregs s1 -> agree m1 (MM s1) -> mkeeps s s1 -> lo <= R s1 29 ->
  brs tl s1 rV0 yes lab b ->
  exists s', mstar (pc, s) (if Bool.eqb yes b then q else (pc + length (c0 ++ tl))%nat, s') /\ mregs s' /\ agree m1 (MM s') /\ mkeeps s s'.
Proof.
  intros Hq Hc X HR HA HK Hs (c1 & i & s2 & -> & X1 & Hs2 & St). apply code_at_app in Hc as [_ Hc]. apply code_at_app in Hc as [Hc1 Hc2].
  pose proof (proj1 (code_at_hd _ _ _ Hc2)) as Hi. pose proof (runs_exec _ _ _ _ Hc1 X1) as X2.
  assert (Wk : exists n, wok rV0 n) by (exists 0; split; [now left|intros _; split; [lia|reflexivity]]). destruct Wk as (n & Wk).
  assert (Q : mregs s2 /\ agree m1 (MM s2) /\ mkeeps s1 s2).
  { destruct Hs2 as [->|(v & U & Rv)]; [auto using keeps_refl|].
    pose proof (lstep_post rV0 n s1 s2 m1 v Wk HR Hs (upd_lstep rV0 n s1 s2 m1 v U (mregs_wd _ HR) Rv HA)) as (Q1 & Q2 & Q3 & _). auto. }
  destruct Q as (Q1 & Q2 & Q3). exists s2. split; [|split; [exact Q1|split; [exact Q2|eapply keeps_trans; eauto]]].
  eapply mstar_trans; [exact X|]. eapply mstar_trans; [exact X2|]. specialize (St _ Hi). unfold branch in St. destruct (Bool.eqb yes b).
  - rewrite (Huniq _ _ Hq) in St. econstructor; [exact St|constructor].
  - econstructor; [exact St|]. match goal with |- mstar (?a, _) (?b, _) => replace b with a; [constructor|] end. rewrite !app_length. cbn [length]. lia.
Qed.
Lemma space_lo d s : 0 <= d -> space d s -> lo <= R s 29.
Proof. unfold space. lia. Qed.
Lemma val_decides e m yes lab q : nth_error prog q = Some (Mlab lab) -> wf 4 e -> depthok (cdepth e) rV0 -> msafe e m -> decides e m (C e rV0 0 ++ jmp yes lab) yes lab q.
Proof.
  intros Hq Hw Hd HS pc s Hc HR HA Hs. pose proof (mdepth_nonneg e).
  assert (Wk : wok rV0 0) by (split; [now left|intros _; split; [lia|reflexivity]]). pose proof (code_at_app _ _ _ Hc) as [Hc1 _].
  destruct (sem_all e rV0 0 m Hw Wk Hd HS pc s Hc1 HR HA Hs) as (v & m1 & s1 & [E1 _] & X1 & R1 & A1 & K1 & V1 & _).
  pose proof (space_lo _ _ ltac:(eassumption) (space_keeps _ _ _ K1 Hs)) as Hl.
  destruct (br_fin pc s _ _ s1 m1 yes lab q _ Hq Hc X1 R1 A1 K1 Hl (jmp_ok s1 yes lab)) as (s2 & X2 & R2 & A2 & K2).
  exists v, m1, s2. rewrite V1 in X2. auto.
Qed.
Lemma two_ev (B : ex -> ex -> ex) (fl fr : ex -> frame) l r w n m d :
  (forall l r, plug (fl r) l = B l r) -> (forall l r, plug (fr l) r = B l r) ->
  sem l -> sem r -> wf 4 l -> wf 4 r -> wok w n -> depthok (Z.max (cdepth l) (cdepth r)) w -> msafe (B l r) m ->
  mdepth l <= d -> 4 + mdepth r <= d ->
  forall pc s, code_at pc (two w n (C l w n) (C r (wpush w n) (n + 1))) -> mregs s -> agree m (MM s) -> space d s ->
  exists va vb m2 s3, esteps (B l r, m) (B (EVal va) (EVal vb), m2) /\ runs pc s (two w n (C l w n) (C r (wpush w n) (n + 1))) s3 /\ mregs s3 /\ agree m2 (MM s3) /\ mkeeps s s3 /\
    R s3 (lreg w n) = va /\ R s3 (rreg w n) = vb.
Proof.
  intros Hfl Hfr Sl Sr Hl Hr Hw Hd HS D1 D2 pc s Hc HR HA Hs. pose proof (cdepth_nonneg l). pose proof (cdepth_nonneg r).
  destruct (two_do m w n (C l w n) (C r (wpush w n) (n + 1)) (mdepth l) (mdepth r) d (cdepth l =? 0) (cdepth r =? 0) (Ev l m)
     (fun va vb m2 => esteps (B l r, m) (B (EVal va) (EVal vb), m2)) Hw (mdepth_nonneg l) (mdepth_nonneg r) D1 D2) with (pc := pc) (s := s)
     as (va & vb & m1 & m2 & s3 & _ & E & X & R3 & A3 & K3 & V1 & V2 & _); auto.
  - intros Em. pose proof (dep0 _ _ Hd Em). lia.
  - apply Sl; auto. { eapply (depthok_le mcd Hmcd); [exact Hd|lia]. } apply (ms_in (fl r)). now rewrite Hfl.
  - intros va m1 [E1 _]. apply (esteps_in _ _ _ _ (fl r)) in E1. rewrite !Hfl in E1. pose proof (ms_steps _ _ _ _ E1 HS) as HS1.
    eapply doing_le; [reflexivity| |apply Sr; auto].
    + intros vb m2 [E2' _]. cbn beta. eapply esteps_trans; [exact E1|]. apply (esteps_in _ _ _ _ (fr (EVal va))) in E2'. now rewrite !Hfr in E2'.
    + now apply wok_push.
    + destruct Hd as [Hd|(Hd1 & Hd2 & Hd3)]; [left; lia|right]. unfold MipsCode.wpush. rewrite push_rk by assumption. lia.
    + apply (ms_in (fr (EVal va))). now rewrite Hfr.
  - exists va, vb, m2, s3. auto 10.
Qed.
Lemma cmp_decides c l r m yes lab q : nth_error prog q = Some (Mlab lab) -> wf 4 (ECmp c l r) -> depthok (cdepth (ECmp c l r)) rV0 -> msafe (ECmp c l r) m ->
  decides (ECmp c l r) m (Cbin mcd (TCmp (tok_cmp c) 0) l r yes lab) yes lab q.
Proof.
  intros Hq Hw Hd HS pc s Hc HR HA Hs. pose proof (mdepth_nonneg l). pose proof (mdepth_nonneg r). pose proof (cdepth_nonneg l). pose proof (cdepth_nonneg r).
  assert (Wk : wok rV0 0) by (split; [now left|intros _; split; [lia|reflexivity]]). pose proof Hw as [Hl Hr]. pose proof (wok_gp _ _ Wk) as G.
  assert (Sem := sem_all (ECmp c l r) rV0 0 m Hw Wk Hd HS). cbn [MipsCode.C] in Sem. unfold Cbin in *. cbn [mdepth cdepth] in *.
  assert (FIN : forall va vb m1 s1 c0 tl, esteps (ECmp c l r, m) (ECmp c (EVal va) (EVal vb), m1) -> code_at pc (c0 ++ tl) -> runs pc s c0 s1 -> mregs s1 -> agree m1 (MM s1) -> mkeeps s s1 ->
     brs tl s1 rV0 yes lab (cmp_val 4 c va vb) ->
     exists v m' s', esteps (ECmp c l r, m) (EVal v, m') /\ mstar (pc, s) (if Bool.eqb yes (negb (v =? 0)) then q else (pc + length (c0 ++ tl))%nat, s') /\
       mregs s' /\ agree m' (MM s') /\ mkeeps s s').
  { intros va vb m1 s1 c0 tl E1 Hc' X1 R1 A1 K1 Br.
    destruct (br_fin pc s _ _ s1 m1 yes lab q _ Hq Hc' X1 R1 A1 K1 ltac:(rewrite (proj1 K1); unfold space in Hs; lia) Br) as (s2 & X2 & R2 & A2 & K2).
    exists (b2 (cmp_val 4 c va vb)), m1, s2. split; [eapply esteps_trans; [exact E1|]; apply esteps_red; reflexivity|].
    split; [|auto]. rewrite b2_z, negb_involutive. exact X2. }
  destruct (bconst (TCmp (tok_cmp c) 0) l r) as [[[sw k] t]|] eqn:Eb.
  - assert (CN : match t with TArith _ _ | TCmp _ _ => True | _ => False end) by (eapply bconst_kind; [|exact Eb]; exact Logic.I).
    destruct (tok_bin t CN) as [(a & v0 & ->)|(c0 & v0 & ->)].
    + rewrite app_assoc in Hc |- *. pose proof (code_at_app _ _ _ Hc) as [Hc1 _].
      destruct (Sem pc s Hc1 HR HA Hs) as (v & m1 & s1 & [E1 _] & X1 & R1 & A1 & K1 & V1 & _).
      destruct (br_fin pc s _ _ s1 m1 yes lab q _ Hq Hc X1 R1 A1 K1 ltac:(rewrite (proj1 K1); unfold space in Hs; lia) (jmp_ok s1 yes lab)) as (s2 & X2 & R2 & A2 & K2).
      exists v, m1, s2. rewrite V1 in X2. auto.
    + assert (HX : exists x fx, (sw = false /\ x = l \/ sw = true /\ x = r) /\ plug fx x = ECmp c l r /\ wf 4 x /\ cdepth x = Z.max (cdepth l) (cdepth r) /\ mdepth x <= Z.max (4 + mdepth l) (4 + mdepth r) /\
        exists c', c0 = tok_cmp c' /\ forall va m1, 0 <= va < P32 -> esteps (x, m) (EVal va, m1) ->
          cmp_fit c' k /\ exists v1 v2, esteps (ECmp c l r, m) (ECmp c (EVal v1) (EVal v2), m1) /\ cmp_val 4 c' va (w32 k) = cmp_val 4 c v1 v2).
      { apply bconst_inv in Eb as [[-> (u & j & -> & Er)]|[-> (_ & u & j & -> & Er)]].
        - exists l, (FCmpL c (ENum u j)). cbn [mdepth cdepth] in *. split; [auto|]. split; [reflexivity|]. split; [exact Hl|]. split; [lia|]. split; [lia|].
          assert (Er' : special_const (TCmp (tok_cmp c) 0) j = (k, TCmp c0 v0)) by (rewrite <- Er; reflexivity).
          assert (XC : exists c', c0 = tok_cmp c').
          { pose proof (sc_cmp c j k _ 0 ltac:(lia) Er') as T. destruct T as (c' & -> & _). eauto. }
          destruct XC as (c' & ->). exists c'. split; [reflexivity|]. intros va m1 Rv E1. pose proof (sc_cmp c j k _ va Rv Er') as (c2 & Ec & Hf & Hb).
          assert (c' = c2) as -> by (destruct c', c2; try discriminate Ec; reflexivity).
          split; [exact Hf|]. exists va, (w32 j). split.
          + eapply esteps_trans; [apply (esteps_in _ _ _ _ (FCmpL c (ENum u j))); exact E1|]. apply (esteps_in _ _ _ _ (FCmpR c (EVal va))). apply esteps_red. reflexivity.
          + destruct (cmp_val 4 c va (w32 j)), (cmp_val 4 c2 va (w32 k)); try reflexivity; discriminate Hb.
        - exists r, (FCmpR c (ENum u j)). cbn [mdepth cdepth] in *. split; [auto|]. split; [reflexivity|]. split; [exact Hr|]. split; [lia|]. split; [lia|].
          destruct (flip_cmp c) as (cf & Ef & Hflip). rewrite Ef in Er.
          assert (XC : exists c', c0 = tok_cmp c').
          { pose proof (sc_cmp cf j k _ 0 ltac:(lia) Er) as T. destruct T as (c' & -> & _). eauto. }
          destruct XC as (c' & ->). exists c'. split; [reflexivity|]. intros va m1 Rv E1. pose proof (sc_cmp cf j k _ va Rv Er) as (c2 & Ec & Hf & Hb).
          assert (c' = c2) as -> by (destruct c', c2; try discriminate Ec; reflexivity).
          split; [exact Hf|]. exists (w32 j), va. split.
          + eapply esteps_trans; [apply (esteps_in _ _ _ _ (FCmpR c (ENum u j))); exact E1|]. apply (esteps_in _ _ _ _ (FCmpL c (EVal va))). apply esteps_red. reflexivity.
          + rewrite <- Hflip. destruct (cmp_val 4 cf va (w32 j)), (cmp_val 4 c2 va (w32 k)); try reflexivity; discriminate Hb. }
      destruct HX as (x & fx & Hx & Px & Hwx & Dx & Mx & c' & -> & FX).
      replace (if sw then C r rV0 0 else C l rV0 0) with (C x rV0 0) in * by (destruct Hx as [[-> ->]|[-> ->]]; reflexivity).
      pose proof (code_at_app _ _ _ Hc) as [Hc1 _].
      destruct (sem_all x rV0 0 m Hwx Wk ltac:(rewrite Dx; exact Hd) ltac:(apply (ms_in fx); now rewrite Px) pc s Hc1 HR HA ltac:(eapply space_le; [|exact Hs]; lia)) as (va & m1 & s1 & [E1 _] & X1 & R1 & A1 & K1 & V1 & _).
      destruct (FX va m1 ltac:(rewrite <- V1; apply R1) E1) as (Hf & v1 & v2 & E2 & Ev2).
      apply (FIN v1 v2 m1 s1 _ _ E2 Hc X1 R1 A1 K1). rewrite <- Ev2, <- V1. apply br_imm_ok; auto using mregs_wd.
  - pose proof (code_at_app _ _ _ Hc) as [Hc1 _].
    destruct (two_ev (ECmp c) (FCmpL c) (FCmpR c) l r rV0 0 m (Z.max (4 + mdepth l) (4 + mdepth r)) ltac:(reflexivity) ltac:(reflexivity) (sem_all l) (sem_all r) Hl Hr Wk Hd HS ltac:(lia) ltac:(lia) pc s Hc1 HR HA Hs)
      as (va & vb & m2 & s3 & E & X & R3 & A3 & K3 & V1 & V2).
    apply (FIN va vb m2 s3 _ _ E Hc X R3 A3 K3).
    destruct (lreg_gp rV0 0 Wk) as [L0 _]. destruct (rreg_gp rV0 0 Wk) as [R0 _]. rewrite <- V1, <- V2, <- (reg_gp s3 _ L0), <- (reg_gp s3 _ R0).
    apply br_reg_ok; auto using mregs_wd.
Qed.

(** Assigning zero when the value is not used. *)
Lemma top_ok e m : wf 4 e -> depthok (cdepth e) rV0 -> msafe e m -> forall pc s, code_at pc (Ctop mcd e) -> mregs s -> agree m (MM s) -> space (mdepth e) s ->
  exists v m' s', esteps (e, m) (EVal v, m') /\ runs pc s (Ctop mcd e) s' /\ mregs s' /\ agree m' (MM s') /\ mkeeps s s'.
Proof.
  intros Hw Hd HS pc s Hc HR HA Hs. assert (Wk : wok rV0 0) by (split; [now left|intros _; split; [lia|reflexivity]]).
  unfold Ctop in *. destruct (is_assign0 e) as [[sz l]|] eqn:E0.
  2:{ destruct (sem_all e rV0 0 m Hw Wk Hd HS pc s Hc HR HA Hs) as (v & m1 & s1 & [E1 _] & X1 & R1 & A1 & K1 & V1 & _). exists v, m1, s1. auto. }
  assert (K : exists u j, e = EAssign sz l (ENum u j) /\ w32 j = 0).
  { unfold is_assign0 in E0. destruct e; try discriminate E0. destruct e2; try discriminate E0. change (tru n) with (w32 n) in E0. destruct (Z.eqb_spec (w32 n) 0); [|discriminate E0].
    injection E0 as -> ->. eauto. }
  destruct K as (u & j & -> & Ej). clear E0. destruct Hw as (Hv & Hl & _). cbn [cdepth mdepth] in *. pose proof (cdepth_nonneg l). pose proof (mdepth_nonneg l).
  rewrite Z.max_l in Hd by lia.
  assert (VV : forall va m2, esteps (l, m) (EVal va, m2) ->
     exists m3, store sz m2 va 0 = Some m3 /\ va mod Z.abs sz = 0 /\ esteps (EAssign sz l (ENum u j), m) (EVal (conv 4 sz 0), m3)).
  { intros va m2 E. assert (E' : esteps (EAssign sz l (ENum u j), m) (EAssign sz (EVal va) (EVal 0), m2)).
    { eapply esteps_trans; [apply (esteps_in _ _ _ _ (FAssignL sz (ENum u j))); exact E|]. apply (esteps_in _ _ _ _ (FAssignR sz (EVal va))). apply esteps_red.
      cbn. change (word 4 j) with (w32 j). rewrite Ej. reflexivity. }
    pose proof (ms_steps _ _ _ _ E' HS) as HS1. destruct (store sz m2 va 0) as [m3|] eqn:V.
    2:{ exfalso. eapply ms_here; [exact HS1|]. cbn. now rewrite V. }
    exists m3. split; [reflexivity|]. split; [exact (ms_al _ _ _ _ HS1 eq_refl)|]. eapply esteps_trans; [exact E'|]. apply esteps_red. cbn. now rewrite V. }
  assert (WR : forall p s1 m2, mregs s1 -> agree m2 (MM s1) -> pgp p -> esteps (l, m) (EVal (paddr s1 p), m2) -> lo <= R s1 29 ->
     exists v m3 s2, esteps (EAssign sz l (ENum u j), m) (EVal v, m3) /\ execs (gwrite p 0 sz) s1 = Some s2 /\ mregs s2 /\ agree m3 (MM s2) /\ mkeeps s1 s2).
  { intros p s1 m2 HR1 HA1 Gp E Hlo1. destruct (VV _ _ E) as (m3 & St & Al & EV).
    destruct (gwrite_ok addr lo top prot p 0 sz s1 m2 m3 0 (mregs_wd _ HR1) HA1 Hv St Al Gp ltac:(discriminate) eq_refl) as (s2 & X2 & U2).
    pose proof (lstep_post rV0 0 s1 s2 m3 _ Wk HR1 Hlo1 (lst_updm rV0 0 s1 s2 m3 U2 (mregs_wd _ HR1))) as (Q1 & Q2 & Q3 & _).
    exists (conv 4 sz 0), m3, s2. auto. }
  destruct (pl l) as [p|] eqn:Ep.
  - destruct (pl_ok l p s m Ep HR) as (E2 & Gp & F & _). destruct (WR p s m HR HA Gp E2) as (v & m3 & s2 & EV & X & Q1 & Q2 & Q3). { unfold space in Hs. lia. }
    exists v, m3, s2. split; [exact EV|]. split; [now apply runs_exec|]. auto.
  - pose proof (code_at_app _ _ _ Hc) as [Hc1 Hc2].
    destruct (sem_all l rV0 0 m Hl Wk Hd ltac:(apply (ms_in (FAssignL sz (ENum u j))); exact HS) pc s Hc1 HR HA ltac:(eapply space_le; [|exact Hs]; lia)) as (va & m1 & s1 & [E1 _] & X1 & R1 & A1 & K1 & V1 & _).
    destruct (WR (PReg rV0) s1 m1 R1 A1 ltac:(split; discriminate)) as (v & m3 & s2 & EV & X & Q1 & Q2 & Q3).
    { cbn [MipsMach.paddr]. now rewrite V1. } { rewrite (proj1 K1). unfold space in Hs. lia. }
    exists v, m3, s2. split; [exact EV|]. split; [eapply runs_app; [exact X1|]; now apply runs_exec|]. split; [exact Q1|]. split; [exact Q2|]. eapply keeps_trans; eauto.
Qed.

End Sim.
