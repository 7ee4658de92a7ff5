(** The emitted code simulates the evaluation of the expression. *)
From Verif Require Import Base BaseLemmas X86 ExprSpec CgModel CgTree CgFuse MachSpec CgMach CgEmit.

Definition depth_args := fix go l := match l with [] => 0 | a :: l => Z.max (go l) (zlen l + 1 + depth a) end.
Lemma depth_nonneg e : 0 <= depth e.
Proof.
  induction e using ex_ind2; cbn [depth]; try lia.
  pose proof (zlen_nonneg args). lia.
Qed.

Section Sim.
Variable W : Z.
Hypothesis HW : W = 2 \/ W = 4.
Variable addr : Z -> Z.
Variable bp : Z.
Variables lo top : Z.
Variable prot : Z -> Prop.
Hypothesis Hlo : 0 <= lo.
Hypothesis Htop : top < 2 ^ (8 * W).
Hypothesis Hprot : forall a, prot a -> ~ (lo <= a < top).
Variable callee : Z -> st -> option st.
Variable ext : Z -> list Z -> mem -> option (Z * mem).
Variable room : Z.
Hypothesis Hroom : 0 <= room.
Hypothesis Hcallee : callee_ok W bp lo top prot callee ext room.
Variable prog : list instr.
Hypothesis Huniq : forall l p, nth_error prog p = Some (Lab l) -> find_label l prog = Some p.

Notation P := (2 ^ (8 * W)).
Notation uw := (X86.uw W). Notation word := (ExprSpec.word W).
Notation agree := (MachSpec.agree W lo top prot).
Notation regs := (MachSpec.regs W bp).
Notation keeps := (MachSpec.keeps top prot).
Notation ldn := (X86.ldn W). Notation stn := (X86.stn W).
Notation execs := (CgMach.execs W addr).
Notation valid := (valid_size W).
Notation load := (ExprSpec.load W). Notation store := (ExprSpec.store).
Notation rval := (CgMach.rval W addr bp). Notation laddr := (CgMach.laddr W addr bp).
Notation red := (ExprSpec.red W addr bp ext).
Notation estep := (ExprSpec.estep W addr bp ext).
Notation esteps := (ExprSpec.esteps W addr bp ext).
Notation bad := (ExprSpec.bad W addr bp ext).
Notation safe := (ExprSpec.safe W addr bp ext).
Notation F := (CgTree.F W). Notation B := (CgTree.B W). Notation BL := (CgTree.BL W).
Notation ksize := (CgTree.ksize W). Notation wf := (CgTree.wf W).
Notation em := (CgEmit.em W). Notation nextok := (CgEmit.nextok W).

Lemma PB : 65536 <= P.
Proof. exact (P_pos W HW top Htop). Qed.

(** ** Evaluations *)
Lemma esteps_trans x y z : esteps x y -> esteps y z -> esteps x z.
Proof. induction 1; auto. intros. econstructor; eauto. Qed.
Lemma esteps_one x y : estep x y -> esteps x y.
Proof. intros. econstructor; eauto. constructor. Qed.
Lemma esteps_red e m e' m' : red e m = Some (Some (e', m')) -> esteps (e, m) (e', m').
Proof. intros. apply esteps_one. now constructor. Qed.
Lemma esteps_in Fr e m e' m' : esteps (e, m) (e', m') -> esteps (plug Fr e, m) (plug Fr e', m').
Proof.
  intros H. remember (e, m) as x. remember (e', m') as y. revert e m e' m' Heqx Heqy.
  induction H; intros; subst.
  - apply pair_inj in Heqy as [-> ->]. constructor.
  - destruct y as [e1 m1]. econstructor; [apply estep_in; exact H|]. eapply IHesteps; eauto.
Qed.
Lemma safe_steps e m e' m' : esteps (e, m) (e', m') -> safe e m -> safe e' m'.
Proof. intros H S e2 m2 H2. apply S. eapply esteps_trans; eauto. Qed.
Lemma safe_in Fr e m : safe (plug Fr e) m -> safe e m.
Proof. intros S e2 m2 H Hb. apply (S (plug Fr e2) m2); [now apply esteps_in|]. now constructor. Qed.
Lemma safe_here e m : safe e m -> red e m = Some None -> False.
Proof. intros S H. apply (S e m); constructor. exact H. Qed.
Lemma safe_bad e m : safe e m -> bad e m -> False.
Proof. intros S H. apply (S e m); [constructor|auto]. Qed.

(** ** Running code *)
Definition code_at (pc : nat) (c : list instr) : Prop :=
  forall i x, nth_error c i = Some x -> nth_error prog (pc + i) = Some x.
Lemma code_at_app pc a b : code_at pc (a ++ b) -> code_at pc a /\ code_at (pc + length a) b.
Proof.
  intros H. split; intros i x Hi.
  - apply H. rewrite nth_error_app1; auto. apply nth_error_Some. congruence.
  - replace (pc + length a + i)%nat with (pc + (length a + i))%nat by lia. apply H.
    rewrite nth_error_app2 by lia. replace (length a + i - length a)%nat with i by lia. exact Hi.
Qed.
Lemma code_at_hd pc x c : code_at pc (x :: c) -> nth_error prog pc = Some x /\ code_at (S pc) c.
Proof.
  intros H. split.
  - specialize (H O x eq_refl). now rewrite Nat.add_0_r in H.
  - intros i y Hi. specialize (H (S i) y Hi). now rewrite <- plus_n_Sm in H.
Qed.
Notation mstar := (X86.mstar W addr callee prog). Notation mstep := (X86.mstep W addr callee prog).
Lemma mstar_trans x y z : mstar x y -> mstar y z -> mstar x z.
Proof. induction 1; auto. intros. econstructor; eauto. Qed.
Definition runs (pc : nat) (s : st) (c : list instr) (s' : st) : Prop :=
  mstar (pc, s) ((pc + length c)%nat, s').
Lemma runs_nil pc s : runs pc s [] s.
Proof. unfold runs. cbn. rewrite Nat.add_0_r. constructor. Qed.
Lemma runs_app pc s a s1 b s2 : runs pc s a s1 -> runs (pc + length a) s1 b s2 -> runs pc s (a ++ b) s2.
Proof.
  unfold runs. intros. eapply mstar_trans; eauto. rewrite app_length, Nat.add_assoc. auto.
Qed.
Lemma exec_mstep pc i s s' :
  nth_error prog pc = Some i -> X86.exec W addr i s = Some s' -> mstep (pc, s) = Some (S pc, s').
Proof.
  intros Hi He. unfold X86.mstep. rewrite Hi. cbn [obind].
  destruct i as [i|i o|i o1 o2|i o1 o2 o3|l]; try (rewrite He; reflexivity); try discriminate.
  destruct i; try (rewrite He; reflexivity); try discriminate.
Qed.
Lemma runs_exec c : forall pc s s', code_at pc c -> execs c s = Some s' -> runs pc s c s'.
Proof.
  induction c as [|i c IH]; intros pc s s' Hc He; cbn [CgMach.execs] in He.
  - injection He as <-. apply runs_nil.
  - apply obind_Some in He as (s1 & E1 & E2). apply code_at_hd in Hc as [H1 H2].
    unfold runs. econstructor; [eapply exec_mstep; eauto|].
    specialize (IH _ _ _ H2 E2). unfold runs in IH. cbn [length]. rewrite <- plus_n_Sm. exact IH.
Qed.
Lemma runs_one pc i s s' : nth_error prog pc = Some i -> mstep (pc, s) = Some (S pc, s') -> runs pc s [i] s'.
Proof.
  intros Hi H. unfold runs. cbn. replace (pc + 1)%nat with (S pc) by lia. econstructor; eauto. constructor.
Qed.
Lemma runs_lab pc l s : code_at pc [Lab l] -> runs pc s [Lab l] s.
Proof.
  intros H. apply code_at_hd in H as [H _]. apply runs_one; auto. unfold X86.mstep. now rewrite H.
Qed.

(** ** What has to be shown *)
Definition space (d : Z) (s : st) : Prop := lo + room + W * d <= esp s <= top.
Definition fullsem (e : ex) (c : list instr) : Prop :=
  forall pc s m, code_at pc c -> regs s -> agree m (M s) -> safe e m -> space (depth e) s ->
  exists v m' s', esteps (e, m) (EVal v, m') /\ runs pc s c s' /\ regs s' /\ agree m' (M s') /\ keeps s s' /\
    ea s' = v /\ (boolish e = true -> v = 0 \/ v = 1).
(** Operand [e], of kind [k], computed up to the access itself: [R x a] says what is left. *)
Definition gsem (e : ex) (k : tok) (R : ex -> Z -> Prop) (c : list instr) : Prop :=
  forall pc s m, code_at pc c -> regs s -> agree m (M s) -> safe e m -> space (depth e) s ->
  exists x' m' s' a, esteps (e, m) (x', m') /\ runs pc s c s' /\ regs s' /\ agree m' (M s') /\ keeps s s' /\
    0 <= a < P /\ (is_acc k = true -> ea s' = a) /\ (is_acc k = false -> s' = s /\ m' = m /\ c = []) /\ R x' a.
Definition res (k : tok) (sz : Z) (x' : ex) (a : Z) : Prop :=
  forall m, match rval k sz a m with
  | Some v => esteps (x', m) (EVal v, m)
  | None => exists x'', esteps (x', m) (x'', m) /\ bad x'' m
  end.
Definition opsem (e : ex) (c : list instr) : Prop := gsem e (kind e) (res (kind e) (ksize e)) c.
Definition lvsem (e : ex) (c : list instr) : Prop := gsem e (indk e) (fun x a => x = EVal (laddr (indk e) a)) c.

Definition full (e : ex) : Prop :=
  exists c, (forall pre post, nextok e post -> em pre (F e) post c) /\ fullsem e c.
Definition oper (e : ex) : Prop :=
  exists c, (forall pre post, plain post = true -> em pre (B e) post c) /\ opsem e c.
Definition lval (e : ex) : Prop :=
  exists c, (forall pre post, plain post = true -> em pre (BL e) post c) /\ lvsem e c.
Definition good (e : ex) : Prop := wf e -> full e /\ oper e.

Lemma keeps_refl s : keeps s s.
Proof. split; auto. Qed.
Lemma keeps_trans s s1 s2 : keeps s s1 -> keeps s1 s2 -> keeps s s2.
Proof.
  intros [E1 H1] [E2 H2]. split; [congruence|]. intros a Ha. rewrite H2 by (rewrite E1; auto). auto.
Qed.
Lemma space_le d d' s : d <= d' -> space d' s -> space d s.
Proof. unfold space. intros. destruct HW; nia. Qed.
Lemma space_keeps d s s' : keeps s s' -> space d s -> space d s'.
Proof. unfold space. intros [-> _]. auto. Qed.
Lemma keepm_keeps s s' : lo <= esp s -> esp s' = esp s -> keepm lo top prot s s' -> keeps s s'.
Proof. intros H0 H1 H. split; auto. intros a Ha. apply H. destruct Ha; [left; lia|auto]. Qed.

Lemma valid_W : valid W.
Proof. right; right; left; reflexivity. Qed.
Lemma valid_ksize e : wf e -> valid (ksize e).
Proof.
  intros H. apply wf_core in H. unfold CgTree.ksize. destruct (core e); try apply valid_W. apply H.
Qed.

(** Code that is just instructions. *)
Lemma full_to_oper e : wf e -> full e -> B e = F e -> kind e = OpAcc -> oper e.
Proof.
  intros Hw (c & Hem & Hs) HB Hk. exists c. split.
  - intros pre post Hp. rewrite HB. apply Hem. now apply plain_nextok.
  - intros pc s m Hc HR HA HS Hsp. destruct (Hs pc s m Hc HR HA HS Hsp) as (v & m' & s' & E & Hr & R' & A' & K & Ev & _).
    exists (EVal v), m', s', v. split; auto. split; auto. split; auto. split; auto. split; auto.
    pose proof R' as R2. destruct R2 as (Q & _). rewrite Ev in Q.
    split; auto. split; auto. rewrite Hk. split; [discriminate|]. intros m0. cbn. constructor.
Qed.

Lemma lval_ok e : wf e -> good e -> lval e.
Proof.
  intros Hw G. destruct (G Hw) as [(c & Hem & Hs) _]. unfold lval, CgTree.BL.
  pose proof (is_var_kind e) as Hk. unfold lvsem. destruct (is_var e) as [k|] eqn:Ei.
  - exists []. split; [intros; constructor|].
    assert (Hst : forall v m, red (core e) m = Some (Some (EVal v, m)) -> esteps (e, m) (EVal v, m)).
    { clear. induction e using ex_ind2; try (intros; apply esteps_red; assumption).
      destruct u; try (intros; apply esteps_red; assumption).
      cbn [core]. intros v m H. apply IHe in H. eapply esteps_trans; [apply (esteps_in (FUn EPlus)); exact H|].
      apply esteps_red. reflexivity. }
    intros pc s m _ HR HA HS Hsp. pose proof PB.
    destruct Hk as [(n & Ec & _ & ->)|(n & Ec & _ & ->)]; cbn [is_acc CgMach.laddr];
      eexists _, m, s, 0; (split; [apply Hst; rewrite Ec; reflexivity|]);
      split; [apply runs_nil|auto using keeps_refl|apply runs_nil|auto using keeps_refl];
      do 3 (split; [auto using keeps_refl|]); (split; [lia|]); (split; [discriminate|]); auto.
  - destruct Hk as (_ & _ & ->). exists c. split; [intros; apply Hem; now apply plain_nextok|].
    intros pc s m Hc HR HA HS Hsp.
    destruct (Hs pc s m Hc HR HA HS Hsp) as (v & m' & s' & E & Hr & R' & A' & K & Ev & _).
    exists (EVal v), m', s', v. split; auto. split; auto. split; auto. split; auto. split; auto.
    pose proof R' as (Q & _). rewrite Ev in Q.
    split; auto. split; auto. split; [discriminate|]. reflexivity.
Qed.

Definition is_src (k : tok) : bool := is_op k || is_stk k.
Lemma load_total k sz : is_src k = true -> exists c, gen_load W k sz = Some c.
Proof. destruct k; try discriminate; cbn; eauto. Qed.
Lemma op2_total i k sz : is_op k = true -> exists c, gen_op2 W i k sz = Some c.
Proof. destruct k; try discriminate; cbn; eauto. Qed.
Lemma arith_total o k sz : is_op k = true -> exists c, gen_arith W o k sz = Some c.
Proof. destruct o, k; try discriminate; cbn; eauto. Qed.

Ltac emstep := apply em1; [discriminate|]; cbn [app]; unfold gen_step;
  rewrite zg0; cbn [obind]; rewrite ?zg1, ?zg2, ?zn1, ?zn2, ?zn3; cbn [obind].

(** ** Constants and addresses *)
Definition leaf (e : ex) : Prop := match e with ENum _ _ | EIdent _ | ELocal _ => True | _ => False end.
Lemma leaf_good e : leaf e -> good e.
Proof.
  intros Hl Hw. pose proof PB as PP.
  assert (Hr : forall m a sz, exists v, red e m = Some (Some (EVal v, m)) /\ rval (kind e) sz a m = Some v).
  { intros. destruct e; try contradiction; try (eexists; split; reflexivity). destruct uns; eexists; split; reflexivity. }
  assert (Hk : is_acc (kind e) = false /\ is_src (kind e) = true /\ is_stk (kind e) = false).
  { destruct e; try contradiction; auto. destruct uns; auto. }
  destruct Hk as (K1 & K2 & K3).
  split.
  - destruct (load_total (kind e) W K2) as [c Hc]. exists c. split.
    + intros pre post Hn. destruct e; try contradiction.
      * assert (Hs : is_sep (hd_error post) = false).
        { unfold CgEmit.nextok in Hn. destruct (hd_error post) as [[]|]; try contradiction; reflexivity. }
        destruct uns; injection Hc as <-; unfold CgTree.F; cbn [FB fst]; emstep; rewrite Hs; zl; reflexivity.
      * assert (Hs : is_sep (hd_error post) = false /\ is_rparen (hd_error post) = false).
        { unfold CgEmit.nextok in Hn. destruct (hd_error post) as [[]|]; try contradiction; auto. }
        destruct Hs as [Hs1 Hs2]. injection Hc as <-; unfold CgTree.F; cbn [FB fst]; emstep; rewrite Hs1, Hs2; zl; reflexivity.
      * injection Hc as <-; unfold CgTree.F; cbn [FB fst]; emstep; zl; reflexivity.
    + intros pc s m Hat HR HA HS Hsp. destruct (Hr m 0 W) as (v & Hred & Hv).
      destruct (gen_load_ok W HW addr bp lo top prot Htop (kind e) W 0 m s v HR HA valid_W ltac:(lia)
                  ltac:(congruence) ltac:(congruence) Hv) as (c' & s' & Hc' & Hx & R' & Ea & Ec & EM & Es & Eb).
      rewrite Hc in Hc'. apply some_inj in Hc'. subst c'.
      exists v, m, s'. split; [now apply esteps_red|]. split; [now apply runs_exec|]. split; auto.
      rewrite EM. split; auto. rewrite K3 in Es. split; [split; [lia|intros; congruence]|]. split; auto.
      intros Hb. destruct e; try contradiction; try discriminate. cbn in Hb, Hred. injection Hred as <-.
       unfold ExprSpec.word. destruct (Z.eqb_spec n 0) as [->|]; [left; apply wrap_small; lia|].
      destruct (Z.eqb_spec n 1) as [->|]; [right; apply wrap_small; lia|discriminate].
  - exists []. split.
    + intros. replace (B e) with (@nil tok) by (destruct e; try contradiction; reflexivity). constructor.
    + intros pc s m _ HR HA HS Hsp. exists e, m, s, 0. split; [constructor|]. split; [apply runs_nil|].
      split; auto. split; auto. split; [apply keeps_refl|]. split; [lia|]. split; [congruence|]. split; auto.
      intros m0. destruct (Hr m0 0 (ksize e)) as (v & Hred & Hv). rewrite Hv. now apply esteps_red.
Qed.

(** ** Reading an object *)
Lemma rval_indk l sz a m : rval (indk l) sz a m = load sz m (laddr (indk l) a).
Proof. unfold indk. destruct (core l); reflexivity. Qed.
Lemma indk_cases l : is_stk (indk l) = false /\ is_src (indk l) = true.
Proof. unfold indk. destruct (core l); auto. Qed.

Lemma deref_good sz a : good a -> good (EDeref sz a).
Proof.
  intros G Hw. cbn [CgTree.wf] in Hw. destruct Hw as [Hv Hwa]. pose proof PB as PP.
  destruct (lval_ok a Hwa G) as (cl & Hem & Hs). destruct (indk_cases a) as [K1 K2].
  split.
  - destruct (load_total (indk a) sz K2) as [c Hc]. exists (cl ++ c). split.
    + intros pre post Hn. rewrite F_EDeref. apply em_app; [apply Hem; reflexivity|].
      assert (Hsep : (sz =? W) && is_sep (hd_error post) = false).
      { unfold CgEmit.nextok in Hn. destruct (hd_error post) as [[]|]; cbn [is_sep]; rewrite ?andb_false_r; auto.
        cbn in Hn. destruct (Z.eqb_spec sz W); auto. contradiction. }
      pose proof (is_var_kind a) as Hk. destruct (is_var a) as [k|].
      * destruct Hk as [(n & _ & -> & Ek)|(n & _ & -> & Ek)]; rewrite Ek in Hc; injection Hc as <-;
          emstep; rewrite Hsep; zl; reflexivity.
      * destruct Hk as (_ & _ & Ek). rewrite Ek in Hc; injection Hc as <-; emstep; rewrite Hsep; zl; reflexivity.
    + intros pc s m Hat HR HA HS Hsp. apply code_at_app in Hat as [Hat1 Hat2].
      destruct (Hs pc s m Hat1 HR HA (safe_in (FDeref sz) _ _ HS) Hsp)
        as (x' & m1 & s1 & b & E1 & Hr1 & R1 & A1 & K & Hb & Hacc & _ & ->).
      apply (esteps_in (FDeref sz)) in E1. cbn [plug] in E1.
      pose proof (safe_steps _ _ _ _ E1 HS) as HS1.
      destruct (load sz m1 (laddr (indk a) b)) as [v|] eqn:Hld.
      2:{ exfalso. eapply safe_here; [exact HS1|]. cbn. now rewrite Hld. }
      destruct (gen_load_ok W HW addr bp lo top prot Htop (indk a) sz b m1 s1 v R1 A1 Hv Hb Hacc
                  ltac:(congruence) ltac:(now rewrite rval_indk)) as (c' & s' & Hc' & Hx & R' & Ea & Ec & EM & Es & Eb).
      rewrite Hc in Hc'. apply some_inj in Hc'. subst c'.
      exists v, m1, s'. split; [eapply esteps_trans; [exact E1|]; apply esteps_red; cbn; now rewrite Hld|].
      split; [eapply runs_app; [exact Hr1|now apply runs_exec]|]. split; auto. rewrite EM. split; auto.
      rewrite K1 in Es. split; [|split; [auto|discriminate]].
      eapply keeps_trans; [exact K|]. split; [lia|intros; congruence].
  - exists cl. split; [rewrite B_EDeref; exact Hem|].
    intros pc s m Hat HR HA HS Hsp.
    destruct (Hs pc s m Hat HR HA (safe_in (FDeref sz) _ _ HS) Hsp)
      as (x' & m1 & s1 & b & E1 & Hr1 & R1 & A1 & K & Hb & Hacc & Hna & ->).
    apply (esteps_in (FDeref sz)) in E1. cbn [plug] in E1.
    assert (Ek : kind (EDeref sz a) = indk a) by reflexivity. rewrite Ek.
    exists (EDeref sz (EVal (laddr (indk a) b))), m1, s1, b. repeat (split; [assumption|]).
    intros m0. rewrite rval_indk. change (ksize (EDeref sz a)) with sz.
    destruct (load sz m0 (laddr (indk a) b)) as [v|] eqn:Hld.
    + apply esteps_red. cbn. now rewrite Hld.
    + eexists. split; [constructor|]. apply bad_here. cbn. now rewrite Hld.
Qed.

(** ** Increment and decrement *)
Lemma incdec_good e sz a (Fr : frame) (t : list tok) (v' : Z -> Z) (rv : Z -> Z) :
  good a -> (wf e -> valid sz /\ wf a) -> plug Fr a = e -> depth e = depth a -> boolish e = false ->
  B e = F e -> kind e = OpAcc -> F e = BL a ++ t -> plain t = true -> t <> [] ->
  (forall m b, red (plug Fr (EVal b)) m =
     Some (let? v := load sz m b in let? m' := store sz m b (v' v) in Some (EVal (rv v), m'))) ->
  (forall p k, gen_lval W (indk a) = Some (p, mop k) -> exists c, (forall pre post, em pre t post (p ++ c)) /\
     forall s m m' v, regs s -> agree m (M s) -> valid sz -> load sz m (maddr W addr k s) = Some v ->
       store sz m (maddr W addr k s) (v' v) = Some m' ->
       exists s', execs c s = Some s' /\ regs s' /\ agree m' (M s') /\ keepm lo top prot s s' /\ ea s' = rv v /\ esp s' = esp s) ->
  good e.
Proof.
  intros G Hwf HFr Hd Hbo HBe Hk HF Hpl Hne Hred Hgen Hw. destruct (Hwf Hw) as [Hv Hwa].
  destruct (lval_ok a Hwa G) as (cl & Hem & Hs).
  assert (Hin : match indk a with OpIndIdent _ | OpIndLocal _ | OpIndAcc => True | _ => False end).
  { unfold indk. destruct (core a); auto. }
  assert (Hfull : full e).
  { assert (Hg : exists p k, gen_lval W (indk a) = Some (p, mop k)).
    { destruct (indk a); try contradiction; [exists [], (KLab id)|exists [], (KLoc ofs)|exists (gen2 W Imov RB RA), KRB]; reflexivity. }
    destruct Hg as (p & k & Hg). destruct (Hgen p k Hg) as (c & Hemc & Hsc). exists (cl ++ p ++ c). split.
    - intros pre post _. rewrite HF. apply em_app; [apply Hem; destruct t; [congruence|exact Hpl]|apply Hemc].
    - intros pc s m Hat HR HA HS Hsp. apply code_at_app in Hat as [Hat1 Hat2].
      rewrite <- HFr in HS. rewrite Hd in Hsp.
      destruct (Hs pc s m Hat1 HR HA (safe_in Fr _ _ HS) Hsp)
        as (x' & m1 & s1 & b & E1 & Hr1 & R1 & A1 & K & Hb & Hacc & _ & ->).
      apply (esteps_in Fr) in E1. rewrite HFr in *. set (ad := laddr (indk a) b) in *.
      pose proof (safe_steps _ _ _ _ E1 HS) as HS1.
      destruct (gen_lval_ok W addr bp top prot (indk a) s1 R1 Hin)
        as (p' & k' & s2 & Hg' & X2 & R2 & Ea2 & EM2 & Es2 & Em2).
      rewrite Hg in Hg'. apply some_inj in Hg'. apply pair_inj in Hg' as [<- Hkk].
      assert (k' = k) as -> .
      { assert (HE : mop k MI = mop k' MI) by now rewrite Hkk. destruct k, k'; cbn in HE; congruence. }
      assert (Had : maddr W addr k s2 = ad).
      { rewrite Em2. unfold ad. pose proof (is_var_kind a) as Hvk. destruct (is_var a).
        - destruct Hvk as [(n & _ & _ & ->)|(n & _ & _ & ->)]; reflexivity.
        - destruct Hvk as (_ & _ & Ek). rewrite Ek in *. cbn. now apply Hacc. }
      destruct (load sz m1 ad) as [v|] eqn:Hld.
      2:{ exfalso. eapply safe_here; [exact HS1|]. rewrite Hred. now rewrite Hld. }
      destruct (store sz m1 ad (v' v)) as [m2|] eqn:Hst.
      2:{ exfalso. eapply safe_here; [exact HS1|]. rewrite Hred, Hld. cbn [obind]. now rewrite Hst. }
      rewrite <- Had in Hld, Hst.
      destruct (Hsc s2 m1 m2 v R2 ltac:(now rewrite EM2) Hv Hld Hst) as (s3 & X3 & R3 & A3 & K3 & Ea3 & Es3).
      exists (rv v), m2, s3. split.
      { eapply esteps_trans; [exact E1|]. apply esteps_red. rewrite Hred, <- Had, Hld. cbn [obind]. now rewrite Hst. }
      split. { eapply runs_app; [exact Hr1|]. apply runs_exec; auto. rewrite execs_app, X2. exact X3. }
      split; auto. split; auto. split.
      { eapply keeps_trans; [exact K|]. apply keepm_keeps.
        - destruct K as [-> _]. unfold space in Hsp. pose proof (depth_nonneg a). destruct HW; nia.
        - congruence.
        - intros x Hx. rewrite K3 by auto. congruence. }
      split; auto. intros; congruence. }
  split; auto. apply full_to_oper; auto.
Qed.

Lemma pre_good i sz a : good a -> good (EPre i sz a).
Proof.
  intros G. eapply (incdec_good _ sz a (FPre i sz) [if i then TInc sz else TDec sz; indk a]
    (fun v => if i then v + 1 else v - 1) (fun v => ExprSpec.conv W sz (if i then v + 1 else v - 1))); auto.
  - destruct i; reflexivity.
  - discriminate.
  - intros p k Hg. exists (gen_incdec W i sz (mop k)). split.
    + intros pre post. destruct i; emstep; rewrite Hg; cbn [obind]; zl; reflexivity.
    + intros s m m' v HR HA Hv Hl Hs. unfold gen_incdec.
      apply (premod_ok W HW addr bp lo top prot Htop _ k sz v (if i then v + 1 else v - 1) m m' s); auto.
      destruct i; [left|right; left]; auto.
Qed.
Lemma post_good i sz a : good a -> good (EPost i sz a).
Proof.
  intros G. eapply (incdec_good _ sz a (FPost i sz) [if i then TPostInc sz else TPostDec sz; indk a]
    (fun v => if i then v + 1 else v - 1) (fun v => v)); auto.
  - destruct i; reflexivity.
  - discriminate.
  - intros p k Hg. exists (gen_postincdec W i sz (mop k)). split.
    + intros pre post. destruct i; emstep; rewrite Hg; cbn [obind]; zl; reflexivity.
    + intros s m m' v HR HA Hv Hl Hs. unfold gen_postincdec.
      apply (postmod_ok W HW addr bp lo top prot Htop _ k sz v (if i then v + 1 else v - 1) m m' s); auto.
      destruct i; [left|right; left]; auto.
Qed.
Lemma postby_good i sz n a : good a -> good (EPostBy i sz n a).
Proof.
  intros G. eapply (incdec_good _ sz a (FPostBy i sz n) [if i then TPostAdd sz else TPostSub sz; indk a; OpNum n]
    (fun v => if i then v + n else v - n) (fun v => v)); auto.
  - destruct i; reflexivity.
  - discriminate.
  - intros p k Hg. exists (gen_postaddsub W i sz n (mop k)). split.
    + intros pre post. destruct i; emstep; rewrite Hg; cbn [obind tval]; zl; reflexivity.
    + intros s m m' v HR HA Hv Hl Hs. unfold gen_postaddsub.
      apply (postmod_ok W HW addr bp lo top prot Htop _ k sz v (if i then v + n else v - n) m m' s); auto.
      apply gen2_modifies; auto.
Qed.

(** ** Unary operators *)
Lemma plus_good x : good x -> good (EUn EPlus x).
Proof.
  intros G [_ Hw]. destruct (G Hw) as [(c & Hem & Hs) (c2 & Hem2 & Hs2)]. split.
  - exists c. split; [exact Hem|]. intros pc s m Hat HR HA HS Hsp.
    destruct (Hs pc s m Hat HR HA (safe_in (FUn EPlus) _ _ HS) Hsp) as (v & m' & s' & E & Hr & R' & A' & K & Ev & _).
    exists v, m', s'. split.
    { eapply esteps_trans; [apply (esteps_in (FUn EPlus)); exact E|]. now apply esteps_red. }
    repeat (split; [assumption|]). discriminate.
  - exists c2. split; [exact Hem2|]. intros pc s m Hat HR HA HS Hsp.
    destruct (Hs2 pc s m Hat HR HA (safe_in (FUn EPlus) _ _ HS) Hsp)
      as (x' & m' & s' & a & E & Hr & R' & A' & K & Ha & H1 & H2 & H3).
    exists (EUn EPlus x'), m', s', a. split; [now apply (esteps_in (FUn EPlus))|].
    change (kind (EUn EPlus x)) with (kind x). change (ksize (EUn EPlus x)) with (ksize x).
    repeat (split; [assumption|]). intros m0. specialize (H3 m0). destruct (rval (kind x) (ksize x) a m0) as [v|].
    + eapply esteps_trans; [apply (esteps_in (FUn EPlus)); exact H3|]. now apply esteps_red.
    + destruct H3 as (x'' & E'' & Hb). exists (EUn EPlus x''). split; [now apply (esteps_in (FUn EPlus))|].
      now apply (bad_in _ _ _ _ (FUn EPlus)).
Qed.
Lemma un_good u x : good x -> good (EUn u x).
Proof.
  intros G. assert (Hu : u = EPlus \/ u <> EPlus) by (destruct u; auto; right; discriminate).
  destruct Hu as [->|Hu]; [now apply plus_good|].
  intros [Hw4 Hw]. destruct (G Hw) as [(c & Hem & Hs) _].
  assert (HF : F (EUn u x) = F x ++ [TUn (tok_un u)] /\ B (EUn u x) = F (EUn u x) /\ kind (EUn u x) = OpAcc /\
               core (EUn u x) = EUn u x).
  { destruct u; try congruence; repeat split. }
  destruct HF as (HF & HB & Hk & Hcore).
  assert (Hfull : full (EUn u x)).
  { assert (Hg : exists c2, gen_step W [TUn (tok_un u)] 0 = Some (c2, 1)).
    { destruct u; try congruence; eexists; reflexivity. }
    destruct Hg as [c2 Hg]. exists (c ++ c2). split.
    - intros pre post _. rewrite HF. apply em_app.
      + apply Hem. apply plain_nextok. reflexivity.
      + apply em1; [discriminate|]. cbn [app]. revert Hg. unfold gen_step. rewrite zg0.
        change (zget [TUn (tok_un u)] 0) with (Some (TUn (tok_un u))). cbn [obind]. zl.
        destruct u; try congruence; cbn [tok_un]; intros Hg; apply some_inj in Hg; apply pair_inj in Hg as [-> _]; reflexivity.
    - intros pc s m Hat HR HA HS Hsp. apply code_at_app in Hat as [Hat1 Hat2].
      destruct (Hs pc s m Hat1 HR HA (safe_in (FUn u) _ _ HS) Hsp) as (v & m' & s' & E & Hr & R' & A' & K & Ev & _).
      destruct (unop_ok W HW addr bp top prot Htop u s' R' Hu Hw4) as (c2' & s2 & Hg' & X & (R2 & Ea & Eb & Es & EM)).
      rewrite Hg in Hg'. apply some_inj in Hg'. apply pair_inj in Hg' as [<- _].
      exists (unop_val W u v), m', s2. split.
      { eapply esteps_trans; [apply (esteps_in (FUn u)); exact E|]. now apply esteps_red. }
      split; [eapply runs_app; [exact Hr|now apply runs_exec]|]. split; auto. rewrite EM. split; auto.
      split; [eapply keeps_trans; [exact K|]; split; [auto|intros; congruence]|]. split; [congruence|].
      intros Hb. destruct u; try discriminate. cbn. destruct (v =? 0); auto. }
  split; auto. apply full_to_oper; auto. cbn. auto.
Qed.

(** ** Two operands *)
Ltac st_simp := unfold MachSpec.regs; cbn [set_ea set_eb set_ec set_ed set_esp set_M set_fl ea eb ec ed esp ebp M fl maddr].

Definition push (kl kr : tok) : list instr := if is_acc kl && is_acc kr then gen1 Ipush RA else [].
Definition sz_push (kl kr : tok) : Z := if is_acc kl && is_acc kr then W else 0.

Lemma push_ok s v m :
  regs s -> agree m (M s) -> lo + W <= esp s <= top -> 0 <= v < P ->
  forall x, X86.rd W addr W x s = Some v ->
  exists s', X86.exec W addr (I1 Ipush x) s = Some s' /\ regs s' /\ agree m (M s') /\ esp s' = esp s - W /\
    ea s' = ea s /\ eb s' = eb s /\ ldn (Z.to_nat W) (M s') (esp s') = v /\
    forall a, esp s <= a < top \/ prot a -> M s' a = M s a.
Proof.
  intros (Ra & Rb & Rc & Rd & Rs & Rbp) HA Hsp Hv x Hrd. cbn [X86.exec]. rewrite Hrd. cbn [obind].
  assert (Eu : uw (esp s - W) = esp s - W) by (apply uw_small; destruct HW; lia). rewrite Eu.
  eexists. split; [reflexivity|]. st_simp. pose proof PB.
  assert (HO : forall a, ~ (esp s - W <= a < esp s) -> stn (Z.to_nat W) (M s) (esp s - W) v a = M s a).
  { intros a Ha. apply (stn_other W HW addr prot); try (destruct HW; lia). }
  split; [repeat split; auto; destruct HW; lia|]. split.
  { intros a b Hb. destruct (HA a b Hb) as (H1 & H2 & H3 & H4). rewrite HO; [auto|]. intros Hx. apply H3. destruct HW; lia. }
  split; auto. split; auto. split; auto. split.
  { rewrite (ldn_stn W HW addr prot) by (destruct HW; lia). apply Z.mod_small.
    rewrite Z2Nat.id by (destruct HW; lia). exact Hv. }
  intros a Ha. apply HO. destruct Ha as [Ha|Ha]; [lia|]. intros Hx. apply (Hprot a Ha). destruct HW; lia.
Qed.

Section Two.
Variables (C : ex -> ex -> ex) (FL FR : ex -> frame).
Hypothesis HFL : forall l r, plug (FL r) l = C l r.
Hypothesis HFR : forall l r, plug (FR l) r = C l r.

Lemma two_ok l r kl kr RL RR cl cr :
  gsem l kl RL cl -> gsem r kr RR cr ->
  forall pc s m, code_at pc (cl ++ push kl kr ++ cr) -> regs s -> agree m (M s) -> safe (C l r) m ->
  space (Z.max (depth l) (1 + depth r)) s ->
  exists l' r' m' s' al ar, esteps (C l r, m) (C l' r', m') /\ runs pc s (cl ++ push kl kr ++ cr) s' /\
    regs s' /\ agree m' (M s') /\ 0 <= al < P /\ 0 <= ar < P /\ RL l' al /\ RR r' ar /\
    (is_acc kr = true -> ea s' = ar) /\ (is_acc kr = false -> is_acc kl = true -> ea s' = al) /\
    (forall x, esp s <= x < top \/ prot x -> M s' x = M s x) /\ esp s' = esp s - sz_push kl kr /\
    (is_acc kl = true -> is_acc kr = true -> ldn (Z.to_nat W) (M s') (esp s') = al).
Proof.
  intros HL HRr pc s m Hat HR HA HS Hsp.
  apply code_at_app in Hat as [Hat1 Hat2]. apply code_at_app in Hat2 as [Hat2 Hat3].
  pose proof (depth_nonneg l) as D1. pose proof (depth_nonneg r) as D2.
  assert (Hsl : space (depth l) s) by (eapply space_le; [|exact Hsp]; lia).
  pose proof HS as HS0. rewrite <- HFL in HS0.
  destruct (HL pc s m Hat1 HR HA (safe_in _ _ _ HS0) Hsl)
    as (l' & m1 & s1 & al & E1 & X1 & R1 & A1 & K1 & Ba & Acc1 & NAcc1 & RL1).
  apply (esteps_in (FL r)) in E1. rewrite !HFL in E1.
  pose proof (safe_steps _ _ _ _ E1 HS) as HS1. rewrite <- HFR in HS1. pose proof (safe_in _ _ _ HS1) as HSr. rewrite HFR in HS1.
  destruct K1 as [Es1 K1].
  assert (Hs2 : exists s2, runs (pc + length cl) s1 (push kl kr) s2 /\ regs s2 /\ agree m1 (M s2) /\ ea s2 = ea s1 /\
     esp s2 = esp s - sz_push kl kr /\ (forall x, esp s <= x < top \/ prot x -> M s2 x = M s1 x) /\
     (is_acc kl = true -> is_acc kr = true -> ldn (Z.to_nat W) (M s2) (esp s2) = al)).
  { unfold push, sz_push in *. destruct (is_acc kl) eqn:Ekl, (is_acc kr) eqn:Ekr; cbn [andb] in *;
      try (exists s1; repeat (split; [first [apply runs_nil|assumption|reflexivity|lia|intros; auto]|]); intros; discriminate).
    specialize (Acc1 eq_refl). destruct R1 as (Ra1 & R1). pose proof (conj Ra1 R1 : regs s1) as R1'.
    destruct (push_ok s1 al m1 R1' A1 ltac:(unfold space in Hsp; destruct HW; nia) Ba RA) as (s2 & X2 & R2 & A2 & Es2 & Ea2 & _ & L2 & K2).
    { cbn [rd]. rewrite Acc1. f_equal. apply (uw_small W). auto. }
    exists s2. split.
    { apply runs_exec; [exact Hat2|]. cbn [gen1 CgMach.execs]. rewrite X2. reflexivity. }
    repeat (split; [first [assumption|lia]|]). split; [|auto]. rewrite <- Es1. exact K2. }
  destruct Hs2 as (s2 & X2 & R2 & A2 & Ea2 & Es2 & K2 & L2).
  assert (Hsr : space (depth r) s2).
  { unfold space, sz_push in *. rewrite Es2. destruct (is_acc kl && is_acc kr); destruct HW; nia. }
  rewrite <- Nat.add_assoc in Hat3.
  destruct (HRr _ s2 m1 Hat3 R2 A2 HSr Hsr)
    as (r' & m3 & s3 & ar & E3 & X3 & R3 & A3 & [Es3 K3] & Bb & Acc3 & NAcc3 & RR3).
  apply (esteps_in (FR l')) in E3. rewrite !HFR in E3.
  exists l', r', m3, s3, al, ar. split; [eapply esteps_trans; eauto|]. split.
  { eapply runs_app; [exact X1|]. eapply runs_app; [exact X2|]. rewrite <- Nat.add_assoc. exact X3. }
  repeat (split; [assumption|]). split.
  { intros Hn Hl. destruct (NAcc3 Hn) as (-> & _). rewrite Ea2. auto. }
  assert (Hle : esp s2 <= esp s) by (rewrite Es2; unfold sz_push; destruct (is_acc kl && is_acc kr); destruct HW; lia).
  split. { intros x Hx. rewrite K3, K2, K1; auto. destruct Hx; [left; lia|auto]. }
  split; [lia|]. intros Hl Hr. rewrite <- (L2 Hl Hr). rewrite Es3.
  apply (ldn_ext W HW addr prot); rewrite ?Z2Nat.id by (destruct HW; lia).
  - destruct R2 as (_ & _ & _ & _ & R2 & _). lia.
  - unfold space in Hsp. unfold sz_push in Es2. rewrite Hl, Hr in Es2. cbn [andb] in Es2. lia.
  - intros x Hx. apply K3. left. unfold space in Hsp. unfold sz_push in Es2. rewrite Hl, Hr in Es2. cbn [andb] in Es2. lia.
Qed.

Lemma operands_val l' r' m' kl szl al kr szr ar :
  safe (C l' r') m' -> res kl szl l' al -> res kr szr r' ar ->
  exists a b, rval kl szl al m' = Some a /\ rval kr szr ar m' = Some b /\
    esteps (C l' r', m') (C (EVal a) (EVal b), m').
Proof.
  intros HS RL RR. specialize (RL m'). specialize (RR m').
  destruct (rval kl szl al m') as [a|].
  2:{ exfalso. destruct RL as (x & E & Hb). apply (esteps_in (FL r')) in E. rewrite !HFL in E.
      apply (safe_steps _ _ _ _ E) in HS. apply (safe_bad _ _ HS). rewrite <- HFL. now constructor. }
  destruct (rval kr szr ar m') as [b|].
  2:{ exfalso. destruct RR as (x & E & Hb). apply (esteps_in (FR l')) in E. rewrite !HFR in E.
      apply (safe_steps _ _ _ _ E) in HS. apply (safe_bad _ _ HS). rewrite <- HFR. now constructor. }
  exists a, b. split; auto. split; auto. eapply esteps_trans.
  - apply (esteps_in (FL r')) in RL. rewrite !HFL in RL. exact RL.
  - apply (esteps_in (FR (EVal a))) in RR. rewrite !HFR in RR. exact RR.
Qed.
Lemma right_val l' r' m' kr szr ar :
  safe (C l' r') m' -> res kr szr r' ar ->
  exists b, rval kr szr ar m' = Some b /\ esteps (C l' r', m') (C l' (EVal b), m').
Proof.
  intros HS RR. specialize (RR m').
  destruct (rval kr szr ar m') as [b|].
  2:{ exfalso. destruct RR as (x & E & Hb). apply (esteps_in (FR l')) in E. rewrite !HFR in E.
      apply (safe_steps _ _ _ _ E) in HS. apply (safe_bad _ _ HS). rewrite <- HFR. now constructor. }
  exists b. split; auto. apply (esteps_in (FR l')) in RR. rewrite !HFR in RR. exact RR.
Qed.
End Two.

Lemma em_fbin pre post bl kl szl br kr szr t cl cr c :
  (forall pre post, plain post = true -> em pre bl post cl) ->
  (forall pre post, plain post = true -> em pre br post cr) ->
  (forall post, plain post = true -> plain (br ++ post) = true) ->
  plain_tok (set_tval t (szv szl szr)) = true ->
  (forall pre, em pre [set_tval t (szv szl szr); stk kl kr; kr] post c) ->
  em pre (fbin bl kl szl br kr szr t) post (cl ++ (push kl kr ++ cr) ++ c).
Proof.
  intros Hl Hr Hbr Hpt Hc. unfold fbin.
  set (ps := if is_acc kl && is_acc kr then [TPushAcc] else []).
  assert (Hps : forall pre post, em pre ps post (push kl kr)).
  { intros p q. unfold ps, push. destruct (is_acc kl && is_acc kr); [|constructor].
    emstep. zl. reflexivity. }
  assert (Hpl : forall q, plain q = true -> plain (ps ++ q) = true).
  { intros q Hq. unfold ps. destruct (is_acc kl && is_acc kr); auto. }
  apply em_app.
  - apply Hl. rewrite <- !app_assoc. apply Hpl. apply Hbr. exact Hpt.
  - rewrite <- app_assoc. apply em_app; [apply Hps|]. apply em_app; [apply Hr; exact Hpt|apply Hc].
Qed.

Lemma szv_l szl szr : valid szl -> valid szr -> szv szl szr / 16 - 8 = szl.
Proof.
  intros H1 H2. apply (valid_cases W HW addr prot) in H1. apply (valid_cases W HW addr prot) in H2. unfold szv. destruct HW; lia.
Qed.
Lemma szv_r szl szr : valid szl -> valid szr -> szv szl szr mod 16 - 8 = szr.
Proof.
  intros H1 H2. apply (valid_cases W HW addr prot) in H1. apply (valid_cases W HW addr prot) in H2. unfold szv. destruct HW; lia.
Qed.
Lemma rval_noacc k sz a a' m : is_acc k = false -> is_stk k = false -> rval k sz a m = rval k sz a' m.
Proof. destruct k; try discriminate; reflexivity. Qed.
Lemma op_stk k : is_op k = true -> is_stk k = false.
Proof. destruct k; try discriminate; reflexivity. Qed.
Lemma kind_op e : is_op (kind e) = true.
Proof.
  unfold kind. destruct (core e); try reflexivity; [destruct uns; reflexivity|]. destruct (core e0); reflexivity.
Qed.
Lemma indk_op e : is_op (indk e) = true.
Proof. unfold indk. destruct (core e); reflexivity. Qed.
Lemma rval_stk kl kr sz a m : rval (stk kl kr) sz a m = rval kl sz a m.
Proof. unfold stk. destruct (is_acc kr); [|reflexivity]. destruct kl; reflexivity. Qed.
Lemma stk_src kl kr : is_op kl = true -> is_src (stk kl kr) = true.
Proof. unfold stk. destruct (is_acc kr); destruct kl; try discriminate; reflexivity. Qed.
Lemma stk_acc kl kr : is_acc (stk kl kr) = true -> is_acc kr = false /\ is_acc kl = true.
Proof. unfold stk. destruct (is_acc kr); auto. destruct kl; try discriminate. Qed.
Lemma stk_stk kl kr : is_op kl = true -> is_stk (stk kl kr) = is_acc kl && is_acc kr.
Proof. unfold stk. destruct (is_acc kr), kl; try discriminate; reflexivity. Qed.

(** Right operand saved, left operand loaded. *)
Lemma bin_load kl kr szl szr al ar m s0 s a b c :
  is_op kl = true -> is_op kr = true -> valid szl -> valid szr ->
  regs s -> agree m (M s) -> 0 <= al < P -> 0 <= ar < P ->
  (is_acc kr = true -> ea s = ar) -> (is_acc kr = false -> is_acc kl = true -> ea s = al) ->
  esp s = esp s0 - sz_push kl kr -> esp s0 <= top ->
  (is_acc kl = true -> is_acc kr = true -> ldn (Z.to_nat W) (M s) (esp s) = al) ->
  rval kl szl al m = Some a -> rval kr szr ar m = Some b ->
  gen_load W (stk kl kr) szl = Some c ->
  exists s', execs (gen_save_right W kr (szv szl szr) ++ c) s = Some s' /\ regs s' /\ ea s' = a /\ M s' = M s /\
    esp s' = esp s0 /\ src_at W addr bp kr szr m s' b /\
    (match kl with OpIndAcc => eb s' = al | _ => True end).
Proof.
  intros Hkl Hkr Vl Vr HR HA Ba Bb Hacc Hacc2 Hesp Ht Hst Ha Hb Hc.
  assert (Hb' : rval kr szr (ea s) m = Some b).
  { destruct (is_acc kr) eqn:E; [now rewrite Hacc|]. rewrite (rval_noacc kr szr (ea s) ar); auto using op_stk. }
  destruct (save_right_ok W HW addr bp lo top prot kr (szv szl szr) szr m s b HR HA Vr (szv_r _ _ Vl Vr) Hb')
    as (s1 & X1 & R1 & Ea1 & Es1 & EM1 & Ec1).
  assert (Hsz : is_stk (stk kl kr) = true -> sz_push kl kr = W).
  { rewrite stk_stk by auto. unfold sz_push. now intros ->. }
  assert (Hns : is_stk (stk kl kr) = false -> sz_push kl kr = 0).
  { rewrite stk_stk by auto. unfold sz_push. now intros ->. }
  destruct (gen_load_ok W HW addr bp lo top prot Htop (stk kl kr) szl al m s1 a R1 ltac:(now rewrite EM1) Vl Ba) as
    (c' & s' & Hc' & X2 & R2 & Ea2 & Ec2 & EM2 & Es2 & Eb2).
  - intros H. apply stk_acc in H as [H1 H2]. rewrite Ea1. auto.
  - intros H. rewrite EM1, Es1. pose proof (Hsz H) as Hw. rewrite stk_stk in H by auto.
    apply andb_true_iff in H as [H1 H2]. split; [auto|]. lia.
  - now rewrite rval_stk.
  - rewrite Hc in Hc'. apply some_inj in Hc'. subst c'. exists s'. split; [rewrite execs_app, X1; exact X2|].
    split; auto. split; auto. split; [congruence|]. split.
    { rewrite Es2, Es1, Hesp. destruct (is_stk (stk kl kr)) eqn:E; [rewrite Hsz by auto|rewrite Hns by auto]; lia. }
    split.
    + split; [auto|]. split.
      * intros E. rewrite Ec2. split; [auto|]. eapply rval_range; eauto.
      * intros E. rewrite (rval_noacc kr szr 0 ar); auto using op_stk.
    + destruct kl; auto. rewrite Eb2. unfold stk. destruct (is_acc kr); reflexivity.
Qed.

Lemma oper_em r : wf r -> forall post, plain post = true -> plain (B r ++ post) = true.
Proof. intros. now apply plain_B. Qed.

Lemma arith_good o l r : good l -> good r -> good (EArith o l r).
Proof.
  intros Gl Gr [Hwl Hwr]. destruct (Gl Hwl) as [_ (cl & El & Sl)]. destruct (Gr Hwr) as [_ (cr & Er & Sr)].
  pose proof (valid_ksize l Hwl) as Vl. pose proof (valid_ksize r Hwr) as Vr.
  assert (Hfull : full (EArith o l r)).
  { destruct (load_total (stk (kind l) (kind r)) (ksize l) (stk_src _ _ (kind_op l))) as [c1 Hc1].
    destruct (arith_total (tok_arith o) (kind r) (ksize r) (kind_op r)) as [c2 Hc2].
    exists (cl ++ (push (kind l) (kind r) ++ cr) ++ ((gen_save_right W (kind r) (szv (ksize l) (ksize r)) ++ c1) ++ c2)). split.
    - intros pre post _.
      change (F (EArith o l r)) with (fbin (B l) (kind l) (ksize l) (B r) (kind r) (ksize r) (TArith (tok_arith o) 0)).
      apply em_fbin; auto using oper_em. cbn [set_tval]. intros p. emstep.
      rewrite (szv_l _ _ Vl Vr), (szv_r _ _ Vl Vr), Hc1. cbn [obind]. rewrite Hc2. cbn [obind]. zl.
      rewrite <- app_assoc. reflexivity.
    - intros pc s m Hat HR HA HS Hsp. rewrite app_assoc in Hat. apply code_at_app in Hat as [Hat1 Hat2].
      destruct (two_ok (EArith o) (FArithL o) (FArithR o) ltac:(reflexivity) ltac:(reflexivity) l r _ _ _ _ cl cr Sl Sr pc s m Hat1 HR HA HS Hsp)
        as (l' & r' & m1 & s1 & al & ar & E1 & X1 & R1 & A1 & Ba & Bb & RL & RR & Acc1 & Acc2 & K1 & Es1 & L1).
      pose proof (safe_steps _ _ _ _ E1 HS) as HS1.
      destruct (operands_val (EArith o) (FArithL o) (FArithR o) ltac:(reflexivity) ltac:(reflexivity) _ _ _ _ _ _ _ _ _ HS1 RL RR)
        as (a & b & Ha & Hb & E2).
      pose proof (safe_steps _ _ _ _ E2 HS1) as HS2.
      destruct (arith_val W o a b) as [v|] eqn:Hval.
      2:{ exfalso. eapply safe_here; [exact HS2|]. cbn. now rewrite Hval. }
      destruct (bin_load _ _ _ _ _ _ m1 s s1 a b c1 (kind_op l) (kind_op r) Vl Vr R1 A1 Ba Bb Acc1 Acc2 Es1 ltac:(apply Hsp) L1 Ha Hb Hc1)
        as (s2 & X2 & R2 & Ea2 & EM2 & Es2 & Src & _).
      rewrite <- Ea2 in Hval.
      destruct (arith_ok W HW addr bp lo top prot Htop o (kind r) (ksize r) m1 s2 b v R2 ltac:(now rewrite EM2) Vr Src Hval)
        as (c2' & s3 & Hc2' & X3 & (R3 & Ea3 & _ & Es3 & EM3)).
      rewrite Hc2 in Hc2'. apply some_inj in Hc2'. subst c2'. rewrite Ea2 in Hval.
      exists v, m1, s3. split.
      { eapply esteps_trans; [exact E1|]. eapply esteps_trans; [exact E2|]. apply esteps_red. cbn. now rewrite Hval. }
      split. { rewrite app_assoc. eapply runs_app; [exact X1|]. apply runs_exec; auto. now rewrite execs_app, X2. }
      split; auto. rewrite EM3, EM2. split; auto. split; [|split; [auto|discriminate]].
      split; [congruence|]. intros x Hx. rewrite EM3, EM2. auto. }
  split; auto. apply full_to_oper; auto. cbn. auto.
Qed.

(** ** Comparisons *)
Definition cmpsem (c : ecmp) (l r : ex) (c0 : list instr) : Prop :=
  forall pc s m, code_at pc c0 -> regs s -> agree m (M s) -> safe (ECmp c l r) m -> space (depth (ECmp c l r)) s ->
  exists a b m' s', esteps (ECmp c l r, m) (ECmp c (EVal a) (EVal b), m') /\ runs pc s c0 s' /\ regs s' /\
    agree m' (M s') /\ keeps s s' /\ 0 <= a < P /\ 0 <= b < P /\ fl s' = Some (a, b).
Lemma cmp_core c l r : good l -> good r -> wf (ECmp c l r) ->
  exists c0, (forall pre post, em pre (F (ECmp c l r)) post (c0 ++ gen_cmp_tail W (tok_cmp c) (hd_error post))) /\
    cmpsem c l r c0.
Proof.
  intros Gl Gr [Hwl Hwr]. destruct (Gl Hwl) as [_ (cl & El & Sl)]. destruct (Gr Hwr) as [_ (cr & Er & Sr)].
  pose proof (valid_ksize l Hwl) as Vl. pose proof (valid_ksize r Hwr) as Vr.
  destruct (load_total (stk (kind l) (kind r)) (ksize l) (stk_src _ _ (kind_op l))) as [c1 Hc1].
  destruct (op2_total Icmp (kind r) (ksize r) (kind_op r)) as [c2 Hc2].
  exists (cl ++ (push (kind l) (kind r) ++ cr) ++ ((gen_save_right W (kind r) (szv (ksize l) (ksize r)) ++ c1) ++ c2)). split.
  - intros pre post.
    change (F (ECmp c l r)) with (fbin (B l) (kind l) (ksize l) (B r) (kind r) (ksize r) (TCmp (tok_cmp c) 0)).
    rewrite <- !app_assoc. rewrite (app_assoc (push _ _) cr).
    apply em_fbin; auto using oper_em. cbn [set_tval]. intros p. emstep.
    rewrite (szv_l _ _ Vl Vr), (szv_r _ _ Vl Vr), Hc1. cbn [obind]. rewrite Hc2. cbn [obind]. zl.
    reflexivity.
  - intros pc s m Hat HR HA HS Hsp. rewrite app_assoc in Hat. apply code_at_app in Hat as [Hat1 Hat2].
    destruct (two_ok (ECmp c) (FCmpL c) (FCmpR c) ltac:(reflexivity) ltac:(reflexivity) l r _ _ _ _ cl cr Sl Sr pc s m Hat1 HR HA HS Hsp)
      as (l' & r' & m1 & s1 & al & ar & E1 & X1 & R1 & A1 & Ba & Bb & RL & RR & Acc1 & Acc2 & K1 & Es1 & L1).
    pose proof (safe_steps _ _ _ _ E1 HS) as HS1.
    destruct (operands_val (ECmp c) (FCmpL c) (FCmpR c) ltac:(reflexivity) ltac:(reflexivity) _ _ _ _ _ _ _ _ _ HS1 RL RR)
      as (a & b & Ha & Hb & E2).
    destruct (bin_load _ _ _ _ _ _ m1 s s1 a b c1 (kind_op l) (kind_op r) Vl Vr R1 A1 Ba Bb Acc1 Acc2 Es1 ltac:(apply Hsp) L1 Ha Hb Hc1)
      as (s2 & X2 & R2 & Ea2 & EM2 & Es2 & Src & _).
    destruct (cmp_ok W HW addr bp lo top prot Htop (kind r) (ksize r) m1 s2 b R2 ltac:(now rewrite EM2) Vr Src)
      as (c2' & s3 & Hc2' & X3 & (R3 & Ea3 & _ & Es3 & EM3) & Fl & Bb').
    rewrite Hc2 in Hc2'. apply some_inj in Hc2'. subst c2'. rewrite Ea2 in Fl.
    exists a, b, m1, s3. split; [eapply esteps_trans; [exact E1|exact E2]|].
    split. { rewrite app_assoc. eapply runs_app; [exact X1|]. apply runs_exec; auto. now rewrite execs_app, X2. }
    split; auto. rewrite EM3, EM2. split; auto. split.
    { split; [congruence|]. intros x Hx. rewrite EM3, EM2. auto. }
    split; [rewrite <- Ea2; apply R2|auto].
Qed.

Lemma cmp_good c l r : good l -> good r -> good (ECmp c l r).
Proof.
  intros Gl Gr Hw. destruct (cmp_core c l r Gl Gr Hw) as (c0 & Em & Sem).
  assert (Hfull : full (ECmp c l r)).
  { exists (c0 ++ (gen1 (Isetcc (tok_cmp c)) RAB ++ (if W =? 2 then [I0 Icbw] else gen2 W Imovzx RA RAB))). split.
    - intros pre post Hn. pose proof (Em pre post) as E. unfold CgEmit.nextok in Hn.
      destruct (hd_error post) as [[]|]; try contradiction; exact E.
    - intros pc s m Hat HR HA HS Hsp. apply code_at_app in Hat as [Hat1 Hat2].
      destruct (Sem pc s m Hat1 HR HA HS Hsp) as (a & b & m' & s' & E & X & R' & A' & [K1 K2] & Ba & Bb & Fl).
      exists (if cmp_val W c a b then 1 else 0), m', (set_ea (if cmp_val W c a b then 1 else 0) s').
      pose proof (setcc_ok W HW addr bp top prot Htop (tok_cmp c) s' a b R' Fl) as Hx.
      rewrite condv_cmp in Hx by auto.
      split; [eapply esteps_trans; [exact E|]; apply esteps_red; reflexivity|].
      split; [eapply runs_app; [exact X|]; apply runs_exec; auto|]. pose proof PB.
      destruct R' as (Q1 & Q2 & Q3 & Q4 & Q5 & Q6). st_simp.
      split; [repeat split; auto; destruct (cmp_val W c a b); lia|]. split; auto. split; [split; auto|].
      split; auto. intros _. destruct (cmp_val W c a b); auto. }
  split; auto. apply full_to_oper; auto.
Qed.

(** ** Assignments *)
Lemma indk_mk e : exists k, (forall sz, gen_store W (indk e) sz = gen2 W Imov (mop k MI) (selA W sz) ++ gen_extend W sz) /\
  (forall sz kr, gen_store W (stk (indk e) kr) sz = gen_store W (indk e) sz) /\
  forall s a, ebp s = bp -> (is_acc (indk e) = true -> eb s = a) -> CgMach.maddr W addr k s = laddr (indk e) a.
Proof.
  unfold indk. destruct (core e);
    try (exists KRB; split; [reflexivity|split; [intros; unfold stk; destruct (is_acc kr); reflexivity|cbn; auto]]; fail).
  - exists (KLab id). split; [reflexivity|]. split; [intros; unfold stk; destruct (is_acc kr); reflexivity|]. reflexivity.
  - exists (KLoc ofs). split; [reflexivity|]. split; [intros; unfold stk; destruct (is_acc kr); reflexivity|].
    cbn. intros s a -> _. reflexivity.
Qed.
Lemma em_BL l : wf l -> forall post, plain post = true -> plain (BL l ++ post) = true.
Proof. intros. now apply plain_BL. Qed.
Lemma indk_acc e : is_acc (indk e) = true -> indk e = OpIndAcc.
Proof. unfold indk. destruct (core e); auto; discriminate. Qed.

Lemma assign_good sz l r : good l -> good r -> good (EAssign sz l r).
Proof.
  intros Gl Gr (Vz & Hwl & Hwr). destruct (lval_ok l Hwl Gl) as (cl & El & Sl). destruct (Gr Hwr) as [_ (cr & Er & Sr)].
  pose proof (valid_ksize r Hwr) as Vr. pose proof PB as PP.
  assert (Hfull : full (EAssign sz l r)).
  { destruct (load_total (kind r) (ksize r)) as [c1 Hc1].
    { unfold is_src. now rewrite kind_op. }
    destruct (indk_mk l) as (k & St1 & St2 & Ma).
    set (p1 := match stk (indk l) (kind r) with OpIndAcc => gen2 W Imov RB RA | _ => [] end).
    set (p2 := match stk (indk l) (kind r) with OpIndStack => gen1 Ipop RB | _ => [] end).
    set (p3 := gen2 W Imov (mop k MI) (selA W sz) ++ gen_extend W sz).
    exists (cl ++ (push (indk l) (kind r) ++ cr) ++ ((p1 ++ c1 ++ p2) ++ p3)). split.
    - intros pre post _.
      change (F (EAssign sz l r)) with (fbin (BL l) (indk l) sz (B r) (kind r) (ksize r) (TAssign sz)).
      apply em_fbin; auto using oper_em. cbn [set_tval]. intros p. emstep.
      rewrite (szv_l _ _ Vz Vr), (szv_r _ _ Vz Vr), Hc1. cbn [obind]. rewrite St2, St1. zl.
      rewrite <- !app_assoc. reflexivity.
    - intros pc s m Hat HR HA HS Hsp. rewrite app_assoc in Hat. apply code_at_app in Hat as [Hat1 Hat2].
      destruct (two_ok (EAssign sz) (FAssignL sz) (FAssignR sz) ltac:(reflexivity) ltac:(reflexivity) l r _ _ _ _ cl cr Sl Sr pc s m Hat1 HR HA HS Hsp)
        as (l' & r' & m1 & s1 & al & ar & E1 & X1 & R1 & A1 & Ba & Bb & -> & RR & Acc1 & Acc2 & K1 & Es1 & L1).
      pose proof (safe_steps _ _ _ _ E1 HS) as HS1.
      destruct (right_val (EAssign sz) (FAssignR sz) ltac:(reflexivity) _ _ _ _ _ _ HS1 RR) as (b & Hb & E2).
      pose proof (safe_steps _ _ _ _ E2 HS1) as HS2.
      destruct (store sz m1 (laddr (indk l) al) b) as [m2|] eqn:Hst.
      2:{ exfalso. eapply safe_here; [exact HS2|]. cbn. now rewrite Hst. }
      assert (Hs2 : exists s2, execs (p1 ++ c1 ++ p2) s1 = Some s2 /\ regs s2 /\ ea s2 = b /\ M s2 = M s1 /\ esp s2 = esp s /\
                (is_acc (indk l) = true -> eb s2 = al)).
      { assert (LD : forall s0, regs s0 -> M s0 = M s1 -> ea s0 = ea s1 -> exists s2, execs c1 s0 = Some s2 /\ regs s2 /\ ea s2 = b /\
                   M s2 = M s1 /\ esp s2 = esp s0 /\ (is_acc (kind r) = false -> eb s2 = eb s0)).
        { intros s0 R0 M0 Ea0.
          destruct (gen_load_ok W HW addr bp lo top prot Htop (kind r) (ksize r) ar m1 s0 b R0 ltac:(now rewrite M0) Vr Bb)
            as (c' & s2 & Hc' & X2 & R2 & Ea2 & Ec2 & EM2 & Es2 & Eb2).
          - intros H. rewrite Ea0. auto.
          - intros H. pose proof (op_stk _ (kind_op r)). congruence.
          - exact Hb.
          - rewrite Hc1 in Hc'. apply some_inj in Hc'. subst c'. exists s2. split; auto. split; auto. split; auto.
            split; [congruence|]. rewrite (op_stk _ (kind_op r)) in Es2. split; [lia|].
            intros H. pose proof (kind_op r). destruct (kind r); try discriminate; exact Eb2. }
        unfold sz_push in Es1. destruct (is_acc (indk l)) eqn:Ekl.
        - pose proof (indk_acc l Ekl) as Ek. unfold p1, p2. rewrite Ek. unfold stk. destruct (is_acc (kind r)) eqn:Ekr.
          + destruct (LD s1 R1 eq_refl eq_refl) as (s2 & X2 & R2 & Ea2 & EM2 & Es2 & _).
            cbn [app]. cbn [andb] in Es1. exists (set_esp (esp s) (set_eb al s2)).
            assert (Hle : esp s <= top) by apply Hsp.
            split.
            { rewrite execs_app, X2. cbn [obind gen1 CgMach.execs exec wr]. rewrite EM2, Es2.
              rewrite (L1 eq_refl eq_refl). rewrite (low_W W addr prot) by apply R2.
              rewrite (uw_small W al) by auto. replace (esp s1 + W) with (esp s) by lia. 
              rewrite (uw_small W (esp s)) by apply HR. reflexivity. }
            destruct R2 as (Q1 & Q2 & Q3 & Q4 & Q5 & Q6). destruct HR as (_ & _ & _ & _ & HR & _).
            st_simp. repeat split; auto; lia.
          + cbn [andb] in Es1. specialize (Acc2 eq_refl eq_refl).
            assert (R1' : regs (set_eb al s1)).
            { destruct R1 as (Q1 & Q2 & Q3 & Q4 & Q5 & Q6). st_simp. repeat split; auto; lia. }
            destruct (LD (set_eb al s1) R1' eq_refl eq_refl) as (s2 & X2 & R2 & Ea2 & EM2 & Es2 & Eb2).
            exists s2. split.
            { rewrite execs_app. cbn [gen2 CgMach.execs exec width2 width obind rd wr]. rewrite Acc2.
              rewrite (low_ub W addr prot) by apply R1. rewrite (uw_small W) by auto.
              cbn [obind]. rewrite app_nil_r. exact X2. }
            revert Es2 Eb2. st_simp. intros Es2 Eb2. repeat (split; [first [assumption|lia]|]). intros _. now rewrite Eb2.
        - destruct (LD s1 R1 eq_refl eq_refl) as (s2 & X2 & R2 & Ea2 & EM2 & Es2 & _). exists s2. cbn [andb] in Es1. split.
          { replace p1 with (@nil instr) by (unfold p1, stk; destruct (is_acc (kind r)), (indk l); try discriminate; reflexivity).
            replace p2 with (@nil instr) by (unfold p2, stk; destruct (is_acc (kind r)); destruct (indk l) eqn:Ei; try discriminate; auto;
              unfold indk in Ei; destruct (core l); discriminate).
            cbn [app]. now rewrite app_nil_r. }
          repeat (split; [first [assumption|lia]|]). discriminate. }
      destruct Hs2 as (s2 & X2 & R2 & Ea2 & EM2 & Es2 & Eb2).
      destruct (store_ok W HW addr bp lo top prot k sz m1 m2 s2 b R2 ltac:(now rewrite EM2) Vz) as (s3 & X3 & R3 & A3 & K3 & Ea3 & Eb3 & Ec3 & Es3).
      { rewrite (Ma s2 al); auto. apply R2. }
      { now rewrite Ea2. }
      exists (ExprSpec.conv W sz b), m2, s3. split.
      { eapply esteps_trans; [exact E1|]. eapply esteps_trans; [exact E2|]. apply esteps_red. cbn. now rewrite Hst. }
      split. { rewrite app_assoc. eapply runs_app; [exact X1|]. apply runs_exec; auto. rewrite execs_app, X2. exact X3. }
      split; auto. split; auto. split; [|split; [auto|discriminate]].
      split; [congruence|]. intros x Hx. rewrite K3 by (unfold space in Hsp; destruct Hx; [left; pose proof (depth_nonneg (EAssign sz l r)); destruct HW; nia|auto]).
      rewrite EM2. auto. }
  split; auto. apply full_to_oper; auto. cbn. auto.
Qed.

Lemma assignop_good o sz l r : good l -> good r -> good (EAssignOp o sz l r).
Proof.
  intros Gl Gr (Vz & Hwl & Hwr). destruct (lval_ok l Hwl Gl) as (cl & El & Sl). destruct (Gr Hwr) as [_ (cr & Er & Sr)].
  pose proof (valid_ksize r Hwr) as Vr. pose proof PB as PP.
  assert (Hfull : full (EAssignOp o sz l r)).
  { destruct (load_total (stk (indk l) (kind r)) sz (stk_src _ _ (indk_op l))) as [c1 Hc1].
    destruct (arith_total (tok_arith o) (kind r) (ksize r) (kind_op r)) as [c2 Hc2].
    destruct (indk_mk l) as (k & St1 & St2 & Ma).
    set (p3 := gen2 W Imov (mop k MI) (selA W sz) ++ gen_extend W sz).
    exists (cl ++ (push (indk l) (kind r) ++ cr) ++ (((gen_save_right W (kind r) (szv sz (ksize r)) ++ c1) ++ c2) ++ p3)). split.
    - intros pre post _.
      change (F (EAssignOp o sz l r)) with (fbin (BL l) (indk l) sz (B r) (kind r) (ksize r) (TAssignOp (tok_arith o) sz)).
      apply em_fbin; auto using oper_em. cbn [set_tval]. intros p. emstep.
      rewrite (szv_l _ _ Vz Vr), (szv_r _ _ Vz Vr), Hc1. cbn [obind]. rewrite Hc2. cbn [obind]. rewrite St2, St1. zl.
      rewrite <- !app_assoc. reflexivity.
    - intros pc s m Hat HR HA HS Hsp. rewrite app_assoc in Hat. apply code_at_app in Hat as [Hat1 Hat2].
      destruct (two_ok (EAssignOp o sz) (FAssignOpL o sz) (FAssignOpR o sz) ltac:(reflexivity) ltac:(reflexivity) l r _ _ _ _ cl cr Sl Sr pc s m Hat1 HR HA HS Hsp)
        as (l' & r' & m1 & s1 & al & ar & E1 & X1 & R1 & A1 & Ba & Bb & -> & RR & Acc1 & Acc2 & K1 & Es1 & L1).
      pose proof (safe_steps _ _ _ _ E1 HS) as HS1.
      destruct (right_val (EAssignOp o sz) (FAssignOpR o sz) ltac:(reflexivity) _ _ _ _ _ _ HS1 RR) as (b & Hb & E2).
      pose proof (safe_steps _ _ _ _ E2 HS1) as HS2.
      destruct (load sz m1 (laddr (indk l) al)) as [a|] eqn:Hld.
      2:{ exfalso. eapply safe_here; [exact HS2|]. cbn. now rewrite Hld. }
      destruct (arith_val W o a b) as [v|] eqn:Hval.
      2:{ exfalso. eapply safe_here; [exact HS2|]. cbn. rewrite Hld. cbn. now rewrite Hval. }
      destruct (store sz m1 (laddr (indk l) al) v) as [m2|] eqn:Hst.
      2:{ exfalso. eapply safe_here; [exact HS2|]. cbn. rewrite Hld. cbn. rewrite Hval. cbn. now rewrite Hst. }
      destruct (bin_load _ _ _ _ _ _ m1 s s1 a b c1 (indk_op l) (kind_op r) Vz Vr R1 A1 Ba Bb Acc1 Acc2 Es1 ltac:(apply Hsp) L1
                  ltac:(now rewrite rval_indk) Hb Hc1)
        as (s2 & X2 & R2 & Ea2 & EM2 & Es2 & Src & Eb2).
      rewrite <- Ea2 in Hval.
      destruct (arith_ok W HW addr bp lo top prot Htop o (kind r) (ksize r) m1 s2 b v R2 ltac:(now rewrite EM2) Vr Src Hval)
        as (c2' & s3 & Hc2' & X3 & (R3 & Ea3 & Eb3 & Es3 & EM3)).
      rewrite Hc2 in Hc2'. apply some_inj in Hc2'. subst c2'. rewrite Ea2 in Hval.
      destruct (store_ok W HW addr bp lo top prot k sz m1 m2 s3 v R3 ltac:(now rewrite EM3, EM2) Vz) as (s4 & X4 & R4 & A4 & K4 & Ea4 & Eb4 & Ec4 & Es4).
      { rewrite (Ma s3 al); auto; [apply R3|]. intros H. apply indk_acc in H. rewrite H in Eb2. congruence. }
      { now rewrite Ea3. }
      exists (ExprSpec.conv W sz v), m2, s4. split.
      { eapply esteps_trans; [exact E1|]. eapply esteps_trans; [exact E2|]. apply esteps_red. cbn. rewrite Hld. cbn. rewrite Hval. cbn. now rewrite Hst. }
      split. { rewrite app_assoc. eapply runs_app; [exact X1|]. apply runs_exec; auto. rewrite execs_app, execs_app, X2. cbn [obind]. rewrite X3. exact X4. }
      split; auto. split; auto. split; [|split; [auto|discriminate]].
      split; [congruence|]. intros x Hx. rewrite K4 by (unfold space in Hsp; destruct Hx; [left; pose proof (depth_nonneg (EAssignOp o sz l r)); destruct HW; nia|auto]).
      rewrite EM3, EM2. auto. }
  split; auto. apply full_to_oper; auto. cbn. auto.
Qed.

(** ** Sequencing *)
Lemma comma_good l r : good l -> good r -> good (EComma l r).
Proof.
  intros Gl Gr (Hwl & Hwr). destruct (Gl Hwl) as [(cl & El & Sl) _]. destruct (Gr Hwr) as [(cr & Er & Sr) _].
  assert (Hfull : full (EComma l r)).
  { exists (cl ++ cr ++ []). split.
    - intros pre post _. change (F (EComma l r)) with (F l ++ F r ++ [TComma]).
      apply em_app; [apply El, plain_nextok; rewrite <- app_assoc; now apply plain_F|].
      apply em_app; [apply Er; now apply plain_nextok|]. emstep. zl. reflexivity.
    - rewrite app_nil_r. intros pc s m Hat HR HA HS Hsp. apply code_at_app in Hat as [Hat1 Hat2].
      destruct (Sl pc s m Hat1 HR HA (safe_in (FComma r) _ _ HS) ltac:(eapply space_le; [|exact Hsp]; cbn; lia))
        as (v & m1 & s1 & E1 & X1 & R1 & A1 & K1 & _).
      apply (esteps_in (FComma r)) in E1. cbn [plug] in E1.
      assert (E2 : esteps (EComma l r, m) (r, m1)).
      { eapply esteps_trans; [exact E1|]. now apply esteps_red. }
      destruct (Sr _ s1 m1 Hat2 R1 A1 (safe_steps _ _ _ _ E2 HS) ltac:(eapply space_keeps; [exact K1|]; eapply space_le; [|exact Hsp]; cbn; lia))
        as (v2 & m2 & s2 & E3 & X2 & R2 & A2 & K2 & Ea & _).
      exists v2, m2, s2. split; [eapply esteps_trans; eauto|]. split; [eapply runs_app; eauto|].
      do 2 (split; auto). split; [eapply keeps_trans; eauto|]. split; [auto|discriminate]. }
  split; auto. apply full_to_oper; auto. cbn. auto.
Qed.

(** ** Jumps *)
Lemma set_fl_regs f s : regs s -> regs (set_fl f s).
Proof. intros H. exact H. Qed.
Lemma jz_ok pc s l q : code_at pc (gen_jump_if_zero W l) -> regs s -> find_label l prog = Some q ->
  mstar (pc, s) (if ea s =? 0 then q else (pc + 2)%nat, set_fl (Some (ea s, 0)) s).
Proof.
  intros Hat HR Hf. apply code_at_hd in Hat as [H1 Hat]. apply code_at_hd in Hat as [H2 _]. pose proof PB.
  econstructor.
  { eapply exec_mstep; [exact H1|]. cbn [exec width2 width obind rd]. rewrite Z.eqb_refl, Z.land_diag.
    rewrite (ub_small W) by apply HR. reflexivity. }
  econstructor; [|constructor]. unfold X86.mstep. rewrite H2. cbn [obind set_fl fl condv].
  rewrite (uw_small W (ea s)) by apply HR. rewrite (uw_small W 0) by lia. rewrite Hf.
  destruct (ea s =? 0); [reflexivity|]. cbn. repeat f_equal. lia.
Qed.
Lemma jnz_ok pc s l q : code_at pc (gen_jump_if_not_zero W l) -> regs s -> find_label l prog = Some q ->
  mstar (pc, s) (if ea s =? 0 then (pc + 2)%nat else q, set_fl (Some (ea s, 0)) s).
Proof.
  intros Hat HR Hf. apply code_at_hd in Hat as [H1 Hat]. apply code_at_hd in Hat as [H2 _]. pose proof PB.
  econstructor.
  { eapply exec_mstep; [exact H1|]. cbn [exec width2 width obind rd]. rewrite Z.eqb_refl, Z.land_diag.
    rewrite (ub_small W) by apply HR. reflexivity. }
  econstructor; [|constructor]. unfold X86.mstep. rewrite H2. cbn [obind set_fl fl condv].
  rewrite (uw_small W (ea s)) by apply HR. rewrite (uw_small W 0) by lia. rewrite Hf.
  destruct (ea s =? 0); [|reflexivity]. cbn. repeat f_equal. lia.
Qed.
Lemma lab_pos pc l : code_at pc [Lab l] -> find_label l prog = Some pc.
Proof. intros H. apply code_at_hd in H as [H _]. now apply Huniq. Qed.

Lemma and_good k l r : good l -> good r -> good (EAnd2 k l r).
Proof.
  intros Gl Gr (Hk & Bl & Br & Hwl & Hwr). destruct (Gl Hwl) as [(cl & El & Sl) _]. destruct (Gr Hwr) as [(cr & Er & Sr) _].
  assert (Hfull : full (EAnd2 k l r)).
  { exists (cl ++ gen_jump_if_zero W k ++ cr ++ [Lab k]). split.
    - intros pre post _. change (F (EAnd2 k l r)) with (F l ++ [TShortCirc k] ++ F r ++ [TLogAnd k]).
      apply em_app; [apply El; now apply plain_nextok|]. apply em_app.
      { emstep. destruct (Z.geb_spec k 0); [|lia]. zl. reflexivity. }
      apply em_app; [apply Er; now apply plain_nextok|]. emstep. zl. reflexivity.
    - intros pc s m Hat HR HA HS Hsp. apply code_at_app in Hat as [Hat1 Hat]. apply code_at_app in Hat as [Hat2 Hat].
      apply code_at_app in Hat as [Hat3 Hat4].
      destruct (Sl pc s m Hat1 HR HA (safe_in (FAnd2 k r) _ _ HS) ltac:(eapply space_le; [|exact Hsp]; cbn; lia))
        as (v & m1 & s1 & E1 & X1 & R1 & A1 & K1 & Ea1 & B1).
      apply (esteps_in (FAnd2 k r)) in E1. cbn [plug] in E1.
      pose proof (jz_ok _ s1 k _ Hat2 R1 (lab_pos _ _ Hat4)) as J. rewrite Ea1 in J. specialize (B1 Bl).
      destruct (Z.eqb_spec v 0) as [Ev|Ev].
      + exists 0, m1, (set_fl (Some (v, 0)) s1). split.
        { eapply esteps_trans; [exact E1|]. apply esteps_red. cbn. now rewrite Ev. }
        split. { eapply mstar_trans; [exact X1|]. eapply mstar_trans; [exact J|]. eapply mstar_trans; [apply runs_lab; exact Hat4|].
          cbn [length]. rewrite !app_length. cbn [length]. match goal with |- mstar (?a, _) (?b, _) => replace b with a by lia end. constructor. }
        split; auto. split; auto. split; [exact K1|]. split; [cbn; lia|auto].
      + assert (E2 : esteps (EAnd2 k l r, m) (EUn EBool r, m1)).
        { eapply esteps_trans; [exact E1|]. apply esteps_red. cbn. destruct (Z.eqb_spec v 0); [lia|reflexivity]. }
        pose proof (safe_steps _ _ _ _ E2 HS) as HS2. apply (safe_in (FUn EBool)) in HS2.
        assert (K1' : keeps s (set_fl (Some (v, 0)) s1)) by exact K1.
        destruct (Sr _ (set_fl (Some (v, 0)) s1) m1 Hat3 R1 A1 HS2 ltac:(eapply space_keeps; [exact K1'|]; eapply space_le; [|exact Hsp]; cbn; lia))
          as (v2 & m2 & s2 & E3 & X2 & R2 & A2 & K2 & Ea2 & B2). specialize (B2 Br).
        exists v2, m2, s2. split.
        { eapply esteps_trans; [exact E2|]. eapply esteps_trans; [apply (esteps_in (FUn EBool)); exact E3|].
          apply esteps_red. cbn. destruct B2 as [ -> | -> ]; reflexivity. }
        split. { eapply mstar_trans; [exact X1|]. eapply mstar_trans; [exact J|]. eapply mstar_trans; [exact X2|].
          eapply mstar_trans; [apply runs_lab; exact Hat4|]. rewrite !app_length. cbn [length].
          match goal with |- mstar (?a, _) (?b, _) => replace b with a by lia end. constructor. }
        split; auto. split; auto. split; [eapply keeps_trans; eauto|]. auto. }
  split; auto. apply full_to_oper; auto. cbn. auto.
Qed.

Lemma or_good k l r : good l -> good r -> good (EOr2 k l r).
Proof.
  intros Gl Gr (Hk & Bl & Br & Hwl & Hwr). destruct (Gl Hwl) as [(cl & El & Sl) _]. destruct (Gr Hwr) as [(cr & Er & Sr) _].
  assert (Hfull : full (EOr2 k l r)).
  { exists (cl ++ gen_jump_if_not_zero W k ++ cr ++ [Lab k]). split.
    - intros pre post _. change (F (EOr2 k l r)) with (F l ++ [TShortCirc (- k)] ++ F r ++ [TLogOr k]).
      apply em_app; [apply El; now apply plain_nextok|]. apply em_app.
      { emstep. destruct (Z.geb_spec (- k) 0); [lia|]. rewrite Z.opp_involutive. zl. reflexivity. }
      apply em_app; [apply Er; now apply plain_nextok|]. emstep. zl. reflexivity.
    - intros pc s m Hat HR HA HS Hsp. apply code_at_app in Hat as [Hat1 Hat]. apply code_at_app in Hat as [Hat2 Hat].
      apply code_at_app in Hat as [Hat3 Hat4].
      destruct (Sl pc s m Hat1 HR HA (safe_in (FOr2 k r) _ _ HS) ltac:(eapply space_le; [|exact Hsp]; cbn; lia))
        as (v & m1 & s1 & E1 & X1 & R1 & A1 & K1 & Ea1 & B1).
      apply (esteps_in (FOr2 k r)) in E1. cbn [plug] in E1.
      pose proof (jnz_ok _ s1 k _ Hat2 R1 (lab_pos _ _ Hat4)) as J. rewrite Ea1 in J. specialize (B1 Bl).
      destruct (Z.eqb_spec v 0) as [Ev|Ev].
      2:{ exists 1, m1, (set_fl (Some (v, 0)) s1). split.
        { eapply esteps_trans; [exact E1|]. apply esteps_red. cbn. destruct (Z.eqb_spec v 0); [lia|reflexivity]. }
        split. { eapply mstar_trans; [exact X1|]. eapply mstar_trans; [exact J|]. eapply mstar_trans; [apply runs_lab; exact Hat4|].
          cbn [length]. rewrite !app_length. cbn [length]. match goal with |- mstar (?a, _) (?b, _) => replace b with a by lia end. constructor. }
        split; auto. split; auto. split; [exact K1|]. split; [cbn; lia|auto]. }
      assert (E2 : esteps (EOr2 k l r, m) (EUn EBool r, m1)).
      { eapply esteps_trans; [exact E1|]. apply esteps_red. cbn. now rewrite Ev. }
      pose proof (safe_steps _ _ _ _ E2 HS) as HS2. apply (safe_in (FUn EBool)) in HS2.
      assert (K1' : keeps s (set_fl (Some (v, 0)) s1)) by exact K1.
      destruct (Sr _ (set_fl (Some (v, 0)) s1) m1 Hat3 R1 A1 HS2 ltac:(eapply space_keeps; [exact K1'|]; eapply space_le; [|exact Hsp]; cbn; lia))
        as (v2 & m2 & s2 & E3 & X2 & R2 & A2 & K2 & Ea2 & B2). specialize (B2 Br).
      exists v2, m2, s2. split.
      { eapply esteps_trans; [exact E2|]. eapply esteps_trans; [apply (esteps_in (FUn EBool)); exact E3|].
        apply esteps_red. cbn. destruct B2 as [ -> | -> ]; reflexivity. }
      split. { eapply mstar_trans; [exact X1|]. eapply mstar_trans; [exact J|]. eapply mstar_trans; [exact X2|].
        eapply mstar_trans; [apply runs_lab; exact Hat4|]. rewrite !app_length. cbn [length].
        match goal with |- mstar (?a, _) (?b, _) => replace b with a by lia end. constructor. }
      split; auto. split; auto. split; [eapply keeps_trans; eauto|]. auto. }
  split; auto. apply full_to_oper; auto. cbn. auto.
Qed.

Lemma cond_good k c t f : good c -> good t -> good f -> good (ECond k c t f).
Proof.
  intros Gc Gt Gf (Hk & Hwc & Hwt & Hwf). destruct (Gc Hwc) as [(cc & Ec & Sc) _].
  destruct (Gt Hwt) as [(ct & Et & St) _]. destruct (Gf Hwf) as [(cf & Ef & Sf) _].
  assert (Hfull : full (ECond k c t f)).
  { exists (cc ++ gen_jump_if_not_zero W k ++ cf ++ gen_jump (k + 1) ++ [Lab k] ++ ct ++ [Lab (k + 1)]). split.
    - intros pre post _.
      change (F (ECond k c t f)) with (F c ++ [TShortCirc (- k)] ++ F f ++ [TGoto (k + 1)] ++ [TLogAnd k] ++ F t ++ [TLogAnd (k + 1)]).
      apply em_app; [apply Ec; now apply plain_nextok|]. apply em_app.
      { emstep. destruct (Z.geb_spec (- k) 0); [lia|]. rewrite Z.opp_involutive. zl. reflexivity. }
      apply em_app; [apply Ef; now apply plain_nextok|].
      apply em_app. { emstep. zl. reflexivity. } apply em_app. { emstep. zl. reflexivity. }
      apply em_app; [apply Et; now apply plain_nextok|]. emstep. zl. reflexivity.
    - intros pc s m Hat HR HA HS Hsp. apply code_at_app in Hat as [Hat1 Hat]. apply code_at_app in Hat as [Hat2 Hat].
      apply code_at_app in Hat as [Hat3 Hat]. apply code_at_app in Hat as [Hat4 Hat]. apply code_at_app in Hat as [Hat5 Hat].
      apply code_at_app in Hat as [Hat6 Hat7].
      destruct (Sc pc s m Hat1 HR HA (safe_in (FCond k t f) _ _ HS) ltac:(eapply space_le; [|exact Hsp]; cbn; lia))
        as (v & m1 & s1 & E1 & X1 & R1 & A1 & K1 & Ea1 & _).
      apply (esteps_in (FCond k t f)) in E1. cbn [plug] in E1.
      pose proof (jnz_ok _ s1 k _ Hat2 R1 (lab_pos _ _ Hat5)) as J. rewrite Ea1 in J.
      assert (K1' : keeps s (set_fl (Some (v, 0)) s1)) by exact K1.
      destruct (Z.eqb_spec v 0) as [Ev|Ev].
      + assert (E2 : esteps (ECond k c t f, m) (f, m1)).
        { eapply esteps_trans; [exact E1|]. apply esteps_red. cbn. now rewrite Ev. }
        destruct (Sf _ (set_fl (Some (v, 0)) s1) m1 Hat3 R1 A1 (safe_steps _ _ _ _ E2 HS) ltac:(eapply space_keeps; [exact K1'|]; eapply space_le; [|exact Hsp]; cbn; lia))
          as (v2 & m2 & s2 & E3 & X2 & R2 & A2 & K2 & Ea2 & _).
        exists v2, m2, s2. split; [eapply esteps_trans; eauto|]. split.
        { eapply mstar_trans; [exact X1|]. eapply mstar_trans; [exact J|]. eapply mstar_trans; [exact X2|].
          econstructor. { unfold X86.mstep. apply code_at_hd in Hat4 as [Hj _]. rewrite Hj. cbn [obind].
            rewrite (lab_pos _ _ Hat7). reflexivity. }
          eapply mstar_trans; [apply runs_lab; exact Hat7|]. rewrite !app_length. cbn [length].
          match goal with |- mstar (?a, _) (?b, _) => replace b with a by lia end. constructor. }
        split; auto. split; auto. split; [eapply keeps_trans; eauto|]. split; [auto|discriminate].
      + assert (E2 : esteps (ECond k c t f, m) (t, m1)).
        { eapply esteps_trans; [exact E1|]. apply esteps_red. cbn. destruct (Z.eqb_spec v 0); [lia|reflexivity]. }
        destruct (St _ (set_fl (Some (v, 0)) s1) m1 Hat6 R1 A1 (safe_steps _ _ _ _ E2 HS) ltac:(eapply space_keeps; [exact K1'|]; eapply space_le; [|exact Hsp]; cbn; lia))
          as (v2 & m2 & s2 & E3 & X2 & R2 & A2 & K2 & Ea2 & _).
        exists v2, m2, s2. split; [eapply esteps_trans; eauto|]. split.
        { eapply mstar_trans; [exact X1|]. eapply mstar_trans; [exact J|].
          eapply mstar_trans; [apply runs_lab; exact Hat5|]. eapply mstar_trans; [exact X2|].
          eapply mstar_trans; [apply runs_lab; exact Hat7|]. rewrite !app_length. cbn [length].
          match goal with |- mstar (?a, _) (?b, _) => replace b with a by lia end. constructor. }
        split; auto. split; auto. split; [eapply keeps_trans; eauto|]. split; [auto|discriminate]. }
  split; auto. apply full_to_oper; auto. cbn. auto.
Qed.

(** ** Calls *)
Definition special (e : ex) : bool :=
  match core e with ENum _ _ | EIdent _ => true | EDeref sz _ => sz =? W | _ => false end.
Definition ordinary (t : tok) : bool :=
  match t with TNum _ | TNumU _ | TIdent _ | TStar _ => false | _ => true end.
Lemma op_ordinary k : is_op k = true -> ordinary k = true.
Proof. destruct k; try discriminate; reflexivity. Qed.
Lemma is_var_ordinary a : ordinary (match is_var a with Some k => k | None => OpAcc end) = true.
Proof. unfold is_var. destruct (core a); reflexivity. Qed.

(** The last token of a fused expression, and the one before it. *)
Lemma F_end e : wf e -> exists u b, F e = u ++ [b] /\
  (ordinary b = true \/ u = [] /\ match core e with ENum _ _ => True | EIdent n => b = TIdent n | _ => False end).
Proof.
  intros Hw. apply wf_core in Hw. pose proof (core_notplus e) as Hp. rewrite F_core.
  destruct (core e) eqn:Ec; try contradiction.
  - exists [], (if uns then TNumU n else TNum n). split; [destruct uns; reflexivity|]. auto.
  - exists [], (TIdent id). split; [reflexivity|]. auto.
  - exists [], (TLocal ofs). split; [reflexivity|]. auto.
  - rewrite F_EDeref. exists (BL e0 ++ [TStar sz]). eexists. split; [rewrite <- app_assoc; reflexivity|]. left. apply is_var_ordinary.
  - exists (BL e0 ++ [if inc then TInc sz else TDec sz]), (indk e0).
    split; [rewrite <- app_assoc; reflexivity|]. left. apply op_ordinary, indk_op.
  - exists (BL e0 ++ [if inc then TPostInc sz else TPostDec sz]), (indk e0).
    split; [rewrite <- app_assoc; reflexivity|]. left. apply op_ordinary, indk_op.
  - exists (BL e0 ++ [if add then TPostAdd sz else TPostSub sz; indk e0]), (OpNum n).
    split; [rewrite <- app_assoc; reflexivity|]. left. reflexivity.
  - exists (F e0), (TUn (tok_un u)). split; [destruct u; try reflexivity; now elim (Hp e0)|]. left. reflexivity.
  - eexists (B e0_1 ++ (if is_acc (kind e0_1) && is_acc (kind e0_2) then [TPushAcc] else []) ++ B e0_2 ++ [_; _]), (kind e0_2).
    split; [change (F (EArith o e0_1 e0_2)) with (fbin (B e0_1) (kind e0_1) (ksize e0_1) (B e0_2) (kind e0_2) (ksize e0_2) (TArith (tok_arith o) 0)); unfold fbin; rewrite <- !app_assoc; reflexivity|].
    left. apply op_ordinary, kind_op.
  - eexists (B e0_1 ++ (if is_acc (kind e0_1) && is_acc (kind e0_2) then [TPushAcc] else []) ++ B e0_2 ++ [_; _]), (kind e0_2).
    split; [change (F (ECmp c e0_1 e0_2)) with (fbin (B e0_1) (kind e0_1) (ksize e0_1) (B e0_2) (kind e0_2) (ksize e0_2) (TCmp (tok_cmp c) 0)); unfold fbin; rewrite <- !app_assoc; reflexivity|].
    left. apply op_ordinary, kind_op.
  - eexists (BL e0_1 ++ (if is_acc (indk e0_1) && is_acc (kind e0_2) then [TPushAcc] else []) ++ B e0_2 ++ [_; _]), (kind e0_2).
    split; [change (F (EAssign sz e0_1 e0_2)) with (fbin (BL e0_1) (indk e0_1) sz (B e0_2) (kind e0_2) (ksize e0_2) (TAssign sz)); unfold fbin; rewrite <- !app_assoc; reflexivity|].
    left. apply op_ordinary, kind_op.
  - eexists (BL e0_1 ++ (if is_acc (indk e0_1) && is_acc (kind e0_2) then [TPushAcc] else []) ++ B e0_2 ++ [_; _]), (kind e0_2).
    split; [change (F (EAssignOp o sz e0_1 e0_2)) with (fbin (BL e0_1) (indk e0_1) sz (B e0_2) (kind e0_2) (ksize e0_2) (TAssignOp (tok_arith o) sz)); unfold fbin; rewrite <- !app_assoc; reflexivity|].
    left. apply op_ordinary, kind_op.
  - exists (F e0_1 ++ F e0_2), TComma. split; [rewrite <- app_assoc; reflexivity|auto].
  - exists (F e0_1 ++ TShortCirc lab :: F e0_2), (TLogAnd lab). split; [rewrite <- app_assoc; reflexivity|auto].
  - exists (F e0_1 ++ TShortCirc (- lab) :: F e0_2), (TLogOr lab). split; [rewrite <- app_assoc; reflexivity|auto].
  - exists (F e0_1 ++ TShortCirc (- lab) :: F e0_3 ++ TGoto (lab + 1) :: TLogAnd lab :: F e0_2), (TLogAnd (lab + 1)).
    split; [rewrite <- !app_assoc; cbn [app]; rewrite <- !app_assoc; reflexivity|auto].
  - exists (TLParen (W * zlen args) :: F_args W args ++ F e0), (TRParen (W * zlen args)).
    split; [cbn [app]; rewrite <- !app_assoc; reflexivity|auto].
Qed.

Definition notstar (t : tok) : Prop := forall sz, t <> TStar sz.
Lemma F_end_notstar e : wf e -> exists u b, F e = u ++ [b] /\ notstar b.
Proof.
  intros Hw. destruct (F_end e Hw) as (u & b & E & [Hb|[-> Hb]]); exists u, b + exists [], b; split; auto; intros sz ->; try discriminate.
  destruct (core e) eqn:Ec; try contradiction; try discriminate. rewrite F_core, Ec in E. destruct uns; discriminate.
Qed.

Lemma F_tail e : wf e -> special e = false -> exists u b, F e = u ++ [b] /\ ordinary b = true /\
  (u = [] \/ exists u' c, u = u' ++ [c] /\ forall sz, c = TStar sz -> sz <> W).
Proof.
  intros Hw Hs. unfold special in Hs. apply wf_core in Hw. pose proof (core_notplus e) as Hp. rewrite F_core.
  assert (L : forall x v t, wf x -> ordinary t = true ->
     exists u b, (v ++ F x) ++ [t] = u ++ [b] /\ ordinary b = true /\
      (u = [] \/ exists u' c, u = u' ++ [c] /\ forall sz, c = TStar sz -> sz <> W)).
  { intros x v t Hx Ht. destruct (F_end_notstar x Hx) as (u & b & E & Hb). exists (v ++ F x), t. split; auto. split; auto. right.
    exists (v ++ u), b. split; [rewrite E; now rewrite app_assoc|]. intros sz ->. now elim (Hb sz). }
  destruct (core e) eqn:Ec; try contradiction; try discriminate.
  - exists [], (TLocal ofs). auto.
  - rewrite F_EDeref. eexists (BL e0 ++ [TStar sz]), _. split; [rewrite <- app_assoc; reflexivity|].
    split; [apply is_var_ordinary|]. right. eexists _, _. split; [reflexivity|]. intros sz' E. injection E as <-. lia.
  - exists (BL e0 ++ [if inc then TInc sz else TDec sz]), (indk e0).
    split; [rewrite <- app_assoc; reflexivity|]. split; [apply op_ordinary, indk_op|]. right. eexists _, _.
    split; [reflexivity|]. intros sz'. destruct inc; discriminate.
  - exists (BL e0 ++ [if inc then TPostInc sz else TPostDec sz]), (indk e0).
    split; [rewrite <- app_assoc; reflexivity|]. split; [apply op_ordinary, indk_op|]. right. eexists _, _.
    split; [reflexivity|]. intros sz'. destruct inc; discriminate.
  - exists (BL e0 ++ [if add then TPostAdd sz else TPostSub sz; indk e0]), (OpNum n).
    split; [rewrite <- app_assoc; reflexivity|]. split; [reflexivity|]. right.
    exists (BL e0 ++ [if add then TPostAdd sz else TPostSub sz]), (indk e0). split; [rewrite <- app_assoc; reflexivity|].
    intros sz' E. pose proof (indk_op e0) as Ho. rewrite E in Ho. discriminate.
  - assert (E : F (EUn u e0) = ([] ++ F e0) ++ [TUn (tok_un u)]) by (destruct u; try reflexivity; now elim (Hp e0)).
    rewrite E. apply L; [apply Hw|reflexivity].
  - change (F (EArith o e0_1 e0_2)) with (fbin (B e0_1) (kind e0_1) (ksize e0_1) (B e0_2) (kind e0_2) (ksize e0_2) (TArith (tok_arith o) 0)). unfold fbin.
    match goal with |- context [?x ++ ?y ++ ?z ++ [?t1; ?t2; ?t3]] => exists (x ++ y ++ z ++ [t1; t2]), t3 end.
    split; [rewrite <- !app_assoc; reflexivity|]. split; [apply op_ordinary, kind_op|]. right.
    match goal with |- context [?x ++ ?y ++ ?z ++ [?t1; ?t2]] => exists (x ++ y ++ z ++ [t1]), t2 end.
    split; [rewrite <- !app_assoc; reflexivity|]. intros sz' E. pose proof (stk_src (kind e0_1) (kind e0_2) (kind_op _)) as Ho. rewrite E in Ho. discriminate.
  - change (F (ECmp c e0_1 e0_2)) with (fbin (B e0_1) (kind e0_1) (ksize e0_1) (B e0_2) (kind e0_2) (ksize e0_2) (TCmp (tok_cmp c) 0)). unfold fbin.
    match goal with |- context [?x ++ ?y ++ ?z ++ [?t1; ?t2; ?t3]] => exists (x ++ y ++ z ++ [t1; t2]), t3 end.
    split; [rewrite <- !app_assoc; reflexivity|]. split; [apply op_ordinary, kind_op|]. right.
    match goal with |- context [?x ++ ?y ++ ?z ++ [?t1; ?t2]] => exists (x ++ y ++ z ++ [t1]), t2 end.
    split; [rewrite <- !app_assoc; reflexivity|]. intros sz' E. pose proof (stk_src (kind e0_1) (kind e0_2) (kind_op _)) as Ho. rewrite E in Ho. discriminate.
  - change (F (EAssign sz e0_1 e0_2)) with (fbin (BL e0_1) (indk e0_1) sz (B e0_2) (kind e0_2) (ksize e0_2) (TAssign sz)). unfold fbin.
    match goal with |- context [?x ++ ?y ++ ?z ++ [?t1; ?t2; ?t3]] => exists (x ++ y ++ z ++ [t1; t2]), t3 end.
    split; [rewrite <- !app_assoc; reflexivity|]. split; [apply op_ordinary, kind_op|]. right.
    match goal with |- context [?x ++ ?y ++ ?z ++ [?t1; ?t2]] => exists (x ++ y ++ z ++ [t1]), t2 end.
    split; [rewrite <- !app_assoc; reflexivity|]. intros sz' E. pose proof (stk_src (indk e0_1) (kind e0_2) (indk_op _)) as Ho. rewrite E in Ho. discriminate.
  - change (F (EAssignOp o sz e0_1 e0_2)) with (fbin (BL e0_1) (indk e0_1) sz (B e0_2) (kind e0_2) (ksize e0_2) (TAssignOp (tok_arith o) sz)). unfold fbin.
    match goal with |- context [?x ++ ?y ++ ?z ++ [?t1; ?t2; ?t3]] => exists (x ++ y ++ z ++ [t1; t2]), t3 end.
    split; [rewrite <- !app_assoc; reflexivity|]. split; [apply op_ordinary, kind_op|]. right.
    match goal with |- context [?x ++ ?y ++ ?z ++ [?t1; ?t2]] => exists (x ++ y ++ z ++ [t1]), t2 end.
    split; [rewrite <- !app_assoc; reflexivity|]. intros sz' E. pose proof (stk_src (indk e0_1) (kind e0_2) (indk_op _)) as Ho. rewrite E in Ho. discriminate.
  - change (F (EComma e0_1 e0_2)) with (F e0_1 ++ F e0_2 ++ [TComma]). rewrite app_assoc. apply L; [apply Hw|reflexivity].
  - change (F (EAnd2 lab e0_1 e0_2)) with (F e0_1 ++ [TShortCirc lab] ++ F e0_2 ++ [TLogAnd lab]). rewrite !app_assoc. apply L; [apply Hw|reflexivity].
  - change (F (EOr2 lab e0_1 e0_2)) with (F e0_1 ++ [TShortCirc (- lab)] ++ F e0_2 ++ [TLogOr lab]). rewrite !app_assoc. apply L; [apply Hw|reflexivity].
  - change (F (ECond lab e0_1 e0_2 e0_3)) with (F e0_1 ++ [TShortCirc (- lab)] ++ F e0_3 ++ [TGoto (lab + 1)] ++ [TLogAnd lab] ++ F e0_2 ++ [TLogAnd (lab + 1)]).
    rewrite !app_assoc. apply L; [apply Hw|reflexivity].
  - change (F (ECall e0 args)) with ([TLParen (W * zlen args)] ++ F_args W args ++ F e0 ++ [TRParen (W * zlen args)]).
    rewrite !app_assoc. apply L; [apply Hw|reflexivity].
Qed.

(** An argument computed and pushed. *)
Definition endok (pre : stack) : Prop := exists p t, pre = p ++ [t] /\ notstar t.
Definition argsem (e : ex) (c : list instr) : Prop :=
  forall pc s m, code_at pc c -> regs s -> agree m (M s) -> safe e m -> space (1 + depth e) s ->
  exists v m' s', esteps (e, m) (EVal v, m') /\ runs pc s c s' /\ regs s' /\ agree m' (M s') /\
    esp s' = esp s - W /\ ldn (Z.to_nat W) (M s') (esp s') = v /\
    (forall x, esp s <= x < top \/ prot x -> M s' x = M s x).

Lemma sep_step u b post c :
  (match b with
   | TNum v | TNumU v => c = gen1 Ipush (XC v) | TIdent v => c = gen1 Ipush (XLab v) | _ => c = gen1 Ipush RA end) ->
  (exists p t, u = p ++ [t] /\ forall sz, t = TStar sz -> sz <> W) ->
  em (u ++ [b]) [TArgSep] post c.
Proof.
  intros Hb (p & t & -> & Ht). apply em1; [discriminate|]. cbn [app]. unfold gen_step. rewrite zg0. cbn [obind].
  rewrite zgm1. cbn [obind].
  replace ((p ++ [t]) ++ [b]) with (p ++ [t; b]) by (rewrite <- app_assoc; reflexivity).
  rewrite zgm2. replace (zlen [TArgSep]) with 1 by reflexivity.
  destruct t; try (destruct b; subst c; reflexivity).
  destruct (Z.eqb_spec sz W) as [E|_]; [now elim (Ht sz eq_refl)|]. destruct b; subst c; reflexivity.
Qed.

Lemma run_push pc s m v x e :
  0 <= depth e -> code_at pc (gen1 Ipush x) -> regs s -> agree m (M s) -> space (1 + depth e) s -> 0 <= v < P ->
  X86.rd W addr W x s = Some v ->
  exists s', runs pc s (gen1 Ipush x) s' /\ regs s' /\ agree m (M s') /\ esp s' = esp s - W /\
    ldn (Z.to_nat W) (M s') (esp s') = v /\ (forall a, esp s <= a < top \/ prot a -> M s' a = M s a).
Proof.
  intros Hd Hat HR HA Hsp Hv Hrd.
  destruct (push_ok s v m HR HA ltac:(unfold space in Hsp; destruct HW; nia) Hv x Hrd) as (s2 & X2 & R2 & A2 & Es2 & Ea2 & _ & L2 & K2).
  exists s2. split; [apply runs_exec; [exact Hat|]; cbn [gen1 CgMach.execs]; rewrite X2; reflexivity|]. auto 10.
Qed.

Lemma arg_ok a : wf a -> good a ->
  exists c, (forall pre post, endok pre -> em pre (F a ++ [TArgSep]) post c) /\ argsem a c.
Proof.
  intros Hw G. destruct (G Hw) as [(cf & Ef & Sf) (co & Eo & So)].
  pose proof (depth_nonneg a) as Hd0. pose proof PB as PP.
  destruct (special a) eqn:Hsp.
  - unfold special in Hsp.
    assert (RV : forall pc s m, code_at pc co -> regs s -> agree m (M s) -> safe a m -> space (1 + depth a) s ->
      exists b v m' s', esteps (a, m) (EVal v, m') /\ runs pc s co s' /\ regs s' /\ agree m' (M s') /\ keeps s s' /\
        (is_acc (kind a) = true -> ea s' = b) /\ 0 <= b < P /\ (is_acc (kind a) = false -> co = []) /\
        rval (kind a) (ksize a) b m' = Some v /\ 0 <= v < P).
    { intros pc s m Hat HR HA HS Hs.
      destruct (So pc s m Hat HR HA HS ltac:(eapply space_le; [|exact Hs]; lia))
        as (x' & m' & s' & b & E & X & R' & A' & K & Bb & Acc & NAcc & RS).
      pose proof (safe_steps _ _ _ _ E HS) as HS'. pose proof (RS m') as RS'.
      destruct (rval (kind a) (ksize a) b m') as [v|] eqn:Hv.
      2:{ exfalso. destruct RS' as (x'' & E2 & Hb). eapply safe_bad; [|exact Hb]. eapply safe_steps; eauto. }
      exists b, v, m', s'. split; [eapply esteps_trans; eauto|]. split; auto. split; auto. split; auto. split; auto.
      split; auto. split; auto. split; [intros; now apply NAcc|]. split; auto.
      eapply (rval_range W HW addr bp lo top prot); eauto. now apply valid_ksize. }
    assert (FN : forall t, F a = [t] -> (forall pre post, gen_step W (pre ++ t :: TArgSep :: post) (zlen pre) = Some ([], zlen pre + 1)) ->
        forall c, (match t with TNum v | TNumU v => c = gen1 Ipush (XC v) | TIdent v => c = gen1 Ipush (XLab v) | _ => c = gen1 Ipush RA end) ->
        forall pre post, endok pre -> em pre (F a ++ [TArgSep]) post c).
    { intros t Et Hg c Hc pre post (p & t' & -> & Ht'). rewrite Et. change c with ([] ++ c). apply em_app.
      - apply em1; [discriminate|]. cbn [app]. rewrite Hg. reflexivity.
      - apply sep_step; auto. exists p, t'. split; auto. intros sz ->. now elim (Ht' sz). }
    pose proof (F_core W a) as FC. pose proof (B_core W a) as BC.
    unfold kind, CgTree.ksize in *.
    destruct (core a) eqn:Ec; try discriminate.
    + exists (gen1 Ipush (XC n)). split.
      * intros pre post He. apply (FN (if uns then TNumU n else TNum n)); [| | |exact He].
        { rewrite FC. destruct uns; reflexivity. }
        { intros. destruct uns; unfold gen_step; rewrite zg0; cbn [obind]; rewrite zn1; reflexivity. }
        { destruct uns; reflexivity. } 
      * intros pc s m Hat HR HA HS Hs.
        assert (Eco : co = []).
        { specialize (Eo [] [] eq_refl). rewrite BC in Eo. inversion Eo; auto. destruct mid1; [congruence|discriminate]. }
        subst co.
        destruct (RV pc s m ltac:(intros i x Hi; destruct i; discriminate) HR HA HS Hs) as (b & v & m' & s' & E & X & R' & A' & K & Acc & Bb & NA & Hv & Bv).
        assert (Hv' : word n = v) by (destruct uns; cbn in Hv; congruence).
        pose proof (space_keeps _ _ _ K Hs) as Hs'.
        destruct (run_push pc s' m' v (XC n) a Hd0 Hat R' A' Hs' Bv) as (s2 & X2 & R2 & A2 & Es2 & L2 & K2).
        { cbn [rd]. f_equal. exact Hv'. }
        exists v, m', s2. split; auto. split; [eapply (runs_app _ _ [] _ _ _ X); cbn [length]; rewrite Nat.add_0_r; exact X2|].
        destruct K as [K0 K1]. rewrite <- K0. do 4 (split; auto). intros x Hx. rewrite K2 by auto. apply K1. now rewrite <- K0.
    + exists (gen1 Ipush (XLab id)). split.
      * intros pre post He. apply (FN (TIdent id)); [exact FC| | |exact He].
        { intros. unfold gen_step; rewrite zg0; cbn [obind]; rewrite zn1; reflexivity. }
        { reflexivity. }
      * intros pc s m Hat HR HA HS Hs.
        assert (Eco : co = []).
        { specialize (Eo [] [] eq_refl). rewrite BC in Eo. inversion Eo; auto. destruct mid1; [congruence|discriminate]. }
        subst co.
        destruct (RV pc s m ltac:(intros i x Hi; destruct i; discriminate) HR HA HS Hs) as (b & v & m' & s' & E & X & R' & A' & K & Acc & Bb & NA & Hv & Bv).
        pose proof (space_keeps _ _ _ K Hs) as Hs'.
        destruct (run_push pc s' m' v (XLab id) a Hd0 Hat R' A' Hs' Bv) as (s2 & X2 & R2 & A2 & Es2 & L2 & K2).
        { cbn [rd]. cbn in Hv. apply some_inj in Hv. f_equal. exact Hv. }
        exists v, m', s2. split; auto. split; [eapply (runs_app _ _ [] _ _ _ X); cbn [length]; rewrite Nat.add_0_r; exact X2|].
        destruct K as [K0 K1]. rewrite <- K0. do 4 (split; auto). intros x Hx. rewrite K2 by auto. apply K1. now rewrite <- K0.
    + apply Z.eqb_eq in Hsp. subst sz. rewrite B_EDeref in BC. rewrite F_EDeref in FC.
      pose proof (is_var_kind e) as Hk.
      set (cp := match indk e with OpIndIdent v => gen1 Ipush (MLab MWord v) | OpIndLocal v => gen1 Ipush (MLoc MWord v)
                 | _ => gen2 W Imov RB RA ++ gen1 Ipush (MRB MWord) end).
      exists (co ++ cp). split.
      * intros pre post _. rewrite FC, <- app_assoc. apply em_app; [rewrite <- BC; now apply Eo|].
        set (k := match is_var e with Some k => k | None => OpAcc end).
        change ([TStar W; k] ++ [TArgSep]) with ([TStar W; k] ++ [TArgSep]). change cp with ([] ++ cp). apply em_app.
        { emstep. rewrite Z.eqb_refl. cbn [hd_error app is_sep andb]. zl. reflexivity. }
        apply em1; [discriminate|]. cbn [app]. unfold gen_step. rewrite zg0. cbn [obind].
        replace ((pre ++ BL e) ++ [TStar W; k]) with (((pre ++ BL e) ++ [TStar W]) ++ [k]) by (rewrite <- !app_assoc; reflexivity).
        rewrite zgm1. cbn [obind].
        replace (((pre ++ BL e) ++ [TStar W]) ++ [k]) with ((pre ++ BL e) ++ [TStar W; k]) by (rewrite <- !app_assoc; reflexivity).
        rewrite zgm2. rewrite Z.eqb_refl. unfold k, cp. replace (zlen [TArgSep]) with 1 by reflexivity.
        destruct (is_var e) as [k'|].
        { destruct Hk as [(n & _ & -> & ->)|(n & _ & -> & ->)]; reflexivity. }
        destruct Hk as (_ & _ & ->). reflexivity.
      * intros pc s m Hat HR HA HS Hs. apply code_at_app in Hat as [Hat1 Hat2].
        destruct (RV pc s m Hat1 HR HA HS Hs) as (b & v & m' & s' & E & X & R' & A' & K & Acc & Bb & NA & Hv & Bv).
        pose proof (space_keeps _ _ _ K Hs) as Hs'.
        assert (HF : exists s2, runs (pc + length co) s' cp s2 /\ regs s2 /\ agree m' (M s2) /\ esp s2 = esp s' - W /\
           ldn (Z.to_nat W) (M s2) (esp s2) = v /\ (forall a, esp s' <= a < top \/ prot a -> M s2 a = M s' a)).
        { fold (indk e) in Hv, Acc. unfold cp in *. pose proof (indk_acc e) as IA. 
          destruct (indk e) eqn:Ei; try (exfalso; clear - Ei; unfold indk in Ei; destruct (core e); discriminate);
            cbn [CgMach.rval] in Hv.
          - eapply run_push; eauto. cbn [rd ofsof obind]. f_equal. eapply (load_word W HW addr lo top prot); eauto.
          - eapply run_push; eauto. cbn [rd ofsof obind]. destruct R' as (_ & _ & _ & _ & _ & ->). f_equal. eapply (load_word W HW addr lo top prot); eauto.
          - apply code_at_app in Hat2 as [Hat2 Hat3].
            assert (X1 : runs (pc + length co) s' (gen2 W Imov RB RA) (set_eb b s')).
            { apply runs_exec; [exact Hat2|]. cbn [gen2 CgMach.execs exec width2 width obind rd wr]. rewrite (Acc eq_refl).
              rewrite (low_ub W addr prot) by apply R'. now rewrite (uw_small W) by auto. }
            destruct (run_push _ (set_eb b s') m' v (MRB MWord) a Hd0 Hat3) as (s2 & X2 & R2 & A2 & Es2 & L2 & K2); auto.
            { destruct R' as (Q1 & Q2 & Q3 & Q4 & Q5 & Q6). st_simp. repeat split; auto; lia. }
            { cbn [rd ofsof obind set_eb eb M]. f_equal. eapply (load_word W HW addr lo top prot); eauto. }
            exists s2. split; [eapply runs_app; eauto|]. auto 10.
          }
        destruct HF as (s2 & X2 & R2 & A2 & Es2 & L2 & K2).
        exists v, m', s2. split; auto. split; [eapply runs_app; eauto|].
        destruct K as [K0 K1]. rewrite <- K0. do 4 (split; auto). intros x Hx. rewrite K2 by auto. apply K1. now rewrite <- K0.
  - exists (cf ++ gen1 Ipush RA). destruct (F_tail a Hw Hsp) as (u & b & EF & Hb & Hu). split.
    + intros pre post (p & t & -> & Ht). apply em_app.
      { apply Ef. unfold CgEmit.nextok. cbn. unfold special in Hsp. destruct (core a); try discriminate; auto. lia. }
      rewrite EF, app_assoc. apply sep_step; [destruct b; try discriminate; reflexivity|].
      destruct Hu as [->|(u' & c' & -> & Hc)].
      * exists p, t. rewrite app_nil_r. split; auto. intros sz ->. now elim (Ht sz).
      * exists ((p ++ [t]) ++ u'), c'. split; [now rewrite !app_assoc|auto].
    + intros pc s m Hat HR HA HS Hs. apply code_at_app in Hat as [Hat1 Hat2].
      destruct (Sf pc s m Hat1 HR HA HS ltac:(eapply space_le; [|exact Hs]; lia)) as (v & m' & s' & E & X & R' & A' & K & Ea & _).
      pose proof (space_keeps _ _ _ K Hs) as Hs'.
      assert (Bv : 0 <= v < P) by (rewrite <- Ea; apply R').
      destruct (run_push _ s' m' v RA a Hd0 Hat2 R' A' Hs' Bv) as (s2 & X2 & R2 & A2 & Es2 & L2 & K2).
      { cbn [rd]. rewrite Ea. f_equal. now apply (ub_small W). }
      exists v, m', s2. split; auto. split; [eapply runs_app; eauto|].
      destruct K as [K0 K1]. rewrite <- K0. do 4 (split; auto). intros x Hx. rewrite K2 by auto. apply K1. now rewrite <- K0.
Qed.

Definition argssem (args : list ex) (c : list instr) : Prop :=
  forall f bef pc s m, code_at pc c -> regs s -> agree m (M s) -> safe (ECall f (bef ++ args)) m ->
  space (depth_args args) s -> lo + room + W * zlen args <= esp s ->
  exists vs m' s', esteps (ECall f (bef ++ args), m) (ECall f (bef ++ map EVal vs), m') /\ runs pc s c s' /\
    regs s' /\ agree m' (M s') /\ length vs = length args /\ esp s' = esp s - W * zlen args /\
    args_at W (M s') (esp s') vs /\ (forall x, esp s <= x < top \/ prot x -> M s' x = M s x).

Lemma args_keep f g sp vs :
  args_at W f sp vs -> 0 <= sp -> sp + W * zlen vs <= top ->
  (forall x, sp <= x < sp + W * zlen vs -> g x = f x) -> args_at W g sp vs.
Proof.
  intros H H0 Ht Hg i v Hi. rewrite <- (H i v Hi).
  assert (Hl : (i < length vs)%nat) by (apply nth_error_Some; congruence). unfold zlen in *.
  apply (ldn_ext W HW addr prot); rewrite ?Z2Nat.id by (destruct HW; lia); [destruct HW; nia|destruct HW; nia|].
  intros x Hx. apply Hg. destruct HW; nia.
Qed.

Lemma args_ok args : Forall (fun a => wf a /\ good a) args ->
  exists c, (forall pre post, endok pre -> em pre (F_args W args) post c) /\ argssem args c.
Proof.
  induction 1 as [|a l [Hw Ha] Hl (c1 & E1 & S1)].
  - exists []. split; [constructor|]. intros f bef pc s m _ HR HA HS Hs Hz. exists [], m, s.
    change (zlen (@nil ex)) with 0. rewrite Z.mul_0_r, Z.sub_0_r.
    split; [constructor|]. split; [apply runs_nil|]. do 4 (split; auto). split; auto. intros i v Hi. destruct i; discriminate.
  - destruct (arg_ok a Hw Ha) as (c2 & E2 & S2). exists (c1 ++ c2). split.
    + intros pre post He. change (F_args W (a :: l)) with (F_args W l ++ F a ++ [TArgSep]).
      apply em_app; [now apply E1|]. apply E2.
      destruct l as [|a' l]; [now rewrite app_nil_r|].
      exists (pre ++ F_args W l ++ F a'), TArgSep. split; [|intros sz; discriminate].
      change (F_args W (a' :: l)) with (F_args W l ++ F a' ++ [TArgSep]). now rewrite !app_assoc.
    + intros f bef pc s m Hat HR HA HS Hs Hz. apply code_at_app in Hat as [Hat1 Hat2].
      change (depth_args (a :: l)) with (Z.max (depth_args l) (zlen l + 1 + depth a)) in Hs.
      pose proof (zlen_nonneg l) as Zl. rewrite zlen_cons in *.
      destruct (S1 f (bef ++ [a]) pc s m Hat1 HR HA ltac:(now rewrite <- app_assoc) ltac:(eapply space_le; [|exact Hs]; lia) ltac:(destruct HW; nia))
        as (vs & m1 & s1 & Es1 & X1 & R1 & A1 & L1 & P1 & AT1 & K1).
      rewrite <- !app_assoc in Es1. cbn [app] in Es1.
      pose proof (safe_steps _ _ _ _ Es1 HS) as HS1.
      assert (Hs1 : space (1 + depth a) s1).
      { unfold space in *. rewrite P1. destruct HW; nia. }
      destruct (S2 _ s1 m1 Hat2 R1 A1 (safe_in (FCallA f bef (map EVal vs)) _ _ HS1) Hs1)
        as (v & m2 & s2 & Es2 & X2 & R2 & A2 & P2 & L2 & K2).
      apply (esteps_in (FCallA f bef (map EVal vs))) in Es2. cbn [plug] in Es2.
      exists (v :: vs), m2, s2. split; [eapply esteps_trans; [exact Es1|exact Es2]|]. split; [eapply runs_app; eauto|].
      split; auto. split; auto. split; [cbn; lia|]. split; [lia|].
      assert (Zv : zlen vs = zlen l) by (unfold zlen; lia). unfold space in Hs.
      assert (R1' : 0 <= esp s1) by (destruct R1 as (_ & _ & _ & _ & R1 & _); lia).
      split.
      * intros i x Hi. destruct i as [|i]; [cbn in Hi; injection Hi as <-; rewrite Z.mul_0_r, Z.add_0_r; exact L2|].
        cbn in Hi.
        assert (AT2 : args_at W (M s2) (esp s1) vs).
        { eapply args_keep; [exact AT1|lia|rewrite Zv; lia|]. rewrite Zv. intros y Hy. apply K2. left. lia. }
        rewrite <- (AT2 i x Hi). f_equal. lia.
      * intros x Hx. rewrite K2 by (destruct Hx; [left; destruct HW; nia|auto]). auto.
Qed.

Lemma grow_ok n s : 0 <= n -> regs s -> esp s + W * n < P ->
  exists s', execs (gen_grow_stack W (- (W * n))) s = Some s' /\ regs s' /\ ea s' = ea s /\ M s' = M s /\ esp s' = esp s + W * n.
Proof.
  intros Hn HR Hb. unfold gen_grow_stack. pose proof HR as (Ra & Rb & Rc & Rd & Rs & Rbp).
  destruct (Z.eqb_spec (- (W * n)) 0) as [E|E].
  - exists s. split; [reflexivity|]. repeat (split; [first [assumption|reflexivity]|]). lia.
  - assert (Hn1 : 1 <= n) by (destruct HW; nia).
    assert (Hr : (- (W * n)) mod P = P - W * n).
    { replace (- (W * n)) with (P - W * n + (-1) * P) by lia. rewrite Z.mod_add by lia. apply Z.mod_small. destruct HW; nia. }
    cbn [gen2]. assert (Eu : X86.uw W (- (W * n)) = P - W * n) by exact Hr. rewrite Eu.
    destruct (Z.eqb_spec (P - W * n) 0) as [E0|E0]; [lia|].
    destruct (Z.eqb_spec (- (W * n)) (-1)) as [E1|E1]; [destruct HW; lia|].
    destruct (Z.eqb_spec (- (W * n)) 1) as [E2|E2]; [destruct HW; lia|].
    exists (set_esp (esp s + W * n) (set_fl None s)). split.
    { cbn [CgMach.execs exec width2 width obind rd alu wr]. change (ub W (- (W * n))) with (X86.uw W (- (W * n))). rewrite Eu.
      rewrite (ub_small W) by auto. cbn [obind]. st_simp. rewrite (low_W W addr prot) by auto.
      assert (Eq : X86.uw W (esp s - (P - W * n)) = esp s + W * n).
      { unfold X86.uw, wrap. replace (esp s - (P - W * n)) with (esp s + W * n + (-1) * P) by lia.
        rewrite Z.mod_add by lia. apply Z.mod_small. destruct HW; nia. }
      rewrite Eq. reflexivity. }
    st_simp. repeat split; auto; destruct HW; nia.
Qed.

Lemma values_map vs : values (map EVal vs) = Some vs.
Proof. induction vs; cbn; [reflexivity|]. now rewrite IHvs. Qed.

Lemma call_good f args : good f -> Forall good args -> good (ECall f args).
Proof.
  intros Gf Ga (Hwf & Hwa). destruct (Gf Hwf) as [(cf & Ef & Sf) (co & Eo & So)].
  assert (HF : Forall (fun a => wf a /\ good a) args).
  { clear - Ga Hwa. induction Ga; constructor; destruct Hwa; auto. }
  destruct (args_ok args HF) as (ca & Ea & Sa). pose proof PB as PP.
  pose proof (zlen_nonneg args) as Zn. pose proof (depth_nonneg f) as Df.
  (* the function: code, and the operand of the call instruction *)
  assert (HFn : exists c o, (forall pre post, em pre (F f ++ [TRParen (W * zlen args)]) post
                 (c ++ gen1 Icall o ++ gen_grow_stack W (- (W * zlen args)))) /\
      forall pc s m, code_at pc c -> regs s -> agree m (M s) -> safe f m -> space (depth f) s ->
      exists v m' s', esteps (f, m) (EVal v, m') /\ runs pc s c s' /\ regs s' /\ agree m' (M s') /\ keeps s s' /\
        X86.rd W addr W o s' = Some v).
  { destruct (is_var f) as [k|] eqn:Ev; pose proof (is_var_kind f) as Hk; rewrite Ev in Hk.
    - destruct Hk as [(n & Ec & -> & _)|(n & Ec & -> & _)].
      + exists [], (XLab n). pose proof (F_core W f) as FC. pose proof (B_core W f) as BC. rewrite Ec in FC, BC. split.
        * intros pre post. rewrite FC. change ([] ++ gen1 Icall (XLab n) ++ gen_grow_stack W (- (W * zlen args)))
            with ([] ++ (gen1 Icall (XLab n) ++ gen_grow_stack W (- (W * zlen args)))).
          apply em_app.
          { unfold CgTree.F. cbn [FB fst]. emstep. cbn [hd_error app is_sep is_rparen orb]. zl. reflexivity. }
          apply em1; [discriminate|]. cbn [app]. unfold gen_step. rewrite zg0. cbn [obind].
          unfold CgTree.F. cbn [FB fst]. rewrite zgm1. reflexivity.
        * intros pc s m Hat HR HA HS Hs.
          assert (Eco : co = []).
          { specialize (Eo [] [] eq_refl). rewrite BC in Eo. inversion Eo; auto. destruct mid1; [congruence|discriminate]. }
          subst co. destruct (So pc s m ltac:(intros i x Hi; destruct i; discriminate) HR HA HS Hs)
            as (x' & m' & s' & b & E & X & R' & A' & K & Bb & Acc & NAcc & RS).
          specialize (RS m'). unfold kind in RS. rewrite Ec in RS. cbn [CgMach.rval] in RS.
          exists (word (addr n)), m', s'. split; [eapply esteps_trans; eauto|]. repeat (split; [assumption|]). reflexivity.
      + exists cf, RA. destruct (F_end f Hwf) as (u & b & EF & Hb). split.
        * intros pre post. apply em_app; [apply Ef; unfold CgEmit.nextok; cbn; now rewrite Ec|].
          apply em1; [discriminate|]. cbn [app]. unfold gen_step. rewrite zg0. cbn [obind]. rewrite EF, app_assoc, zgm1. cbn [obind].
          rewrite Ec in Hb. destruct Hb as [Hb|[_ []]]. destruct b; try discriminate; reflexivity.
        * intros pc s m Hat HR HA HS Hs. destruct (Sf pc s m Hat HR HA HS Hs) as (v & m' & s' & E & X & R' & A' & K & Ev' & _).
          exists v, m', s'. repeat (split; [assumption|]). cbn [rd]. rewrite (ub_small W) by apply R'. now rewrite Ev'.
    - destruct Hk as (Hn1 & _ & _). exists cf, RA. destruct (F_end f Hwf) as (u & b & EF & Hb). split.
      * intros pre post. apply em_app; [apply Ef; unfold CgEmit.nextok; cbn; destruct (core f) eqn:Ec; auto; now elim (Hn1 id)|].
        apply em1; [discriminate|]. cbn [app]. unfold gen_step. rewrite zg0. cbn [obind].
        pose proof EF as EF'. rewrite EF, app_assoc, zgm1. cbn [obind].
        assert (Hb' : forall n, b <> TIdent n).
        { intros n ->. destruct Hb as [Hb|[-> Hb]]; [discriminate|]. destruct (core f) eqn:Ec; try contradiction; [|now elim (Hn1 id)].
          rewrite F_core, Ec in EF'. destruct uns; discriminate. }
        destruct b; try reflexivity. now elim (Hb' id).
      * intros pc s m Hat HR HA HS Hs. destruct (Sf pc s m Hat HR HA HS Hs) as (v & m' & s' & E & X & R' & A' & K & Ev' & _).
        exists v, m', s'. repeat (split; [assumption|]). cbn [rd]. rewrite (ub_small W) by apply R'. now rewrite Ev'. }
  destruct HFn as (c & o & Ec & Sc).
  assert (Hfull : full (ECall f args)).
  { exists (ca ++ c ++ gen1 Icall o ++ gen_grow_stack W (- (W * zlen args))). split.
    - intros pre post _.
      change (F (ECall f args)) with ([TLParen (W * zlen args)] ++ F_args W args ++ F f ++ [TRParen (W * zlen args)]).
      change (ca ++ c ++ ?x) with ([] ++ ca ++ c ++ x). apply em_app. { emstep. zl. reflexivity. }
      apply em_app; [|apply Ec]. apply Ea. exists pre, (TLParen (W * zlen args)). split; auto. intros sz; discriminate.
    - intros pc s m Hat HR HA HS Hsp. apply code_at_app in Hat as [Hat1 Hat]. apply code_at_app in Hat as [Hat2 Hat].
      apply code_at_app in Hat as [Hat3 Hat4].
      change (depth (ECall f args)) with (Z.max (zlen args + depth f) (depth_args args)) in Hsp.
      assert (Hsp' : lo + room + W * (zlen args + depth f) <= esp s <= top) by (unfold space in Hsp; destruct HW; nia).
      destruct (Sa f [] pc s m Hat1 HR HA HS ltac:(eapply space_le; [|exact Hsp]; lia) ltac:(destruct HW; nia))
        as (vs & m1 & s1 & E1 & X1 & R1 & A1 & L1 & P1 & AT1 & K1).
      cbn [app] in E1. pose proof (safe_steps _ _ _ _ E1 HS) as HS1.
      assert (Zv : zlen vs = zlen args) by (unfold zlen; lia).
      destruct (Sc _ s1 m1 Hat2 R1 A1 (safe_in (FCallF (map EVal vs)) _ _ HS1)
                  ltac:(unfold space; rewrite P1; destruct HW; nia)) as (fv & m2 & s2 & E2 & X2 & R2 & A2 & [P2 K2] & Rd).
      apply (esteps_in (FCallF (map EVal vs))) in E2. cbn [plug] in E2.
      pose proof (safe_steps _ _ _ _ E2 HS1) as HS2.
      destruct (ext fv vs m2) as [[v m3]|] eqn:Hext.
      2:{ exfalso. eapply safe_here; [exact HS2|]. cbn. rewrite values_map, Hext. reflexivity. }
      assert (R1' : 0 <= esp s1) by (destruct R1 as (_ & _ & _ & _ & R1 & _); lia).
      destruct (Hcallee fv vs m2 v m3 s2 Hext R2 A2) as (s3 & C3 & Ea3 & R3 & A3 & P3 & K3).
      { eapply args_keep; [rewrite P2; exact AT1|lia|rewrite Zv; lia|]. rewrite Zv, P2. intros x Hx. apply K2. left. lia. }
      { destruct HW; nia. } { rewrite Zv. lia. }
      assert (X3 : runs (pc + length ca + length c) s2 (gen1 Icall o) s3).
      { apply code_at_hd in Hat3 as [Hc _]. apply runs_one with (i := I1 Icall o); auto. unfold X86.mstep. rewrite Hc. cbn [obind].
        rewrite Rd. cbn [obind]. rewrite C3. reflexivity. }
      destruct (grow_ok (zlen args) s3 Zn R3 ltac:(lia)) as (s4 & X4 & R4 & Ea4 & M4 & P4).
      exists v, m3, s4. split.
      { eapply esteps_trans; [exact E1|]. eapply esteps_trans; [exact E2|]. apply esteps_red. cbn. rewrite values_map, Hext. reflexivity. }
      split. { eapply runs_app; [exact X1|]. eapply runs_app; [exact X2|]. eapply runs_app; [exact X3|]. now apply runs_exec. }
      split; auto. rewrite M4. split; auto. split; [|split; [congruence|discriminate]].
      split; [lia|]. intros x Hx. rewrite M4. rewrite Zv in K3.
      rewrite K3 by (destruct Hx; [left; lia|auto]). rewrite K2 by (destruct Hx; [left; destruct HW; nia|auto]). auto. }
  split; auto. apply full_to_oper; auto. cbn. auto.
Qed.

Theorem all_good e : good e.
Proof.
  induction e using ex_ind2.
  - intros [].
  - now apply leaf_good.
  - now apply leaf_good.
  - now apply leaf_good.
  - now apply deref_good.
  - now apply pre_good.
  - now apply post_good.
  - now apply postby_good.
  - now apply un_good.
  - now apply arith_good.
  - now apply cmp_good.
  - now apply assign_good.
  - now apply assignop_good.
  - now apply comma_good.
  - now apply and_good.
  - now apply or_good.
  - now apply cond_good.
  - now apply call_good.
Qed.
End Sim.
