(** C04, C05, C06, C20: the code generated for expressions. *)
From Verif Require Import Base BaseLemmas X86 ExprSpec ExprLemmas CgModel CgTree CgFuse MachSpec CgMach CgEmit CgSim CgCorrect.

Lemma find_label_none l prog : ~ In l (labels prog) -> find_label l prog = None.
Proof.
  induction prog as [|[] t IH]; cbn [labels find_label]; intros H; auto;
    try (now rewrite IH).
  destruct (Z.eqb_spec l0 l) as [->|]; [cbn in H; tauto|]. rewrite IH; [reflexivity|]. cbn in H. tauto.
Qed.
Lemma nth_label p l prog : nth_error prog p = Some (Lab l) -> In l (labels prog).
Proof.
  revert p. induction prog as [|i t IH]; intros [|p] H; cbn in H; try discriminate.
  - injection H as ->. cbn. auto.
  - apply IH in H. destruct i; cbn; auto.
Qed.
Lemma uniq_labels prog : NoDup (labels prog) ->
  forall l p, nth_error prog p = Some (Lab l) -> find_label l prog = Some p.
Proof.
  induction prog as [|i t IH]; intros Hn l [|p] H; cbn in H; try discriminate.
  - injection H as ->. cbn. now rewrite Z.eqb_refl.
  - assert (Hn' : NoDup (labels t)) by (destruct i; cbn in Hn; auto; now inversion Hn).
    specialize (IH Hn' l p H). destruct i; cbn [find_label]; try (now rewrite IH).
    destruct (Z.eqb_spec l0 l) as [->|]; [|now rewrite IH].
    cbn in Hn. inversion Hn; subst. apply nth_label in H. contradiction.
Qed.
Lemma placed_code_at prog pc code : placed prog pc code -> code_at prog pc code.
Proof.
  intros (a & b & -> & <-) i x Hi. rewrite nth_error_app2 by lia.
  replace (length a + i - length a)%nat with i by lia. rewrite nth_error_app1; auto. apply nth_error_Some. congruence.
Qed.

Lemma code_at_cat prog pc a b : code_at prog pc (a ++ b) -> code_at prog pc a /\ code_at prog (pc + length a) b.
Proof.
  intros H. split; intros i x Hi.
  - apply H. rewrite nth_error_app1; auto. apply nth_error_Some. congruence.
  - rewrite <- Nat.add_assoc. apply H. rewrite nth_error_app2 by lia. now rewrite Nat.add_comm, Nat.add_sub.
Qed.

Section Props.
Variables (W : Z) (addr : Z -> Z) (bp lo top : Z) (prot : Z -> Prop).
Variables (callee : Z -> st -> option st) (ext : Z -> list Z -> mem -> option (Z * mem)) (room : Z) (prog : list instr).

Lemma expr_run (e : ex) (tail : stack) (code : list instr) (pc : nat) (m : mem) (s : st) :
  platform W bp lo top prot callee ext room -> NoDup (labels prog) -> wf W e -> tail = [] \/ tail = [TReturn] ->
  gen_expr W (rpn W e ++ tail) = Some code -> placed prog pc code ->
  regs W bp s -> agree W lo top prot m (M s) -> safe W addr bp ext e m ->
  lo + room + W * depth e <= esp s <= top ->
  exists v m' s',
    esteps W addr bp ext (e, m) (EVal v, m') /\
    mstar W addr callee prog (pc, s) ((pc + length code)%nat, s') /\
    regs W bp s' /\ agree W lo top prot m' (M s') /\ keeps top prot s s' /\ ea s' = v.
Proof.
  intros [P1 P2 P3 P4 P5 P6] P7 Hw Ht Hg Hp HR HA HS Hsp.
  destruct (expr_code W P1 addr bp lo top prot P2 P3 P4 callee ext room P5 P6 prog (uniq_labels prog P7) e tail Hw Ht)
    as (c & [E|[E _]] & Sem); rewrite E in Hg; [|discriminate]. apply some_inj in Hg. subst c.
  destruct (Sem pc s m (placed_code_at _ _ _ Hp) HR HA HS Hsp) as (v & m' & s' & H1 & H2 & H3 & H4 & H5 & H6 & _).
  exists v, m', s'. auto 10.
Qed.

(** ** C04 *)

(** The code computes the value of the expression in eax, by one of the evaluation orders C
    allows, and leaves in memory what that evaluation leaves there. *)
Theorem C04_expression_code (e : ex) (tail : stack) (code : list instr) (pc : nat) (m : mem) (s : st) :
  platform W bp lo top prot callee ext room -> NoDup (labels prog) -> wf W e -> tail = [] \/ tail = [TReturn] ->
  gen_expr W (rpn W e ++ tail) = Some code -> placed prog pc code ->
  regs W bp s -> agree W lo top prot m (M s) -> safe W addr bp ext e m ->
  lo + room + W * depth e <= esp s <= top ->
  exists v m' s',
    esteps W addr bp ext (e, m) (EVal v, m') /\
    mstar W addr callee prog (pc, s) ((pc + length code)%nat, s') /\
    ea s' = v /\ agree W lo top prot m' (M s') /\ regs W bp s'.
Proof.
  intros H1 H0 H2 H3 H4 H5 H6 H7 H8 H9.
  destruct (expr_run e tail code pc m s H1 H0 H2 H3 H4 H5 H6 H7 H8 H9) as (v & m' & s' & Q1 & Q2 & Q3 & Q4 & Q5 & Q6).
  exists v, m', s'. auto 10.
Qed.

(** Comparisons that control a statement: the conditional jump goes to the label exactly when the
    comparison holds (tokIf), or exactly when it does not (tokIfNot). *)
Theorem C04_condition_code (c : ecmp) (l r : ex) (neg : bool) (lab : Z) (q : nat) (code : list instr) (pc : nat) (m : mem) (s : st) :
  platform W bp lo top prot callee ext room -> NoDup (labels prog) -> wf W (ECmp c l r) ->
  gen_expr W (rpn W (ECmp c l r) ++ [if neg then TIfNot lab else TIf lab]) = Some code -> placed prog pc code ->
  nth_error prog q = Some (Lab lab) ->
  regs W bp s -> agree W lo top prot m (M s) -> safe W addr bp ext (ECmp c l r) m ->
  lo + room + W * depth (ECmp c l r) <= esp s <= top ->
  exists (holds : bool) m' s',
    esteps W addr bp ext (ECmp c l r, m) (EVal (if holds then 1 else 0), m') /\
    mstar W addr callee prog (pc, s) (if Bool.eqb holds neg then (pc + length code)%nat else q, s') /\
    agree W lo top prot m' (M s') /\ regs W bp s' /\ keeps top prot s s'.
Proof.
  intros [P1 P2 P3 P4 P5 P6] P7 Hw Hg Hp Hq HR HA HS Hsp.
  destruct (cond_code W P1 addr bp lo top prot P2 P3 P4 callee ext room P5 P6 prog (uniq_labels prog P7) c l r neg lab Hw)
    as (c0 & [E|[E _]] & Sem); rewrite E in Hg; [|discriminate]. apply some_inj in Hg. subst code.
  apply placed_code_at in Hp. apply code_at_cat in Hp as [Hat1 Hat2].
  destruct (Sem pc s m Hat1 HR HA HS Hsp) as (a & b & m' & s' & E1 & X & R' & A' & K & Ba & Bb & Fl).
  exists (cmp_val W c a b), m', s'. split.
  { eapply esteps_trans; [exact E1|]. apply esteps_red. reflexivity. }
  split; [|auto]. eapply mstar_trans; [exact X|].
  apply code_at_hd in Hat2 as [Hj _]. pose proof (uniq_labels prog P7 lab q Hq) as Hf.
  rewrite app_length. cbn [length gen1].
  econstructor; [|constructor]. unfold mstep. rewrite Hj. cbn [obind].
  destruct neg; cbn [obind]; rewrite Fl; cbn [obind]; rewrite condv_cmp by auto; rewrite Hf;
    destruct (cmp_val W c a b); cbn [Bool.eqb obind]; rewrite ?Nat.add_assoc, ?Nat.add_1_r; reflexivity.
Qed.

(** ** C05 *)

(** Whatever the expression, afterwards the stack pointer and the frame pointer are back, and
    the stack above (locals not reachable as objects, saved operands of enclosing expressions,
    return addresses) is untouched. *)
Theorem C05_stack_balance (e : ex) (tail : stack) (code : list instr) (pc : nat) (m : mem) (s : st) :
  platform W bp lo top prot callee ext room -> NoDup (labels prog) -> wf W e -> tail = [] \/ tail = [TReturn] ->
  gen_expr W (rpn W e ++ tail) = Some code -> placed prog pc code ->
  regs W bp s -> agree W lo top prot m (M s) -> safe W addr bp ext e m ->
  lo + room + W * depth e <= esp s <= top ->
  exists s', mstar W addr callee prog (pc, s) ((pc + length code)%nat, s') /\
    esp s' = esp s /\ ebp s' = ebp s /\
    (forall a, esp s <= a < top -> M s' a = M s a) /\ (forall a, prot a -> M s' a = M s a).
Proof.
  intros H1 H0 H2 H3 H4 H5 H6 H7 H8 H9.
  destruct (expr_run e tail code pc m s H1 H0 H2 H3 H4 H5 H6 H7 H8 H9) as (v & m' & s' & Q1 & Q2 & Q3 & Q4 & [Q5 Q6] & Q7).
  exists s'. split; auto. split; auto. split; auto.
  destruct H6 as (_ & _ & _ & _ & _ & ->). destruct Q3 as (_ & _ & _ & _ & _ & ->). reflexivity.
Qed.

(** ** C06 *)
Theorem C06_logical_and (k : Z) (l r : ex) (code : list instr) (pc : nat) (m : mem) (s : st) :
  platform W bp lo top prot callee ext room -> NoDup (labels prog) -> wf W (EAnd2 k l r) ->
  gen_expr W (rpn W (EAnd2 k l r)) = Some code -> placed prog pc code ->
  regs W bp s -> agree W lo top prot m (M s) -> safe W addr bp ext (EAnd2 k l r) m ->
  lo + room + W * depth (EAnd2 k l r) <= esp s <= top ->
  exists vl m1 m' s',
    esteps W addr bp ext (l, m) (EVal vl, m1) /\
    mstar W addr callee prog (pc, s) ((pc + length code)%nat, s') /\ agree W lo top prot m' (M s') /\
    ((vl = 0 /\ ea s' = 0 /\ m' = m1) \/
     (vl <> 0 /\ exists vr, esteps W addr bp ext (r, m1) (EVal vr, m') /\ ea s' = if vr =? 0 then 0 else 1)).
Proof.
  intros H1 H0 H2 H4 H5 H6 H7 H8 H9. rewrite <- (app_nil_r (rpn W _)) in H4.
  destruct (expr_run _ [] code pc m s H1 H0 H2 (or_introl eq_refl) H4 H5 H6 H7 H8 H9) as (v & m' & s' & Q1 & Q2 & Q3 & Q4 & Q5 & Q6).
  apply and_inv in Q1 as (vl & m1 & E1 & [(-> & -> & ->)|(Hv & vr & E2 & ->)]).
  - exists 0, m1, m1, s'. auto 10.
  - exists vl, m1, m', s'. split; auto. split; auto. split; auto. right. eauto.
Qed.
Theorem C06_logical_or (k : Z) (l r : ex) (code : list instr) (pc : nat) (m : mem) (s : st) :
  platform W bp lo top prot callee ext room -> NoDup (labels prog) -> wf W (EOr2 k l r) ->
  gen_expr W (rpn W (EOr2 k l r)) = Some code -> placed prog pc code ->
  regs W bp s -> agree W lo top prot m (M s) -> safe W addr bp ext (EOr2 k l r) m ->
  lo + room + W * depth (EOr2 k l r) <= esp s <= top ->
  exists vl m1 m' s',
    esteps W addr bp ext (l, m) (EVal vl, m1) /\
    mstar W addr callee prog (pc, s) ((pc + length code)%nat, s') /\ agree W lo top prot m' (M s') /\
    ((vl <> 0 /\ ea s' = 1 /\ m' = m1) \/
     (vl = 0 /\ exists vr, esteps W addr bp ext (r, m1) (EVal vr, m') /\ ea s' = if vr =? 0 then 0 else 1)).
Proof.
  intros H1 H0 H2 H4 H5 H6 H7 H8 H9. rewrite <- (app_nil_r (rpn W _)) in H4.
  destruct (expr_run _ [] code pc m s H1 H0 H2 (or_introl eq_refl) H4 H5 H6 H7 H8 H9) as (v & m' & s' & Q1 & Q2 & Q3 & Q4 & Q5 & Q6).
  apply or_inv in Q1 as (vl & m1 & E1 & [(Hv & -> & ->)|(-> & vr & E2 & ->)]).
  - exists vl, m1, m1, s'. auto 10.
  - exists 0, m1, m', s'. split; auto. split; auto. split; auto. right. eauto.
Qed.
Theorem C06_conditional (k : Z) (c t f : ex) (code : list instr) (pc : nat) (m : mem) (s : st) :
  platform W bp lo top prot callee ext room -> NoDup (labels prog) -> wf W (ECond k c t f) ->
  gen_expr W (rpn W (ECond k c t f)) = Some code -> placed prog pc code ->
  regs W bp s -> agree W lo top prot m (M s) -> safe W addr bp ext (ECond k c t f) m ->
  lo + room + W * depth (ECond k c t f) <= esp s <= top ->
  exists vc m1 m' s',
    esteps W addr bp ext (c, m) (EVal vc, m1) /\
    mstar W addr callee prog (pc, s) ((pc + length code)%nat, s') /\ agree W lo top prot m' (M s') /\
    esteps W addr bp ext (if vc =? 0 then f else t, m1) (EVal (ea s'), m').
Proof.
  intros H1 H0 H2 H4 H5 H6 H7 H8 H9. rewrite <- (app_nil_r (rpn W _)) in H4.
  destruct (expr_run _ [] code pc m s H1 H0 H2 (or_introl eq_refl) H4 H5 H6 H7 H8 H9) as (v & m' & s' & Q1 & Q2 & Q3 & Q4 & Q5 & <-).
  apply cond_inv in Q1 as (vc & m1 & E1 & [(Hv & E2)|(-> & E2)]).
  - exists vc, m1, m', s'. destruct (Z.eqb_spec vc 0); [lia|]. auto.
  - exists 0, m1, m', s'. auto.
Qed.

Theorem C06_comma (l r : ex) (code : list instr) (pc : nat) (m : mem) (s : st) :
  platform W bp lo top prot callee ext room -> NoDup (labels prog) -> wf W (EComma l r) ->
  gen_expr W (rpn W (EComma l r)) = Some code -> placed prog pc code ->
  regs W bp s -> agree W lo top prot m (M s) -> safe W addr bp ext (EComma l r) m ->
  lo + room + W * depth (EComma l r) <= esp s <= top ->
  exists vl m1 m' s',
    esteps W addr bp ext (l, m) (EVal vl, m1) /\
    mstar W addr callee prog (pc, s) ((pc + length code)%nat, s') /\ agree W lo top prot m' (M s') /\
    esteps W addr bp ext (r, m1) (EVal (ea s'), m').
Proof.
  intros H1 H0 H2 H4 H5 H6 H7 H8 H9. rewrite <- (app_nil_r (rpn W _)) in H4.
  destruct (expr_run _ [] code pc m s H1 H0 H2 (or_introl eq_refl) H4 H5 H6 H7 H8 H9) as (v & m' & s' & Q1 & Q2 & Q3 & Q4 & Q5 & <-).
  apply comma_inv in Q1 as (vl & m1 & E1 & E2). exists vl, m1, m', s'. auto.
Qed.

(** ** C20 *)

(** Reading an object of a type narrower than int: the register holds the object's value,
    sign-extended for signed types and zero-extended for unsigned ones. *)
Theorem C20_load_extension (sz : Z) (a : ex) (code : list instr) (pc : nat) (m : mem) (s : st) :
  platform W bp lo top prot callee ext room -> NoDup (labels prog) -> wf W (EDeref sz a) ->
  gen_expr W (rpn W (EDeref sz a)) = Some code -> placed prog pc code ->
  regs W bp s -> agree W lo top prot m (M s) -> safe W addr bp ext (EDeref sz a) m ->
  lo + room + W * depth (EDeref sz a) <= esp s <= top ->
  exists p raw m' s',
    esteps W addr bp ext (a, m) (EVal p, m') /\
    mstar W addr callee prog (pc, s) ((pc + length code)%nat, s') /\ agree W lo top prot m' (M s') /\
    mld (Z.to_nat (Z.abs sz)) m' p = Some raw /\
    0 <= ea s' < 2 ^ (8 * W) /\
    (0 < sz -> ea s' = raw) /\ (sz < 0 -> swrap (8 * W) (ea s') = swrap (8 * - sz) raw).
Proof.
  intros H1 H0 H2 H4 H5 H6 H7 H8 H9. rewrite <- (app_nil_r (rpn W _)) in H4.
  destruct (expr_run _ [] code pc m s H1 H0 H2 (or_introl eq_refl) H4 H5 H6 H7 H8 H9) as (v & m' & s' & Q1 & Q2 & Q3 & Q4 & Q5 & Q6).
  apply deref_inv in Q1 as (p & E1 & Hl). unfold load in Hl. apply obind_Some in Hl as (raw & Hr & Hv). apply some_inj in Hv.
  destruct H1 as [HW _ Htop _ _ _]. destruct H2 as [Vz _].
  exists p, raw, m', s'. split; auto. split; auto. split; auto. split; [exact Hr|].
  split; [apply Q3|]. pose proof (mld_range W HW addr lo top prot _ _ _ _ _ Q4 Hr) as Br.
  assert (HP : forall n, 0 <= n <= W -> 2 ^ (8 * n) <= 2 ^ (8 * W)) by (intros; apply Z.pow_le_mono_r; lia).
  rewrite Q6, <- Hv. unfold conv, word, nbytes in *. destruct Vz as [->|[->|[->|[-> [->| ->]]]]].
  - split; [|lia]. intros _. replace (1 =? W) with false by (destruct HW; subst; reflexivity). cbn. apply wrap_small. exact Br.
  - split; [lia|]. intros _. replace (-1 =? W) with false by (destruct HW; subst; reflexivity). cbn [Z.ltb Z.compare Z.opp].
    destruct HW; subst; rewrite swrap_wrap; apply swrap_small; try lia; pose proof (swrap_range (8 * 1) raw ltac:(lia)); lia.
  - split; [|destruct HW; lia]. intros _. rewrite Z.eqb_refl. apply wrap_small. rewrite Z2Nat.id in Br by lia.
    destruct HW; subst; exact Br.
  - split; [|lia]. intros _. cbn. apply wrap_small. exact Br.
  - split; [lia|]. intros _. cbn [Z.ltb Z.compare Z.opp Z.eqb].
    rewrite swrap_wrap; apply swrap_small; [lia|]. pose proof (swrap_range (8 * 2) raw ltac:(lia)). lia.
Qed.
(** The value of an assignment, as used by the enclosing expression, is the value that reading
    the assigned object yields, however wide the right operand was. *)
Theorem C20_assignment_value (sz : Z) (l r : ex) (code : list instr) (pc : nat) (m : mem) (s : st) :
  platform W bp lo top prot callee ext room -> NoDup (labels prog) -> wf W (EAssign sz l r) ->
  gen_expr W (rpn W (EAssign sz l r)) = Some code -> placed prog pc code ->
  regs W bp s -> agree W lo top prot m (M s) -> safe W addr bp ext (EAssign sz l r) m ->
  lo + room + W * depth (EAssign sz l r) <= esp s <= top ->
  exists p b m0 m' s',
    esteps W addr bp ext (EAssign sz l r, m) (EAssign sz (EVal p) (EVal b), m0) /\
    store sz m0 p b = Some m' /\
    mstar W addr callee prog (pc, s) ((pc + length code)%nat, s') /\ agree W lo top prot m' (M s') /\
    load W sz m' p = Some (ea s').
Proof.
  intros H1 H0 H2 H4 H5 H6 H7 H8 H9. rewrite <- (app_nil_r (rpn W _)) in H4.
  destruct (expr_run _ [] code pc m s H1 H0 H2 (or_introl eq_refl) H4 H5 H6 H7 H8 H9) as (v & m' & s' & Q1 & Q2 & Q3 & Q4 & Q5 & <-).
  apply assign_inv in Q1 as (p & b & m0 & E1 & E2 & E3). exists p, b, m0, m', s'. split; auto. split; auto. split; auto. split; auto.
  unfold load, store in *. rewrite (mst_mld addr ext _ _ _ _ _ E2). cbn [obind]. f_equal. rewrite E3. apply (conv_low W addr ext).
  - apply H1. - apply H2.
Qed.
End Props.

(** Code is generated for every expression whose token stack is not too long for the compiler
    (smlrc.c:183, STACK_SIZE 129). *)
Theorem C04_code_exists (W : Z) (e : ex) (tail : stack) :
  W = 2 \/ W = 4 -> wf W e -> tail = [] \/ tail = [TReturn] -> 3 * zlen (rpn W e) + zlen tail <= 131 ->
  exists code, gen_expr W (rpn W e ++ tail) = Some code.
Proof.
  intros HW Hw Ht Hl.
  destruct (expr_code W HW (fun _ => 0) 0 0 0 (fun _ => False) ltac:(lia) ltac:(destruct HW; subst; reflexivity) ltac:(tauto)
    (fun _ _ => None) (fun _ _ _ => None) 0 ltac:(lia) ltac:(intros ? ? ? ? ? ? H; discriminate) [] ltac:(intros ? [|] H; discriminate) e tail Hw Ht)
    as (c & [E|[_ E]] & _); [eauto|lia].
Qed.

(** ** The hypotheses hold in a concrete case *)

(** int f(int, int), at address 100, adds its arguments;
    [c != 0 && (x = f(x, 3) + x)] with int x at [bp-4], signed char c at [bp-8]. *)
Definition ex_ext : Z -> list Z -> mem -> option (Z * mem) := fun f vs m =>
  match vs with [a; b] => if f =? 100 then Some (wrap 32 (a + b), m) else None | _ => None end.
Definition ex_callee : Z -> st -> option st := fun f s =>
  if f =? 100 then Some (set_ea (uw 4 (ldn 4 4 (M s) (esp s) + ldn 4 4 (M s) (esp s + 4))) s) else None.
Definition ex_x := EDeref 4 (ELocal (-4)).
Definition ex_e : ex :=
  EAnd2 1 (ECmp ENe (EDeref (-1) (ELocal (-8))) (ENum false 0))
    (EUn EBool (EAssign 4 (ELocal (-4)) (EArith EAdd (ECall (EIdent 7) [ex_x; ENum false 3]) ex_x))).
Definition ex_code : list instr := match gen_expr 4 (rpn 4 ex_e ++ [TReturn]) with Some c => c | None => [] end.
Definition ex_m : mem := fun a => if a =? 1992 then Some 255 else if a =? 1996 then Some 5
  else if (1996 <? a) && (a <? 2000) then Some 0 else None.
Definition ex_st : st := mkst 1 2 3 4 1900 2000 (fun a => match ex_m a with Some b => b | None => 77 end) None.
Definition ex_prot : Z -> Prop := fun a => 2000 <= a < 2008.

Example ex_hypotheses :
  platform 4 2000 500 1900 ex_prot ex_callee ex_ext 64 /\ NoDup (labels ex_code) /\ wf 4 ex_e /\
  gen_expr 4 (rpn 4 ex_e ++ [TReturn]) = Some ex_code /\ placed ex_code 0 ex_code /\
  regs 4 2000 ex_st /\ agree 4 500 1900 ex_prot ex_m (M ex_st) /\
  safe 4 (fun _ => 100) 2000 ex_ext ex_e ex_m /\ 500 + 64 + 4 * depth ex_e <= esp ex_st <= 1900.
Proof.
  split.
  { constructor.
    - lia. - lia. - lia. - unfold ex_prot. lia. - lia.
    - intros f vs m v m' s Hx HR HA Hargs Hl Ht. unfold ex_ext in Hx.
      destruct vs as [|a [|b [|]]]; try discriminate. destruct (Z.eqb_spec f 100) as [->|]; [|discriminate].
      injection Hx as <- <-. unfold ex_callee. cbn [Z.eqb Pos.eqb].
      pose proof (Hargs 0%nat a eq_refl) as Ha. pose proof (Hargs 1%nat b eq_refl) as Hb.
      rewrite Z.mul_0_r, Z.add_0_r in Ha. change (4 * Z.of_nat 1) with 4 in Hb. change (Z.to_nat 4) with 4%nat in *.
      rewrite Ha, Hb. eexists. split; [reflexivity|]. cbn [set_ea ea esp M]. split; [reflexivity|].
      destruct HR as (Q1 & Q2 & Q3 & Q4 & Q5 & Q6). split; [repeat split; cbn; try lia; unfold uw, wrap; lia|]. auto.
  }
  split; [vm_compute; constructor; [intros []|constructor]|].
  split; [cbn; repeat split; auto; try lia; unfold valid_size; lia|].
  split; [vm_compute; reflexivity|]. split; [exists [], []; split; [vm_compute; reflexivity|reflexivity]|].
  split; [repeat split; cbn; lia|]. split.
  { intros a b H. assert (Hb : M ex_st a = b) by (cbn [ex_st M]; now rewrite H). rewrite Hb.
    unfold ex_m in H. unfold ex_prot.
    destruct (Z.eqb_spec a 1992) as [->|]; [injection H as <-; lia|].
    destruct (Z.eqb_spec a 1996) as [->|]; [injection H as <-; lia|].
    destruct (Z.ltb_spec 1996 a), (Z.ltb_spec a 2000); try discriminate. injection H as <-. lia. }
  split; [|vm_compute; split; discriminate].
  apply safe_check_ok with (fuel := 30%nat). vm_compute. reflexivity.
Qed.
(** The code that is generated for it. *)
Example ex_code_shown : ex_code =
  [I2 Imov RAB (MLoc MI (-8)); I2 Imovsx RA RAB; I2 Icmp RA (XC 0);
   I1 (Isetcc CNe) RAB; I2 Imovzx RA RAB; I2 Itest RA RA;
   I1 (Ijcc CEq) (XNum 1); I1 Ipush (XC 3); I1 Ipush (MLoc MWord (-4));
   I1 Icall (XLab 7); I2 Isub RSP (XC (-8)); I2 Iadd RA (MLoc MI (-4));
   I2 Imov (MLoc MI (-4)) RA; I2 Itest RA RA; I1 (Isetcc CNe) RAB;
   I2 Imovsx RA RAB; Lab 1].
Proof. vm_compute. reflexivity. Qed.

Print Assumptions C04_expression_code.
Print Assumptions C04_condition_code.
Print Assumptions C04_code_exists.
Print Assumptions C05_stack_balance.
Print Assumptions C06_logical_and.
Print Assumptions C06_logical_or.
Print Assumptions C06_conditional.
Print Assumptions C06_comma.
Print Assumptions C20_assignment_value.
Print Assumptions C20_load_extension.
