(** C50: the code that the MIPS code generator produces for expressions. *)
From Verif Require Import Base BaseLemmas X86 ExprSpec ExprLemmas CgModel CgTree MipsModel MipsSpec MipsCode MipsEmit MipsGen MipsMach MipsSim.

Lemma mnth_label p l prog : nth_error prog p = Some (Mlab l) -> In l (labels prog).
Proof.
  revert p. induction prog as [|i t IH]; intros [|p] H; cbn in H; try discriminate.
  - injection H as ->. cbn. auto.
  - apply IH in H. destruct i; cbn; auto.
Qed.
Lemma muniq_labels prog : NoDup (labels prog) ->
  forall l p, nth_error prog p = Some (Mlab l) -> find_label l prog = Some p.
Proof.
  induction prog as [|i t IH]; intros Hn l [|p] H; cbn in H; try discriminate.
  - injection H as ->. cbn. now rewrite Z.eqb_refl.
  - assert (Hn' : NoDup (labels t)) by (destruct i; cbn in Hn; auto; now inversion Hn).
    specialize (IH Hn' l p H). destruct i; cbn [find_label]; try (now rewrite IH).
    match goal with |- context [?x =? l] => destruct (Z.eqb_spec x l) as [->|]; [|now rewrite IH] end.
    cbn in Hn. inversion Hn; subst. apply mnth_label in H. contradiction.
Qed.
Lemma mplaced_code_at prog pc code : placed prog pc code -> code_at prog pc code.
Proof.
  intros (a & b & -> & <-) i x Hi. rewrite nth_error_app2 by lia.
  replace (length a + i - length a)%nat with i by lia. rewrite nth_error_app1; auto. apply nth_error_Some. congruence.
Qed.

Section Props.
Variables (addr : Z -> Z) (bp lo top : Z) (prot : Z -> Prop).
Variables (callee : Z -> mst -> option mst) (ext : Z -> list Z -> mem -> option (Z * mem)) (room : Z) (prog : list mins).
Notation esteps := (esteps 4 addr bp ext).
Notation mstar := (mstar addr callee prog).
Notation msafe := (msafe addr bp ext).
Notation agree := (agree lo top prot).
Notation mplatform := (mplatform bp lo top prot ext callee room).

(** Where the value of an expression is used (in a return statement, say), the code leaves it in
    $2: the value, and the effects on C objects, are those of some order of evaluation that C
    allows.  The code runs through to its end: no trap, no jump elsewhere. *)
Theorem C50_expression_code (e : ex) (code : list mins) (pc : nat) (m : mem) (s : mst) :
  mplatform -> NoDup (labels prog) -> wf 4 e -> typed e ->
  gen_expr (rpn 4 e ++ [TReturn]) = Some code -> placed prog pc code ->
  mregs bp s -> agree m (MM s) -> msafe e m ->
  lo + room + mdepth e <= R s 29 <= top ->
  exists v m' s',
    esteps (e, m) (EVal v, m') /\
    mstar (pc, s) ((pc + length code)%nat, s') /\
    R s' 2 = v /\ agree m' (MM s') /\ mregs bp s' /\ mkeeps top prot s s'.
Proof.
  intros [P1 P2 P3 P4 P5] P7 Hw Ht Hg Hp HR HA HS Hsp. rewrite gen_value in Hg by assumption. apply some_inj in Hg. subst code.
  destruct (sem_all addr bp lo top prot P1 P2 P3 callee ext room P4 prog (muniq_labels prog P7) (cdepth e) (cdepth_nonneg e) P5 e rV0 0 m Hw) with (pc := pc) (s := s)
    as (v & m1 & s1 & [E1 _] & X1 & R1 & A1 & K1 & V1 & _); auto using depth0, mplaced_code_at.
  - split; [now left|intros _; split; [lia|reflexivity]].
  - exists v, m1, s1. auto 10.
Qed.
(** Where the value is not used, the code has the effects. *)
Theorem C50_statement_code (e : ex) (code : list mins) (pc : nat) (m : mem) (s : mst) :
  mplatform -> NoDup (labels prog) -> wf 4 e -> typed e ->
  gen_expr (rpn 4 e) = Some code -> placed prog pc code ->
  mregs bp s -> agree m (MM s) -> msafe e m ->
  lo + room + mdepth e <= R s 29 <= top ->
  exists v m' s',
    esteps (e, m) (EVal v, m') /\
    mstar (pc, s) ((pc + length code)%nat, s') /\
    agree m' (MM s') /\ mregs bp s' /\ mkeeps top prot s s'.
Proof.
  intros [P1 P2 P3 P4 P5] P7 Hw Ht Hg Hp HR HA HS Hsp. rewrite gen_stmt in Hg by assumption. apply some_inj in Hg. subst code.
  destruct (top_ok addr bp lo top prot P1 P2 P3 callee ext room P4 prog (muniq_labels prog P7) (cdepth e) (cdepth_nonneg e) P5 e m Hw (depth0 e) HS pc s)
    as (v & m1 & s1 & E1 & X1 & R1 & A1 & K1); auto using mplaced_code_at.
  exists v, m1, s1. auto 10.
Qed.
(** In a condition, the code jumps to the label exactly if the value is nonzero ([yes]) or
    exactly if it is zero (not [yes]). *)
Theorem C50_condition_code (e : ex) (yes : bool) (lab : Z) (q : nat) (code : list mins) (pc : nat) (m : mem) (s : mst) :
  mplatform -> NoDup (labels prog) -> wf 4 e -> typed e -> isvoid e = false ->
  gen_expr (rpn 4 e ++ [if yes then TIf lab else TIfNot lab]) = Some code -> placed prog pc code ->
  nth_error prog q = Some (Mlab lab) ->
  mregs bp s -> agree m (MM s) -> msafe e m ->
  lo + room + mdepth e <= R s 29 <= top ->
  exists v m' s',
    esteps (e, m) (EVal v, m') /\
    mstar (pc, s) ((if Bool.eqb yes (negb (v =? 0)) then q else (pc + length code)%nat), s') /\
    agree m' (MM s') /\ mregs bp s' /\ mkeeps top prot s s'.
Proof.
  intros [P1 P2 P3 P4 P5] P7 Hw Ht Hv Hg Hp Hq HR HA HS Hsp.
  assert (G : gen_expr (rpn 4 e ++ [tif yes lab]) = Some code) by exact Hg.
  rewrite gen_cond in G by assumption. apply some_inj in G. subst code.
  assert (D : decides addr bp lo top prot callee ext room prog e m (Cif e yes lab) yes lab q).
  { pose proof (val_decides addr bp lo top prot P1 P2 P3 callee ext room P4 prog (muniq_labels prog P7) (cdepth e) (cdepth_nonneg e) P5 e m yes lab q Hq Hw (depth0 e) HS) as D0.
    destruct e; try exact D0.
    refine (cmp_decides addr bp lo top prot P1 P2 P3 callee ext room P4 prog (muniq_labels prog P7) _ (cdepth_nonneg _) P5 _ _ _ m yes lab q Hq Hw (depth0 _) HS). }
  destruct (D pc s (mplaced_code_at _ _ _ Hp) HR HA Hsp) as (v & m1 & s1 & E1 & X1 & R1 & A1 & K1). exists v, m1, s1. auto 10.
Qed.
(** The stack pointer and the frame pointer are back where they were; saved registers, return
    addresses, and everything else between the stack pointer and the top of the stack are as before. *)
Theorem C50_stack_balance (e : ex) (tail : stack) (code : list mins) (pc : nat) (m : mem) (s : mst) :
  mplatform -> NoDup (labels prog) -> wf 4 e -> typed e -> tail = [] \/ tail = [TReturn] ->
  gen_expr (rpn 4 e ++ tail) = Some code -> placed prog pc code ->
  mregs bp s -> agree m (MM s) -> msafe e m ->
  lo + room + mdepth e <= R s 29 <= top ->
  exists s', mstar (pc, s) ((pc + length code)%nat, s') /\
    R s' 29 = R s 29 /\ R s' 30 = R s 30 /\
    (forall a, R s 29 <= a < top -> MM s' a = MM s a) /\ (forall a, prot a -> MM s' a = MM s a).
Proof.
  intros HP HN Hw Ht [->| ->] Hg Hp HR HA HS Hsp.
  - rewrite app_nil_r in Hg. destruct (C50_statement_code e code pc m s) as (v & m1 & s1 & E1 & X1 & A1 & R1 & [K1 K2]); auto.
    exists s1. split; auto. split; auto. split; [|auto]. destruct HR as (_ & -> & _), R1 as (_ & -> & _). reflexivity.
  - destruct (C50_expression_code e code pc m s) as (v & m1 & s1 & E1 & X1 & _ & A1 & R1 & [K1 K2]); auto.
    exists s1. split; auto. split; auto. split; [|auto]. destruct HR as (_ & -> & _), R1 as (_ & -> & _). reflexivity.
Qed.
(** The right operand of && is evaluated if and only if the left one is nonzero. *)
Theorem C50_logical_and (k : Z) (l r : ex) (code : list mins) (pc : nat) (m : mem) (s : mst) :
  mplatform -> NoDup (labels prog) -> wf 4 (EAnd2 k l r) -> typed (EAnd2 k l r) ->
  gen_expr (rpn 4 (EAnd2 k l r) ++ [TReturn]) = Some code -> placed prog pc code ->
  mregs bp s -> agree m (MM s) -> msafe (EAnd2 k l r) m ->
  lo + room + mdepth (EAnd2 k l r) <= R s 29 <= top ->
  exists vl m1 m' s',
    esteps (l, m) (EVal vl, m1) /\
    mstar (pc, s) ((pc + length code)%nat, s') /\ agree m' (MM s') /\
    ((vl = 0 /\ R s' 2 = 0 /\ m' = m1) \/
     (vl <> 0 /\ exists vr, esteps (r, m1) (EVal vr, m') /\ R s' 2 = if vr =? 0 then 0 else 1)).
Proof.
  intros HP HN Hw Ht Hg Hp HR HA HS Hsp.
  destruct (C50_expression_code _ code pc m s HP HN Hw Ht Hg Hp HR HA HS Hsp) as (v & m' & s' & Q1 & Q2 & Q3 & Q4 & Q5 & Q6).
  apply and_inv in Q1 as (vl & m1 & E1 & [(-> & -> & ->)|(Hv & vr & E2 & ->)]).
  - exists 0, m1, m1, s'. auto 10.
  - exists vl, m1, m', s'. split; auto. split; auto. split; auto. right. split; auto. exists vr. auto.
Qed.
Theorem C50_logical_or (k : Z) (l r : ex) (code : list mins) (pc : nat) (m : mem) (s : mst) :
  mplatform -> NoDup (labels prog) -> wf 4 (EOr2 k l r) -> typed (EOr2 k l r) ->
  gen_expr (rpn 4 (EOr2 k l r) ++ [TReturn]) = Some code -> placed prog pc code ->
  mregs bp s -> agree m (MM s) -> msafe (EOr2 k l r) m ->
  lo + room + mdepth (EOr2 k l r) <= R s 29 <= top ->
  exists vl m1 m' s',
    esteps (l, m) (EVal vl, m1) /\
    mstar (pc, s) ((pc + length code)%nat, s') /\ agree m' (MM s') /\
    ((vl <> 0 /\ R s' 2 = 1 /\ m' = m1) \/
     (vl = 0 /\ exists vr, esteps (r, m1) (EVal vr, m') /\ R s' 2 = if vr =? 0 then 0 else 1)).
Proof.
  intros HP HN Hw Ht Hg Hp HR HA HS Hsp.
  destruct (C50_expression_code _ code pc m s HP HN Hw Ht Hg Hp HR HA HS Hsp) as (v & m' & s' & Q1 & Q2 & Q3 & Q4 & Q5 & Q6).
  apply or_inv in Q1 as (vl & m1 & E1 & [(Hv & -> & ->)|(-> & vr & E2 & ->)]).
  - exists vl, m1, m1, s'. auto 10.
  - exists 0, m1, m', s'. split; auto. split; auto. split; auto. right. split; auto. exists vr. auto.
Qed.
End Props.

(** Code is generated for every expression that the front end accepts, whatever its size. *)
Theorem C50_code_exists (e : ex) (tail : stack) : wf 4 e -> typed e ->
  tail = [] \/ tail = [TReturn] \/ isvoid e = false /\ (exists lab, tail = [TIf lab] \/ tail = [TIfNot lab]) ->
  exists code, gen_expr (rpn 4 e ++ tail) = Some code.
Proof.
  intros Hw Ht [->|[->|[Hv (lab & [->| ->])]]].
  - rewrite app_nil_r. rewrite gen_stmt by assumption. eauto.
  - rewrite gen_value by assumption. eauto.
  - pose proof (gen_cond e true lab Hw Ht Hv) as G. cbn [tif] in G. rewrite G. eauto.
  - pose proof (gen_cond e false lab Hw Ht Hv) as G. cbn [tif] in G. rewrite G. eauto.
Qed.

(** ** The hypotheses hold in a concrete case *)

(** Every access so far is aligned (a sufficient check). *)
Fixpoint alignedb (e : ex) : bool :=
  match access e with Some (sz, a) => a mod Z.abs sz =? 0 | None => true end &&
  match e with
  | EVal _ | ENum _ _ | EIdent _ | ELocal _ => true
  | EDeref _ a | EPre _ _ a | EPost _ _ a | EPostBy _ _ _ a | EUn _ a => alignedb a
  | EArith _ l r | ECmp _ l r | EAssign _ l r | EAssignOp _ _ l r | EComma l r | EAnd2 _ l r | EOr2 _ l r => alignedb l && alignedb r
  | ECond _ c t f => alignedb c && alignedb t && alignedb f
  | ECall f args => alignedb f && (fix go l := match l with [] => true | a :: l => alignedb a && go l end) args
  end.
Lemma alignedb_plug F e : alignedb (plug F e) = true -> alignedb e = true.
Proof.
  destruct F; cbn [plug alignedb]; intros H; apply andb_prop in H as [_ H]; auto;
    try (apply andb_prop in H as [H1 H2]; auto); try (apply andb_prop in H1 as [H1 H3]; auto).
  induction before as [|b l IH]; cbn [app] in H2; apply andb_prop in H2 as [H2 H3]; auto.
Qed.
Lemma alignedb_ok e : alignedb e = true -> ~ unaligned e.
Proof.
  intros H U. induction U.
  - apply H1. destruct e; cbn [alignedb] in H; apply andb_prop in H as [H _]; rewrite H0 in H; now apply Z.eqb_eq.
  - apply IHU. eapply alignedb_plug; eauto.
Qed.
Fixpoint msafe_check addr bp ext (fuel : nat) (e : ex) (m : mem) : bool :=
  match fuel with
  | O => false
  | S fuel => alignedb e && forallb (fun r => match r with Some (e', m') => msafe_check addr bp ext fuel e' m' | None => false end) (succ 4 addr bp ext e m)
  end.
Lemma msafe_check_ok addr bp ext fuel : forall e m, msafe_check addr bp ext fuel e m = true -> msafe addr bp ext e m.
Proof.
  induction fuel as [|fuel IH]; intros e m H; [discriminate|]. cbn [msafe_check] in H. apply andb_prop in H as [Ha H]. rewrite forallb_forall in H.
  split; intros e' m' Hs; inversion Hs as [|? [e1 m1] ? H1 H2]; subst.
  - intros Hb. apply succ_bad in Hb. specialize (H _ Hb). discriminate.
  - apply succ_step in H1. specialize (H _ H1). cbn in H. apply IH in H. exact (proj1 H _ _ H2).
  - now apply alignedb_ok.
  - apply succ_step in H1. specialize (H _ H1). cbn in H. apply IH in H. exact (proj2 H _ _ H2).
Qed.

(** int f(int, int), at address 100, adds its arguments;
    [c != 0 && (x = f(x, 3) + x)] with int x at [bp-4], signed char c at [bp-8]. *)
Definition mex_ext : Z -> list Z -> mem -> option (Z * mem) := fun f vs m =>
  match vs with [a; b] => if f =? 100 then Some (wrap 32 (a + b), m) else None | _ => None end.
Definition mex_callee : Z -> mst -> option mst := fun f s =>
  if f =? 100 then Some (setr 2 (w32 (R s 4 + R s 5)) s) else None.
Definition mex_x := EDeref 4 (ELocal (-4)).
Definition mex_e : ex :=
  EAnd2 1 (ECmp ENe (EDeref (-1) (ELocal (-8))) (ENum false 0))
    (EUn EBool (EAssign 4 (ELocal (-4)) (EArith EAdd (ECall (EIdent 7) [mex_x; ENum false 3]) mex_x))).
Definition mex_code : list mins := match gen_expr (rpn 4 mex_e ++ [TReturn]) with Some c => c | None => [] end.
Definition mex_m : mem := fun a => if a =? 1992 then Some 255 else if a =? 1996 then Some 5
  else if (1996 <? a) && (a <? 2000) then Some 0 else None.
Definition mex_st : mst := mkm (fun r => if r =? 29 then 1900 else if r =? 30 then 2000 else 9)
  (fun a => match mex_m a with Some b => b | None => 77 end) 0 0.
Definition mex_prot : Z -> Prop := fun a => 2000 <= a < 2008.

Example mex_hypotheses :
  mplatform 2000 500 1900 mex_prot mex_ext mex_callee 64 /\ NoDup (labels mex_code) /\ wf 4 mex_e /\ typed mex_e /\ isvoid mex_e = false /\
  gen_expr (rpn 4 mex_e ++ [TReturn]) = Some mex_code /\ placed mex_code 0 mex_code /\
  mregs 2000 mex_st /\ agree 500 1900 mex_prot mex_m (MM mex_st) /\
  msafe (fun _ => 100) 2000 mex_ext mex_e mex_m /\ 500 + 64 + mdepth mex_e <= R mex_st 29 <= 1900.
Proof.
  split.
  { constructor.
    - lia. - lia. - unfold mex_prot. lia. - lia.
    - intros f vs m v m' s Hx HR HA Hargs Hl Ht. unfold mex_ext in Hx.
      destruct vs as [|a [|b [|]]]; try discriminate. destruct (Z.eqb_spec f 100) as [->|]; [|discriminate].
      injection Hx as <- <-. unfold mex_callee. cbn [Z.eqb Pos.eqb].
      pose proof (Hargs 0%nat a eq_refl) as Ha. pose proof (Hargs 1%nat b eq_refl) as Hb. cbn in Ha, Hb.
      eexists. split; [reflexivity|]. cbn [setr Z.eqb Pos.eqb R MM]. rewrite Ha, Hb. split; [reflexivity|].
      destruct HR as (Q1 & Q2 & Q3). split; [|auto]. split; [|auto]. intros r. cbn [R]. destruct (r =? 2); [|apply Q1]. apply Z.mod_pos_bound. lia.
  }
  split; [vm_compute; constructor; [intros []|constructor]|].
  split; [cbn; repeat split; auto; try lia; unfold valid_size; lia|].
  split; [cbn; repeat split; auto; discriminate|]. split; [reflexivity|].
  split; [vm_compute; reflexivity|]. split; [exists [], []; split; [vm_compute; reflexivity|reflexivity]|].
  split. { split; [|split; reflexivity]. intros r. cbn [mex_st R]. destruct (r =? 29); [lia|]. destruct (r =? 30); lia. } split.
  { intros a b H. assert (Hb : MM mex_st a = b) by (cbn [mex_st MM]; now rewrite H). rewrite Hb.
    unfold mex_m in H. unfold mex_prot.
    assert (K : b = b mod 256 /\ 1992 <= a < 2000).
    { clear Hb. destruct (Z.eqb_spec a 1992) as [->|]; [injection H as <-; split; [reflexivity|lia]|].
      destruct (Z.eqb_spec a 1996) as [->|]; [injection H as <-; split; [reflexivity|lia]|].
      destruct (Z.ltb_spec 1996 a), (Z.ltb_spec a 2000); try discriminate. injection H as <-. split; [reflexivity|lia]. }
    split; [lia|]. split; [symmetry; apply K|]. split; lia. }
  split; [|vm_compute; split; discriminate].
  apply msafe_check_ok with (fuel := 30%nat). vm_compute. reflexivity.
Qed.
(** The code that is generated for it. *)
Example mex_code_shown : mex_code =
  [Mload (-1) 2 (AInd (-8) 30); Malu Msltu 2 0 (OR 2);
   Mbr true 2 0 1; Mli 5 3; Mload 4 4 (AInd (-4) 30);
   Malu Msubu 29 29 (OC 16); Mjal 7; Malu Msubu 29 29 (OC (-16));
   Malu Msubu 29 29 (OC 4); Mstore 4 2 (AInd 0 29);
   Mload 4 2 (AInd (-4) 30); Mload 4 24 (AInd 0 29);
   Malu Maddu 29 29 (OC 4); Malu Maddu 2 24 (OR 2);
   Mstore 4 2 (AInd (-4) 30); Malu Msltu 2 0 (OR 2); Mlab 1].
Proof. vm_compute. reflexivity. Qed.

Print Assumptions C50_expression_code.
Print Assumptions C50_statement_code.
Print Assumptions C50_condition_code.
Print Assumptions C50_stack_balance.
Print Assumptions C50_logical_and.
Print Assumptions C50_logical_or.
Print Assumptions C50_code_exists.
