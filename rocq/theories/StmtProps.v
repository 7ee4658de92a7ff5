(** C07, C08: the code generated for statements. *)
From Verif Require Import Base BaseLemmas X86 ExprSpec ExprLemmas CgModel CgTree CgFuse MachSpec CgMach CgEmit CgSim CgCorrect CgProps StmtSpec StmtPre StmtModel StmtLab StmtLay StmtComp StmtCases StmtCheck.
From Coq Require Import Permutation.

Lemma body_inv W main n body code n' : comp_body W main n body = Some (code, n') ->
  exists cb c cm, comp W (mkctx None 0 0 n main 0) 1 true body (mkcst (n + 2) [] []) = Some (cb, c) /\
    forallb (fun g => snd g) (gotos c) = true /\ (if main then gen_expr W [TNum 0; TReturn] else Some []) = Some cm /\
    code = cb ++ cm ++ [Lab n] /\ n' = lc c.
Proof.
  intros H. unfold comp_body in H. apply obind_Some in H as ([cb c] & H1 & H).
  destruct (forallb _ _) eqn:Hf; [|discriminate]. cbn [negb] in H. apply obind_Some in H as (cm & H2 & H).
  apply some_inj, pair_inj in H as [<- <-]. exists cb, c, cm. auto.
Qed.

Lemma main_code W : W = 2 \/ W = 4 -> gen_expr W [TNum 0; TReturn] = Some [I2 Imov RA (XC 0)].
Proof. intros [->| ->]; vm_compute; reflexivity. Qed.

Lemma goto_def t : forallb (fun g => snd g) t = true -> forall l k d, goto_find l t = Some (k, d) -> d = true.
Proof.
  induction t as [|[[a b] c] t IH]; cbn; intros H l k d Hf; [discriminate|]. apply andb_prop in H as [H1 H2].
  destruct (a =? l); [congruence|eauto].
Qed.
Lemma ginv0 n : 0 < n -> ginv (mkcst (n + 2) [] []).
Proof. intros H. split; [cbn; lia|]. repeat split; try constructor; destruct H0. Qed.

(** Values for which there is a case. *)
Theorem C08_case_exists (W v : Z) (s : stmt) (k : cont) :
  find W (ToCase v) s k <> None <-> In v (map (word W) (case_values s)).
Proof.
  revert k. induction s; intros k; cbn [find case_values map]; try (split; [intros H; now destruct H|intros []]); auto.
  - rewrite map_app, in_app_iff, <- (IHs1 (KSeq s2 k)), <- (IHs2 k). destruct (find W (ToCase v) s1 _); intuition congruence.
  - rewrite map_app, in_app_iff, <- (IHs1 k), <- (IHs2 k). destruct (find W (ToCase v) s1 _); intuition congruence.
  - cbn [In]. rewrite <- (IHs k). destruct (Z.eqb_spec (word W v0) v); intuition congruence.
Qed.
Lemma find_case_none W v s k : find W (ToCase v) s k = None -> ~ In v (map (word W) (case_values s)).
Proof. intros H Hin. apply (C08_case_exists W v s k) in Hin. contradiction. Qed.
Lemma find_default_none W s k : find W ToDefault s k = None -> defaults s = 0%nat.
Proof.
  revert k. induction s; intros k; cbn [find defaults]; try reflexivity; try discriminate; eauto.
  - destruct (find W ToDefault s1 _) eqn:E; [discriminate|]. intros. rewrite (IHs1 _ E), (IHs2 _ H). reflexivity.
  - destruct (find W ToDefault s1 _) eqn:E; [discriminate|]. intros. rewrite (IHs1 _ E), (IHs2 _ H). reflexivity.
Qed.

(** Labels of a function body are distinct and taken from the counter. *)
Theorem C07_labels_unique (W : Z) (main : bool) (n : Z) (body : stmt) (code : list instr) (n' : Z) :
  W = 2 \/ W = 4 -> 0 < n -> swf W body -> comp_body W main n body = Some (code, n') ->
  NoDup (labels code) /\ forall l, In l (labels code) -> n <= l < n'.
Proof.
  intros HW Hn Hw H. apply body_inv in H as (cb & c & cm & H1 & H2 & H3 & -> & ->).
  assert (Hcm : labels cm = []).
  { destruct main; [|apply some_inj in H3; now subst cm]. rewrite (main_code W HW) in H3. apply some_inj in H3. now subst cm. }
  destruct (comp_L W HW body _ _ _ _ _ _ Hw H1 (ginv0 n Hn)) as (_ & A1 & A2 & A3 & _). cbn [lc] in *.
  rewrite !labels_app, Hcm. cbn [labels app].
  assert (R : forall x, In x (labels cb) -> n + 2 <= x < lc c) by (intros x Hx; destruct (A3 x Hx) as [|[]]; lia).
  split.
  - apply (Permutation_NoDup (Permutation_cons_append _ _)). constructor; [|exact A2]. intros Hx. apply R in Hx. lia.
  - intros l Hl. apply in_app_or in Hl as [Hl|[<-|[]]]; [apply R in Hl|]; lia.
Qed.

Section Props.
Variables (W : Z) (addr : Z -> Z) (bp lo top : Z) (prot : Z -> Prop).
Variables (callee : Z -> st -> option st) (ext : Z -> list Z -> mem -> option (Z * mem)) (room : Z) (prog : list instr).

(** The machine executes the body of a function as the source prescribes: for every N, either
    the function returns, with the machine at the epilogue label (the last instruction of the
    body's code), the returned value in eax and the same memory, or after N steps both the source
    program and the machine are still running, with the same memory. *)
Theorem C07_function_body_partial (main : bool) (n : Z) (body : stmt) (code : list instr) (n' : Z) (pc : nat) (m : mem) (s : st) (N : nat) :
  platform W bp lo top prot callee ext room -> NoDup (labels prog) -> 0 < n -> swf W body ->
  main = true \/ tail_ret false body = true ->
  comp_body W main n body = Some (code, n') -> placed prog pc code ->
  regs W bp s -> agree W lo top prot m (M s) ->
  safe_run W addr bp ext body main (Run body KStop m) ->
  lo + room + W * sdepth body <= esp s <= top ->
  exists k y j pc' s',
    ssteps W addr bp ext body main k (Run body KStop m) y /\
    msteps W addr callee prog j (pc, s) (pc', s') /\
    agree W lo top prot (mem_of y) (M s') /\ regs W bp s' /\ keeps top prot s s' /\
    ((exists v m', y = Ret v m' /\ pc' = (pc + length code - 1)%nat /\ (forall r, v = Some r -> ea s' = r)) \/
     (N <= k /\ N <= j)%nat).
Proof.
  intros [P1 P2 P3 P4 P5 P6] P7 Hn Hw HT H Hp HR HA HS Hsp.
  pose proof (C07_labels_unique W main n body code n' P1 Hn Hw H) as [_ _].
  apply body_inv in H as (cb & c & cm & H1 & H2 & H3 & -> & ->).
  apply placed_code_at in Hp. apply code_at_cat in Hp as [A1 A2]. apply code_at_cat in A2 as [A2 A3].
  pose proof (uniq_labels prog P7) as HU.
  set (pend := (pc + length cb)%nat) in *. set (pE := (pend + length cm)%nat) in *.
  pose proof (lab_at prog HU _ _ A3) as FE.
  pose proof (comp_eff W P1 body _ _ _ _ _ _ H1) as (_ & _ & _ & B6); [cbn; lia|cbn; lia|]. cbn [gotos cidx] in B6.
  assert (HgF : forall l k, goto_find l (gotos c) = Some (k, true) -> exists q, find_label k prog = Some q).
  { intros l k Hg. apply B6 in Hg as [Hg|[_ Hg]]; [discriminate|]. exact (find_in prog HU _ _ _ A1 Hg). }
  set (GG := G prog (gotos c)).
  set (X := mklctx None None (fun _ => None) None).
  assert (TL : tailc W addr callee prog pE main true 1 body pend).
  { intros Hl. destruct HT as [->|HT]; [discriminate|]. right. split; [|exact HT].
    destruct main; [discriminate|]. apply some_inj in H3. subst cm. subst pE. cbn [length]. rewrite Nat.add_0_r. apply silent_refl. }
  pose proof (comp_lay W P1 addr bp lo top prot P2 P3 P4 callee ext room P5 P6 prog HU (sdepth body) (gotos c) pE main HgF body
    (mkctx None 0 0 n main 0) 1 true (mkcst (n + 2) [] []) cb c pc pend X Hw ltac:(lia) ltac:(lia) H1) as LL.
  assert (LAY : lay W addr bp lo top prot callee ext room prog (sdepth body) GG pE body X pc pend).
  { apply LL; auto.
    - split; [apply ginv0; lia|cbn; lia].
    - split; cbn; auto; try discriminate. intros Hc. lia.
    - split; [|split]; cbn; try lia. intros l k d Hg. rewrite (goto_def _ H2 _ _ _ Hg) in Hg. exact Hg. }
  clear LL.
  assert (GF : forall l p q, GG l p -> GG l q -> p = q).
  { intros l p q (k1 & E1 & F1) (k2 & E2 & F2). congruence. }
  assert (HGo : forall l q, GG l q -> find W (ToLabel l) body KStop <> None).
  { intros l q (k1 & E1 & _). apply has_label_find. apply B6 in E1 as [E1|[E1 _]]; [discriminate|exact E1]. }
  assert (MC : mc W addr bp lo top prot callee ext room prog (sdepth body) GG pE main KStop X pend).
  { apply mc_stop; auto. intros s0 m0 HR0 HA0 Hs0. destruct main.
    - rewrite (main_code W P1) in H3. apply some_inj in H3. subst cm. apply code_at_hd in A2 as [A2 _].
      exists (set_ea 0 s0). split; [|split; [|reflexivity]].
      + econstructor; [|constructor]. unfold mstep. rewrite A2. subst pE. cbn [length]. rewrite Nat.add_1_r. cbn [obind].
        assert (EL : low W (ea s0) 0 = 0) by (destruct HR0 as [Q1 _], P1 as [->| ->]; unfold low, X86.ub, wrap; lia).
        rewrite <- EL at 2. destruct P1 as [->| ->]; reflexivity.
      + split; [|split; [exact HA0|split; auto]]. destruct HR0 as (Q1 & Q2 & Q3 & Q4 & Q5 & Q6). repeat split; cbn [ea eb ec ed esp ebp set_ea]; try lia; try (destruct P1 as [->| ->]; lia); auto.
    - apply some_inj in H3. subst cm. exists s0. subst pE. cbn [length]. rewrite Nat.add_0_r. split; [constructor|].
      split; [split; [exact HR0|split; [exact HA0|apply keeps_refl]]|discriminate]. }
  destruct (sim_run W addr bp lo top prot callee ext room prog P1 (sdepth body) GG GF pE main body pc pend X LAY MC HGo N
    (Run body KStop m) (pc, s)) as (k & j & y & [pc' s'] & Q1 & Q2 & Q3 & Q4 & Q5).
  { eapply ms_run; [left; exact LAY|exact MC|exact HR|exact HA|]. unfold space. lia. }
  { intros i z Hz e He. exact (HS i z e Hz He). }
  exists k, y, j, pc', s'. split; [exact Q1|]. split; [exact Q2|]. cbn [snd] in Q4.
  assert (EP : pE = (pc + length (cb ++ cm ++ [Lab n]) - 1)%nat) by (subst pE pend; rewrite !app_length; cbn [length]; lia).
  inversion Q3; subst.
  - cbn [mem_of]. split; [assumption|]. split; [assumption|]. split; [exact Q4|]. destruct Q5 as [(v & m' & E)|Q5]; [discriminate|]. right. lia.
  - cbn [mem_of]. split; [assumption|]. split; [assumption|]. split; [exact Q4|]. left. exists v, m0. auto.
Qed.

(** In particular a function whose executions all end does return, and the machine then returns
    the value that one of these executions returns. *)
Corollary C07_function_returns_partial (main : bool) (n : Z) (body : stmt) (code : list instr) (n' : Z) (pc : nat) (m : mem) (s : st) (B : nat) :
  platform W bp lo top prot callee ext room -> NoDup (labels prog) -> 0 < n -> swf W body ->
  main = true \/ tail_ret false body = true ->
  comp_body W main n body = Some (code, n') -> placed prog pc code ->
  regs W bp s -> agree W lo top prot m (M s) ->
  safe_run W addr bp ext body main (Run body KStop m) ->
  lo + room + W * sdepth body <= esp s <= top ->
  (forall k y, ssteps W addr bp ext body main k (Run body KStop m) y -> (k <= B)%nat) ->
  exists v m' k s',
    ssteps W addr bp ext body main k (Run body KStop m) (Ret v m') /\
    mstar W addr callee prog (pc, s) ((pc + length code - 1)%nat, s') /\
    agree W lo top prot m' (M s') /\ regs W bp s' /\ keeps top prot s s' /\ (forall r, v = Some r -> ea s' = r).
Proof.
  intros H1 H2 H3 H4 H5 H6 H7 H8 H9 H10 H11 HB.
  destruct (C07_function_body_partial main n body code n' pc m s (S B) H1 H2 H3 H4 H5 H6 H7 H8 H9 H10 H11)
    as (k & y & j & pc' & s' & Q1 & Q2 & Q3 & Q4 & Q5 & [(v & m' & -> & -> & Q6)|[Q6 _]]).
  - exists v, m', k, s'. split; [exact Q1|]. split; [eapply msteps_mstar; eauto|]. auto.
  - apply HB in Q1. lia.
Qed.

(** ** C08 *)

(** A switch at the beginning of a function: the controlling expression is evaluated, and
    execution goes on after the case label with that value, or after the default label if there
    is no such case, or after the switch. *)
Theorem C08_switch (e : ex) (b rest : stmt) (main : bool) (n : Z) (code : list instr) (n' : Z) (pc : nat) (m : mem) (s : st) (N : nat) :
  let body := SSeq (SSwitch e b) rest in
  platform W bp lo top prot callee ext room -> NoDup (labels prog) -> 0 < n -> swf W body ->
  main = true \/ tail_ret false body = true ->
  comp_body W main n body = Some (code, n') -> placed prog pc code ->
  regs W bp s -> agree W lo top prot m (M s) ->
  safe_run W addr bp ext body main (Run body KStop m) ->
  lo + room + W * sdepth body <= esp s <= top ->
  exists v m1 s1 k1, evals W addr bp ext e m v m1 /\
    (find W (ToCase v) b (KSwitch (KSeq rest KStop)) = Some (s1, k1) \/
     ~ In v (map (word W) (case_values b)) /\ find W ToDefault b (KSwitch (KSeq rest KStop)) = Some (s1, k1) \/
     ~ In v (map (word W) (case_values b)) /\ defaults b = 0%nat /\ s1 = SSkip /\ k1 = KSeq rest KStop) /\
  exists k y j pc' s',
    ssteps W addr bp ext body main k (Run s1 k1 m1) y /\
    msteps W addr callee prog j (pc, s) (pc', s') /\
    agree W lo top prot (mem_of y) (M s') /\ regs W bp s' /\ keeps top prot s s' /\
    ((exists v m', y = Ret v m' /\ pc' = (pc + length code - 1)%nat /\ (forall r, v = Some r -> ea s' = r)) \/
     (N <= k /\ N <= j)%nat).
Proof.
  intros body H1 H2 H3 H4 H5 H6 H7 H8 H9 H10 H11.
  destruct (C07_function_body_partial main n body code n' pc m s (S (S N)) H1 H2 H3 H4 H5 H6 H7 H8 H9 H10 H11)
    as (k & y & j & pc' & s' & Q1 & Q2 & Q3 & Q4 & Q5 & Q6).
  inversion Q1 as [|k0 x0 x1 z0 S1 R1]; subst.
  { destruct Q6 as [(v & m' & E & _)|[E _]]; [discriminate|lia]. }
  inversion S1; subst. inversion R1 as [|k1 x1 x2 z1 S2 R2]; subst.
  { destruct Q6 as [(v & m' & E & _)|[E _]]; [discriminate|lia]. }
  assert (Q6' : (exists v m', y = Ret v m' /\ pc' = (pc + length code - 1)%nat /\ (forall r, v = Some r -> ea s' = r)) \/ (N <= k1 /\ N <= j)%nat).
  { destruct Q6 as [Q6|Q6]; [left; exact Q6|right; lia]. }
  inversion S2; subst.
  - exists v, m', s0, k'. split; [assumption|]. split; [auto|]. exists k1, y, j, pc', s'. auto 10.
  - exists v, m', s0, k'. split; [assumption|]. split; [right; left; split; auto; now apply find_case_none with (k := KSwitch (KSeq rest KStop))|].
    exists k1, y, j, pc', s'. auto 10.
  - exists v, m', SSkip, (KSeq rest KStop). split; [assumption|].
    split; [right; right; split; [now apply find_case_none with (k := KSwitch (KSeq rest KStop))|split; [now apply find_default_none with (W := W) (k := KSwitch (KSeq rest KStop))|auto]]|].
    exists k1, y, j, pc', s'. auto 10.
Qed.
End Props.

(** Every switch that is accepted has distinct case constants (as values of the controlling
    type) and at most one default; case and default labels outside a switch are rejected. *)
Theorem C08_labels_accepted (W : Z) (main : bool) (n : Z) (body : stmt) (code : list instr) (n' : Z) :
  W = 2 \/ W = 4 -> 0 < n -> comp_body W main n body = Some (code, n') ->
  switches_ok W body /\ case_values body = [] /\ defaults body = 0%nat.
Proof.
  intros HW Hn H. apply body_inv in H as (cb & c & cm & H1 & _).
  destruct (comp_cvs W HW body _ _ _ _ _ _ H1) as (_ & _ & _ & A & B); [cbn; lia|cbn; lia|]. cbn [cidx] in A.
  split; [exact B|]. now apply A.
Qed.

(** ** The compiler's shortcut for a final return is wrong inside a loop *)

(** smlrc.c:8965-8969 omits the jump to the epilogue after a return that is followed by the
    closing brace of the function.  When this return is the body of a while or for loop, as in
    "int f(void) { while (1) return 5; }", what follows is the jump back to the beginning of the
    loop: the source returns 5, and the machine never gets to the epilogue. *)
Theorem C07_trailing_return_refuted :
  exists body code n', swf 4 body /\ comp_body 4 false 1 body = Some (code, n') /\
    (forall addr bp ext m, safe_run 4 addr bp ext body false (Run body KStop m) /\
      exists k, ssteps 4 addr bp ext body false k (Run body KStop m) (Ret (Some 5) m)) /\
    (forall addr callee s j pc' s', msteps 4 addr callee code j (0%nat, s) (pc', s') -> pc' <> (length code - 1)%nat).
Proof.
  exists (SWhile (CConst 1) (SReturn (Some (ENum false 5)))).
  destruct (comp_body 4 false 1 (SWhile (CConst 1) (SReturn (Some (ENum false 5))))) as [[code n']|] eqn:E; [|vm_compute in E; discriminate].
  exists code, n'. split; [repeat split; vm_compute; auto|]. split; [reflexivity|].
  vm_compute in E. apply some_inj, pair_inj in E as [<- _]. split.
  - intros addr bp ext m. split.
    + apply run_check_ok with (fe := 5%nat) (fuel := 5%nat). vm_compute. reflexivity.
    + exists 2%nat. econstructor; [apply (st_while 4 addr bp ext _ false (CConst 1) _ KStop m true m); split; reflexivity|].
      econstructor; [|constructor]. apply st_return_val. econstructor; [|constructor]. apply estep_here. reflexivity.
  - intros addr callee s j pc' s' H. cbn [length Nat.sub].
    assert (G : forall x y, msteps 4 addr callee [Lab 3; I2 Imov RA (XC 5); I1 Ijmp (XNum 3); Lab 4; Lab 1] j x y -> (fst x <= 2)%nat -> (fst y <= 2)%nat).
    { clear. intros x y H. induction H as [|n x y z H1 H2 IH]; intros Hx; [exact Hx|]. apply IH. destruct x as [pc s]. cbn [fst] in Hx.
      destruct pc as [|[|[|]]]; [| | |lia]; cbn in H1.
      - apply some_inj in H1. subst y. cbn. lia.
      - apply some_inj in H1. subst y. cbn. lia.
      - apply some_inj in H1. subst y. cbn. lia. }
    specialize (G _ _ H). cbn [fst] in G. lia.
Qed.

(** ** Examples *)
Definition sx_i := EDeref 4 (ELocal (-4)).
Definition sx_s := EDeref 4 (ELocal (-8)).
(* { for (i = 0; i < 2; i++) { switch (i) { case 0: continue; case 1: s = 7; break; default: return 1; } }
     return s; } *)
Definition sx_body : stmt :=
  SSeq (SFor (Some (EAssign 4 (ELocal (-4)) (ENum false 0))) (Some (CExpr (ECmp ELt sx_i (ENum false 2))))
             (Some (EPost true 4 (ELocal (-4))))
             (SBlock (SSwitch sx_i (SBlock
               (SSeq (SCase 0 SContinue) (SSeq (SCase 1 (SExpr (EAssign 4 (ELocal (-8)) (ENum false 7))))
                (SSeq SBreak (SDefault (SReturn (Some (ENum false 1)))))))))))
       (SReturn (Some sx_s)).
Definition sx_code : list instr := match comp_body 4 false 1 sx_body with Some (c, _) => c | None => [] end.
Definition sx_m : mem := fun a => if (1992 <=? a) && (a <? 2000) then Some 0 else None.
Definition sx_st : st := mkst 1 2 3 4 1900 2000 (fun a => match sx_m a with Some b => b | None => 77 end) None.
Definition sx_ext : Z -> list Z -> mem -> option (Z * mem) := fun _ _ _ => None.
Definition sx_callee : Z -> st -> option st := fun _ _ => None.

Example sx_hypotheses :
  platform 4 2000 500 1900 ex_prot sx_callee sx_ext 64 /\ NoDup (labels sx_code) /\ swf 4 sx_body /\
  tail_ret false sx_body = true /\ (exists n', comp_body 4 false 1 sx_body = Some (sx_code, n')) /\ placed sx_code 0 sx_code /\
  regs 4 2000 sx_st /\ agree 4 500 1900 ex_prot sx_m (M sx_st) /\
  safe_run 4 (fun _ => 100) 2000 sx_ext sx_body false (Run sx_body KStop sx_m) /\
  500 + 64 + 4 * sdepth sx_body <= esp sx_st <= 1900.
Proof.
  split.
  { constructor; try lia; [unfold ex_prot; lia|]. intros f vs m v m' s Hx. discriminate. }
  assert (HC : exists n', comp_body 4 false 1 sx_body = Some (sx_code, n')) by (vm_compute; eauto).
  split. { destruct HC as [n' HC]. eapply C07_labels_unique in HC as [HC _]; auto; [lia|]. vm_compute. repeat split; auto 10. }
  split; [vm_compute; repeat split; auto 10|]. split; [reflexivity|]. split; [exact HC|].
  split; [exists [], []; split; [rewrite app_nil_r; reflexivity|reflexivity]|].
  split; [repeat split; cbn; lia|]. split.
  { intros a b H. assert (Hb : M sx_st a = b) by (cbn [sx_st M]; now rewrite H). rewrite Hb. unfold sx_m in H. unfold ex_prot.
    destruct (Z.leb_spec 1992 a), (Z.ltb_spec a 2000); try discriminate. injection H as <-. lia. }
  split; [|vm_compute; split; discriminate].
  apply run_check_ok with (fe := 10%nat) (fuel := 60%nat). vm_compute. reflexivity.
Qed.

Print Assumptions C07_labels_unique.
Print Assumptions C07_function_body_partial.
Print Assumptions C07_function_returns_partial.
Print Assumptions C07_trailing_return_refuted.
Print Assumptions C08_switch.
Print Assumptions C08_labels_accepted.
Print Assumptions C08_case_exists.
