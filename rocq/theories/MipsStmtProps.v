(** C52: the code that the compiler generates for statements, for MIPS. *)
From Verif Require Import Base BaseLemmas X86 ExprSpec ExprLemmas CgModel CgTree StmtSpec StmtPre StmtModel StmtLab StmtLay StmtComp StmtCases StmtCheck StmtProps MipsModel MipsSpec MipsCode MipsEmit MipsGen MipsMach MipsSim MipsProps MipsStmtPre MipsStmtModel MipsStmtLab MipsStmtLay MipsStmtComp MipsStmtCases.
From Coq Require Import Permutation.

Lemma body_inv main n body code n' : comp_body main n body = Some (code, n') ->
  exists cb c cm, comp (mkctx None 0 0 n main 0) 1 true body (mkcst (n + 2) [] []) = Some (cb, c) /\
    forallb (fun g => snd g) (gotos c) = true /\ (if main then gen_expr [TNum 0; TReturn] else Some []) = Some cm /\
    code = cb ++ cm ++ [Mlab n] /\ n' = lc c.
Proof.
  intros H. unfold comp_body in H. apply obind_Some in H as ([cb c] & H1 & H).
  destruct (forallb _ _) eqn:Hf; [|discriminate]. cbn [negb] in H. apply obind_Some in H as (cm & H2 & H).
  apply some_inj, pair_inj in H as [<- <-]. exists cb, c, cm. auto.
Qed.

Lemma main_code : gen_expr [TNum 0; TReturn] = Some [Mli 2 0].
Proof. vm_compute. reflexivity. Qed.

(** Labels of a function body are distinct and taken from the counter. *)
Theorem C52_labels_unique (main : bool) (n : Z) (body : stmt) (code : list mins) (n' : Z) :
  0 < n -> mswf body -> comp_body main n body = Some (code, n') ->
  NoDup (labels code) /\ forall l, In l (labels code) -> n <= l < n'.
Proof.
  intros Hn Hw H. apply body_inv in H as (cb & c & cm & H1 & H2 & H3 & -> & ->).
  assert (Hcm : labels cm = []).
  { destruct main; [|apply some_inj in H3; now subst cm]. rewrite main_code in H3. apply some_inj in H3. now subst cm. }
  destruct (comp_L body _ _ _ _ _ _ Hw H1 (ginv0 n Hn)) as (_ & A1 & A2 & A3 & _). cbn [lc] in *.
  rewrite !mlabels_app, Hcm. cbn [labels app].
  assert (R : forall x, In x (labels cb) -> n + 2 <= x < lc c) by (intros x Hx; destruct (A3 x Hx) as [|[]]; lia).
  split.
  - apply (Permutation_NoDup (Permutation_cons_append _ _)). constructor; [|exact A2]. intros Hx. apply R in Hx. lia.
  - intros l Hl. apply in_app_or in Hl as [Hl|[<-|[]]]; [apply R in Hl|]; lia.
Qed.

Section Props.
Variables (addr : Z -> Z) (bp lo top : Z) (prot : Z -> Prop).
Variables (callee : Z -> mst -> option mst) (ext : Z -> list Z -> mem -> option (Z * mem)) (room : Z) (prog : list mins).

(** The machine executes the body of a function as the source prescribes: for every N, either
    the function returns, with the machine at the epilogue label (the last instruction of the
    body's code), the returned value in $2 and the same memory, or after N steps both the source
    program and the machine are still running, with the same memory. *)
Theorem C52_function_body_partial (main : bool) (n : Z) (body : stmt) (code : list mins) (n' : Z) (pc : nat) (m : mem) (s : mst) (N : nat) :
  mplatform bp lo top prot ext callee room -> NoDup (labels prog) -> 0 < n -> mswf body ->
  main = true \/ tail_ret false body = true ->
  comp_body main n body = Some (code, n') -> placed prog pc code ->
  mregs bp s -> agree lo top prot m (MM s) ->
  msafe_run addr bp ext body main (Run body KStop m) ->
  lo + room + msdepth body <= R s 29 <= top ->
  exists k y j pc' s',
    ssteps 4 addr bp ext body main k (Run body KStop m) y /\
    msteps addr callee prog j (pc, s) (pc', s') /\
    agree lo top prot (mem_of y) (MM s') /\ mregs bp s' /\ mkeeps top prot s s' /\
    ((exists v m', y = Ret v m' /\ pc' = (pc + length code - 1)%nat /\ (forall r, v = Some r -> R s' 2 = r)) \/
     (N <= k /\ N <= j)%nat).
Proof.
  intros [P2 P3 P4 P5 P6] P7 Hn Hw HT H Hp HR HA HS Hsp.
  pose proof (C52_labels_unique main n body code n' Hn Hw H) as [_ _].
  apply body_inv in H as (cb & c & cm & H1 & H2 & H3 & -> & ->).
  apply mplaced_code_at in Hp. apply code_at_cat in Hp as [A1 A2]. apply code_at_cat in A2 as [A2 A3].
  pose proof (muniq_labels prog P7) as HU.
  set (pend := (pc + length cb)%nat) in *. set (pE := (pend + length cm)%nat) in *.
  pose proof (lab_at prog HU _ _ A3) as FE.
  pose proof (mcomp_eff body _ _ _ _ _ _ H1) as (_ & _ & _ & B6); [cbn; lia|cbn; lia|]. cbn [gotos cidx] in B6.
  assert (HgF : forall l k, goto_find l (gotos c) = Some (k, true) -> exists q, find_label k prog = Some q).
  { intros l k Hg. apply B6 in Hg as [Hg|[_ Hg]]; [discriminate|]. exact (find_in prog HU _ _ _ A1 Hg). }
  set (GG := G prog (gotos c)).
  set (X := mklctx None None (fun _ => None) None).
  assert (TL : tailc addr callee prog pE main true 1 body pend).
  { intros Hl. destruct HT as [->|HT]; [discriminate|]. right. split; [|exact HT].
    destruct main; [discriminate|]. apply some_inj in H3. subst cm. subst pE. cbn [length]. rewrite Nat.add_0_r. apply silent_refl. }
  pose proof (comp_lay addr bp lo top prot P2 P3 P4 callee ext room P5 P6 prog HU (msdepth body) (gotos c) pE main HgF body
    (mkctx None 0 0 n main 0) 1 true (mkcst (n + 2) [] []) cb c pc pend X Hw ltac:(lia) ltac:(lia) H1) as LL.
  assert (LAY : lay addr bp lo top prot callee ext room prog (msdepth body) GG pE body X pc pend).
  { apply LL; auto.
    - split; [apply ginv0; lia|cbn; lia].
    - split; cbn; auto; try discriminate. intros Hc. lia.
    - split; [|split]; cbn; try lia. intros l k d Hg. rewrite (goto_def _ H2 _ _ _ Hg) in Hg. exact Hg. }
  clear LL.
  assert (GF : forall l p q, GG l p -> GG l q -> p = q).
  { intros l p q (k1 & E1 & F1) (k2 & E2 & F2). congruence. }
  assert (HGo : forall l q, GG l q -> find 4 (ToLabel l) body KStop <> None).
  { intros l q (k1 & E1 & _). apply has_label_find. apply B6 in E1 as [E1|[E1 _]]; [discriminate|exact E1]. }
  assert (MC : mc addr bp lo top prot callee ext room prog (msdepth body) GG pE main KStop X pend).
  { apply mc_stop; auto. intros s0 m0 HR0 HA0 Hs0. destruct main.
    - rewrite main_code in H3. apply some_inj in H3. subst cm. apply code_at_hd in A2 as [A2 _].
      exists (setr 2 0 s0). split; [|split; [|reflexivity]].
      + econstructor; [|constructor]. unfold mstep. rewrite A2. subst pE. cbn [length]. rewrite Nat.add_1_r. reflexivity.
      + split; [|split; [exact HA0|split; auto]]. destruct HR0 as (Q1 & Q2 & Q3). split; [|auto]. intros r. cbn [setr R Z.eqb Pos.eqb]. destruct (r =? 2); [lia|apply Q1].
    - apply some_inj in H3. subst cm. exists s0. subst pE. cbn [length]. rewrite Nat.add_0_r. split; [constructor|].
      split; [split; [exact HR0|split; [exact HA0|apply keeps_refl]]|discriminate]. }
  destruct (sim_run addr bp lo top prot callee ext room prog (msdepth body) GG GF pE main body pc pend X LAY MC HGo N
    (Run body KStop m) (pc, s)) as (k & j & y & [pc' s'] & Q1 & Q2 & Q3 & Q4 & Q5).
  { eapply ms_run; [left; exact LAY|exact MC|exact HR|exact HA|]. unfold space. lia. }
  { intros i z Hz e He. exact (HS i z e Hz He). }
  exists k, y, j, pc', s'. split; [exact Q1|]. split; [exact Q2|]. cbn [snd] in Q4.
  assert (EP : pE = (pc + length (cb ++ cm ++ [Mlab n]) - 1)%nat) by (subst pE pend; rewrite !app_length; cbn [length]; lia).
  inversion Q3; subst.
  - cbn [mem_of]. split; [assumption|]. split; [assumption|]. split; [exact Q4|]. destruct Q5 as [(v & m' & E)|Q5]; [discriminate|]. right. lia.
  - cbn [mem_of]. split; [assumption|]. split; [assumption|]. split; [exact Q4|]. left. exists v, m0. auto.
Qed.

(** In particular a function whose executions all end does return, and the machine then returns
    the value that one of these executions returns. *)
Corollary C52_function_returns_partial (main : bool) (n : Z) (body : stmt) (code : list mins) (n' : Z) (pc : nat) (m : mem) (s : mst) (B : nat) :
  mplatform bp lo top prot ext callee room -> NoDup (labels prog) -> 0 < n -> mswf body ->
  main = true \/ tail_ret false body = true ->
  comp_body main n body = Some (code, n') -> placed prog pc code ->
  mregs bp s -> agree lo top prot m (MM s) ->
  msafe_run addr bp ext body main (Run body KStop m) ->
  lo + room + msdepth body <= R s 29 <= top ->
  (forall k y, ssteps 4 addr bp ext body main k (Run body KStop m) y -> (k <= B)%nat) ->
  exists v m' k s',
    ssteps 4 addr bp ext body main k (Run body KStop m) (Ret v m') /\
    mstar addr callee prog (pc, s) ((pc + length code - 1)%nat, s') /\
    agree lo top prot m' (MM s') /\ mregs bp s' /\ mkeeps top prot s s' /\ (forall r, v = Some r -> R s' 2 = r).
Proof.
  intros H1 H2 H3 H4 H5 H6 H7 H8 H9 H10 H11 HB.
  destruct (C52_function_body_partial main n body code n' pc m s (S B) H1 H2 H3 H4 H5 H6 H7 H8 H9 H10 H11)
    as (k & y & j & pc' & s' & Q1 & Q2 & Q3 & Q4 & Q5 & [(v & m' & -> & -> & Q6)|[Q6 _]]).
  - exists v, m', k, s'. split; [exact Q1|]. split; [eapply msteps_mstar; eauto|]. auto.
  - apply HB in Q1. lia.
Qed.

(** ** C08 *)

(** A switch at the beginning of a function: the controlling expression is evaluated, and
    execution goes on after the case label with that value, or after the default label if there
    is no such case, or after the switch. *)
Theorem C52_switch_partial (e : ex) (b rest : stmt) (main : bool) (n : Z) (code : list mins) (n' : Z) (pc : nat) (m : mem) (s : mst) (N : nat) :
  let body := SSeq (SSwitch e b) rest in
  mplatform bp lo top prot ext callee room -> NoDup (labels prog) -> 0 < n -> mswf body ->
  main = true \/ tail_ret false body = true ->
  comp_body main n body = Some (code, n') -> placed prog pc code ->
  mregs bp s -> agree lo top prot m (MM s) ->
  msafe_run addr bp ext body main (Run body KStop m) ->
  lo + room + msdepth body <= R s 29 <= top ->
  exists v m1 s1 k1, evals 4 addr bp ext e m v m1 /\
    (find 4 (ToCase v) b (KSwitch (KSeq rest KStop)) = Some (s1, k1) \/
     ~ In v (map (word 4) (case_values b)) /\ find 4 ToDefault b (KSwitch (KSeq rest KStop)) = Some (s1, k1) \/
     ~ In v (map (word 4) (case_values b)) /\ defaults b = 0%nat /\ s1 = SSkip /\ k1 = KSeq rest KStop) /\
  exists k y j pc' s',
    ssteps 4 addr bp ext body main k (Run s1 k1 m1) y /\
    msteps addr callee prog j (pc, s) (pc', s') /\
    agree lo top prot (mem_of y) (MM s') /\ mregs bp s' /\ mkeeps top prot s s' /\
    ((exists v m', y = Ret v m' /\ pc' = (pc + length code - 1)%nat /\ (forall r, v = Some r -> R s' 2 = r)) \/
     (N <= k /\ N <= j)%nat).
Proof.
  intros body H1 H2 H3 H4 H5 H6 H7 H8 H9 H10 H11.
  destruct (C52_function_body_partial main n body code n' pc m s (S (S N)) H1 H2 H3 H4 H5 H6 H7 H8 H9 H10 H11)
    as (k & y & j & pc' & s' & Q1 & Q2 & Q3 & Q4 & Q5 & Q6).
  inversion Q1 as [|k0 x0 x1 z0 S1 R1]; subst.
  { destruct Q6 as [(v & m' & E & _)|[E _]]; [discriminate|lia]. }
  inversion S1; subst. inversion R1 as [|k1 x1 x2 z1 S2 R2]; subst.
  { destruct Q6 as [(v & m' & E & _)|[E _]]; [discriminate|lia]. }
  assert (Q6' : (exists v m', y = Ret v m' /\ pc' = (pc + length code - 1)%nat /\ (forall r, v = Some r -> R s' 2 = r)) \/ (N <= k1 /\ N <= j)%nat).
  { destruct Q6 as [Q6|Q6]; [left; exact Q6|right; lia]. }
  inversion S2; subst.
  - exists v, m', s0, k'. split; [assumption|]. split; [auto|]. exists k1, y, j, pc', s'. auto 10.
  - exists v, m', s0, k'. split; [assumption|]. split; [right; left; split; auto; now apply find_case_none with (k := KSwitch (KSeq rest KStop))|].
    exists k1, y, j, pc', s'. auto 10.
  - exists v, m', SSkip, (KSeq rest KStop). split; [assumption|].
    split; [right; right; split; [now apply find_case_none with (k := KSwitch (KSeq rest KStop))|split; [now apply find_default_none with (W := 4) (k := KSwitch (KSeq rest KStop))|auto]]|].
    exists k1, y, j, pc', s'. auto 10.
Qed.
End Props.

(** Every switch that is accepted has distinct case constants (as values of the controlling
    type) and at most one default; case and default labels outside a switch are rejected. *)
Theorem C52_labels_accepted (main : bool) (n : Z) (body : stmt) (code : list mins) (n' : Z) :
  0 < n -> comp_body main n body = Some (code, n') ->
  switches_ok 4 body /\ case_values body = [] /\ defaults body = 0%nat.
Proof.
  intros Hn H. apply body_inv in H as (cb & c & cm & H1 & _).
  destruct (comp_cvs body _ _ _ _ _ _ H1) as (_ & _ & _ & A & B); [cbn; lia|cbn; lia|]. cbn [cidx] in A.
  split; [exact B|]. now apply A.
Qed.

(** ** Examples *)
Fixpoint mrun_check addr bp ext body main (fe fuel : nat) (x : state) : bool :=
  match fuel with
  | O => false
  | S fuel => match next_expr x with Some e => msafe_check addr bp ext fe e (mem_of x) | None => true end &&
      match step_all 4 addr bp ext body main fe x with None => false | Some l => forallb (mrun_check addr bp ext body main fe fuel) l end
  end.
Lemma mrun_check_ok addr bp ext body main fe fuel : forall x, mrun_check addr bp ext body main fe fuel x = true -> msafe_run addr bp ext body main x.
Proof.
  induction fuel as [|fuel IH]; intros x H; [discriminate|]. cbn [mrun_check] in H. apply andb_prop in H as [Hn H].
  destruct (step_all _ _ _ _ _ _ fe x) as [l|] eqn:E; [|discriminate].
  apply step_all_ok in E as [_ E2]. rewrite forallb_forall in H. intros n y e Hs He. inversion Hs; subst.
  - rewrite He in Hn. now apply msafe_check_ok in Hn.
  - apply E2 in H0. apply H in H0. eapply (IH _ H0); eauto.
Qed.

(** smlrc.c:8965-8969 omits the jump to the epilogue after a return that is followed by the
    closing brace of the function, for MIPS too: "int f(void) { while (1) return 5; }" never
    gets to the epilogue. *)
Theorem C52_trailing_return_refuted :
  exists body code n', mswf body /\ comp_body false 1 body = Some (code, n') /\
    (forall addr bp ext m, msafe_run addr bp ext body false (Run body KStop m) /\
      exists k, ssteps 4 addr bp ext body false k (Run body KStop m) (Ret (Some 5) m)) /\
    (forall addr callee s j pc' s', msteps addr callee code j (0%nat, s) (pc', s') -> pc' <> (length code - 1)%nat).
Proof.
  exists (SWhile (CConst 1) (SReturn (Some (ENum false 5)))).
  destruct (comp_body false 1 (SWhile (CConst 1) (SReturn (Some (ENum false 5))))) as [[code n']|] eqn:E; [|vm_compute in E; discriminate].
  exists code, n'. split; [repeat split; vm_compute; auto|]. split; [reflexivity|].
  vm_compute in E. apply some_inj, pair_inj in E as [<- _]. split.
  - intros addr bp ext m. split.
    + apply mrun_check_ok with (fe := 5%nat) (fuel := 5%nat). vm_compute. reflexivity.
    + exists 2%nat. econstructor; [apply (st_while 4 addr bp ext _ false (CConst 1) _ KStop m true m); split; reflexivity|].
      econstructor; [|constructor]. apply st_return_val. econstructor; [|constructor]. apply estep_here. reflexivity.
  - intros addr callee s j pc' s' H. cbn [length Nat.sub].
    assert (G : forall x y, msteps addr callee [Mlab 3; Mli 2 5; Mj 3; Mlab 4; Mlab 1] j x y -> (fst x <= 2)%nat -> (fst y <= 2)%nat).
    { clear. intros x y H. induction H as [|n x y z H1 H2 IH]; intros Hx; [exact Hx|]. apply IH. destruct x as [pc s]. cbn [fst] in Hx.
      destruct pc as [|[|[|]]]; [| | |lia]; cbn in H1.
      - apply some_inj in H1. subst y. cbn. lia.
      - apply some_inj in H1. subst y. cbn. lia.
      - apply some_inj in H1. subst y. cbn. lia. }
    specialize (G _ _ H). cbn [fst] in G. lia.
Qed.

(** The loop with a switch of StmtProps: int i at [bp-4], int s at [bp-8]. *)
Definition msx_code : list mins := match comp_body false 1 sx_body with Some (c, _) => c | None => [] end.
Definition msx_st : mst := mkm (fun r => if r =? 29 then 1900 else if r =? 30 then 2000 else 9)
  (fun a => match sx_m a with Some b => b | None => 77 end) 0 0.
Definition msx_callee : Z -> mst -> option mst := fun _ _ => None.
Example msx_hypotheses :
  mplatform 2000 500 1900 mex_prot sx_ext msx_callee 64 /\ NoDup (labels msx_code) /\ mswf sx_body /\
  tail_ret false sx_body = true /\ (exists n', comp_body false 1 sx_body = Some (msx_code, n')) /\ placed msx_code 0 msx_code /\
  mregs 2000 msx_st /\ agree 500 1900 mex_prot sx_m (MM msx_st) /\
  msafe_run (fun _ => 100) 2000 sx_ext sx_body false (Run sx_body KStop sx_m) /\
  500 + 64 + msdepth sx_body <= R msx_st 29 <= 1900.
Proof.
  split.
  { constructor; try lia; [unfold mex_prot; lia|]. intros f vs m v m' s Hx. discriminate. }
  assert (HC : exists n', comp_body false 1 sx_body = Some (msx_code, n')) by (vm_compute; eauto).
  assert (HM : mswf sx_body) by (vm_compute; repeat split; auto 10).
  split. { destruct HC as [n' HC]. eapply C52_labels_unique in HC as [HC _]; auto; lia. }
  split; [exact HM|]. split; [reflexivity|]. split; [exact HC|].
  split; [exists [], []; split; [rewrite app_nil_r; reflexivity|reflexivity]|].
  split. { split; [|split; reflexivity]. intros r. cbn [msx_st R]. destruct (r =? 29); [lia|]. destruct (r =? 30); lia. } split.
  { intros a b H. assert (Hb : MM msx_st a = b) by (cbn [msx_st MM]; now rewrite H). rewrite Hb. unfold sx_m in H. unfold mex_prot.
    destruct (Z.leb_spec 1992 a), (Z.ltb_spec a 2000); try discriminate. injection H as <-. split; [lia|]. split; [reflexivity|]. split; lia. }
  split; [|vm_compute; split; discriminate].
  apply mrun_check_ok with (fe := 10%nat) (fuel := 60%nat). vm_compute. reflexivity.
Qed.

Print Assumptions C52_labels_unique.
Print Assumptions C52_function_body_partial.
Print Assumptions C52_function_returns_partial.
Print Assumptions C52_switch_partial.
Print Assumptions C52_labels_accepted.
Print Assumptions C52_trailing_return_refuted.
