(** C54: functions compiled for x86 obey the calling convention. *)
From Verif Require Import Base BaseLemmas X86 ExprSpec ExprLemmas CgModel CgTree CgFuse MachSpec CgMach CgEmit CgSim CgCorrect CgProps StmtSpec StmtPre StmtModel StmtLab StmtLay StmtComp StmtCases StmtCheck StmtProps FnSpec FnModel.
Ltac Zify.zify_post_hook ::= idtac.

Lemma zlen_nonneg {A} (l : list A) : 0 <= zlen l. Proof. unfold zlen. lia. Qed.

Section Fn.
Variable W : Z.
Hypothesis HW : W = 2 \/ W = 4.
Variable addr : Z -> Z.
Notation P := (2 ^ (8 * W)).
Notation nW := (Z.to_nat W).
Local Notation lds := (ldn W nW).
Local Notation sts := (stn W nW).
Let nop : Z -> Prop := fun _ => False.

Lemma W_pos : 0 < W <= 4. Proof. destruct HW as [->| ->]; lia. Qed.
Lemma P_pos : 65536 <= P. Proof. destruct HW as [->| ->]; lia. Qed.
Lemma nWZ : Z.of_nat nW = W. Proof. destruct HW as [->| ->]; reflexivity. Qed.
Lemma uws x : 0 <= x < P -> uw W x = x. Proof. intros H. unfold uw, wrap. now apply Z.mod_small. Qed.
Lemma lows old v : 0 <= old < P -> low W old v = v mod P.
Proof. intros H. unfold low, ub, wrap. rewrite (Z.mod_small old) by exact H. lia. Qed.

Lemma ldn_byte n : forall f a i, 0 <= a -> a + Z.of_nat n <= P -> 0 <= i < Z.of_nat n -> ldn W n f a / 256 ^ i mod 256 = f (a + i) mod 256.
Proof.
  induction n as [|n IH]; intros f a i Ha Hb Hi; [lia|]. cbn [ldn]. rewrite uws by lia.
  pose proof (Z.mod_pos_bound (f a) 256 ltac:(lia)) as B.
  destruct (Z.eq_dec i 0) as [->|Ni].
  - rewrite Z.pow_0_r, Z.div_1_r, Z.add_0_r, (Z.mul_comm 256), Z_mod_plus_full. apply Zmod_mod.
  - replace (256 ^ i) with (256 * 256 ^ (i - 1)) by (rewrite <- Z.pow_succ_r by lia; f_equal; lia).
    rewrite <- Z.div_div by (try lia; apply Z.pow_pos_nonneg; lia).
    rewrite (Z.mul_comm 256 (ldn _ _ _ _)), Z.div_add, (Z.div_small (f a mod 256)) by lia. rewrite Z.add_0_l.
    rewrite IH by lia. f_equal. f_equal. lia.
Qed.
Lemma sts_other f a v x : 0 <= a -> a + W <= P -> ~ (a <= x < a + W) -> sts f a v x = f x.
Proof. intros. apply (stn_other W HW addr nop); rewrite ?nWZ; lia. Qed.
Lemma lds_sts f a v : 0 <= a -> a + W <= P -> 0 <= v < P -> lds (sts f a v) a = v.
Proof. intros. rewrite (ldn_stn W HW addr nop) by (rewrite ?nWZ; lia). rewrite nWZ. now apply Z.mod_small. Qed.
Lemma lds_ext f g a : 0 <= a -> a + W <= P -> (forall x, a <= x < a + W -> f x = g x) -> lds f a = lds g a.
Proof. intros H1 H2 H3. apply (ldn_ext W HW addr nop); rewrite ?nWZ; auto. Qed.
Lemma lds_range f a : 0 <= lds f a < P.
Proof. pose proof (ldn_range W HW addr nop nW f a) as B. now rewrite nWZ in B. Qed.

(** The prologue, from the state at the call. *)
Lemma prolog_ok minofs bp ra s : regs W bp s -> 0 <= bp < P -> 0 <= ra < P -> minofs <= 0 -> 2 * W - minofs <= esp s ->
  let fp := esp s - 2 * W in
  exists s1, fexecs W addr (gen_prolog minofs) (push_ra W ra s) = Some (None, s1) /\ regs W fp s1 /\ esp s1 = fp + minofs /\
    lds (M s1) fp = bp /\ lds (M s1) (fp + W) = ra /\ forall x, ~ (fp <= x < esp s) -> M s1 x = M s x.
Proof.
  intros (R1 & R2 & R3 & R4 & R5 & R6) Hb Hra Hm Hs fp. pose proof W_pos as WP. pose proof P_pos as PP.
  set (f1 := sts (M s) (esp s - W) ra). set (f2 := sts f1 fp bp).
  assert (E1 : push_ra W ra s = mkst (ea s) (eb s) (ec s) (ed s) (esp s - W) bp f1 (fl s)).
  { unfold push_ra. rewrite uws by lia. unfold set_esp, set_M. cbn. rewrite R6. reflexivity. }
  assert (E2 : fexecs W addr (gen_prolog minofs) (push_ra W ra s) =
    fexecs W addr (gen_frame minofs) (mkst (ea s) (eb s) (ec s) (ed s) fp fp f2 (fl s))).
  { rewrite E1. unfold gen_prolog. cbn [app fexecs exec rd obind ebp esp M]. unfold ub, wrap. rewrite (Z.mod_small bp) by exact Hb.
    rewrite uws by (unfold fp in *; lia). replace (esp s - W - W) with fp by (unfold fp; lia). reflexivity. }
  assert (MM : lds f2 fp = bp /\ lds f2 (fp + W) = ra /\ forall x, ~ (fp <= x < esp s) -> f2 x = M s x).
  { unfold f2, f1. split; [|split].
    - apply lds_sts; unfold fp; lia.
    - transitivity (lds (sts (M s) (esp s - W) ra) (fp + W)).
      + apply lds_ext; try (unfold fp; lia). intros x Hx. apply sts_other; unfold fp in *; lia.
      + replace (fp + W) with (esp s - W) by (unfold fp; lia). apply lds_sts; lia.
    - intros x Hx. rewrite !sts_other by (unfold fp in *; lia). reflexivity. }
  rewrite E2. unfold gen_frame. cbv zeta. destruct (Z.eqb_spec (- minofs) 0) as [Z0|Z0].
  - eexists. split; [reflexivity|]. cbn [M esp]. split; [|split; [lia|exact MM]]. unfold regs. cbn [ea eb ec ed esp ebp set_esp set_ebp set_fl]. unfold fp. lia.
  - cbn [fexecs exec width2 width rd obind esp alu wr set_fl]. unfold ub, wrap. rewrite (Z.mod_small fp), (Z.mod_small (- minofs)) by (unfold fp; lia).
    rewrite lows by (unfold fp; lia). rewrite Z.mod_small by (unfold fp; lia).
    eexists. split; [reflexivity|]. cbn [M esp set_esp]. split; [|split; [lia|exact MM]]. unfold regs. cbn [ea eb ec ed esp ebp set_esp set_ebp set_fl]. unfold fp. lia.
Qed.
Lemma epilog_ok fp s : regs W fp s -> 0 <= fp -> fp + 2 * W < P ->
  exists s', fexecs W addr gen_epilog s = Some (Some (lds (M s) (fp + W)), s') /\ regs W (lds (M s) fp) s' /\ esp s' = fp + 2 * W /\
    ea s' = ea s /\ M s' = M s.
Proof.
  intros (R1 & R2 & R3 & R4 & R5 & R6) H0 H1. pose proof W_pos as WP. unfold gen_epilog. cbn [fexecs]. rewrite R6. rewrite uws by lia.
  cbn [set_ebp set_esp esp M]. rewrite uws by lia.
  eexists. split; [reflexivity|]. split; [|split; [cbn [esp set_esp]; lia|split; reflexivity]]. unfold regs. cbn [ea eb ec ed esp ebp set_esp set_ebp set_fl]. lia.
Qed.

Lemma enter_agree minofs lo top (prot : Z -> Prop) vs m s s1 :
  minofs <= 0 -> 0 <= lo -> top < P -> (forall a, prot a -> ~ (lo <= a < top)) ->
  args_at W (M s) (esp s) vs -> agree W lo top prot m (M s) -> lo + (2 * W - minofs) <= esp s -> esp s + W * zlen vs <= top ->
  let fp := esp s - 2 * W in
  (forall x, ~ (fp <= x < esp s) -> M s1 x = M s x) ->
  agree W lo (fp + minofs) (caller_mem W fp top prot vs) (enter_mem W fp minofs vs (M s1) m) (M s1).
Proof.
  intros Hm Hlo Htop Hp HG HA Hs Ht fp HM a b E. pose proof W_pos as WP. pose proof (zlen_nonneg vs) as ZL.
  unfold enter_mem in E. unfold caller_mem. destruct (own W fp minofs vs a) eqn:O; unfold own in O.
  - apply some_inj in E. destruct (Z.ltb_spec a fp) as [L|L].
    + assert (fp + minofs <= a) by lia. unfold fp in *. assert (0 <= W * zlen vs) by lia.
      split; [lia|]. split; [exact E|]. split; [lia|]. intros [C|C]; [apply Hp in C; lia|lia].
    + assert (Ha : fp + 2 * W <= a < fp + 2 * W + W * zlen vs) by lia. unfold fp in *.
      split; [lia|]. split; [|split; [lia|intros [C|C]; [apply Hp in C; lia|lia]]].
      rewrite HM by lia. rewrite <- E. unfold pbyte. set (d := a - (esp s - 2 * W + 2 * W)).
      pose proof (Z.div_mod d W ltac:(lia)) as DM. pose proof (Z.mod_pos_bound d W ltac:(lia)) as DB. set (j := d / W) in *.
      assert (Hj : 0 <= j < zlen vs).
      { split; [apply Z.div_pos; lia|]. apply Z.div_lt_upper_bound; lia. }
      assert (Lj : (Z.to_nat j < length vs)%nat) by (unfold zlen in *; lia).
      destruct (nth_error vs (Z.to_nat j)) as [v|] eqn:Ev; [|apply nth_error_None in Ev; lia].
      rewrite (nth_error_nth vs _ 0 Ev). specialize (HG _ _ Ev). rewrite Z2Nat.id in HG by lia. rewrite <- HG.
      assert (W * j <= d) by lia. assert (W * j + W <= W * zlen vs) by (replace (W * j + W) with (W * (j + 1)) by lia; apply Z.mul_le_mono_nonneg_l; lia).
      rewrite (ldn_byte nW) by (rewrite ?nWZ; lia). f_equal. f_equal. unfold d in *. lia.
  - destruct (HA a b E) as (A1 & A2 & A3 & A4). unfold fp in *. split; [exact A1|]. split; [rewrite HM by (assert (0 <= W * zlen vs) by lia; lia); exact A2|].
    split; [assert (0 <= W * zlen vs) by lia; lia|]. intros [C|C]; [auto|]. assert (0 <= W * zlen vs) by lia. lia.
Qed.
End Fn.

(** A call of a compiled function, on a machine that has the arguments on the stack; [ra] is the
    return address.  For some contents [g] of its locals, and for every N: either the function returns
    to [ra], with the value that the source returns in eax, the stack pointer and the frame pointer as they
    were, the memory that the source prescribes, and nothing else of the callers' stack changed;
    or after N steps both are still running. *)
Theorem C54_function_partial (W : Z) (addr : Z -> Z) (lo top : Z) (prot : Z -> Prop) (callee : Z -> st -> option st) (ext : Z -> list Z -> mem -> option (Z * mem)) (room : Z)
    (minofs : Z) (main : bool) (n : Z) (body : stmt) pro code epi (n' : Z) (bp ra : Z) (vs : list Z) (m : mem) (s : st) :
  W = 2 \/ W = 4 -> gen_fxn W minofs main n body = Some (pro, code, epi, n') -> 0 < n -> swf W body -> main = true \/ tail_ret false body = true ->
  minofs <= 0 -> 0 <= lo -> top < 2 ^ (8 * W) -> (forall a, prot a -> ~ (lo <= a < top)) -> 0 <= room -> calls_ok W lo callee ext room ->
  regs W bp s -> 0 <= bp < 2 ^ (8 * W) -> 0 <= ra < 2 ^ (8 * W) -> args_at W (M s) (esp s) vs -> agree W lo top prot m (M s) ->
  lo + room + (2 * W - minofs) + W * sdepth body <= esp s -> lo + (2 * W - minofs) <= esp s -> esp s + W * zlen vs <= top ->
  let fp := esp s - 2 * W in
  let start g := Run body KStop (enter_mem W fp minofs vs g m) in
  (forall g, safe_run W addr fp ext body main (start g)) ->
  exists g s1, fexecs W addr pro (push_ra W ra s) = Some (None, s1) /\
    forall N, exists k y j pc' s2,
    ssteps W addr fp ext body main k (start g) y /\ msteps W addr callee code j (0%nat, s1) (pc', s2) /\
    ((exists v m' s', y = Ret v m' /\ pc' = length code /\ fexecs W addr epi s2 = Some (Some ra, s') /\ (forall r, v = Some r -> ea s' = r) /\
        regs W bp s' /\ esp s' = esp s /\ agree W lo top prot (leave_mem W fp minofs vs m') (M s') /\
        forall a, esp s + W * zlen vs <= a < top \/ prot a -> M s' a = M s a) \/
     (N <= k /\ N <= j)%nat /\ agree W lo (fp + minofs) (caller_mem W fp top prot vs) (mem_of y) (M s2)).
Proof.
  intros HW HF Hn Hw HT Hm Hlo Htop Hp Hroom HC HR Hbp Hra HG HA Hs Hs2 Ht fp start HS.
  unfold gen_fxn in HF. apply obind_Some in HF as ([c q] & HB & HF). apply some_inj in HF. injection HF as <- <- <- <-.
  pose proof (W_pos W HW) as WP. pose proof (zlen_nonneg vs) as ZL. assert (ZW : 0 <= W * zlen vs) by lia.
  destruct (prolog_ok W HW addr minofs bp ra s HR Hbp Hra Hm ltac:(lia)) as (s1 & X1 & R1 & S1 & L0 & L1 & M1). fold fp in R1, S1, L0, L1, M1.
  pose proof (enter_agree W HW minofs lo top prot vs m s s1 Hm Hlo Htop Hp HG HA Hs2 Ht M1) as A1. fold fp in A1.
  exists (M s1), s1. split; [exact X1|]. intros N. set (cm := caller_mem W fp top prot vs) in *.
  assert (PF : platform W fp lo (fp + minofs) cm callee ext room).
  { assert (D : forall a, cm a -> ~ (lo <= a < fp + minofs)).
    { intros a [C|C]; [apply Hp in C; unfold fp; lia|unfold fp in *; lia]. }
    constructor; auto; [unfold fp; lia|]. apply HC; auto; unfold fp; lia. }
  assert (ND : NoDup (labels c)) by (eapply C07_labels_unique; eauto).
  assert (PLC : placed c 0 c) by (exists [], []; split; [now rewrite app_nil_r|reflexivity]).
  destruct (C07_function_body_partial W addr fp lo (fp + minofs) cm callee ext room c main n body c q 0%nat _ s1 N
    PF ND Hn Hw HT HB PLC R1 A1 (HS (M s1)) ltac:(rewrite S1; unfold fp; lia)) as (k & y & j & pc' & s2 & Y1 & Y2 & Y3 & Y4 & [Y5 Y5'] & Y6).
  destruct Y6 as [(v & m' & -> & -> & Y6)|[Y6 Y7]].
  2:{ exists k, y, j, pc', s2. split; [exact Y1|]. split; [exact Y2|]. right. split; [lia|exact Y3]. }
  cbn [mem_of Nat.add] in *. destruct (body_inv _ _ _ _ _ _ HB) as (cb & q0 & cmn & _ & _ & _ & EC & _).
  assert (LC : (0 < length c)%nat) by (rewrite EC, !app_length; cbn [length]; lia).
  assert (NL : nth_error c (length c - 1) = Some (Lab n)).
  { rewrite EC, app_assoc, app_length. cbn [length]. rewrite nth_error_app2 by lia. replace (_ - _)%nat with 0%nat by lia. reflexivity. }
  destruct (epilog_ok W HW addr fp s2 Y4) as (s3 & X3 & R3 & S3 & V3 & M3); try (unfold fp; lia).
  assert (KEEP : forall a, cm a -> M s2 a = M s1 a) by (intros a C; apply Y5'; now right).
  assert (F0 : ldn W (Z.to_nat W) (M s2) fp = bp).
  { rewrite <- L0. apply (lds_ext W HW addr); try (unfold fp; lia). intros x Hx. apply KEEP. right. left. lia. }
  assert (F1 : ldn W (Z.to_nat W) (M s2) (fp + W) = ra).
  { rewrite <- L1. apply (lds_ext W HW addr); try (unfold fp; lia). intros x Hx. apply KEEP. right. left. lia. }
  rewrite F0 in R3. rewrite F1 in X3.
  exists k, (Ret v m'), (j + 1)%nat, (length c), s2. split; [exact Y1|].
  split.
  { eapply msteps_trans; [exact Y2|]. econstructor; [|constructor]. unfold mstep. rewrite NL. cbn [obind]. do 2 f_equal. lia. }
  left. exists v, m', s3. split; [reflexivity|]. split; [reflexivity|]. split; [exact X3|]. split; [intros r Hr; rewrite V3; auto|].
  split; [exact R3|]. split; [rewrite S3; unfold fp; lia|]. rewrite M3. split.
  - intros a b E. unfold leave_mem in E. destruct (own W _ _ _ a) eqn:O; [discriminate|]. unfold own in O.
    destruct (Y3 a b E) as (B1 & B2 & B3 & B4). split; [exact B1|]. split; [exact B2|]. unfold cm, caller_mem in B4.
    split; [|tauto]. intros Hx. apply B4. right. assert (fp + minofs <= a) by lia. lia.
  - intros a Hx. rewrite KEEP, M1; [reflexivity| |].
    + destruct Hx as [Hx|Hx]; [unfold fp; lia|]. apply Hp in Hx. unfold fp. lia.
    + destruct Hx as [Hx|Hx]; [right; right; unfold fp; lia|now left].
Qed.

(** So the compiled function is as expression code expects of called functions: if the functions
    that it calls obey the convention, and the function [f] does what the source says,
    then the function at [f] obeys the convention too.  ([callee2] runs the code of the function
    for calls of [f], with any return addresses [ra].  Nothing is said about [ext f] and [callee f]: for a
    recursive function these are the calls one level further down.) *)
Corollary C54_implements_convention_partial (W : Z) (addr : Z -> Z) (lo : Z) (callee callee2 : Z -> st -> option st) (ext ext2 : Z -> list Z -> mem -> option (Z * mem)) (room room2 : Z)
    (minofs : Z) (main : bool) (n : Z) (body : stmt) pro code epi (n' f : Z) (ra : st -> Z) :
  W = 2 \/ W = 4 -> gen_fxn W minofs main n body = Some (pro, code, epi, n') -> 0 < n -> swf W body -> main = true \/ tail_ret false body = true ->
  minofs <= 0 -> 0 <= lo -> 0 <= room -> calls_ok W lo callee ext room -> (forall s, 0 <= ra s < 2 ^ (8 * W)) ->
  room + (2 * W - minofs) + W * sdepth body <= room2 -> room <= room2 -> 2 * W - minofs <= room2 ->
  (forall vs m v m', ext2 f vs m = Some (v, m') -> call_means W addr ext minofs main body vs m v m') ->
  (forall s s', fruns W addr callee pro code epi (ra s) s s' -> callee2 f s = Some s') ->
  (forall f' vs m, f' <> f -> ext2 f' vs m = ext f' vs m) -> (forall f' s, f' <> f -> callee2 f' s = callee f' s) ->
  calls_ok W lo callee2 ext2 room2.
Proof.
  intros HW HF Hn Hw HT Hm Hlo Hroom HC Hra Hr1 Hr2 Hr3 HE HL HE' HL' bp top prot Hbp Ht Hp g vs m v m' s E HR HA HG Hs Hst.
  destruct (Z.eq_dec g f) as [->|Ng].
  2:{ rewrite HE' in E by exact Ng. rewrite HL' by exact Ng. apply (HC bp top prot Hbp Ht Hp g vs m v m' s E HR HA HG); [lia|exact Hst]. }
  pose proof (HE _ _ _ _ E) as HM. set (fp := esp s - 2 * W). pose proof (W_pos W HW) as WP. pose proof (zlen_nonneg vs) as ZL.
  assert (PM : forall g0, safe_run W addr fp ext body main (Run body KStop (enter_mem W fp minofs vs g0 m)) /\
     (exists B, forall k y, ssteps W addr fp ext body main k (Run body KStop (enter_mem W fp minofs vs g0 m)) y -> (k <= B)%nat) /\
     forall k r m1, ssteps W addr fp ext body main k (Run body KStop (enter_mem W fp minofs vs g0 m)) (Ret r m1) ->
      r = Some v /\ forall a, leave_mem W fp minofs vs m1 a = m' a).
  { intros g0. apply HM; unfold fp; try lia.
    intros a Hx. destruct (m a) eqn:Em; [|reflexivity]. destruct (HA _ _ Em) as (_ & _ & Q & _). exfalso. apply Q. lia. }
  destruct (C54_function_partial W addr lo top prot callee ext room minofs main n body pro code epi n' bp (ra s) vs m s HW HF Hn Hw HT Hm Hlo Ht Hp Hroom HC HR Hbp (Hra s) HG HA
    ltac:(lia) ltac:(lia) Hst (fun g0 => proj1 (PM g0))) as (g0 & s1 & X1 & F).
  destruct (PM g0) as (_ & (B & HB) & HV).
  destruct (F (S B)) as (k & y & j & pc' & s2 & Y1 & Y2 & [(r & m1 & s' & -> & -> & Y9 & Y3 & Y4 & Y5 & Y7 & Y8)|[[Y3 _] _]]).
  2:{ apply HB in Y1. lia. }
  destruct (HV _ _ _ Y1) as [-> V2]. exists s'. split.
  { apply HL. exists s1, s2. split; [exact X1|]. split; [eapply msteps_mstar; eauto|exact Y9]. }
  split; [apply Y3; reflexivity|]. split; [exact Y4|]. split; [|split; [exact Y5|exact Y8]].
  intros a b Eb. apply Y7. fold fp. rewrite V2. exact Eb.
Qed.

(** ** Examples *)

(** A machine whose only other function adds its two arguments. *)
Lemma ex_calls_ok lo room : calls_ok 4 lo ex_callee ex_ext room.
Proof.
  intros bp top prot Hbp Ht Hp f vs m v m' s E HR HA HG _ _. unfold ex_ext in E. destruct vs as [|a [|b [|]]]; try discriminate.
  unfold ex_callee. destruct (f =? 100); [|discriminate]. apply some_inj, pair_inj in E as [<- <-].
  eexists. split; [reflexivity|]. pose proof (HG 0%nat _ eq_refl) as G0. pose proof (HG 1%nat _ eq_refl) as G1.
  change (4 * Z.of_nat 0) with 0 in G0. change (4 * Z.of_nat 1) with 4 in G1. change (Z.to_nat 4) with 4%nat in *. rewrite Z.add_0_r in G0.
  split; [cbn [set_ea ea]; rewrite G0, G1; reflexivity|]. destruct HR as (H1 & H2).
  split; [split; [|exact H2]|auto]. cbn [set_ea ea]. unfold uw, wrap. apply Z.mod_pos_bound. lia.
Qed.

(** int f(int a, int b) { int t; t = add(a, b); return t - a; }, called with 3 and 4. *)
Definition fx_a := EDeref 4 (ELocal 8).
Definition fx_b := EDeref 4 (ELocal 12).
Definition fx_body : stmt :=
  SSeq (SExpr (EAssign 4 (ELocal (-4)) (ECall (EIdent 7) [fx_a; fx_b])))
       (SReturn (Some (EArith ESub (EDeref 4 (ELocal (-4))) fx_a))).
Definition fx_fxn := match gen_fxn 4 (-4) false 1 fx_body with Some (p, c, e, _) => (p, c, e) | None => ([], [], []) end.
Definition fx_st : st := mkst 1 2 3 4 1800 2000 (fun a => match ex_m a with Some b => b | None => if a =? 1800 then 3 else if a =? 1804 then 4 else 0 end) None.
Example fx_hypotheses :
  (exists n', gen_fxn 4 (-4) false 1 fx_body = Some (fx_fxn, n')) /\ swf 4 fx_body /\ tail_ret false fx_body = true /\
  (forall a, ex_prot a -> ~ (500 <= a < 1900)) /\ calls_ok 4 500 ex_callee ex_ext 64 /\
  regs 4 2000 fx_st /\ args_at 4 (M fx_st) (esp fx_st) [3; 4] /\ agree 4 500 1900 ex_prot ex_m (M fx_st) /\
  500 + 64 + (2 * 4 - -4) + 4 * sdepth fx_body <= esp fx_st /\ esp fx_st + 4 * zlen [3; 4] <= 1900 /\
  (forall g, safe_run 4 (fun _ => 100) 1792 ex_ext fx_body false (Run fx_body KStop (enter_mem 4 1792 (-4) [3; 4] g ex_m))).
Proof.
  split; [vm_compute; eauto|]. split; [vm_compute; repeat split; auto 10|]. split; [reflexivity|]. split; [unfold ex_prot; lia|].
  split; [apply ex_calls_ok|]. split; [repeat split; cbn; lia|].
  split. { intros [|[|i]] v H; cbn in H; [injection H as <-; reflexivity|injection H as <-; reflexivity|]. destruct i; discriminate. }
  split. { intros a b H. assert (Hb : M fx_st a = b) by (cbn [fx_st M]; now rewrite H). rewrite Hb. unfold ex_m in H. unfold ex_prot.
    destruct (Z.eqb_spec a 1992); [|destruct (Z.eqb_spec a 1996); [|destruct (Z.ltb_spec 1996 a), (Z.ltb_spec a 2000); try discriminate]];
    injection H as <-; (split; [lia|]; split; [reflexivity|]; split; lia). }
  split; [vm_compute; discriminate|]. split; [vm_compute; discriminate|].
  intros g. apply run_check_ok with (fe := 40%nat) (fuel := 20%nat). vm_compute. reflexivity.
Qed.

(** int f() { int x, y; return add(3, 4) + 1; } at address 200. *)
Definition fy_body : stmt := SReturn (Some (EArith EAdd (ECall (EIdent 7) [ENum false 3; ENum false 4]) (ENum false 1))).
Definition fy_fxn := match gen_fxn 4 (-8) false 1 fy_body with Some (p, c, e, _) => (p, c, e) | None => ([], [], []) end.
Definition fy_ext : Z -> list Z -> mem -> option (Z * mem) := fun f vs m => if f =? 200 then Some (8, m) else ex_ext f vs m.
Fixpoint mfor W (addr : Z -> Z) callee code (fuel : nat) (x : nat * st) : option st :=
  match fuel with O => Some (snd x) | S fuel => let? y := mstep W addr callee code x in mfor W addr callee code fuel y end.
Definition fy_callee : Z -> st -> option st := fun f s =>
  if f =? 200 then
    let '(p, c, e) := fy_fxn in
    let? (_, s1) := fexecs 4 (fun _ => 100) p (push_ra 4 777 s) in
    let? s2 := mfor 4 (fun _ => 100) ex_callee c (length c) (0%nat, s1) in
    let? (_, s') := fexecs 4 (fun _ => 100) e s2 in Some s'
  else ex_callee f s.
Definition straight (i : instr) : bool := match i with I1 Ijmp _ | I1 (Ijcc _) _ | I1 (Ijncc _) _ => false | _ => true end.
Lemma straight_step W addr callee code pc s y i : nth_error code pc = Some i -> straight i = true -> mstep W addr callee code (pc, s) = Some y -> fst y = S pc.
Proof.
  intros Hi Si H. unfold mstep in H. rewrite Hi in H. cbn [obind] in H.
  destruct i as [i|i o|i o1 o2|i o1 o2 o3|l]; try (apply some_inj in H; now subst y);
    try (apply obind_Some in H as (s1 & _ & H); apply some_inj in H; now subst y).
  destruct i; try discriminate; try (apply obind_Some in H as (s1 & _ & H); apply some_inj in H; now subst y).
  apply obind_Some in H as (f & _ & H). apply obind_Some in H as (s1 & _ & H). apply some_inj in H. now subst y.
Qed.
Lemma straight_run W addr callee code x y : forallb straight code = true -> mstar W addr callee code x y -> fst y = length code -> (fst x <= length code)%nat ->
  mfor W addr callee code (length code - fst x) x = Some (snd y).
Proof.
  intros HS H. induction H as [x|x y z H1 H2 IH]; intros Hy Hx.
  - rewrite Hy, Nat.sub_diag. reflexivity.
  - destruct x as [pc s]. cbn [fst] in *. destruct (nth_error code pc) as [i|] eqn:Hi; [|unfold mstep in H1; rewrite Hi in H1; discriminate].
    assert (L : (pc < length code)%nat) by (apply nth_error_Some; congruence).
    rewrite forallb_forall in HS. pose proof (HS i (nth_error_In _ _ Hi)) as Si. pose proof (straight_step _ _ _ _ _ _ _ _ Hi Si H1) as Py.
    replace (length code - pc)%nat with (S (length code - fst y))%nat by lia. cbn [mfor]. rewrite H1. apply IH; [auto|lia].
Qed.
Example fy_convention : calls_ok 4 500 fy_callee fy_ext 200.
Proof.
  destruct fy_fxn as [[p c] e] eqn:EF.
  assert (E : exists n', gen_fxn 4 (-8) false 1 fy_body = Some (p, c, e, n')) by (rewrite <- EF; vm_compute; eauto). destruct E as [n' E].
  assert (SC : forallb straight c = true) by (change c with (snd (fst (p, c, e))); rewrite <- EF; vm_compute; reflexivity).
  apply (C54_implements_convention_partial 4 (fun _ => 100) 500 ex_callee fy_callee ex_ext fy_ext 64 200 (-8) false 1 fy_body p c e n' 200 (fun _ => 777)
    (or_intror eq_refl) E); try lia; clear E.
  - vm_compute; repeat split; auto 10.
  - right. reflexivity.
  - apply ex_calls_ok.
  - vm_compute. discriminate.
  - intros vs m v m' Hx. unfold fy_ext in Hx. cbn [Z.eqb Pos.eqb] in Hx. apply some_inj, pair_inj in Hx as [<- <-].
    intros fp g F1 F2 F3 x. unfold x. set (m0 := enter_mem 4 fp (-8) vs g m).
    assert (ST : forall y, sstep 4 (fun _ => 100) fp ex_ext fy_body false (Run fy_body KStop m0) y -> y = Ret (Some 8) m0).
    { intros y Hy. assert (SA : step_all 4 (fun _ => 100) fp ex_ext fy_body false 20 (Run fy_body KStop m0) = Some (repeat (Ret (Some 8) m0) 30)) by (clearbody m0; vm_compute; reflexivity).
      pose proof (proj2 (step_all_ok 4 _ _ _ _ _ 20 _ _ SA)) as SB. apply SB in Hy. now apply repeat_spec in Hy. }
    split; [|split].
    + apply run_check_ok with (fe := 20%nat) (fuel := 20%nat). clearbody m0. vm_compute. reflexivity.
    + exists 1%nat. intros k y H. inversion H as [|k0 ? y0 ? H1 H2]; subst; [lia|]. apply ST in H1. subst y0.
      inversion H2 as [|? ? ? ? H3 ?]; subst; [lia|]. inversion H3.
    + intros k r m1 H. inversion H as [|k0 ? y0 ? H1 H2]; subst. apply ST in H1. subst y0.
      inversion H2 as [|? ? ? ? H3 ?]; subst; [|inversion H3]. split; [reflexivity|]. intros a. unfold leave_mem, m0, enter_mem.
      destruct (own 4 fp (-8) vs a) eqn:O; [|reflexivity]. symmetry. apply F3. unfold own in O. pose proof (zlen_nonneg vs). lia.
  - intros s s' (s1 & s2 & X1 & X2 & X3). unfold fy_callee. cbn [Z.eqb Pos.eqb]. rewrite EF. cbv iota beta. rewrite X1. cbn [obind].
    pose proof (straight_run _ _ _ _ _ _ SC X2 eq_refl (Nat.le_0_l _)) as Q. cbn [fst snd] in Q. rewrite Nat.sub_0_r in Q. rewrite Q. cbn [obind].
    rewrite X3. reflexivity.
  - intros f' vs m Hf. unfold fy_ext. replace (f' =? 200) with false by lia. reflexivity.
  - intros f' s Hf. unfold fy_callee. replace (f' =? 200) with false by lia. reflexivity.
Qed.

Print Assumptions C54_function_partial.
Print Assumptions C54_implements_convention_partial.
