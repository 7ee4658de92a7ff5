(** C53: functions compiled for MIPS obey the calling convention. *)
From Verif Require Import Base BaseLemmas X86 ExprSpec ExprLemmas CgModel CgTree CgMach StmtSpec StmtPre StmtModel StmtLab StmtCheck StmtProps MipsModel MipsSpec MipsCode MipsMach MipsSim MipsProps MipsStmtPre MipsStmtModel MipsStmtLab MipsStmtLay MipsStmtProps MipsFnModel MipsFnSpec MipsFn31 MipsFnProof.
Ltac Zify.zify_post_hook ::= idtac.
Local Notation P32 := (2 ^ 32).
Local Notation HW4 := (or_intror eq_refl : 4 = 2 \/ 4 = 4).

Lemma params_labels cmin cmax : labels (gen_params cmin cmax) = [] /\ existsb is_call (gen_params cmin cmax) = false /\ n31 (gen_params cmin cmax).
Proof.
  unfold gen_params, n31. destruct (_ && _); [|auto]. induction (seq 0 _) as [|i l (A & B & C)]; [auto|]. cbn [map labels existsb is_call wr31 orb]. auto.
Qed.
Lemma zlen_nonneg {A} (l : list A) : 0 <= zlen l. Proof. unfold zlen. lia. Qed.

(** The prologue: the arguments are where the body looks for parameters, the frame is below them. *)
Lemma enter_ok addr cmin cmax minofs leaf lo top (prot : Z -> Prop) vs m s :
  0 <= cmin -> minofs <= 0 -> minofs mod 4 = 0 -> (cmin <> 0 -> zlen vs <= cmax) ->
  0 <= lo -> top < P32 -> (forall a, prot a -> ~ (lo <= a < top)) ->
  wd s -> R s 29 mod 4 = 0 -> margs s vs -> agree lo top prot m (MM s) ->
  lo + (8 - minofs) <= R s 29 -> R s 29 + argbytes vs <= top ->
  let fp := R s 29 - 8 in
  exists s1, MipsMach.execs addr (gen_params cmin cmax ++ gen_frame minofs leaf) s = Some s1 /\
    mregs fp s1 /\ R s1 29 = fp + minofs /\ R s1 31 = R s 31 /\
    ldn 4 4 (MM s1) fp = R s 30 /\ (leaf = false -> ldn 4 4 (MM s1) (fp + 4) = R s 31) /\
    (forall a, R s 29 + argbytes vs <= a < top \/ prot a -> MM s1 a = MM s a) /\
    agree lo (fp + minofs) (caller_mem fp top prot (params cmin vs)) (enter_mem fp minofs (params cmin vs) (MM s1) m) (MM s1).
Proof.
  intros Hc Hm Hm4 Hv Hlo Htop Hp W Ha HG HA Hs Ht fp.
  assert (AB : 16 <= argbytes vs) by apply Z.le_max_l.
  assert (AV : 4 * zlen vs <= argbytes vs) by apply Z.le_max_r.
  assert (Q : exists s0, MipsMach.execs addr (gen_params cmin cmax) s = Some s0 /\ wd s0 /\ (forall x, x <> 1 -> R s0 x = R s x) /\
     (forall x, ~ (R s 29 <= x < R s 29 + 16) -> MM s0 x = MM s x) /\
     forall x, fp + 8 <= x < fp + 8 + 4 * zlen (params cmin vs) -> MM s0 x mod 256 = pbyte (params cmin vs) (x - (fp + 8))).
  { unfold gen_params, params. destruct (Z.eqb_spec cmin 0) as [E|E]; cbn [negb andb].
    { exists s. split; [reflexivity|]. split; [exact W|]. split; [auto|]. split; [auto|]. change (zlen (@nil Z)) with 0. intros; lia. }
    specialize (Hv E). destruct (Z.eqb_spec cmax 0) as [E2|E2]; cbn [negb].
    { exists s. split; [reflexivity|]. split; [exact W|]. split; [auto|]. split; [auto|]. pose proof (zlen_nonneg vs). intros; lia. }
    pose proof (zlen_nonneg vs) as ZL. set (k := Z.to_nat (Z.min cmax 4)). assert (Ek : Z.of_nat k = Z.min cmax 4) by (unfold k; lia).
    destruct (params_ok addr k s ltac:(lia) W ltac:(lia) Ha) as (s0 & X & W0 & R0 & M0 & M1).
    exists s0. split; [exact X|]. split; [exact W0|]. split; [exact R0|]. split; [intros x Hx; apply M1; lia|].
    intros x Hx. replace (fp + 8) with (R s 29) in * by (unfold fp; lia). unfold pbyte.
    set (j := (x - R s 29) / 4). assert (Dj : 4 * j <= x - R s 29 < 4 * j + 4 /\ (x - R s 29) mod 4 = x - (R s 29 + 4 * j)).
    { pose proof (Z.div_mod (x - R s 29) 4 ltac:(lia)). pose proof (Z.mod_pos_bound (x - R s 29) 4 ltac:(lia)). unfold j. lia. }
    destruct Dj as [Dj Dm]. rewrite Dm.
    assert (Lj : (Z.to_nat j < length vs)%nat) by (unfold zlen in *; lia).
    destruct (nth_error vs (Z.to_nat j)) as [v|] eqn:Ev; [|apply nth_error_None in Ev; lia].
    rewrite (nth_error_nth vs _ 0 Ev). specialize (HG _ _ Ev).
    destruct (Nat.ltb_spec (Z.to_nat j) 4) as [J|J].
    - rewrite M0 by (unfold zlen in *; lia). fold j. rewrite Dm. rewrite <- HG. do 3 f_equal. lia.
    - rewrite M1 by lia. rewrite Z2Nat.id in HG by lia. rewrite (ldn4_byte (MM s) (R s 29 + 4 * j)) by (unfold zlen in *; lia). now rewrite HG. }
  destruct Q as (s0 & X0 & W0 & R0 & M0 & B0).
  destruct (frame_ok addr minofs leaf s0 W0 Hm Hm4) as (s1 & X1 & W1 & Q29 & Q30 & Q & L0 & L1 & M1); rewrite ?(R0 29) by lia; try lia; auto.
  rewrite (R0 29) in * by lia. rewrite R0 in L0, L1 by lia.
  exists s1. split; [rewrite execs_app, X0; exact X1|]. unfold fp in *.
  split; [split; [exact W1|split; [exact Q30|]]|].
  { rewrite Q29. replace (R s 29 - 8 + minofs) with (R s 29 + minofs + (-2) * 4) by lia. rewrite Z_mod_plus_full, Z.add_mod, Ha, Hm4 by lia. reflexivity. }
  split; [rewrite Q29; lia|]. split; [rewrite Q, R0 by lia; reflexivity|]. split; [exact L0|]. split; [replace (R s 29 - 8 + 4) with (R s 29 - 4) by lia; exact L1|].
  assert (OUT : forall a, ~ (R s 29 - 8 <= a < R s 29 + 16) -> MM s1 a = MM s a) by (intros; rewrite M1, M0 by lia; reflexivity).
  split.
  { intros a [A|A]; apply OUT; [lia|]. apply Hp in A. lia. }
  intros a b E. unfold enter_mem in E. unfold caller_mem. pose proof (zlen_nonneg (params cmin vs)) as ZP.
  assert (ZV : zlen (params cmin vs) <= zlen vs).
  { unfold params. destruct (cmin =? 0); [apply zlen_nonneg|lia]. }
  destruct (own _ _ _ a) eqn:O; unfold own in O.
  - apply some_inj in E. destruct (Z.ltb_spec a (R s 29 - 8)) as [L|L].
    + assert (R s 29 - 8 + minofs <= a) by lia. split; [lia|]. split; [exact E|]. split; [lia|].
      intros [C|C]; [apply Hp in C; lia|lia].
    + assert (R s 29 <= a < R s 29 - 8 + 8 + 4 * zlen (params cmin vs)) by lia. split; [lia|].
      split; [rewrite M1 by lia; rewrite B0 by lia; exact E|]. split; [lia|]. intros [C|C]; [apply Hp in C; lia|lia].
  - destruct (HA a b E) as (A1 & A2 & A3 & A4). split; [exact A1|]. split; [rewrite OUT by lia; exact A2|]. split; [lia|]. intros [C|C]; [auto|lia].
Qed.

Lemma fxn_inv cmin cmax minofs main n body code n' : gen_fxn cmin cmax minofs main n body = Some (code, n') ->
  exists c, comp_body main n body = Some (c, n') /\
    code = (gen_params cmin cmax ++ gen_frame minofs (is_leaf c)) ++ c ++ gen_epilog minofs (is_leaf c).
Proof.
  intros H. unfold gen_fxn in H. apply obind_Some in H as ([c q] & H1 & H). apply some_inj, pair_inj in H as [<- <-].
  exists c. split; [exact H1|]. now rewrite <- app_assoc.
Qed.

(** A call of a compiled function, on a machine that has the arguments where the convention wants
    them.  For some contents [g] of its locals, and for every N: either the function comes to its
    end, with the value that the source returns in $2, the stack pointer, frame pointer and
    return address as they were, the memory that the source prescribes, and nothing else of the
    callers' stack changed; or after N steps both are still running. *)
Theorem C53_function_partial (addr : Z -> Z) (lo top : Z) (prot : Z -> Prop) (callee : Z -> mst -> option mst) (ext : Z -> list Z -> mem -> option (Z * mem)) (room : Z)
    (cmin cmax minofs : Z) (main : bool) (n : Z) (body : stmt) (code : list mins) (n' : Z) (bp : Z) (vs : list Z) (m : mem) (s : mst) :
  gen_fxn cmin cmax minofs main n body = Some (code, n') -> 0 < n -> mswf body -> main = true \/ tail_ret false body = true ->
  minofs <= 0 -> minofs mod 4 = 0 -> 0 <= cmin -> (cmin <> 0 -> zlen vs <= cmax) ->
  0 <= lo -> top < 2 ^ 32 -> (forall a, prot a -> ~ (lo <= a < top)) -> 0 <= room -> calls_ok lo ext callee room ->
  mregs bp s -> margs s vs -> agree lo top prot m (MM s) ->
  lo + room + (8 - minofs) + msdepth body <= R s 29 -> lo + (8 - minofs) <= R s 29 -> R s 29 + argbytes vs <= top ->
  let fp := R s 29 - 8 in
  let start g := Run body KStop (enter_mem fp minofs (params cmin vs) g m) in
  (forall g, msafe_run addr fp ext body main (start g)) ->
  exists g, forall N, exists k y j pc' s',
    ssteps 4 addr fp ext body main k (start g) y /\ msteps addr callee code j (0%nat, s) (pc', s') /\
    ((exists v m', y = Ret v m' /\ pc' = length code /\ (forall r, v = Some r -> R s' 2 = r) /\
        mregs bp s' /\ R s' 29 = R s 29 /\ R s' 31 = R s 31 /\
        agree lo top prot (leave_mem fp minofs (params cmin vs) m') (MM s') /\
        forall a, R s 29 + argbytes vs <= a < top \/ prot a -> MM s' a = MM s a) \/
     (N <= k /\ N <= j)%nat /\ agree lo (fp + minofs) (caller_mem fp top prot (params cmin vs)) (mem_of y) (MM s')).
Proof.
  intros HF Hn Hw HT Hm Hm4 Hc Hv Hlo Htop Hp Hroom HC HR HG HA Hs Hs2 Ht fp start HS.
  apply fxn_inv in HF as (c & HB & ->). set (leaf := is_leaf c). set (pro := gen_params cmin cmax ++ gen_frame minofs leaf).
  destruct HR as (W & E30 & Al).
  destruct (enter_ok addr cmin cmax minofs leaf lo top prot vs m s Hc Hm Hm4 Hv Hlo Htop Hp W Al HG HA Hs2 Ht) as (s1 & X1 & HR1 & S1 & Q31 & L30 & L31 & K1 & A1).
  fold fp in HR1, S1, L30, L31, A1.
  exists (MM s1). intros N. set (code := pro ++ c ++ gen_epilog minofs leaf).
  set (ps := params cmin vs) in *. set (cm := caller_mem fp top prot ps) in *.
  assert (AB : 16 <= argbytes vs) by apply Z.le_max_l.
  assert (AV : 4 * zlen vs <= argbytes vs) by apply Z.le_max_r.
  assert (ZP : 0 <= zlen ps <= zlen vs).
  { unfold ps, params. destruct (cmin =? 0); [pose proof (zlen_nonneg vs); change (zlen (@nil Z)) with 0; lia|]. split; [apply zlen_nonneg|lia]. }
  pose proof (params_labels cmin cmax) as (PL & PC & PN).
  assert (LB : labels code = labels c).
  { unfold code, pro, gen_frame, gen_epilog. repeat rewrite mlabels_app. rewrite PL. destruct leaf; cbn [labels app]; now rewrite app_nil_r. }
  assert (PF : mplatform fp lo (fp + minofs) cm ext callee room).
  { assert (D : forall a, cm a -> ~ (lo <= a < fp + minofs)).
    { intros a [C|C]; [apply Hp in C; unfold fp; lia|lia]. }
    constructor; auto; [unfold fp; lia|]. apply HC; auto. unfold fp. lia. }
  assert (ND : NoDup (labels code)) by (rewrite LB; eapply C52_labels_unique; eauto).
  assert (PLC : placed code (length pro) c) by (exists pro, (gen_epilog minofs leaf); auto).
  destruct (C52_function_body_partial addr fp lo (fp + minofs) cm callee ext room code main n body c n' (length pro) _ s1 N
    PF ND Hn Hw HT HB PLC HR1 A1 (HS (MM s1)) ltac:(rewrite S1; unfold fp; lia)) as (k & y & j & pc' & s2 & Y1 & Y2 & Y3 & Y4 & [Y5 Y5'] & Y6).
  assert (CA : code_at code 0 code) by (intros i x Hx; exact Hx).
  pose proof CA as CB. unfold code at 2 in CB. apply code_at_app in CB as [CB0 CB]. apply code_at_app in CB as [CB1 CB2].
  pose proof (runs_exec addr callee code pro 0%nat s s1 CB0 X1) as RX. unfold runs in RX. cbn [Nat.add] in RX.
  apply mstar_msteps in RX as (j0 & RX).
  destruct Y6 as [(v & m' & -> & -> & Y6)|[Y6 Y7]].
  2:{ exists k, y, (j0 + j)%nat, pc', s2. split; [exact Y1|]. split; [eapply msteps_trans; eauto|]. right. split; [lia|exact Y3]. }
  cbn [mem_of] in Y3.
  destruct (body_inv _ _ _ _ _ HB) as (cb & q & cmn & _ & _ & _ & EC & _).
  assert (NL : nth_error code (length pro + length c - 1) = Some (Mlab n)).
  { assert (LC : nth_error c (length c - 1) = Some (Mlab n)).
    { rewrite EC, app_assoc, app_length. cbn [length]. rewrite nth_error_app2 by lia. replace (_ - _)%nat with 0%nat by lia. reflexivity. }
    assert (0 < length c)%nat by (rewrite EC, !app_length; cbn [length]; lia).
    specialize (CB1 _ _ LC). replace (length pro + length c - 1)%nat with (0 + length pro + (length c - 1))%nat by lia. exact CB1. }
  assert (LC : (0 < length c)%nat) by (rewrite EC, !app_length; cbn [length]; lia).
  destruct Y4 as (W2 & E2 & Al2).
  assert (FA : fp mod 4 = 0) by (unfold fp; rewrite Zminus_mod, Al; reflexivity).
  destruct (epilog_ok addr minofs leaf s2 fp W2 Hm E2) as (s3 & X3 & W3 & T29 & T30 & T31 & T2 & TM); auto; try (unfold fp; lia).
  assert (KEEP : forall a, cm a -> MM s2 a = MM s1 a) by (intros a C; apply Y5'; now right).
  assert (F30 : ldn 4 4 (MM s2) fp = R s 30).
  { rewrite <- L30. apply (ldn_ext 4 HW4 addr (fun _ => False)); [unfold fp; lia|change (2 ^ (8 * 4)) with P32; unfold fp; lia|].
    intros x Hx. apply KEEP. right. left. lia. }
  assert (F31 : R s3 31 = R s 31).
  { rewrite T31. unfold leaf in *. destruct (is_leaf c) eqn:EL.
    - rewrite <- Q31. refine (msteps_31 addr callee code j _ _ _ _ Y2).
      + unfold code, pro. repeat rewrite n31_app. split; [split; [exact PN|reflexivity]|]. split; [eapply n31_body; eauto|reflexivity].
      + unfold code, pro. rewrite !existsb_app, PC. unfold is_leaf in EL. apply negb_true_iff in EL. rewrite EL. reflexivity.
    - rewrite <- (L31 eq_refl). apply (ldn_ext 4 HW4 addr (fun _ => False)); [unfold fp; lia|change (2 ^ (8 * 4)) with P32; unfold fp; lia|].
      intros x Hx. apply KEEP. right. left. lia. }
  pose proof (runs_exec addr callee code _ _ s2 s3 CB2 X3) as RE. unfold runs in RE. apply mstar_msteps in RE as (j3 & RE).
  assert (ST : msteps addr callee code 1 ((length pro + length c - 1)%nat, s2) ((0 + length pro + length c)%nat, s2)).
  { econstructor; [|constructor]. unfold mstep. rewrite NL. cbn [obind]. do 2 f_equal. lia. }
  exists k, (Ret v m'), (j0 + (j + (1 + j3)))%nat, (length code), s3. split; [exact Y1|].
  split.
  { eapply msteps_trans; [exact RX|]. eapply msteps_trans; [exact Y2|]. eapply msteps_trans; [exact ST|].
    replace (length code) with (0 + length pro + length c + length (gen_epilog minofs leaf))%nat by (unfold code; rewrite !app_length; lia). exact RE. }
  left. exists v, m'. split; [reflexivity|]. split; [reflexivity|]. split; [intros r Hr; rewrite T2; auto|].
  split; [split; [exact W3|split; [rewrite T30, F30; exact E30|rewrite T29; unfold fp; replace (R s 29 - 8 + 8) with (R s 29) by lia; exact Al]]|].
  split; [rewrite T29; unfold fp; lia|]. split; [exact F31|]. rewrite TM. split.
  - intros a b E. unfold leave_mem in E. destruct (own _ _ _ a) eqn:O; [discriminate|]. unfold own in O.
    destruct (Y3 a b E) as (B1 & B2 & B3 & B4). split; [exact B1|]. split; [exact B2|]. unfold cm, caller_mem in B4.
    split; [|tauto]. intros Hx. apply B4. right. assert (fp + minofs <= a) by lia. unfold ps in *. lia.
  - intros a Hx. rewrite KEEP, (K1 a Hx); [reflexivity|]. destruct Hx as [Hx|Hx]; [right; right; unfold fp; lia|now left].
Qed.

(** So the compiled function is as expression code expects of called functions: if the functions
    that it calls obey the convention, and the function [f] does what the source says,
    then the function at [f] obeys the convention too.  ([callee2] runs the code of the function
    for calls of [f].  Nothing is said about [ext f] and [callee f]: for a recursive function these
    are the calls one level further down.) *)
Corollary C53_implements_convention_partial (addr : Z -> Z) (lo : Z) (callee callee2 : Z -> mst -> option mst) (ext ext2 : Z -> list Z -> mem -> option (Z * mem)) (room room2 : Z)
    (cmin cmax minofs : Z) (main : bool) (n : Z) (body : stmt) (code : list mins) (n' f : Z) :
  gen_fxn cmin cmax minofs main n body = Some (code, n') -> 0 < n -> mswf body -> main = true \/ tail_ret false body = true ->
  minofs <= 0 -> minofs mod 4 = 0 -> 0 <= cmin -> 0 <= lo -> 0 <= room -> calls_ok lo ext callee room ->
  room + (8 - minofs) + msdepth body <= room2 -> room <= room2 -> 8 - minofs <= room2 ->
  (forall vs m v m', ext2 f vs m = Some (v, m') -> (cmin <> 0 -> zlen vs <= cmax) /\ call_means addr ext cmin minofs main body vs m v m') ->
  (forall s s', mstar addr callee code (0%nat, s) (length code, s') -> callee2 f s = Some s') ->
  (forall f' vs m, f' <> f -> ext2 f' vs m = ext f' vs m) -> (forall f' s, f' <> f -> callee2 f' s = callee f' s) ->
  calls_ok lo ext2 callee2 room2.
Proof.
  intros HF Hn Hw HT Hm Hm4 Hc Hlo Hroom HC Hr1 Hr2 Hr3 HE HL HE' HL' bp top prot Ht Hp g vs m v m' s E HR HA HG Hs Hst.
  destruct (Z.eq_dec g f) as [->|Ng].
  2:{ rewrite HE' in E by exact Ng. rewrite HL' by exact Ng. apply (HC bp top prot Ht Hp g vs m v m' s E HR HA HG); [lia|exact Hst]. }
  destruct (HE _ _ _ _ E) as [Hv HM].
  assert (AB : 16 <= argbytes vs) by (unfold argbytes; lia).
  set (fp := R s 29 - 8).
  assert (PM : forall g0, msafe_run addr fp ext body main (Run body KStop (enter_mem fp minofs (params cmin vs) g0 m)) /\
     (exists B, forall k y, ssteps 4 addr fp ext body main k (Run body KStop (enter_mem fp minofs (params cmin vs) g0 m)) y -> (k <= B)%nat) /\
     forall k r m1, ssteps 4 addr fp ext body main k (Run body KStop (enter_mem fp minofs (params cmin vs) g0 m)) (Ret r m1) ->
      r = Some v /\ forall a, leave_mem fp minofs (params cmin vs) m1 a = m' a).
  { intros g0. apply HM; unfold fp; try lia.
    - rewrite Zminus_mod. destruct HR as (_ & _ & ->). reflexivity.
    - intros a Hx. destruct (m a) eqn:Em; [|reflexivity]. destruct (HA _ _ Em) as (_ & _ & Q & _). exfalso. apply Q. lia. }
  destruct (C53_function_partial addr lo top prot callee ext room cmin cmax minofs main n body code n' bp vs m s HF Hn Hw HT Hm Hm4 Hc Hv Hlo Ht Hp Hroom HC HR HG HA
    ltac:(lia) ltac:(lia) Hst (fun g0 => proj1 (PM g0))) as (g0 & F).
  destruct (PM g0) as (_ & (B & HB) & HV).
  destruct (F (S B)) as (k & y & j & pc' & s' & Y1 & Y2 & [(r & m1 & -> & -> & Y3 & Y4 & Y5 & Y6 & Y7 & Y8)|[[Y3 _] _]]).
  2:{ apply HB in Y1. lia. }
  destruct (HV _ _ _ Y1) as [-> V2]. exists s'. split; [apply HL; eapply msteps_mstar; eauto|]. split; [apply Y3; reflexivity|].
  split; [exact Y4|]. split; [|split; [exact Y5|exact Y8]].
  intros a b Eb. apply Y7. fold fp. rewrite V2. exact Eb.
Qed.

(** ** Examples *)

(** A machine whose only other function adds its two arguments. *)
Lemma mex_calls_ok lo room : calls_ok lo mex_ext mex_callee room.
Proof.
  intros bp top prot Ht Hp f vs m v m' s E HR HA HG _ _. unfold mex_ext in E. destruct vs as [|a [|b [|]]]; try discriminate.
  unfold mex_callee. destruct (f =? 100); [|discriminate]. apply some_inj, pair_inj in E as [<- <-].
  eexists. split; [reflexivity|]. pose proof (HG 0%nat _ eq_refl) as G0. pose proof (HG 1%nat _ eq_refl) as G1. cbn in G0, G1.
  split; [cbn [setr R Z.eqb Pos.eqb]; rewrite G0, G1; reflexivity|]. destruct HR as (H1 & H2 & H3).
  split; [split; [|auto]|auto]. intros r. cbn [setr R Z.eqb Pos.eqb]. destruct (r =? 2); [apply w32_rng|apply H1].
Qed.

(** int f(int a, int b) { int t; t = add(a, b); return t - a; }, called with 3 and 4. *)
Definition fx_a := EDeref 4 (ELocal 8).
Definition fx_b := EDeref 4 (ELocal 12).
Definition fx_body : stmt :=
  SSeq (SExpr (EAssign 4 (ELocal (-4)) (ECall (EIdent 7) [fx_a; fx_b])))
       (SReturn (Some (EArith ESub (EDeref 4 (ELocal (-4))) fx_a))).
Definition fx_code : list mins := match gen_fxn 2 2 (-4) false 1 fx_body with Some (c, _) => c | None => [] end.
Definition fx_st : mst := mkm (fun r => if r =? 29 then 1800 else if r =? 30 then 2000 else if r =? 4 then 3 else if r =? 5 then 4 else 9)
  (fun a => match mex_m a with Some b => b | None => 77 end) 0 0.
Example fx_hypotheses :
  (exists n', gen_fxn 2 2 (-4) false 1 fx_body = Some (fx_code, n')) /\ mswf fx_body /\ tail_ret false fx_body = true /\
  (forall a, mex_prot a -> ~ (500 <= a < 1900)) /\ calls_ok 500 mex_ext mex_callee 64 /\
  mregs 2000 fx_st /\ margs fx_st [3; 4] /\ agree 500 1900 mex_prot mex_m (MM fx_st) /\
  500 + 64 + (8 - -4) + msdepth fx_body <= R fx_st 29 /\ R fx_st 29 + argbytes [3; 4] <= 1900 /\
  (forall g, msafe_run (fun _ => 100) 1792 mex_ext fx_body false (Run fx_body KStop (enter_mem 1792 (-4) (params 2 [3; 4]) g mex_m))).
Proof.
  split; [vm_compute; eauto|]. split; [vm_compute; repeat split; auto 10|]. split; [reflexivity|]. split; [unfold mex_prot; lia|].
  split; [apply mex_calls_ok|].
  split. { split; [|split; reflexivity]. intros r. cbn [fx_st R]. destruct (r =? 29); [lia|]. destruct (r =? 30); [lia|]. destruct (r =? 4); [lia|]. destruct (r =? 5); lia. }
  split. { intros [|[|i]] v H; cbn in H; [injection H as <-; reflexivity|injection H as <-; reflexivity|]. destruct i; discriminate. }
  split. { intros a b H. assert (Hb : MM fx_st a = b) by (cbn [fx_st MM]; now rewrite H). rewrite Hb. unfold mex_m in H. unfold mex_prot.
    destruct (Z.eqb_spec a 1992); [|destruct (Z.eqb_spec a 1996); [|destruct (Z.ltb_spec 1996 a), (Z.ltb_spec a 2000); try discriminate]];
    injection H as <-; (split; [lia|]; split; [reflexivity|]; split; lia). }
  split; [vm_compute; discriminate|]. split; [vm_compute; discriminate|].
  intros g. apply mrun_check_ok with (fe := 40%nat) (fuel := 20%nat). vm_compute. reflexivity.
Qed.

(** int f() { int x, y; return add(3, 4) + 1; } at address 200. *)
Definition fy_body : stmt := SReturn (Some (EArith EAdd (ECall (EIdent 7) [ENum false 3; ENum false 4]) (ENum false 1))).
Definition fy_code : list mins := match gen_fxn 0 32767 (-8) false 1 fy_body with Some (c, _) => c | None => [] end.
Definition fy_ext : Z -> list Z -> mem -> option (Z * mem) := fun f vs m => if f =? 200 then Some (8, m) else mex_ext f vs m.
Fixpoint mfor (addr : Z -> Z) callee code (fuel : nat) (x : nat * mst) : option mst :=
  match fuel with O => Some (snd x) | S fuel => let? y := mstep addr callee code x in mfor addr callee code fuel y end.
Definition fy_callee : Z -> mst -> option mst := fun f s =>
  if f =? 200 then mfor (fun _ => 100) mex_callee fy_code (length fy_code) (0%nat, s) else mex_callee f s.
Definition straight (i : mins) : bool := match i with Mj _ | Mbr _ _ _ _ | Mbz _ _ _ => false | _ => true end.
Lemma straight_run addr callee code x y : forallb straight code = true -> mstar addr callee code x y -> fst y = length code -> (fst x <= length code)%nat ->
  mfor addr callee code (length code - fst x) x = Some (snd y).
Proof.
  intros HS H. induction H as [x|x y z H1 H2 IH]; intros Hy Hx.
  - rewrite Hy, Nat.sub_diag. reflexivity.
  - destruct x as [pc s]. cbn [fst] in *. pose proof H1 as H0. unfold mstep in H1. apply obind_Some in H1 as (i & Hi & H1).
    assert (L : (pc < length code)%nat) by (apply nth_error_Some; congruence).
    rewrite forallb_forall in HS. pose proof (HS i (nth_error_In _ _ Hi)) as Si.
    assert (Py : fst y = S pc).
    { destruct i; try discriminate; try (apply some_inj in H1; now subst y);
        (apply obind_Some in H1 as (s1 & _ & H1); apply some_inj in H1; now subst y). }
    replace (length code - pc)%nat with (S (length code - fst y))%nat by lia. cbn [mfor]. rewrite H0. apply IH; [auto|lia].
Qed.
Example fy_convention : calls_ok 500 fy_ext fy_callee 200.
Proof.
  assert (E : exists n', gen_fxn 0 32767 (-8) false 1 fy_body = Some (fy_code, n')) by (vm_compute; eauto). destruct E as [n' E].
  apply (C53_implements_convention_partial (fun _ => 100) 500 mex_callee fy_callee mex_ext fy_ext 64 200 0 32767 (-8) false 1 fy_body fy_code n' 200 E); try lia; clear E.
  - vm_compute; repeat split; auto 10.
  - right. reflexivity.
  - reflexivity.
  - apply mex_calls_ok.
  - vm_compute. discriminate.
  - intros vs m v m' Hx. unfold fy_ext in Hx. cbn [Z.eqb Pos.eqb] in Hx. apply some_inj, pair_inj in Hx as [<- <-]. split; [congruence|].
    intros fp g F1 F2 F3 F4 x. unfold x, params. cbn [Z.eqb]. set (m0 := enter_mem fp (-8) [] g m).
    assert (ST : forall y, sstep 4 (fun _ => 100) fp mex_ext fy_body false (Run fy_body KStop m0) y -> y = Ret (Some 8) m0).
    { intros y Hy. assert (SA : step_all 4 (fun _ => 100) fp mex_ext fy_body false 20 (Run fy_body KStop m0) = Some (repeat (Ret (Some 8) m0) 30)) by (clearbody m0; vm_compute; reflexivity).
      pose proof (proj2 (step_all_ok 4 _ _ _ _ _ 20 _ _ SA)) as SB. apply SB in Hy. now apply repeat_spec in Hy. }
    split; [|split].
    + apply mrun_check_ok with (fe := 20%nat) (fuel := 20%nat). clearbody m0. vm_compute. reflexivity.
    + exists 1%nat. intros k y H. inversion H as [|k0 ? y0 ? H1 H2]; subst; [lia|]. apply ST in H1. subst y0.
      inversion H2 as [|? ? ? ? H3 ?]; subst; [lia|]. inversion H3.
    + intros k r m1 H. inversion H as [|k0 ? y0 ? H1 H2]; subst. apply ST in H1. subst y0.
      inversion H2 as [|? ? ? ? H3 ?]; subst; [|inversion H3]. split; [reflexivity|]. intros a. unfold leave_mem, m0, enter_mem.
      destruct (own fp (-8) [] a) eqn:O; [|reflexivity]. symmetry. apply F4. unfold own in O. change (zlen (@nil Z)) with 0 in O. unfold argbytes. lia.
  - intros s s' H. unfold fy_callee. cbn [Z.eqb Pos.eqb]. 
    assert (SC : forallb straight fy_code = true) by (vm_compute; reflexivity).
    pose proof (straight_run _ _ _ _ _ SC H eq_refl (Nat.le_0_l _)) as Q. cbn [fst snd] in Q. rewrite Nat.sub_0_r in Q. exact Q.
  - intros f' vs m Hf. unfold fy_ext. replace (f' =? 200) with false by lia. reflexivity.
  - intros f' s Hf. unfold fy_callee. replace (f' =? 200) with false by lia. reflexivity.
Qed.

Print Assumptions C53_function_partial.
Print Assumptions C53_implements_convention_partial.
