(** Whole program files: flat formats and ELF (C40, C41). *)
From Verif Require Import Base BaseLemmas LexModel LexSpec LexProof LinkModel LinkSpec LinkReloc LinkResolve LinkLayout LinkFind LinkPlace LinkImage LinkSpan LinkWhole LinkAddr.
From Coq Require Import Sorted String Permutation.
Close Scope string_scope.

(** comparisons of two format numbers *)
Ltac fc := repeat match goal with
  | |- context [?a =? ?b] => is_const a; is_const b; let v := eval vm_compute in (a =? b) in change (a =? b) with v
  | H : context [?a =? ?b] |- _ => is_const a; is_const b; let v := eval vm_compute in (a =? b) in change (a =? b) with v in H
  end; cbn [orb andb] in *; cbv iota in *.

Lemma setStack_na ds cnt v w : map na (setStack ds cnt v w) = map na ds.
Proof. unfold setStack. destruct (nth_error ds (cnt + 2)) eqn:E; [|reflexivity]. eapply lset_na; eauto. Qed.
Lemma setStack_get ds cnt v w : List.length ds = (cnt + 3)%nat ->
  startOf (setStack ds cnt v w) (cnt + 2) = v /\ stopOf (setStack ds cnt v w) (cnt + 2) = w.
Proof.
  intros L. unfold setStack. destruct (nth_error ds (cnt + 2)) as [d|] eqn:E; [|apply nth_error_None in E; lia].
  unfold startOf, stopOf. rewrite lset_nth_same by lia. auto.
Qed.
Lemma le32_digits v n : 0 <= v < 2 ^ 32 -> (n <= 4)%nat -> firstn n (le32 v) = digits n (v mod 2 ^ (8 * Z.of_nat n)).
Proof.
  intros V N. unfold le32, u8, wrap. rewrite !Z.shiftr_div_pow2 by lia.
  assert (C : n = 0%nat \/ n = 1%nat \/ n = 2%nat \/ n = 3%nat \/ n = 4%nat) by lia.
  destruct C as [-> |[-> |[-> |[-> | ->]]]].
  - reflexivity.
  - change (8 * Z.of_nat 1) with 8. cbn [firstn digits]. repeat (apply (f_equal2 (@cons Z)); [lia|]); reflexivity.
  - change (8 * Z.of_nat 2) with 16. cbn [firstn digits]. repeat (apply (f_equal2 (@cons Z)); [lia|]); reflexivity.
  - change (8 * Z.of_nat 3) with 24. cbn [firstn digits]. repeat (apply (f_equal2 (@cons Z)); [lia|]); reflexivity.
  - change (8 * Z.of_nat 4) with 32. cbn [firstn digits]. repeat (apply (f_equal2 (@cons Z)); [lia|]); reflexivity.
Qed.

Lemma lay_sameOut a b : sameOut a b -> forall f k q, lookup a f k = Some q -> outAddr b f k = pl_addr q.
Proof. intros H f k q L. rewrite <- H, outAddr_lookup, L. reflexivity. Qed.

Section TwoPasses.
  Variables (op : opts) (objs : list obj) (st : rst) (e0 : env) (ds : list descr).
  Hypothesis PR : prepare op objs = Ok (st, e0, ds).
  Hypothesis WF : wellFormed objs.
  Let entry := op_entry op.
  Let fmt := op_fmt op.
  Hypothesis NS : op_fmt op <> FormatDosExeSmall.
  Hypothesis NU : op_fmt op <> FormatDosExeUnreal.

  (** the first pass, for one origin, and the second *)
  Lemma flat_pass hs origin dsX out0 buf p0 file p (base := origin - hs) : 0 <= hs <= origin -> origin <= limit fmt -> map na dsX = map na ds ->
    zlen buf = FBUF + 3 -> zlen file = hs ->
    Pass (withHdr e0 hs) false origin dsX out0 buf [] = Ok p0 -> Pass (withHdr e0 hs) true origin (p_ds p0) (p_out p0) buf file = Ok p ->
    goodLayout objs entry fmt (lookup (p_out p)) origin /\
    (exists w, p_file p = file ++ w) /\
    (forall f k q, lookup (p_out p) f k = Some q -> outAddr (p_out p0) f k = pl_addr q) /\
    (forall n v, (wanted objs entry n \/ exists i o, reach objs entry i /\ nth_error objs i = Some o /\ defines o n) ->
       symAddress (e_objs e0) (e_bs e0) (p_ds p0) (p_out p0) n = Ok v -> symbolAt objs entry (outAddr (p_out p0)) (stackOf op e0 dsX) n v) /\
    (forall f k o s, included objs entry f k o s -> sh_type s = 1 \/ op_useBss op = false ->
       exists b, finalBytes objs entry (outAddr (p_out p0)) (stackOf op e0 dsX) f k o s b /\ occurs (p_file p) (outAddr (p_out p0) f k - base) b).
  Proof.
    intros HS OR NA BU FL P1 P2.
    assert (OR2 : 0 <= origin <= limit (op_fmt op)) by (fold fmt; lia).
    destruct (two_pass op objs st e0 ds PR WF NS NU hs origin dsX out0 buf p0 file p OR2 NA HS BU FL P1 P2) as (T1 & T2 & T3 & T4 & T5).
    assert (NA0 : map na (p_ds p0) = map na ds).
    { destruct (facts op objs st e0 ds PR WF NS NU hs origin dsX out0 buf p0 OR2 NA P1) as (l & hidden & gs & _ & _ & _ & _ & _ & _ & _ & _ & _ & A & _). exact A. }
    destruct (layout_general op objs st e0 ds PR WF (noRelod op objs NU) hs true origin (p_ds p0) (p_out p0) buf file p NS OR2 NA0 P2) as (L1 & L2 & L3 & L4 & L5).
    split; [split; [exact L1|split; [exact L2|split; [exact L3|exact L4]]]|].
    split; [exact T4|]. split; [apply lay_sameOut; exact T2|]. split.
    { intros n v W H. apply (sym_ok op objs st e0 ds PR WF NS NU hs origin dsX out0 buf p0 OR2 NA P1); auto. }
    intros f k o s IN INF. destruct (T5 f k o s IN INF) as (q & b & Q1 & Q2 & Q3). exists b.
    split; [apply (contents_final op objs st e0 ds PR WF NS NU hs origin dsX out0 buf p0 OR2 NA P1 f k o s q); auto|].
    rewrite outAddr_lookup, Q1. rewrite <- (T3 f k o s IN) in Q1. rewrite (L5 f k o s q IN Q1) in Q3.
    destruct (L1 f k o s IN Logic.I) as (q' & E & E1 & E2 & _). rewrite Q1 in E. injection E as <-.
    unfold end_ in E2. destruct (proj1 WF f k o s) as (S1 & _); [apply IN|apply IN|]. pose proof (limit_u32 (op_fmt op)).
    rewrite Z.mod_small in Q3 by lia. unfold base. replace (pl_addr q - (origin - hs)) with (hs + (pl_addr q - origin)) by lia. exact Q3.
  Qed.
End TwoPasses.

Section Flat.
  Variables (op : opts) (objs : list obj) (st : rst) (e0 : env) (ds : list descr).
  Hypothesis PR : prepare op objs = Ok (st, e0, ds).
  Hypothesis WF : wellFormed objs.
  Let entry := op_entry op.
  Let fmt := op_fmt op.
  Hypothesis FF : fmt = FormatDosComTiny \/ fmt = FormatFlat16 \/ fmt = FormatFlat32.


  (** no section reaches into the stack of a tiny program *)
  Lemma tiny_stack hs origin dsX out0 buf p0 limit0 : 0 <= origin <= limit fmt -> map na dsX = map na ds ->
    Pass (withHdr e0 hs) false origin dsX out0 buf [] = Ok p0 ->
    stopOf (p_ds p0) (e_cnt e0 + (if hasData ds (e_cnt e0) then 1 else 0)) <= limit0 ->
    forall f k o s, included objs entry f k o s -> outAddr (p_out p0) f k + sh_size s <= limit0.
  Proof.
    intros OR NA P1 LE f k o s IN.
    assert (NS : op_fmt op <> FormatDosExeSmall) by (fold fmt; destruct FF as [-> |[-> | ->]]; discriminate).
    assert (NU : op_fmt op <> FormatDosExeUnreal) by (fold fmt; destruct FF as [-> |[-> | ->]]; discriminate).
    destruct (facts op objs st e0 ds PR WF NS NU hs origin dsX out0 buf p0 OR NA P1) as
      (l & hidden & gs & EDS & CNT & NE & OKl & ND & SS & R0 & GF & CH & NA0 & HD & X4 & LD & HID & ST & ST2 & CS & CE & DS & DE & GNE & PART & ALL & PARTS & NEC & NED).
    destruct (layout_general op objs st e0 ds PR WF (noRelod op objs NU) hs false origin dsX out0 buf [] p0 NS OR NA P1) as (L1 & L2 & L3 & L4 & L5).
    assert (AD : forall f k o s, included objs entry f k o s -> exists q, lookup (p_out p0) f k = Some q /\ outAddr (p_out p0) f k = pl_addr q).
    { intros f' k' o' s' IN'. destruct (ALL f' k' o' s' IN') as (d & g & q & _ & _ & _ & _ & Q). exists q. rewrite outAddr_lookup, Q. auto. }
    assert (HDD : hasData ds (e_cnt e0) = negb (has SHF_EXECINSTR (d_attrs (last l (mkDescr [] 0 0 0))))).
    { unfold hasData. rewrite EDS, CNT. destruct (exists_last NE) as (l' & d0 & EL). rewrite EL, last_last, app_length. cbn [List.length].
      rewrite Nat.add_1_r. cbn [pred]. rewrite <- app_assoc. rewrite nth_error_app2 by lia. rewrite Nat.sub_diag. reflexivity. }
    assert (PICK : forall c f k o s, included objs entry f k o s -> isExec s = c -> outAddr (p_out p0) f k + sh_size s <= maxE (partOf c l gs)).
    { intros c f' k' o' s' IN' X. assert (NP : partOf c l gs <> []).
      { destruct (ALL f' k' o' s' IN') as (d & g & q & Q1 & Q2 & _ & Q4 & _). intros E.
        assert (J : In (s', q) (partOf c l gs)) by (apply in_partOf; exists d, g; split; [auto|]; split; [unfold isCode; rewrite Q4, has_exec_attrs; auto|auto]). rewrite E in J. destruct J. }
      destruct (PARTS c NP) as [_ [_ G]]. apply G. exists f', k', o', s'. auto. }
    rewrite HDD in LE. destruct (has SHF_EXECINSTR (d_attrs (last l (mkDescr [] 0 0 0)))) eqn:HX; cbn [negb] in LE.
    - rewrite Nat.add_0_r, CE in LE. destruct (isExec s) eqn:X; [specialize (PICK true f k o s IN X); lia|].
      exfalso. (* all names are code *)
      destruct (ALL f k o s IN) as (d & g & q & Q1 & Q2 & _ & Q4 & _). apply in_combine_l in Q1.
      destruct (exists_last NE) as (l' & d0 & EL). rewrite EL, last_last in HX. rewrite EL in Q1, SS, X4.
      assert (D4 : isCode d = true).
      { apply in_app_or in Q1 as [Q1|[<- |[]]]; [|exact HX]. pose proof (sorted_two rankLe) as ST3.
        assert (RL : rankLe d d0). { clear - Q1 SS. induction l' as [|x l' IH]; [destruct Q1|]. cbn in SS. inversion_clear SS as [|? ? S1 S2]. destruct Q1 as [-> |Q1]; [|auto].
          rewrite Forall_forall in S2. apply S2. apply in_or_app. right. left. auto. }
        unfold rankLe in RL. rewrite (X4 d0) in RL by (auto; apply in_or_app; right; left; auto).
        assert (OKd : In (d_attrs d) attrSet) by (rewrite Forall_forall in OKl; apply OKl; rewrite EL; apply in_or_app; auto).
        assert (T : forallb (fun x => has SHF_EXECINSTR x || negb (rank x <=? rank 4)) attrSet = true) by (vm_compute; reflexivity).
        rewrite forallb_forall in T. specialize (T _ OKd). unfold isCode. destruct (has SHF_EXECINSTR (d_attrs d)); [auto|]. cbn [orb] in T. lia. }
      unfold isCode in D4. rewrite Q4, has_exec_attrs in D4. congruence.
    - rewrite Nat.add_1_r, DE in LE. destruct (isExec s) eqn:X; [|specialize (PICK false f k o s IN X); lia].
      destruct (PARTS false (NED eq_refl)) as [_ [(f' & k' & o' & s' & IN' & X' & _) _]].
      pose proof (PICK false f' k' o' s' IN' X') as LE2. destruct (AD f k o s IN) as (q & Q1 & Q2), (AD f' k' o' s' IN') as (q' & Q1' & Q2').
      assert (K : kind s < kind s').
      { pose proof (ALL f k o s IN) as (d & g & q0 & D1 & _ & _ & D4 & _). apply in_combine_l in D1. specialize (X4 d D1). unfold isCode in X4. rewrite D4, has_exec_attrs in X4. specialize (X4 X).
        destruct (proj1 WF f k o s) as (_ & _ & _ & TY & _); [apply IN|apply IN|]. destruct (proj1 WF f' k' o' s') as (_ & _ & _ & TY' & _); [apply IN'|apply IN'|].
        rewrite attrs_eq in X4. unfold kind, isExec in *. rewrite X, X' in *. destruct TY as [TY|TY]; rewrite TY in *; [|exfalso; destruct (Z.testbit (sh_flags s) 0); vm_compute in X4; discriminate].
        change (1 =? 8) with false. cbv iota. destruct (sh_type s' =? 8); [lia|]. destruct (Z.testbit (sh_flags s') 0); lia. }
      specialize (L3 f k o s q f' k' o' s' q' IN IN' K Logic.I Q1 Q1'). unfold end_ in L3.
      destruct (proj1 WF f' k' o' s') as (S1 & _); [apply IN'|apply IN'|]. rewrite Q2, Q2' in *. lia.
  Qed.

  Theorem flat_ok p origin : 0 <= op_origin op < 2 ^ 32 -> rwFlat op e0 ds = Ok (p, origin) ->
    exists base addr stack v,
      base = (if fmt =? FormatDosComTiny then 256 else if op_origin op =? 2 ^ 32 - 1 then 0 else op_origin op) /\
      goodLayout objs entry fmt (lookup (p_out p)) origin /\
      (forall f k q, lookup (p_out p) f k = Some q -> addr f k = pl_addr q) /\
      symbolAt objs entry addr stack entry v /\
      (origin = base /\ v = base \/
       exists h w, h = (if fmt =? FormatFlat32 then 5 else 3) /\ origin = base + h /\
         p_file p = 233 :: digits (Z.to_nat (h - 1)) ((v - origin) mod 2 ^ (8 * (h - 1))) ++ w) /\
      (forall f k o s, included objs entry f k o s -> sh_type s = 1 \/ op_useBss op = false ->
         exists b, finalBytes objs entry addr stack f k o s b /\ occurs (p_file p) (addr f k - base) b) /\
      match stack with
      | Some (a, b) => fmt = FormatDosComTiny /\ b = 65532 /\ b - a = (if op_stack op =? 2 ^ 32 - 1 then 8192 else op_stack op) /\ 0 <= a <= b - 4096 /\
          forall f k o s, included objs entry f k o s -> addr f k + sh_size s <= a
      | None => fmt <> FormatDosComTiny
      end.
  Proof.
    intros OO H. unfold rwFlat in H. fold fmt in H. cbv zeta in H. set (tiny := fmt =? FormatDosComTiny) in *.
    set (stk := if op_stack op =? UNSPEC then 8192 else op_stack op) in *.
    destruct (tiny && _) eqn:E1 in H; [discriminate|].
    set (base := if tiny then 256 else if op_origin op =? UNSPEC then 0 else op_origin op) in *.
    destruct ((fmt =? FormatFlat16) && (65535 <? base)) eqn:E2; [discriminate|].
    set (ds1 := if tiny then setStack ds (e_cnt e0) (65532 - stk) 65532 else ds) in *.
    set (buf := repeat 0 1027) in *. assert (BU : zlen buf = FBUF + 3) by (vm_compute; reflexivity).
    assert (EE : e0 = withHdr e0 0). { destruct (prep_resolve op objs st e0 ds PR) as (_ & _ & _ & _ & _ & _ & EH). unfold withHdr. rewrite <- EH. destruct e0; reflexivity. }
    assert (NA1 : map na ds1 = map na ds) by (unfold ds1; destruct tiny; [apply setStack_na|auto]).
    assert (NS : op_fmt op <> FormatDosExeSmall) by (fold fmt; destruct FF as [-> |[-> | ->]]; discriminate).
    assert (NU : op_fmt op <> FormatDosExeUnreal) by (fold fmt; destruct FF as [-> |[-> | ->]]; discriminate).
    assert (LDS : List.length ds = (e_cnt e0 + 3)%nat).
    { destruct (prep_names op objs st e0 ds PR WF (noRelod op objs NU)) as (l & hidden & EDS & CNT & LH & _). rewrite EDS, app_length. lia. }
    assert (B0 : 0 <= base <= limit fmt).
    { clear - FF OO E2. unfold base, tiny, limit in *. unfold UNSPEC in *. clearbody fmt. destruct FF as [-> |[-> | ->]]; fc; destruct (op_origin op =? 2 ^ 32 - 1); lia. }
    assert (HDD : hasData ds1 (e_cnt e0) = hasData ds (e_cnt e0)).
    { unfold ds1. destruct tiny; [|auto]. unfold hasData, setStack. destruct (nth_error ds (e_cnt e0 + 2)) eqn:N; [|auto].
      rewrite lset_nth_other by lia. auto. }
    rewrite HDD in H. clear HDD.
    assert (STK : forall dsX, startOf dsX (e_cnt e0 + 2) = startOf ds1 (e_cnt e0 + 2) -> stopOf dsX (e_cnt e0 + 2) = stopOf ds1 (e_cnt e0 + 2) ->
      stackOf op e0 dsX = if tiny then Some (65532 - stk, 65532) else None).
    { intros dsX S1 S2. unfold stackOf. fold fmt tiny. destruct tiny eqn:T; [|auto]. rewrite S1, S2. unfold ds1.
      destruct (setStack_get ds (e_cnt e0) (65532 - stk) 65532 LDS) as [-> ->]. reflexivity. }
    assert (WE : wanted objs entry entry) by (left; auto).
    destruct (Pass e0 false base ds1 [] buf []) as [p1| |] eqn:P1; try discriminate. cbn [rbind] in H.
    rewrite EE in P1 at 1.
    destruct (symAddress (e_objs e0) (e_bs e0) (p_ds p1) (p_out p1) (op_entry op)) as [ip| |] eqn:SY; try discriminate. cbn [rbind] in H.
    assert (B0' : 0 <= base <= limit (op_fmt op)) by exact B0.
    destruct (facts op objs st e0 ds PR WF NS NU 0 base ds1 [] buf p1 B0' NA1 P1) as (l & hidden & gs & _ & _ & _ & _ & _ & _ & _ & _ & _ & NAp & _ & _ & _ & _ & _ & ST2 & _).
    destruct (ST2 (e_cnt e0 + 2)%nat) as [SP1 SP2]; [lia|].
    destruct (ip =? base) eqn:EIP.
    - cbn [rbind] in H. destruct (tiny && _) eqn:E3 in H; [discriminate|].
      destruct (Pass e0 true base (p_ds p1) (p_out p1) buf []) as [p2| |] eqn:P2; try discriminate. cbn [rbind] in H. injection H as -> <-.
      rewrite EE in P2 at 1.
      destruct (flat_pass op objs st e0 ds PR WF NS NU 0 base ds1 [] buf p1 [] p) as (F1 & F2 & F3 & F4 & F5); auto; try (clear; cbn; lia); try lia.
      rewrite (STK ds1 eq_refl eq_refl) in F4, F5.
      exists base, (outAddr (p_out p1)), (if tiny then Some (65532 - stk, 65532) else None), ip.
      split; [reflexivity|]. split; [auto|]. split; [auto|]. split; [apply F4; auto|]. split; [left; split; [auto|lia]|].
      split; [intros f k o s IN INF; rewrite Z.sub_0_r in F5; auto|].
      destruct tiny eqn:T; [|unfold tiny in T; lia]. cbn [andb] in E1, E3. split; [unfold tiny in T; lia|]. split; [auto|]. split; [unfold stk, UNSPEC; lia|]. split; [lia|].
      apply (tiny_stack 0 base ds1 [] buf p1 (65532 - stk) B0 NA1 P1).
      rewrite SP1 in E3. unfold ds1 in E3 at 1. destruct (setStack_get ds (e_cnt e0) (65532 - stk) 65532 LDS) as [G1 G2]. rewrite G1 in E3. lia.
    - set (h := if fmt =? FormatFlat32 then 5 else 3) in *. assert (HH : h = 3 \/ h = 5) by (unfold h; destruct (fmt =? FormatFlat32); auto).
      destruct (u32 (base + h) <? base) eqn:E4; [discriminate|]. destruct ((fmt =? FormatFlat16) && _) eqn:E5 in H; [discriminate|].
      pose proof (limit_u32 fmt) as LU.
      assert (UB : u32 (base + h) = base + h) by (unfold u32, wrap in *; lia). rewrite UB in H.
      change (mkEnv (e_objs e0) (e_fmt e0) (e_useBss e0) (e_bs e0) (e_relod e0) (e_cnt e0) h) with (withHdr e0 h) in H.
      destruct (Pass (withHdr e0 h) false (base + h) (p_ds p1) (p_out p1) buf []) as [p2| |] eqn:P2; try discriminate. cbn [rbind] in H.
      cbn [withHdr e_objs e_bs] in H.
      destruct (symAddress (e_objs e0) (e_bs e0) (p_ds p2) (p_out p2) (op_entry op)) as [ip2| |] eqn:SY2; try discriminate. cbn [rbind] in H.
      destruct (tiny && _) eqn:E3 in H; [discriminate|].
      match type of H with rbind ?x _ = _ => destruct x as [p3| |] eqn:P3; try discriminate end. cbn [rbind] in H. injection H as -> <-.
      set (file := 233 :: _) in P3.
      assert (B2 : 0 <= base + h <= limit fmt).
      { clear - FF OO E2 E4 E5 UB HH B0. rewrite UB in *. pose proof (u32_range (base + h)) as UR. rewrite UB in UR. split; [lia|]. unfold limit. clearbody h.
        destruct FF as [EF|[EF|EF]]; rewrite EF in E5 |- *; unfold base, tiny in *; rewrite EF in *; clear EF; fc; lia. }
      assert (VB : 0 <= u32 (ip2 - (base + h)) < 2 ^ 32) by (unfold u32, wrap; lia).
      assert (LF : zlen file = h) by (unfold file; destruct HH as [-> | ->]; reflexivity).
      assert (B2' : 0 <= base + h <= limit (op_fmt op)) by exact B2.
      destruct (flat_pass op objs st e0 ds PR WF NS NU h (base + h) (p_ds p1) (p_out p1) buf p2 file p) as (F1 & F2 & F3 & F4 & F5); auto; try lia.
      destruct (facts op objs st e0 ds PR WF NS NU h (base + h) (p_ds p1) (p_out p1) buf p2 B2' NAp P2) as (l2 & hidden2 & gs2 & _ & _ & _ & _ & _ & _ & _ & _ & _ & _ & _ & _ & _ & _ & _ & ST3 & _).
      destruct (ST3 (e_cnt e0 + 2)%nat) as [SP3 SP4]; [lia|].
      rewrite (STK (p_ds p1) SP1 SP2) in F4, F5.
      exists base, (outAddr (p_out p2)), (if tiny then Some (65532 - stk, 65532) else None), ip2.
      split; [reflexivity|]. split; [auto|]. split; [auto|]. split; [apply F4; auto|]. split.
      { right. destruct F2 as [w F2]. exists h, w. split; [auto|]. split; [auto|]. rewrite F2. unfold file. cbn [app]. f_equal. f_equal.
        rewrite le32_digits by (try exact VB; lia). f_equal. rewrite Z2Nat.id by lia. unfold u32, wrap.
        destruct HH as [-> | ->]; [change (2 ^ (8 * (3 - 1))) with (2 ^ 16)|change (2 ^ (8 * (5 - 1))) with (2 ^ 32)]; lia. }
      split; [intros f k o s IN INF; replace base with (base + h - h) by lia; auto|].
      destruct tiny eqn:T; [|unfold tiny in T; lia]. cbn [andb] in E1, E3. split; [unfold tiny in T; lia|]. split; [auto|]. split; [unfold stk, UNSPEC; lia|]. split; [lia|].
      apply (tiny_stack h (base + h) (p_ds p1) (p_out p1) buf p2 (65532 - stk) B2 NAp P2).
      rewrite SP3, SP1 in E3. unfold ds1 in E3 at 1. destruct (setStack_get ds (e_cnt e0) (65532 - stk) 65532 LDS) as [G1 G2]. rewrite G1 in E3. lia.
  Qed.
End Flat.
