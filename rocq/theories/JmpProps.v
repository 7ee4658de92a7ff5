(** C60: setjmp and longjmp. *)
From Verif Require Import Base BaseLemmas X86 ExprSpec CgModel MachSpec CgMach FnSpec FnModel FnProps HelpSpec HelpModel JmpSpec JmpModel.
Ltac Zify.zify_post_hook ::= idtac.

Section Jmp.
Variable W : Z.
Hypothesis HW : W = 2 \/ W = 4.
Variable addr : Z -> Z.
Notation P := (2 ^ (8 * W)).
Notation nW := (Z.to_nat W).
Local Notation lds := (ldn W nW).
Local Notation sts := (stn W nW).
Let Wp := W_pos W HW.
Let Pp := P_pos W HW.

Lemma jexecs_F l : forall k j, jexecs W addr (map JH (map HF l) ++ k) j =
  match fexecs W addr l (hs (jh j)) with
  | None => None
  | Some (Some a, s) => Some (Some a, mkj (with_st s (jh j)) (jf j) (jcs j))
  | Some (None, s) => jexecs W addr k (mkj (with_st s (jh j)) (jf j) (jcs j))
  end.
Proof.
  induction l as [|i l IH]; intros k j; [destruct j as [[? ? ? ?] ? ?]; reflexivity|]. cbn [map app jexecs hexecs].
  destruct i as [i| | |]; cbn [fexecs obind].
  - destruct (exec W addr i (hs (jh j))) as [s|]; [cbn [obind]; rewrite IH; reflexivity|reflexivity].
  - rewrite IH. reflexivity.
  - rewrite IH. reflexivity.
  - reflexivity.
Qed.

Lemma ldo f a b v : 0 <= a -> a + W <= P -> 0 <= b -> b + W <= P -> a + W <= b \/ b + W <= a -> lds (sts f b v) a = lds f a.
Proof. intros. apply (lds_ext W HW addr); try lia. intros x Hx. apply (sts_other W HW addr); lia. Qed.

Lemma make1 v f b : 0 <= v -> v / 256 * 256 + Z.lor (v mod 256) ((b / 256 * 256 + (if Z.testbit (lflags v f) 6 then 1 else 0)) mod 256) = if v =? 0 then 1 else v.
Proof.
  intros Hv. unfold lflags. destruct (Z.eqb_spec v 0) as [->|N].
  - rewrite Z.lor_spec. change (Z.testbit 64 6) with true. rewrite Bool.orb_true_r.
    replace ((b / 256 * 256 + 1) mod 256) with 1 by (rewrite (Z.add_comm _ 1), Z.mod_add by lia; reflexivity). reflexivity.
  - rewrite Z.ldiff_spec. change (Z.testbit 64 6) with true. rewrite Bool.andb_false_r.
    rewrite Z.add_0_r, Z.mod_mul by lia. rewrite Z.lor_0_r. pose proof (Z.div_mod v 256 ltac:(lia)). lia.
Qed.
End Jmp.

(** One instruction at a time, on a state with all components in view. *)
Definition fj (a b c d sp bp : Z) (m : Z -> Z) (x : option (Z * Z)) (si di : Z) (df : bool) (f cs : Z) : jst := mkj (mkh (mkst a b c d sp bp m x) si di df) f cs.
Section Step.
Variable W : Z.
Variable addr : Z -> Z.
Variables a b c d sp bp : Z.
Variable m : Z -> Z.
Variable x : option (Z * Z).
Variables si di : Z.
Variable df : bool.
Variables f cs : Z.
Variable k : list jins.
Local Notation lds := (ldn W (Z.to_nat W)).
Local Notation sts := (stn W (Z.to_nat W)).
Lemma j_bx o : jexecs W addr (JH (HmovM Hbx Hbp o) :: k) (fj a b c d sp bp m x si di df f cs) = jexecs W addr k (fj a (lds m (uw W (bp + o))) c d sp bp m x si di df f cs).
Proof. reflexivity. Qed.
Lemma j_ax o : jexecs W addr (JH (HmovM Hax Hbp o) :: k) (fj a b c d sp bp m x si di df f cs) = jexecs W addr k (fj (lds m (uw W (bp + o))) b c d sp bp m x si di df f cs).
Proof. reflexivity. Qed.
Lemma j_lea o : jexecs W addr (JH (Hlea Hax Hbp o) :: k) (fj a b c d sp bp m x si di df f cs) = jexecs W addr k (fj (uw W (bp + o)) b c d sp bp m x si di df f cs).
Proof. reflexivity. Qed.
Lemma j_st o : jexecs W addr (Jst Hbx o Hax :: k) (fj a b c d sp bp m x si di df f cs) = jexecs W addr k (fj a b c d sp bp (sts m (uw W (b + o)) a) x si di df f cs).
Proof. reflexivity. Qed.
Lemma j_pushf : jexecs W addr (Jpushf :: k) (fj a b c d sp bp m x si di df f cs) = jexecs W addr k (fj a b c d (uw W (sp - W)) bp (sts m (uw W (sp - W)) f) x si di df f cs).
Proof. reflexivity. Qed.
Lemma j_pop o : jexecs W addr (JpopM Hbx o :: k) (fj a b c d sp bp m x si di df f cs) = jexecs W addr k (fj a b c d (uw W (sp + W)) bp (sts m (uw W (b + o)) (lds m sp)) x si di df f cs).
Proof. reflexivity. Qed.
Lemma j_xor : jexecs W addr (Jxor Hax :: k) (fj a b c d sp bp m x si di df f cs) = jexecs W addr k (fj 0 b c d sp bp m x si di df (lflags 0 f) cs).
Proof. reflexivity. Qed.
Lemma j_or : jexecs W addr (Jor Hax :: k) (fj a b c d sp bp m x si di df f cs) = jexecs W addr k (fj a b c d sp bp m x si di df (lflags a f) cs).
Proof. reflexivity. Qed.
Lemma j_setz : jexecs W addr (Jsetz_bl :: k) (fj a b c d sp bp m x si di df f cs) = jexecs W addr k (fj a (b / 256 * 256 + (if Z.testbit f 6 then 1 else 0)) c d sp bp m x si di df f cs).
Proof. reflexivity. Qed.
Lemma j_orb : jexecs W addr (Jor_al_bl :: k) (fj a b c d sp bp m x si di df f cs) = jexecs W addr k (fj (a / 256 * 256 + Z.lor (a mod 256) (b mod 256)) b c d sp bp m x si di df (lflags (Z.lor (a mod 256) (b mod 256)) f) cs).
Proof. reflexivity. Qed.
Lemma j_sp o : jexecs W addr (JH (HmovM Hsp Hbx o) :: k) (fj a b c d sp bp m x si di df f cs) = jexecs W addr k (fj a b c d (lds m (uw W (b + o))) bp m x si di df f cs).
Proof. reflexivity. Qed.
Lemma j_bp o : jexecs W addr (JH (HmovM Hbp Hbx o) :: k) (fj a b c d sp bp m x si di df f cs) = jexecs W addr k (fj a b c d sp (lds m (uw W (b + o))) m x si di df f cs).
Proof. reflexivity. Qed.
Lemma j_push o : jexecs W addr (JpushM Hbx o :: k) (fj a b c d sp bp m x si di df f cs) = jexecs W addr k (fj a b c d (uw W (sp - W)) bp (sts m (uw W (sp - W)) (lds m (uw W (b + o)))) x si di df f cs).
Proof. reflexivity. Qed.
Lemma j_cs : jexecs W addr (Jpushcs :: k) (fj a b c d sp bp m x si di df f cs) = jexecs W addr k (fj a b c d (uw W (sp - W)) bp (sts m (uw W (sp - W)) cs) x si di df f cs).
Proof. reflexivity. Qed.
Lemma j_iret : jexecs W addr (Jiret :: k) (fj a b c d sp bp m x si di df f cs) = Some (Some (lds m sp), fj a b c d (uw W (sp + 3 * W)) bp m x si di df (lds m (uw W (sp + 2 * W))) (lds m (uw W (sp + W)) mod 65536)).
Proof. reflexivity. Qed.
End Step.


(** setjmp returns 0 to its caller, with the stack and frame pointers back, and writes to the buffer
    the return address, the flags, the caller's frame pointer and stack pointer, and nothing else
    but dead words of the stack. *)
Theorem C60_setjmp (W : Z) (addr : Z -> Z) (ra jb : Z) (j : jst) :
  W = 2 \/ W = 4 -> 0 <= ra < 2 ^ (8 * W) -> at_call W 3 [jb] j -> clear_of W jb 3 (jsp j) ->
  exists j', jcall W addr (setjmp_code W) ra j ra j' /\ jax j' = 0 /\ jsp j' = jsp j /\ jbp j' = jbp j /\ jcs j' = jcs j /\
    ldn W (Z.to_nat W) (jmem j') jb = ra /\ ldn W (Z.to_nat W) (jmem j') (jb + W) = jf j /\
    ldn W (Z.to_nat W) (jmem j') (jb + 2 * W) = jbp j /\ ldn W (Z.to_nat W) (jmem j') (jb + 3 * W) = jsp j /\
    forall a, ~ (jb <= a < jb + 4 * W) -> ~ (jsp j - 3 * W <= a < jsp j) -> jmem j' a = jmem j a.
Proof.
  intros HW Hra (HR & Hb & Hf & Hc & Hs & Ht & HG) (J0 & J1 & J2).
  pose proof (W_pos W HW) as Wp. pose proof (P_pos W HW) as Pp. unfold jmem, jax, jsp, jbp in *. set (s := hs (jh j)) in *.
  change (zlen [jb]) with 1 in Ht.
  destruct (prolog_ok W HW addr 0 (ebp s) ra s HR Hb Hra ltac:(lia) ltac:(lia)) as (s1 & X1 & R1 & S1 & L0 & L1 & M1).
  remember (esp s - 2 * W) as fp eqn:Efp. rewrite Z.add_0_r in S1.
  assert (L2 : ldn W (Z.to_nat W) (M s1) (fp + 2 * W) = jb).
  { rewrite <- (HG 0%nat jb eq_refl). replace (fp + 2 * W) with (esp s + W * Z.of_nat 0) by lia.
    apply (lds_ext W HW addr); try lia. intros x Hx. apply M1. lia. }
  destruct R1 as (Ra & Rb & Rc & Rd & Rs & Rp).
  set (m1 := stn W (Z.to_nat W) (M s1) jb ra).
  set (m2 := stn W (Z.to_nat W) m1 (fp - W) (jf j)).
  set (m3 := stn W (Z.to_nat W) m2 (jb + W) (jf j)).
  set (m4 := stn W (Z.to_nat W) m3 (jb + 2 * W) (ebp s)).
  set (m5 := stn W (Z.to_nat W) m4 (jb + 3 * W) (esp s)).
  assert (KEEP : forall a, ~ (jb <= a < jb + 4 * W) -> ~ (fp - W <= a < fp) -> m5 a = M s1 a).
  { intros a A1 A2. unfold m5, m4, m3, m2, m1. rewrite !(sts_other W HW addr) by lia. reflexivity. }
  assert (Q : ldn W (Z.to_nat W) m5 jb = ra /\ ldn W (Z.to_nat W) m5 (jb + W) = jf j /\ ldn W (Z.to_nat W) m5 (jb + 2 * W) = ebp s /\ ldn W (Z.to_nat W) m5 (jb + 3 * W) = esp s).
  { unfold m5, m4, m3, m2, m1.
    repeat split; repeat rewrite (ldo W HW addr) by lia; apply (lds_sts W HW addr); lia. }
  assert (B2 : ldn W (Z.to_nat W) m2 (fp - W) = jf j) by (unfold m2; apply (lds_sts W HW addr); lia).
  assert (B3 : ldn W (Z.to_nat W) m3 fp = ebp s).
  { unfold m3, m2, m1. rewrite !(ldo W HW addr) by lia. exact L0. }
  set (s2 := mkst 0 jb (ec s1) (ed s1) fp fp m5 (fl s1)).
  destruct (epilog_ok W HW addr fp s2) as (s3 & X3 & R3 & S3 & V3 & M3).
  { unfold regs, s2; cbn [ea eb ec ed esp ebp]. repeat split; try lia. }
  { lia. } { lia. }
  change (M s2) with m5 in *.
  assert (E0 : ldn W (Z.to_nat W) m5 fp = ebp s) by (rewrite <- L0; apply (lds_ext W HW addr); try lia; intros x Hx; apply KEEP; lia).
  assert (E1 : ldn W (Z.to_nat W) m5 (fp + W) = ra) by (rewrite <- L1; apply (lds_ext W HW addr); try lia; intros x Hx; apply KEEP; lia).
  rewrite E0, E1 in *.
  exists (mkj (with_st s3 (jh j)) (lflags 0 (jf j)) (jcs j)). split.
  - unfold jcall, setjmp_code. rewrite (jexecs_F W addr). cbn [jh hs with_st]. fold s. rewrite X1. cbn [jf jcs].
    match goal with |- jexecs _ _ ?c _ = _ => assert (EC : c = [JH (HmovM Hbx Hbp (2 * W)); JH (HmovM Hax Hbp W); Jst Hbx 0 Hax; Jpushf; JpopM Hbx W;
      JH (HmovM Hax Hbp 0); Jst Hbx (2 * W) Hax; JH (Hlea Hax Hbp (2 * W)); Jst Hbx (3 * W) Hax; Jxor Hax] ++ map JH (map HF gen_epilog)) by (destruct HW as [-> | ->]; reflexivity) end.
    rewrite EC. clear EC.
    assert (BODY : forall k, jexecs W addr ([JH (HmovM Hbx Hbp (2 * W)); JH (HmovM Hax Hbp W); Jst Hbx 0 Hax; Jpushf; JpopM Hbx W;
      JH (HmovM Hax Hbp 0); Jst Hbx (2 * W) Hax; JH (Hlea Hax Hbp (2 * W)); Jst Hbx (3 * W) Hax; Jxor Hax] ++ k)
      (mkj (with_st s1 (with_st (push_ra W ra s) (jh j))) (jf j) (jcs j)) = jexecs W addr k (mkj (with_st s2 (jh j)) (lflags 0 (jf j)) (jcs j))).
    { intros k. destruct s1 as [a1 b1 c1 d1 sp1 bp1 mm fl1]. cbn [ea eb ec ed esp ebp M fl] in *. subst bp1 sp1.
      cbn [app]. match goal with |- jexecs _ _ _ ?y = _ => change y with (fj a1 b1 c1 d1 fp fp mm fl1 (hsi (jh j)) (hdi (jh j)) (hdf (jh j)) (jf j) (jcs j)) end.
      rewrite j_bx, (uws W (fp + 2 * W)), L2 by lia. rewrite j_ax, (uws W (fp + W)), L1 by lia.
      rewrite j_st, Z.add_0_r, (uws W jb) by lia. fold m1. rewrite j_pushf, (uws W (fp - W)) by lia. fold m2. rewrite j_pop, B2.
      replace (fp - W + W) with fp by lia. rewrite (uws W fp), (uws W (jb + W)) by lia. fold m3. rewrite j_ax, Z.add_0_r, (uws W fp), B3 by lia.
      rewrite j_st, (uws W (jb + 2 * W)) by lia. fold m4. rewrite j_lea, j_st, (uws W (jb + 3 * W)), (uws W (fp + 2 * W)) by lia.
      replace (fp + 2 * W) with (esp s) by lia. rewrite j_xor. fold m5. reflexivity. }
    rewrite BODY. rewrite <- (app_nil_r (map JH _)), (jexecs_F W addr). cbn [jh hs with_st]. rewrite X3. reflexivity.
  - cbn [jh hs with_st jcs]. destruct R3 as (_ & _ & _ & _ & _ & R3). rewrite V3, S3, R3, M3.
    split; [reflexivity|]. split; [lia|]. split; [reflexivity|]. split; [reflexivity|].
    destruct Q as (Q1 & Q2 & Q3 & Q4). split; [exact Q1|]. split; [exact Q2|]. split; [exact Q3|]. split; [exact Q4|].
    intros a A1 A2. rewrite KEEP by lia. apply M1. lia.
Qed.

(** longjmp goes to the address in the buffer, with the value, or 1 if that is 0, in the register for
    results, and with the flags, the frame pointer and the stack pointer of the buffer.  It writes only
    to words below the two stack pointers. *)
Theorem C60_longjmp (W : Z) (addr : Z -> Z) (ra jb val t f bp sp : Z) (j : jst) :
  W = 2 \/ W = 4 -> 0 <= ra < 2 ^ (8 * W) -> 0 <= val < 2 ^ (8 * W) -> at_call W 2 [jb; val] j -> clear_of W jb 2 (jsp j) -> clear_of W jb 3 sp -> 3 * W <= sp < 2 ^ (8 * W) ->
  ldn W (Z.to_nat W) (jmem j) jb = t -> ldn W (Z.to_nat W) (jmem j) (jb + W) = f ->
  ldn W (Z.to_nat W) (jmem j) (jb + 2 * W) = bp -> ldn W (Z.to_nat W) (jmem j) (jb + 3 * W) = sp ->
  exists j', jcall W addr (longjmp_code W) ra j t j' /\ jax j' = (if val =? 0 then 1 else val) /\ jsp j' = sp /\ jbp j' = bp /\ jf j' = f /\ jcs j' = jcs j /\
    forall a, ~ (jsp j - 2 * W <= a < jsp j) -> ~ (sp - 3 * W <= a < sp) -> jmem j' a = jmem j a.
Proof.
  intros HW Hra Hv (HR & Hb & Hf & Hc & Hs & Ht & HG) (J0 & J1 & J2) (_ & _ & J3) Hspr D1 D2 D3 D4.
  pose proof (W_pos W HW) as Wp. pose proof (P_pos W HW) as Pp. unfold jmem, jax, jsp, jbp in *. set (s := hs (jh j)) in *.
  change (zlen [jb; val]) with 2 in Ht.
  destruct (prolog_ok W HW addr 0 (ebp s) ra s HR Hb Hra ltac:(lia) ltac:(lia)) as (s1 & X1 & R1 & S1 & L0 & L1 & M1).
  remember (esp s - 2 * W) as fp eqn:Efp. rewrite Z.add_0_r in S1.
  assert (G : forall a, 0 <= a -> a + W <= 2 ^ (8 * W) -> a + W <= fp \/ esp s <= a -> ldn W (Z.to_nat W) (M s1) a = ldn W (Z.to_nat W) (M s) a).
  { intros a A1 A2 A3. apply (lds_ext W HW addr); try lia. intros x Hx. apply M1. lia. }
  assert (L2 : ldn W (Z.to_nat W) (M s1) (fp + 2 * W) = jb).
  { rewrite <- (HG 0%nat jb eq_refl). replace (fp + 2 * W) with (esp s + W * Z.of_nat 0) by lia. apply G; lia. }
  assert (L3 : ldn W (Z.to_nat W) (M s1) (fp + 3 * W) = val).
  { rewrite <- (HG 1%nat val eq_refl). replace (fp + 3 * W) with (esp s + W * Z.of_nat 1) by lia. apply G; lia. }
  rewrite <- G in D1, D2, D3, D4 by lia.
  assert (Bf : 0 <= f < 2 ^ (8 * W)) by (rewrite <- D2; apply (lds_range W HW addr)).
  assert (Bt : 0 <= t < 2 ^ (8 * W)) by (rewrite <- D1; apply (lds_range W HW addr)).
  assert (Bc : 0 <= jcs j < 2 ^ (8 * W)) by (assert (65536 <= 2 ^ (8 * W)) by (destruct HW as [-> | ->]; cbn; lia); lia).
  destruct R1 as (Ra & Rb & Rc & Rd & Rs & Rp).
  set (m1 := stn W (Z.to_nat W) (M s1) (sp - W) f).
  set (m2 := stn W (Z.to_nat W) m1 (sp - 2 * W) (jcs j)).
  set (m3 := stn W (Z.to_nat W) m2 (sp - 3 * W) t).
  assert (Q : ldn W (Z.to_nat W) m3 (sp - 3 * W) = t /\ ldn W (Z.to_nat W) m3 (sp - 2 * W) = jcs j /\ ldn W (Z.to_nat W) m3 (sp - W) = f).
  { unfold m3, m2, m1. repeat split; repeat rewrite (ldo W HW addr) by lia; apply (lds_sts W HW addr); lia. }
  destruct Q as (Q1 & Q2 & Q3).
  assert (D1' : ldn W (Z.to_nat W) m2 jb = t) by (unfold m2, m1; rewrite !(ldo W HW addr) by lia; exact D1).
  set (eb' := jb).
  exists (mkj (with_st (mkst (if val =? 0 then 1 else val) eb' (ec s1) (ed s1) sp bp m3 (fl s1)) (jh j)) f (jcs j)). split.
  - unfold jcall, longjmp_code. rewrite (jexecs_F W addr). cbn [jh hs with_st]. fold s. rewrite X1. cbn [jf jcs].
    match goal with |- jexecs _ _ ?c _ = _ => assert (EC : c = [JH (HmovM Hax Hbp (3 * W)); Jor Hax; Jsetz_bl; Jor_al_bl; JH (HmovM Hbx Hbp (2 * W));
      JH (HmovM Hsp Hbx (3 * W)); JH (HmovM Hbp Hbx (2 * W)); JpushM Hbx W; Jpushcs; JpushM Hbx 0; Jiret] ++ map JH (map HF gen_epilog)) by (destruct HW as [-> | ->]; reflexivity) end.
    rewrite EC. clear EC.
    destruct s1 as [a1 b1 c1 d1 sp1 bp1 mm fl1]. cbn [ea eb ec ed esp ebp M fl] in *. subst bp1 sp1.
    cbn [app]. match goal with |- jexecs _ _ _ ?y = _ => change y with (fj a1 b1 c1 d1 fp fp mm fl1 (hsi (jh j)) (hdi (jh j)) (hdf (jh j)) (jf j) (jcs j)) end.
    rewrite j_ax, (uws W (fp + 3 * W)), L3 by lia. rewrite j_or, j_setz, j_orb. rewrite (make1 W HW) by lia.
    rewrite j_bx, (uws W (fp + 2 * W)), L2 by lia. rewrite j_sp, (uws W (jb + 3 * W)), D4 by lia. rewrite j_bp, (uws W (jb + 2 * W)), D3 by lia.
    rewrite j_push, (uws W (jb + W)), D2 by lia. rewrite (uws W (sp - W)) by lia. fold m1.
    rewrite j_cs. replace (sp - W - W) with (sp - 2 * W) by lia. rewrite (uws W (sp - 2 * W)) by lia. fold m2.
    rewrite j_push, Z.add_0_r, (uws W jb), D1' by lia. replace (sp - 2 * W - W) with (sp - 3 * W) by lia. rewrite (uws W (sp - 3 * W)) by lia. fold m3.
    rewrite j_iret. replace (sp - 3 * W + 3 * W) with sp by lia. replace (sp - 3 * W + 2 * W) with (sp - W) by lia. replace (sp - 3 * W + W) with (sp - 2 * W) by lia.
    rewrite (uws W (sp - W)), (uws W (sp - 2 * W)), (uws W sp) by lia. rewrite Q1, Q2, Q3. rewrite (Z.mod_small (jcs j)) by lia. reflexivity.
  - cbn [jh hs with_st jcs jf ea esp ebp M]. split; [reflexivity|]. split; [reflexivity|]. split; [reflexivity|]. split; [reflexivity|]. split; [reflexivity|].
    intros a A1 A2. unfold m3, m2, m1. rewrite !(sts_other W HW addr) by lia. apply M1. lia.
Qed.

(** Together: setjmp returns twice.  The program calls setjmp in state [j]; it returns 0 in some state
    [j1].  Whenever the program later calls longjmp, in a state [j2] with the stack at least as
    deep, in the same code segment and with the same contents of the buffer, control is back after the call of
    setjmp: same stack pointer, frame pointer, segment and flags, result not 0 and equal to the value
    given unless that is 0; and memory from the stack pointer upwards, and below the words that the two
    calls use, is as it was at the call of longjmp. *)
Theorem C60_returns_twice (W : Z) (addr : Z -> Z) (ra jb : Z) (j : jst) :
  W = 2 \/ W = 4 -> 0 <= ra < 2 ^ (8 * W) -> at_call W 3 [jb] j -> clear_of W jb 3 (jsp j) ->
  exists j1, jcall W addr (setjmp_code W) ra j ra j1 /\ jax j1 = 0 /\ jsp j1 = jsp j /\ jbp j1 = jbp j /\
    forall j2 ra2 val, 0 <= ra2 < 2 ^ (8 * W) -> 0 <= val < 2 ^ (8 * W) -> at_call W 2 [jb; val] j2 -> clear_of W jb 2 (jsp j2) ->
      jsp j2 <= jsp j -> jcs j2 = jcs j -> (forall a, jb <= a < jb + 4 * W -> jmem j2 a = jmem j1 a) ->
      exists j3, jcall W addr (longjmp_code W) ra2 j2 ra j3 /\ jsp j3 = jsp j1 /\ jbp j3 = jbp j1 /\ jcs j3 = jcs j1 /\ jf j3 = jf j /\
        jax j3 <> 0 /\ (val <> 0 -> jax j3 = val) /\ (val = 0 -> jax j3 = 1) /\
        forall a, jsp j <= a \/ a < jsp j2 - 2 * W /\ a < jsp j - 3 * W -> jmem j3 a = jmem j2 a.
Proof.
  intros HW Hra HC HB. pose proof (W_pos W HW) as Wp.
  destruct (C60_setjmp W addr ra jb j HW Hra HC HB) as (j1 & E1 & A1 & S1 & B1 & C1 & W1 & W2 & W3 & W4 & K1).
  exists j1. split; [exact E1|]. split; [exact A1|]. split; [exact S1|]. split; [exact B1|].
  intros j2 ra2 val Hra2 Hval HC2 HB2 Hle Hcs Hm.
  pose proof HC as (_ & _ & _ & _ & Hs & Ht & _). change (zlen [jb]) with 1 in Ht.
  pose proof HB as (J0 & J1 & _).
  assert (X : forall k, 0 <= k <= 3 -> ldn W (Z.to_nat W) (jmem j2) (jb + k * W) = ldn W (Z.to_nat W) (jmem j1) (jb + k * W)).
  { intros k Hk. apply (lds_ext W HW addr); try nia. intros x Hx. apply Hm. nia. }
  pose proof (X 0 ltac:(lia)) as X0. pose proof (X 1 ltac:(lia)) as X1. pose proof (X 2 ltac:(lia)) as X2. pose proof (X 3 ltac:(lia)) as X3.
  rewrite Z.mul_0_l, Z.add_0_r in X0. rewrite Z.mul_1_l in X1.
  destruct (C60_longjmp W addr ra2 jb val ra (jf j) (jbp j) (jsp j) j2) as (j3 & E3 & A3 & S3 & B3 & F3 & C3 & K3); auto; try lia; try congruence.
  exists j3. split; [exact E3|]. split; [congruence|]. split; [congruence|]. split; [congruence|]. split; [exact F3|].
  rewrite A3. destruct (Z.eqb_spec val 0).
  - repeat split; try lia. intros a Ha. apply K3; lia.
  - repeat split; try lia. intros a Ha. apply K3; lia.
Qed.

(** The hypotheses can be met. *)
Definition demo_j (sp : Z) (vs : list Z) : jst :=
  mkj (mkh (mkst 7 8 9 10 sp 320 (fun a => if (sp <=? a) && (a <? sp + 4 * zlen vs) then nth (Z.to_nat ((a - sp) / 4)) vs 0 / 256 ^ ((a - sp) mod 4) mod 256 else 0) None) 0 0 false) 582 27.
Example demo_setjmp : at_call 4 3 [1000] (demo_j 300 [1000]) /\ clear_of 4 1000 3 300.
Proof.
  unfold at_call, clear_of, regs, args_at. split; [|lia]. cbn -[Z.div Z.modulo nth]. repeat split; try lia.
  intros [|[|i]] v E; cbn [nth_error] in E; inversion E; subst. vm_compute. reflexivity.
Qed.
Example demo_longjmp : at_call 4 2 [1000; 5] (demo_j 200 [1000; 5]) /\ clear_of 4 1000 2 200.
Proof.
  unfold at_call, clear_of, regs, args_at. split; [|lia]. cbn -[Z.div Z.modulo nth]. repeat split; try lia.
  intros [|[|[|i]]] v E; cbn [nth_error] in E; inversion E; subst; vm_compute; reflexivity.
Qed.

Print Assumptions C60_setjmp.
Print Assumptions C60_longjmp.
Print Assumptions C60_returns_twice.
