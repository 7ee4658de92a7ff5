(** What prologue and epilogue do. *)
From Verif Require Import Base BaseLemmas X86 ExprSpec ExprLemmas CgModel CgTree CgMach StmtSpec StmtPre StmtModel StmtLab MipsModel MipsSpec MipsCode MipsMach MipsSim MipsProps MipsStmtPre MipsStmtModel MipsFnModel MipsFnSpec.
Ltac Zify.zify_post_hook ::= idtac.
Local Notation P32 := (2 ^ 32).
Local Notation HW4 := (or_intror eq_refl : 4 = 2 \/ 4 = 4).

Lemma byte_div v k : v / 256 ^ k / 256 = v / 256 ^ (k + 1) \/ k < 0.
Proof. destruct (Z_lt_ge_dec k 0); [now right|left]. rewrite Z.div_div by (try lia; apply Z.pow_pos_nonneg; lia). rewrite Z.pow_add_r by lia. reflexivity. Qed.
Lemma stn4_byte f a v x : 0 <= a -> a + 4 <= P32 -> a <= x < a + 4 -> stn 4 4 f a v x mod 256 = v / 2 ^ (8 * (x - a)) mod 256.
Proof.
  intros Ha Hb Hx. cbn [stn]. rewrite !(uw_small 4) by (change (2 ^ (8 * 4)) with P32; lia). unfold X86.upd.
  assert (D : x = a \/ x = a + 1 \/ x = a + 1 + 1 \/ x = a + 1 + 1 + 1) by lia.
  destruct D as [->|[->|[->| ->]]]; repeat match goal with |- context [?p =? ?q] => (replace (p =? q) with true by lia) || (replace (p =? q) with false by lia) end; cbv iota; rewrite Zmod_mod.
  - rewrite Z.sub_diag. change (2 ^ (8 * 0)) with 1. now rewrite Z.div_1_r.
  - replace (8 * (a + 1 - a)) with 8 by lia. reflexivity.
  - replace (8 * (a + 1 + 1 - a)) with 16 by lia. rewrite Z.div_div by lia. reflexivity.
  - replace (8 * (a + 1 + 1 + 1 - a)) with 24 by lia. rewrite !Z.div_div by lia. reflexivity.
Qed.
Lemma ldn4_byte f a x : 0 <= a -> a + 4 <= P32 -> a <= x < a + 4 -> f x mod 256 = ldn 4 4 f a / 2 ^ (8 * (x - a)) mod 256.
Proof.
  intros Ha Hb Hx. cbn [ldn]. rewrite !(uw_small 4) by (change (2 ^ (8 * 4)) with P32; lia).
  pose proof (Z.mod_pos_bound (f a) 256 ltac:(lia)). pose proof (Z.mod_pos_bound (f (a + 1)) 256 ltac:(lia)).
  pose proof (Z.mod_pos_bound (f (a + 1 + 1)) 256 ltac:(lia)). pose proof (Z.mod_pos_bound (f (a + 1 + 1 + 1)) 256 ltac:(lia)).
  assert (D : x = a \/ x = a + 1 \/ x = a + 1 + 1 \/ x = a + 1 + 1 + 1) by lia.
  destruct D as [->|[->|[->| ->]]].
  - rewrite Z.sub_diag. change (2 ^ (8 * 0)) with 1. revert H H0 H1 H2. generalize (f a mod 256) (f (a + 1) mod 256) (f (a + 1 + 1) mod 256) (f (a + 1 + 1 + 1) mod 256). intros. Z.div_mod_to_equations. lia.
  - replace (8 * (a + 1 - a)) with 8 by lia. change (2 ^ 8) with 256. revert H H0 H1 H2. generalize (f a mod 256) (f (a + 1) mod 256) (f (a + 1 + 1) mod 256) (f (a + 1 + 1 + 1) mod 256). intros. Z.div_mod_to_equations. lia.
  - replace (8 * (a + 1 + 1 - a)) with 16 by lia. change (2 ^ 16) with 65536. revert H H0 H1 H2. generalize (f a mod 256) (f (a + 1) mod 256) (f (a + 1 + 1) mod 256) (f (a + 1 + 1 + 1) mod 256). intros. Z.div_mod_to_equations. lia.
  - replace (8 * (a + 1 + 1 + 1 - a)) with 24 by lia. change (2 ^ 24) with 16777216. revert H H0 H1 H2. generalize (f a mod 256) (f (a + 1) mod 256) (f (a + 1 + 1) mod 256) (f (a + 1 + 1 + 1) mod 256). intros. Z.div_mod_to_equations. lia.
Qed.

Section Frame.
Variable addr : Z -> Z.
Notation execs := (MipsMach.execs addr).
Lemma store4_ok r ofs b s : wd s -> r <> 0 -> b <> 0 -> 0 <= R s b + ofs -> R s b + ofs + 4 <= P32 -> (R s b + ofs) mod 4 = 0 ->
  exists s', execs [Mstore 4 r (AInd ofs b)] s = Some s' /\ wd s' /\ (forall x, x <> 1 -> R s' x = R s x) /\
    MM s' = stn 4 4 (MM s) (R s b + ofs) (R s r).
Proof.
  intros W Hr Hb H0 H1 H2. cbn [MipsMach.execs MipsSpec.exec ea]. rewrite !reg_gp, w32_small, H2 by (assumption || lia). cbn [Z.eqb obind clobA].
  eexists. split; [reflexivity|]. change (Z.to_nat 4) with 4%nat.
  pose proof (setr_upd (setm (stn 4 4 (MM s) (R s b + ofs) (R s r)) s) 1 (w32 ofs)) as U. split; [|split].
  - intros x. rewrite R_setr by lia. destruct (x =? 1); [apply w32_rng|apply W].
  - intros x Hx. rewrite R_setr by lia. replace (x =? 1) with false by lia. reflexivity.
  - rewrite MM_setr. reflexivity.
Qed.
Lemma load4_ok rd ofs b s : wd s -> gp rd -> b <> 0 -> 0 <= R s b + ofs -> R s b + ofs + 4 <= P32 -> (R s b + ofs) mod 4 = 0 ->
  exists s', execs [Mload 4 rd (AInd ofs b)] s = Some s' /\ upd s s' rd (ldn 4 4 (MM s) (R s b + ofs)).
Proof.
  intros W Hr Hb H0 H1 H2. cbn [MipsMach.execs MipsSpec.exec ea]. rewrite !reg_gp, w32_small by (assumption || lia). change (Z.abs 4) with 4. rewrite H2. cbn [Z.eqb obind clobA Z.ltb Z.compare].
  eexists. split; [reflexivity|]. change (Z.to_nat 4) with 4%nat. apply setr_upd1; [exact Hr|apply w32_rng].
Qed.

Lemma params_ok k : forall s, (k <= 4)%nat -> wd s -> R s 29 + 16 <= P32 -> R s 29 mod 4 = 0 ->
  exists s', execs (map (fun i => Mstore 4 (4 + Z.of_nat i) (AInd (4 * Z.of_nat i) 29)) (seq 0 k)) s = Some s' /\ wd s' /\
    (forall x, x <> 1 -> R s' x = R s x) /\
    (forall x, R s 29 <= x < R s 29 + 4 * Z.of_nat k -> MM s' x mod 256 = R s (4 + (x - R s 29) / 4) / 2 ^ (8 * ((x - R s 29) mod 4)) mod 256) /\
    (forall x, ~ (R s 29 <= x < R s 29 + 4 * Z.of_nat k) -> MM s' x = MM s x).
Proof.
  induction k as [|k IH]; intros s Hk W Hs Ha.
  - exists s. split; [reflexivity|]. split; [exact W|]. split; [auto|]. split; [intros; lia|auto].
  - rewrite seq_S, map_app, execs_app. cbn [map Nat.add].
    destruct (IH s ltac:(lia) W Hs Ha) as (s1 & X1 & W1 & R1 & A1 & A2). rewrite X1. cbn [obind].
    pose proof (W 29) as W29.
    destruct (store4_ok (4 + Z.of_nat k) (4 * Z.of_nat k) 29 s1 W1) as (s2 & X2 & W2 & R2 & A3); rewrite ?(R1 29) by lia; try lia.
    { rewrite Z.add_mod, Ha, (Z.mul_comm 4), Z_mod_mult by lia. reflexivity. }
    rewrite !R1 in A3 by lia. exists s2. split; [exact X2|]. split; [exact W2|]. split; [intros x Hx; rewrite R2, R1; auto|].
    remember (R s 29 + 4 * Z.of_nat k) as a eqn:Ea.
    split; intros x Hx.
    + rewrite A3. destruct (Z_lt_ge_dec x a) as [L|L].
      * rewrite (stn_other 4 HW4 addr (fun _ => False)) by (change (2 ^ (8 * 4)) with P32; lia). apply A1. lia.
      * rewrite stn4_byte by lia. f_equal. assert (E : (x - R s 29) / 4 = Z.of_nat k /\ (x - R s 29) mod 4 = x - a).
        { assert (D : x - R s 29 = (x - a) + Z.of_nat k * 4) by lia. rewrite D, Z.div_add, Z_mod_plus_full by lia. rewrite Z.div_small, Z.mod_small by lia. lia. }
        destruct E as [-> ->]. reflexivity.
    + rewrite A3, (stn_other 4 HW4 addr (fun _ => False)) by (change (2 ^ (8 * 4)) with P32; lia). apply A2. lia.
Qed.

Lemma frame_ok minofs leaf s : wd s -> minofs <= 0 -> minofs mod 4 = 0 -> 8 - minofs <= R s 29 -> R s 29 mod 4 = 0 ->
  exists s', execs (gen_frame minofs leaf) s = Some s' /\ wd s' /\ R s' 29 = R s 29 - 8 + minofs /\ R s' 30 = R s 29 - 8 /\
    (forall x, x <> 1 -> x <> 29 -> x <> 30 -> R s' x = R s x) /\
    ldn 4 4 (MM s') (R s 29 - 8) = R s 30 /\ (leaf = false -> ldn 4 4 (MM s') (R s 29 - 4) = R s 31) /\
    (forall x, ~ (R s 29 - 8 <= x < R s 29) -> MM s' x = MM s x).
Proof.
  intros W Hm Hm4 Hs Ha. pose proof (W 29) as W29. set (sp := R s 29) in *. unfold gen_frame. cbv zeta.
  assert (A8 : (sp - 8) mod 4 = 0) by (rewrite Zminus_mod, Ha; reflexivity).
  assert (A4 : (sp - 8 + 4) mod 4 = 0) by (rewrite Z.add_mod, A8 by lia; reflexivity).
  destruct (alui_ok addr Msubu 29 29 (8 - minofs) s W ltac:(split; lia) ltac:(lia)) as (s1 & X1 & U1).
  cbn [aluv] in U1. fold sp in U1. rewrite (w32_small (8 - minofs)), w32_small in U1 by lia.
  pose proof (upd_wd _ _ _ _ U1 W ltac:(lia)) as W1. destruct U1 as (V1 & K1 & M1 & _).
  destruct (store4_ok 30 (8 - minofs - 8) 29 s1 W1) as (s2 & X2 & W2 & R2 & M2); try lia; rewrite ?V1; try lia.
  { now replace (sp - (8 - minofs) + (8 - minofs - 8)) with (sp - 8) by lia. }
  rewrite V1, M1 in M2. replace (sp - (8 - minofs) + (8 - minofs - 8)) with (sp - 8) in M2 by lia. rewrite (K1 30) in M2 by lia.
  destruct (alui_ok addr Maddu 30 29 (8 - minofs - 8) s2 W2 ltac:(split; lia) ltac:(lia)) as (s3 & X3 & U3).
  cbn [aluv] in U3. rewrite (R2 29), V1, (w32_small (8 - minofs - 8)), w32_small in U3 by lia.
  replace (sp - (8 - minofs) + (8 - minofs - 8)) with (sp - 8) in U3 by lia.
  pose proof (upd_wd _ _ _ _ U3 W2 ltac:(lia)) as W3. destruct U3 as (V3 & K3 & M3 & _).
  assert (X : execs [Malu Msubu 29 29 (OC (8 - minofs)); Mstore 4 30 (AInd (8 - minofs - 8) 29); Malu Maddu 30 29 (OC (8 - minofs - 8))] s = Some s3).
  { change (execs ([Malu Msubu 29 29 (OC (8 - minofs))] ++ [Mstore 4 30 (AInd (8 - minofs - 8) 29)] ++ [Malu Maddu 30 29 (OC (8 - minofs - 8))]) s = Some s3).
    rewrite execs_app, X1. cbn [obind]. rewrite execs_app, X2. exact X3. }
  assert (Q29 : R s3 29 = sp - 8 + minofs) by (rewrite K3, R2, V1 by lia; lia).
  assert (QR : forall x, x <> 1 -> x <> 29 -> x <> 30 -> R s3 x = R s x) by (intros x H1 H2 H3; rewrite K3, R2, K1 by lia; reflexivity).
  assert (L0 : ldn 4 4 (stn 4 4 (MM s) (sp - 8) (R s 30)) (sp - 8) = R s 30).
  { rewrite (ldn_stn 4 HW4 addr (fun _ => False)) by (change (2 ^ (8 * 4)) with P32; lia). apply Z.mod_small, W. }
  assert (RN : forall (f : Z -> Z) v x, ~ (sp - 8 <= x < sp - 4) -> stn 4 4 f (sp - 8) v x = f x) by (intros; apply (stn_other 4 HW4 addr (fun _ => False)); change (2 ^ (8 * 4)) with P32; lia).
  destruct leaf.
  - rewrite app_nil_r. exists s3. rewrite M3, M2. split; [exact X|]. split; [exact W3|]. split; [exact Q29|]. split; [exact V3|]. split; [exact QR|].
    split; [exact L0|]. split; [discriminate|]. intros x Hx. apply RN. lia.
  - destruct (store4_ok 31 4 30 s3 W3) as (s4 & X4 & W4 & R4 & M4); try lia; rewrite ?V3; try lia; auto.
    rewrite V3, M3, M2, (QR 31) in M4 by lia. replace (sp - 8 + 4) with (sp - 4) in M4 by lia.
    exists s4. rewrite M4. split; [rewrite execs_app, X; exact X4|]. split; [exact W4|]. split; [rewrite R4; auto; lia|]. split; [rewrite R4; auto; lia|].
    split; [intros x H1 H2 H3; rewrite R4; auto|].
    assert (RM : forall (f : Z -> Z) v x, ~ (sp - 4 <= x < sp) -> stn 4 4 f (sp - 4) v x = f x) by (intros; apply (stn_other 4 HW4 addr (fun _ => False)); change (2 ^ (8 * 4)) with P32; lia).
    split; [|split].
    + rewrite <- L0 at 2. apply (ldn_ext 4 HW4 addr (fun _ => False)); try lia; try (change (2 ^ (8 * 4)) with P32; lia). intros x Hx. apply RM. lia.
    + intros _. rewrite (ldn_stn 4 HW4 addr (fun _ => False)) by (change (2 ^ (8 * 4)) with P32; lia). apply Z.mod_small, W.
    + intros x Hx. rewrite RM by lia. apply RN. lia.
Qed.

Lemma epilog_ok minofs leaf s fp : wd s -> minofs <= 0 -> R s 30 = fp -> R s 29 = fp + minofs -> fp mod 4 = 0 -> 0 <= fp + minofs -> fp + 8 < P32 ->
  exists s', execs (gen_epilog minofs leaf) s = Some s' /\ wd s' /\ R s' 29 = fp + 8 /\ R s' 30 = ldn 4 4 (MM s) fp /\
    R s' 31 = (if leaf then R s 31 else ldn 4 4 (MM s) (fp + 4)) /\ R s' 2 = R s 2 /\ MM s' = MM s.
Proof.
  intros W Hm H30 H29 Ha H0 H1. unfold gen_epilog.
  assert (A4 : (fp + 4) mod 4 = 0) by (rewrite Z.add_mod, Ha by lia; reflexivity).
  assert (A : exists s1, execs (if leaf then [] else [Mload 4 31 (AInd 4 30)]) s = Some s1 /\ wd s1 /\ R s1 31 = (if leaf then R s 31 else ldn 4 4 (MM s) (fp + 4)) /\
     (forall x, x <> 1 -> x <> 31 -> R s1 x = R s x) /\ MM s1 = MM s).
  { destruct leaf; [exists s; split; [reflexivity|]; auto|].
    destruct (load4_ok 31 4 30 s W ltac:(split; lia) ltac:(lia)) as (s1 & X1 & U1); rewrite ?H30; try lia; auto. rewrite H30 in U1.
    exists s1. split; [exact X1|]. split; [eapply upd_wd; eauto; apply (ldn_range 4 HW4 addr (fun _ => False) 4)|]. destruct U1 as (V & K & M & _). auto. }
  destruct A as (s1 & X1 & W1 & Q1 & K1 & M1).
  destruct (load4_ok 30 0 30 s1 W1 ltac:(split; lia) ltac:(lia)) as (s2 & X2 & U2); rewrite ?K1, ?H30, ?Z.add_0_r by lia; try lia.
  rewrite K1, H30, Z.add_0_r, M1 in U2 by lia.
  pose proof (upd_wd _ _ _ _ U2 W1 ltac:(apply (ldn_range 4 HW4 addr (fun _ => False) 4))) as W2. destruct U2 as (V2 & K2 & M2 & _).
  destruct (alui_ok addr Maddu 29 29 (8 - minofs) s2 W2 ltac:(split; lia) ltac:(lia)) as (s3 & X3 & U3).
  assert (E29 : R s2 29 = fp + minofs) by (rewrite K2, K1 by lia; exact H29).
  assert (F8 : 0 <= 8 - minofs < P32) by lia.
  cbn [aluv] in U3. rewrite E29, (w32_small (8 - minofs)), w32_small in U3 by lia.
  pose proof (upd_wd _ _ _ _ U3 W2 ltac:(lia)) as W3. destruct U3 as (V3 & K3 & M3 & _).
  exists s3. split; [rewrite execs_app, X1; cbn [obind]; change ([Mload 4 30 (AInd 0 30); Malu Maddu 29 29 (OC (8 - minofs))]) with ([Mload 4 30 (AInd 0 30)] ++ [Malu Maddu 29 29 (OC (8 - minofs))]); rewrite execs_app, X2; exact X3|].
  split; [exact W3|]. split; [rewrite V3; lia|]. split; [rewrite K3 by lia; exact V2|]. split; [rewrite K3, K2, Q1 by lia; reflexivity|].
  split; [rewrite K3, K2, K1 by lia; reflexivity|]. congruence.
Qed.
End Frame.
