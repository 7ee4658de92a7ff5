(** C56: the helper routines that the compiler adds to MIPS programs: structure copy, structure
    arguments. *)
From Verif Require Import Base BaseLemmas X86 ExprSpec ExprLemmas CgModel HelpSpec StmtSpec MipsModel MipsSpec MipsStmtPre MipsFnSpec MipsHelpModel MipsMach.
From Verif Require FnProps HelpProps.
Ltac Zify.zify_post_hook ::= idtac.

Ltac eqs := repeat match goal with |- context [?a =? ?b] => destruct (Z.eqb_spec a b); try lia end; try lia.

Section Loop.
Variable addr : Z -> Z.
Variable callee : Z -> mst -> option mst.
Variable prog : list mins.
Variable lbl : Z.
Variable pc : nat.
Variables rs rc : Z.
Hypothesis Hr : rs = 5 /\ rc = 4 \/ rs = 4 /\ rc = 5.
Hypothesis H0 : nth_error prog pc = Some (Mlab lbl).
Hypothesis H1 : nth_error prog (S pc) = Some (Mload 1 6 (AInd 0 rs)).
Hypothesis H2 : nth_error prog (S (S pc)) = Some (Malu Maddu rs rs (OC 1)).
Hypothesis H3 : nth_error prog (S (S (S pc))) = Some (Malu Maddu rc rc (OC (-1))).
Hypothesis H4 : nth_error prog (S (S (S (S pc)))) = Some (Mstore 1 6 (AInd 0 3)).
Hypothesis H5 : nth_error prog (S (S (S (S (S pc))))) = Some (Malu Maddu 3 3 (OC 1)).
Hypothesis H6 : nth_error prog (S (S (S (S (S (S pc)))))) = Some (Mbr false rc 0 lbl).
Hypothesis HL : find_label lbl prog = Some pc.
Local Notation step := (mstep addr callee prog).
Local Notation star := (mstar addr callee prog).

Definition changed (r : Z) : Prop := r = 1 \/ r = 3 \/ r = 4 \/ r = 5 \/ r = 6.

Lemma w32s x : 0 <= x < 2 ^ 32 -> w32 x = x. Proof. intros H. unfold w32, wrap. now apply Z.mod_small. Qed.
Lemma w32r x : 0 <= w32 x < 2 ^ 32. Proof. unfold w32, wrap. apply Z.mod_pos_bound. lia. Qed.

Lemma iter n s : (forall r, 0 <= R s r < 2 ^ 32) -> R s rc = n -> 0 < n ->
  exists s', star (pc, s) (if n =? 1 then S (S (S (S (S (S (S pc)))))) else pc, s') /\ (forall r, 0 <= R s' r < 2 ^ 32) /\
    R s' rc = n - 1 /\ R s' rs = w32 (R s rs + 1) /\ R s' 3 = w32 (R s 3 + 1) /\
    MM s' = X86.upd (MM s) (R s 3) (MM s (R s rs) mod 256) /\ forall r, ~ changed r -> R s' r = R s r.
Proof.
  intros B En Hn. subst n.
  set (s1 := setr 6 (ldn 4 1 (MM s) (R s rs)) (setr 1 0 s)).
  set (s2 := setr rs (w32 (R s rs + 1)) (setr 1 1 s1)).
  set (s3 := setr rc (R s rc - 1) (setr 1 (w32 (-1)) s2)).
  set (s4 := setr 1 0 (setm (stn 4 1 (MM s) (R s 3) (ldn 4 1 (MM s) (R s rs))) s3)).
  set (s5 := setr 3 (w32 (R s 3 + 1)) (setr 1 1 s4)).
  assert (NZ : rs <> 0 /\ rc <> 0 /\ rs <> 1 /\ rc <> 1 /\ rs <> rc /\ rs <> 6 /\ rc <> 6 /\ rs <> 3 /\ rc <> 3) by lia.
  assert (F1 : forall x, R s1 x = if x =? 6 then ldn 4 1 (MM s) (R s rs) else if x =? 1 then 0 else R s x).
  { intros x. unfold s1. rewrite !R_setr by lia. reflexivity. }
  assert (F2 : forall x, R s2 x = if x =? rs then w32 (R s rs + 1) else if x =? 1 then 1 else R s1 x).
  { intros x. unfold s2. rewrite !R_setr by lia. reflexivity. }
  assert (F3 : forall x, R s3 x = if x =? rc then R s rc - 1 else if x =? 1 then w32 (-1) else R s2 x).
  { intros x. unfold s3. rewrite !R_setr by lia. reflexivity. }
  assert (F4 : forall x, R s4 x = if x =? 1 then 0 else R s3 x).
  { intros x. unfold s4. rewrite !R_setr by lia. reflexivity. }
  assert (F5 : forall x, R s5 x = if x =? 3 then w32 (R s 3 + 1) else if x =? 1 then 1 else R s4 x).
  { intros x. unfold s5. rewrite !R_setr by lia. reflexivity. }
  assert (M3 : MM s3 = MM s) by (unfold s3, s2, s1; rewrite !MM_setr; reflexivity).
  assert (M5 : MM s5 = stn 4 1 (MM s) (R s 3) (ldn 4 1 (MM s) (R s rs))) by (unfold s5, s4; rewrite !MM_setr; reflexivity).
  assert (G2 : R s2 rc = R s rc) by (rewrite F2, F1; eqs).
  assert (G1 : R s1 rs = R s rs) by (rewrite F1; eqs).
  assert (G3 : R s3 3 = R s 3) by (rewrite F3, F2, F1; eqs).
  assert (G36 : R s3 6 = ldn 4 1 (MM s) (R s rs)) by (rewrite F3, F2, F1; eqs).
  assert (G4 : R s4 3 = R s 3) by (rewrite F4; exact G3).
  assert (G5 : R s5 rc = R s rc - 1) by (rewrite F5, F4, F3; eqs).
  assert (L1 : 0 <= ldn 4 1 (MM s) (R s rs) < 256) by (cbn [ldn]; pose proof (Z.mod_pos_bound (MM s (uw 4 (R s rs))) 256 ltac:(lia)); lia).
  assert (T0 : step (pc, s) = Some (S pc, s)) by (unfold mstep; rewrite H0; reflexivity).
  assert (T1 : step (S pc, s) = Some (S (S pc), s1)).
  { unfold mstep. rewrite H1. cbn [obind exec Z.abs ea]. rewrite Z.mod_1_r, reg_gp by lia. rewrite Z.add_0_r, (w32s (R s rs)) by apply B. reflexivity. }
  assert (T2 : step (S (S pc), s1) = Some (S (S (S pc)), s2)).
  { unfold mstep. rewrite H2. cbn [obind exec clob opval aluv]. rewrite reg_gp by lia. rewrite G1. reflexivity. }
  assert (T3 : step (S (S (S pc)), s2) = Some (S (S (S (S pc))), s3)).
  { unfold mstep. rewrite H3. cbn [obind exec clob opval aluv]. rewrite reg_gp by lia. rewrite G2.
    replace (w32 (R s rc + w32 (-1))) with (R s rc - 1); [reflexivity|]. unfold w32, wrap. rewrite Zplus_mod_idemp_r. pose proof (B rc). rewrite Z.mod_small; lia. }
  assert (T4 : step (S (S (S (S pc))), s3) = Some (S (S (S (S (S pc)))), s4)).
  { unfold mstep. rewrite H4. cbn [obind exec Z.abs ea clobA]. rewrite Z.mod_1_r, !reg_gp by lia. rewrite G3, G36, M3. rewrite Z.add_0_r, (w32s (R s 3)) by apply B. reflexivity. }
  assert (T5 : step (S (S (S (S (S pc)))), s4) = Some (S (S (S (S (S (S pc))))), s5)).
  { unfold mstep. rewrite H5. cbn [obind exec clob opval aluv]. rewrite reg_gp by lia. rewrite G4. reflexivity. }
  assert (T6 : step (S (S (S (S (S (S pc))))), s5) = Some (if R s rc =? 1 then S (S (S (S (S (S (S pc)))))) else pc, s5)).
  { unfold mstep. rewrite H6. cbn [obind]. unfold branch. rewrite reg_gp by lia. rewrite G5. change (reg s5 0) with 0.
    destruct (Z.eqb_spec (R s rc) 1) as [E|E]; [rewrite E; reflexivity|]. replace (R s rc - 1 =? 0) with false by lia. cbn [Bool.eqb]. rewrite HL. reflexivity. }
  exists s5. split.
  { do 7 (eapply mstar_step; [eassumption|]). constructor. }
  split. { intros r. pose proof (B r). pose proof (B rc). pose proof (w32r (R s 3 + 1)). pose proof (w32r (R s rs + 1)). pose proof (w32r (-1)).
    rewrite F5, F4, F3, F2, F1. eqs. }
  split; [exact G5|]. split; [rewrite F5, F4, F3, F2; eqs|]. split; [rewrite F5; eqs|].
  split. { rewrite M5. cbn [stn ldn]. unfold uw. change (8 * 4) with 32. change (wrap 32) with w32. rewrite !w32s by apply B. f_equal. rewrite Z.mul_0_r, Z.add_0_r. apply Zmod_mod. }
  intros r Hc. unfold changed in Hc. rewrite F5, F4, F3, F2, F1. eqs.
Qed.

(** The whole loop. *)
Lemma loop n : forall s, (forall r, 0 <= R s r < 2 ^ 32) -> R s rc = Z.of_nat (S n) ->
  R s rs + Z.of_nat (S n) <= 2 ^ 32 -> R s 3 + Z.of_nat (S n) <= 2 ^ 32 ->
  R s rs = R s 3 \/ R s rs + Z.of_nat (S n) <= R s 3 \/ R s 3 + Z.of_nat (S n) <= R s rs ->
  exists s', star (pc, s) (S (S (S (S (S (S (S pc)))))), s') /\ (forall r, 0 <= R s' r < 2 ^ 32) /\ (forall r, ~ changed r -> R s' r = R s r) /\
    forall x, MM s' x = if (R s 3 <=? x) && (x <? R s 3 + Z.of_nat (S n)) then MM s (R s rs + (x - R s 3)) mod 256 else MM s x.
Proof.
  induction n as [|n IH]; intros s B Ec F1 F2 DJ.
  - destruct (iter 1 s B Ec ltac:(lia)) as (s' & T & B' & _ & _ & _ & EM & K). exists s'. split; [exact T|]. split; [exact B'|]. split; [exact K|].
    intros x. rewrite EM. unfold X86.upd. change (Z.of_nat 1) with 1. destruct (Z.eqb_spec x (R s 3)) as [->|N].
    + rewrite Z.leb_refl. replace (R s 3 <? R s 3 + 1) with true by lia. cbn [andb]. do 2 f_equal. lia.
    + destruct (Z.leb_spec (R s 3) x), (Z.ltb_spec x (R s 3 + 1)); try reflexivity. lia.
  - destruct (iter _ s B Ec ltac:(lia)) as (s1 & T & B1 & E1 & E2 & E3 & EM & K). replace (Z.of_nat (S (S n)) =? 1) with false in T by lia.
    pose proof (B rs) as Bs. pose proof (B 3) as B3. rewrite w32s in E2, E3 by lia.
    destruct (IH s1 B1 ltac:(lia) ltac:(lia) ltac:(lia) ltac:(lia)) as (s' & T' & B' & K' & EM').
    exists s'. split; [|split; [exact B'|split]].
    { clear -T T'. revert T'. generalize (S (S (S (S (S (S (S pc)))))), s'). intros z. induction T as [|x y w A C D]; [auto|]. intros H. eapply mstar_step; [exact A|auto]. }
    { intros r Hc. rewrite K', K by exact Hc. reflexivity. }
    intros x. rewrite EM', EM, E2, E3. unfold X86.upd. destruct (Z.eqb_spec x (R s 3)) as [->|N].
    + replace (R s 3 + 1 <=? R s 3) with false by lia. rewrite Z.leb_refl. replace (R s 3 <? R s 3 + Z.of_nat (S (S n))) with true by lia. cbn [andb]. do 2 f_equal. lia.
    + destruct (Z.leb_spec (R s 3 + 1) x), (Z.leb_spec (R s 3) x); try lia; [|reflexivity]. cbn [andb].
      replace (R s 3 + 1 + Z.of_nat (S n)) with (R s 3 + Z.of_nat (S (S n))) by lia.
      destruct (Z.ltb_spec x (R s 3 + Z.of_nat (S (S n)))); [|reflexivity].
      replace (R s rs + 1 + (x - (R s 3 + 1))) with (R s rs + (x - R s 3)) by lia. replace (R s rs + (x - R s 3) =? R s 3) with false by lia. reflexivity.
Qed.
End Loop.

Lemma mstar_app addr callee prog x y z : mstar addr callee prog x y -> mstar addr callee prog y z -> mstar addr callee prog x z.
Proof. intros H. revert z. induction H as [|x y w A C D]; [auto|]. intros z H. eapply mstar_step; [exact A|auto]. Qed.

(** Structure assignment: the routine copies the structure, whatever its size, and obeys the calling
    convention. *)
Theorem C56_struct_copy (addr : Z -> Z) (callee : Z -> mst -> option mst) (lbl lo top : Z) (prot : Z -> Prop) (bp : Z) (vs : list Z) (m : mem) (v : Z) (m' : mem) (s : mst) :
  mregs bp s -> margs s vs -> agree lo top prot m (MM s) -> copy_means 4 vs m v m' -> 0 < hd 0 vs ->
  exists s', mstar addr callee (struct_copy lbl) (0%nat, s) (length (struct_copy lbl), s') /\ R s' 2 = v /\ mregs bp s' /\ agree lo top prot m' (MM s') /\
    R s' 29 = R s 29 /\ R s' 31 = R s 31 /\ forall a, lo <= a < top \/ prot a -> MM s' a = MM s a.
Proof.
  intros (B & Hfp & Hal) HG HA (n & src & dst & -> & Bn & Bs & Bd & OB & DJ & -> & HM) Hn. cbn [hd] in Hn. change (2 ^ (8 * 4)) with (2 ^ 32) in *.
  pose proof (HG 0%nat _ eq_refl) as G0. pose proof (HG 1%nat _ eq_refl) as G1. pose proof (HG 2%nat _ eq_refl) as G2.
  cbn [Nat.ltb Nat.leb] in G0, G1, G2. change (4 + Z.of_nat 0) with 4 in G0. change (4 + Z.of_nat 1) with 5 in G1. change (4 + Z.of_nat 2) with 6 in G2.
  assert (OM : forall i, 0 <= i < n -> (0 <= src + i < 2 ^ 32 /\ 0 <= dst + i < 2 ^ 32) /\ ~ (lo <= dst + i < top) /\ ~ prot (dst + i)).
  { intros i Hi. destruct (OB i Hi) as [O1 O2]. destruct (m (src + i)) as [b1|] eqn:E1; [|congruence]. destruct (m (dst + i)) as [b2|] eqn:E2; [|congruence].
    apply HA in E1, E2. tauto. }
  set (s1 := setr 2 dst s). set (s2 := setr 3 dst s1).
  assert (T0 : mstep addr callee (struct_copy lbl) (0%nat, s) = Some (1%nat, s1)).
  { unfold mstep, struct_copy. cbn [nth_error obind exec]. rewrite reg_gp, G2 by lia. reflexivity. }
  assert (T1 : mstep addr callee (struct_copy lbl) (1%nat, s1) = Some (2%nat, s2)).
  { unfold mstep, struct_copy. cbn [nth_error obind exec]. rewrite reg_gp by lia. unfold s1. rewrite R_setr by lia. cbn [Z.eqb Pos.eqb]. rewrite G2. reflexivity. }
  assert (F2 : forall x, R s2 x = if x =? 3 then dst else if x =? 2 then dst else R s x) by (intros x; unfold s2, s1; rewrite !R_setr by lia; reflexivity).
  assert (M2 : MM s2 = MM s) by reflexivity.
  assert (X5 : R s2 5 = src) by (rewrite F2; exact G1). assert (X4 : R s2 4 = n) by (rewrite F2; exact G0). assert (X3 : R s2 3 = dst) by (rewrite F2; reflexivity).
  assert (EN : Z.of_nat (S (Z.to_nat (n - 1))) = n) by lia.
  destruct (loop addr callee (struct_copy lbl) lbl 2 5 4 ltac:(left; auto) eq_refl eq_refl eq_refl eq_refl eq_refl eq_refl eq_refl
    ltac:(cbn [struct_copy find_label]; rewrite Z.eqb_refl; reflexivity) (Z.to_nat (n - 1)) s2) as (s' & T & B' & K & EM).
  { intros r. rewrite F2. pose proof (B r). eqs. }
  { lia. } { pose proof (OM (n - 1) ltac:(lia)). lia. } { pose proof (OM (n - 1) ltac:(lia)). lia. } { lia. }
  rewrite X3, X5, EN, M2 in EM.
  assert (K1 : forall r, ~ changed r -> r <> 2 -> R s' r = R s r) by (intros r C1 C2; rewrite K, F2 by exact C1; unfold changed in C1; eqs).
  exists s'. split; [eapply mstar_step; [exact T0|]; eapply mstar_step; [exact T1|]; exact T|].
  split; [rewrite K by (unfold changed; lia); rewrite F2; reflexivity|].
  split; [split; [exact B'|rewrite !K1 by (unfold changed; lia); auto]|].
  split.
  { intros a b E. rewrite HM in E. destruct ((dst <=? a) && (a <? dst + n)) eqn:IN.
    + assert (IN' : dst <= a < dst + n) by lia. destruct (OM (a - dst) ltac:(lia)) as ((_ & Q0) & Q1 & Q2). replace (dst + (a - dst)) with a in Q0, Q1, Q2 by lia.
      split; [exact Q0|]. split; [|tauto]. rewrite EM, IN. rewrite Zmod_mod. apply (HA _ _ E).
    + destruct (HA _ _ E) as (Y1 & Y2 & Y3 & Y4). split; [exact Y1|]. split; [|tauto]. rewrite EM, IN. exact Y2. }
  split; [apply K1; unfold changed; lia|]. split; [apply K1; unfold changed; lia|].
  intros a Ha. rewrite EM. destruct (Z.leb_spec dst a), (Z.ltb_spec a (dst + n)); cbn [andb]; try reflexivity.
  destruct (OM (a - dst) ltac:(lia)) as (_ & Q1 & Q2). replace (dst + (a - dst)) with a in Q1, Q2 by lia. tauto.
Qed.

(** So structure assignments may be compiled as calls of the routine. *)
Corollary C56_struct_copy_convention (addr : Z -> Z) (lbl lo : Z) (callee callee2 : Z -> mst -> option mst) (ext ext2 : Z -> list Z -> mem -> option (Z * mem)) (room : Z) (f : Z) :
  0 <= room -> calls_ok lo ext callee room ->
  (forall vs m v m', ext2 f vs m = Some (v, m') -> copy_means 4 vs m v m' /\ 0 < hd 0 vs) ->
  (forall s s', mstar addr callee (struct_copy lbl) (0%nat, s) (length (struct_copy lbl), s') -> callee2 f s = Some s') ->
  (forall f' vs m, f' <> f -> ext2 f' vs m = ext f' vs m) -> (forall f' s, f' <> f -> callee2 f' s = callee f' s) ->
  calls_ok lo ext2 callee2 room.
Proof.
  intros Hroom HC HE HL HE' HL' bp top prot Ht Hp g vs m v m' s E HR HA HG Hs Hst. destruct (Z.eq_dec g f) as [->|Ng].
  2:{ rewrite HE' in E by exact Ng. rewrite HL' by exact Ng. apply (HC bp top prot Ht Hp g vs m v m' s E HR HA HG); [lia|exact Hst]. }
  destruct (HE _ _ _ _ E) as [CM Hn]. destruct (C56_struct_copy addr callee lbl lo top prot bp vs m v m' s HR HG HA CM Hn) as (s' & X1 & X2 & X3 & X4 & X5 & _ & X6).
  exists s'. split; [eapply HL; exact X1|]. split; [exact X2|]. split; [exact X3|]. split; [exact X4|]. split; [exact X5|].
  intros a [Ha|Ha]; [|apply X6; now right]. destruct (Z_lt_dec a lo) as [L|L]; [|apply X6; left; lia].
  unfold argbytes in Ha. lia.
Qed.

(** Structure arguments: after the call of the routine and what the caller does then, the structure is on
    top of the stack, padded to whole words. *)
Theorem C56_struct_push (addr : Z -> Z) (callee : Z -> mst -> option mst) (lbl lo top : Z) (prot : Z -> Prop) (bp src n : Z) (m : mem) (s : mst) :
  0 <= lo -> top < 2 ^ 32 -> (forall a, prot a -> ~ (lo <= a < top)) ->
  mregs bp s -> margs s [src; n] -> agree lo top prot m (MM s) ->
  0 < n -> (forall i, 0 <= i < n -> m (src + i) <> None) -> lo + padded 4 n <= R s 29 -> R s 29 + 16 <= top ->
  exists s1 s2, mstar addr callee (struct_push lbl) (0%nat, s) (length (struct_push lbl), s1) /\ R s1 31 = R s 31 /\
    mstar addr callee after_push (0%nat, s1) (length after_push, s2) /\
    R s2 29 = R s 29 + 16 - padded 4 n /\ (forall i, 0 <= i < n -> m (src + i) = Some (MM s2 (R s2 29 + i) mod 256)) /\
    mregs bp s2 /\ agree lo top prot m (MM s2) /\ forall a, R s 29 + 16 <= a < top \/ prot a -> MM s2 a = MM s a.
Proof.
  intros Hlo Htop Hp (B & Hfp & Hal) HG HA Hn OB Hs Ht.
  pose proof (HG 0%nat _ eq_refl) as G0. pose proof (HG 1%nat _ eq_refl) as G1. cbn [Nat.ltb Nat.leb] in G0, G1.
  change (4 + Z.of_nat 0) with 4 in G0. change (4 + Z.of_nat 1) with 5 in G1.
  assert (PD : n <= padded 4 n < n + 4 /\ padded 4 n mod 4 = 0 /\ 4 <= padded 4 n).
  { unfold padded. pose proof (Z.div_mod (n + 4 - 1) 4 ltac:(lia)). pose proof (Z.mod_pos_bound (n + 4 - 1) 4 ltac:(lia)).
    assert (1 <= (n + 4 - 1) / 4) by (apply Z.div_le_lower_bound; lia). rewrite Z.mod_mul by lia. lia. }
  assert (RD : Z.land (n + 3) (w32 (-4)) = padded 4 n).
  { change (w32 (-4)) with (uw 4 (- 2 ^ 2)). pose proof (B 29). rewrite (HelpProps.land_pow 4 (or_intror eq_refl)) by (change (2 ^ (8 * 4)) with (2 ^ 32); lia).
    unfold padded. do 2 f_equal. lia. }
  remember (padded 4 n) as p eqn:Ep. destruct PD as (PD1 & PD2 & PD3).
  assert (OM : forall i, 0 <= i < n -> 0 <= src + i < 2 ^ 32 /\ ~ (lo <= src + i < top)).
  { intros i Hi. pose proof (OB i Hi) as O1. destruct (m (src + i)) as [b1|] eqn:E1; [|congruence]. apply HA in E1. tauto. }
  remember (R s 29) as S0 eqn:ES. pose proof (B 29) as B29. rewrite <- ES in B29. remember (S0 + 16 - p) as d eqn:Ed.
  assert (Hsrc : 0 <= src) by (pose proof (B 4); lia).
  assert (FIT : src + n <= 2 ^ 32) by (pose proof (OM (n - 1) ltac:(lia)); lia).
  assert (DJ : src + n <= d \/ d + n <= src).
  { destruct (Z_le_dec (src + n) lo) as [|Q]; [left; lia|]. right. destruct (Z_lt_dec src lo) as [L|L].
    - exfalso. apply (proj2 (OM (lo - src) ltac:(lia))). lia.
    - pose proof (OM 0 ltac:(lia)). lia. }
  assert (AL : d mod 4 = 0).
  { replace d with (S0 + (16 - p)) by lia. rewrite Zplus_mod, Hal, Zminus_mod, PD2. reflexivity. }
  set (s1 := setr 6 n s). set (s2 := setr 6 (n + 3) (setr 1 3 s1)). set (s3 := setr 3 (w32 (-4)) s2). set (s4 := setr 6 p s3). set (s5 := setr 29 (S0 - p) s4).
  set (s6 := setr 3 d (setr 1 16 s5)). set (s7 := setr 2 d s6).
  set (P0 := struct_push lbl).
  assert (T0 : mstep addr callee P0 (0%nat, s) = Some (1%nat, s1)).
  { unfold mstep, P0, struct_push. cbn [nth_error obind exec]. rewrite reg_gp, G1 by lia. reflexivity. }
  assert (T1 : mstep addr callee P0 (1%nat, s1) = Some (2%nat, s2)).
  { unfold mstep, P0, struct_push. cbn [nth_error obind exec clob opval aluv]. rewrite reg_gp by lia. change (w32 3) with 3. unfold s1 at 1. rewrite R_setr by lia. cbn [Z.eqb Pos.eqb].
    rewrite w32s by lia. reflexivity. }
  assert (T2 : mstep addr callee P0 (2%nat, s2) = Some (3%nat, s3)) by reflexivity.
  assert (T3 : mstep addr callee P0 (3%nat, s3) = Some (4%nat, s4)).
  { unfold mstep, P0, struct_push. cbn [nth_error obind exec clob opval aluv]. rewrite !reg_gp by lia. unfold s3 at 1 2, s2 at 1 2. rewrite !R_setr by lia. cbn [Z.eqb Pos.eqb]. rewrite RD. reflexivity. }
  assert (T4 : mstep addr callee P0 (4%nat, s4) = Some (5%nat, s5)).
  { unfold mstep, P0, struct_push. cbn [nth_error obind exec clob opval aluv]. rewrite !reg_gp by lia. unfold s4 at 1 2, s3 at 1, s2 at 1, s1 at 1. rewrite !R_setr by lia. cbn [Z.eqb Pos.eqb].
    rewrite <- ES, w32s by lia. reflexivity. }
  assert (T5 : mstep addr callee P0 (5%nat, s5) = Some (6%nat, s6)).
  { unfold mstep, P0, struct_push. cbn [nth_error obind exec clob opval aluv]. rewrite !reg_gp by lia. change (w32 16) with 16. unfold s5 at 1. rewrite !R_setr by lia. cbn [Z.eqb Pos.eqb].
    rewrite w32s by lia. replace (S0 - p + 16) with d by lia. reflexivity. }
  assert (T6 : mstep addr callee P0 (6%nat, s6) = Some (7%nat, s7)).
  { unfold mstep, P0, struct_push. cbn [nth_error obind exec]. rewrite !reg_gp by lia. unfold s6 at 1. rewrite !R_setr by lia. reflexivity. }
  assert (F7 : forall x, R s7 x = if x =? 2 then d else if x =? 3 then d else if x =? 1 then 16 else if x =? 29 then S0 - p else if x =? 6 then p else R s x).
  { intros x. unfold s7, s6, s5, s4, s3, s2, s1. rewrite !R_setr by lia. eqs; reflexivity. }
  assert (M7 : MM s7 = MM s) by reflexivity. clearbody s7.
  assert (X4 : R s7 4 = src) by (rewrite F7; exact G0). assert (X5 : R s7 5 = n) by (rewrite F7; exact G1). assert (X3 : R s7 3 = d) by (rewrite F7; reflexivity).
  assert (EN : Z.of_nat (S (Z.to_nat (n - 1))) = n) by lia.
  destruct (loop addr callee P0 lbl 7 4 5 ltac:(right; auto) eq_refl eq_refl eq_refl eq_refl eq_refl eq_refl eq_refl
    ltac:(unfold P0; cbn [struct_push find_label]; rewrite Z.eqb_refl; reflexivity) (Z.to_nat (n - 1)) s7) as (s8 & T & B8 & K & EM).
  { intros r. rewrite F7. pose proof (B r). eqs. }
  { lia. } { lia. } { lia. } { lia. }
  rewrite X3, X4, EN, M7 in EM.
  assert (K2 : R s8 2 = d) by (rewrite K by (unfold changed; lia); rewrite F7; reflexivity).
  assert (K29 : R s8 29 = S0 - p) by (rewrite K by (unfold changed; lia); rewrite F7; reflexivity).
  remember (ldn 4 4 (MM s8) d) as w eqn:Ew.
  assert (Bw : 0 <= w < 2 ^ 32) by (subst w; apply (FnProps.lds_range 4 (or_intror eq_refl) addr)).
  set (s9 := setr 2 w (setr 1 0 s8)). set (s10 := setr 29 (S0 - p + 4) (setr 1 4 s9)).
  assert (T8 : mstep addr callee P0 (14%nat, s8) = Some (15%nat, s9)).
  { unfold mstep, P0, struct_push. cbn [nth_error obind exec Z.abs ea]. rewrite reg_gp, K2, Z.add_0_r by lia. rewrite w32s by lia. rewrite AL. change (Z.to_nat 4) with 4%nat. rewrite <- Ew. reflexivity. }
  assert (T9 : mstep addr callee P0 (15%nat, s9) = Some (16%nat, s10)).
  { unfold mstep, P0, struct_push. cbn [nth_error obind exec clob opval aluv]. rewrite !reg_gp by lia. change (w32 4) with 4. unfold s9 at 1. rewrite !R_setr by lia. cbn [Z.eqb Pos.eqb].
    rewrite K29, w32s by lia. reflexivity. }
  set (s11 := setr 29 (d + 4) (setr 1 (w32 (-16)) s10)). set (s12 := setr 29 d (setr 1 4 s11)). set (s13 := setr 1 0 (setm (stn 4 4 (MM s8) d w) s12)).
  assert (U0 : mstep addr callee after_push (0%nat, s10) = Some (1%nat, s11)).
  { unfold mstep, after_push. cbn [gen_grow gen3c Z.eqb Z.opp andb app nth_error obind exec clob opval aluv]. unfold rSP. rewrite !reg_gp by lia. unfold s10 at 1. rewrite !R_setr by lia. cbn [Z.eqb Pos.eqb].
    replace (w32 (S0 - p + 4 - w32 (-16))) with (d + 4); [reflexivity|]. unfold w32, wrap. rewrite Zminus_mod_idemp_r. rewrite Z.mod_small; lia. }
  assert (U1 : mstep addr callee after_push (1%nat, s11) = Some (2%nat, s12)).
  { unfold mstep, after_push. cbn [gen_grow gen3c Z.eqb Z.opp andb app nth_error obind exec clob opval aluv]. unfold rSP. rewrite !reg_gp by lia. change (w32 4) with 4. unfold s11 at 1. rewrite !R_setr by lia. cbn [Z.eqb Pos.eqb].
    replace (d + 4 - 4) with d by lia. rewrite w32s by lia. reflexivity. }
  assert (U2 : mstep addr callee after_push (2%nat, s12) = Some (3%nat, s13)).
  { unfold mstep, after_push. cbn [gen_grow gen3c Z.eqb Z.opp andb app nth_error obind exec Z.abs ea clobA]. unfold rSP. rewrite !reg_gp by lia.
    assert (A1 : R s12 29 = d) by (unfold s12; rewrite R_setr by lia; reflexivity).
    assert (A2 : R s12 2 = w) by (unfold s12, s11, s10, s9; rewrite !R_setr by lia; reflexivity).
    assert (A3 : MM s12 = MM s8) by reflexivity. rewrite A1, A2, A3, Z.add_0_r, (w32s d) by lia. rewrite AL. change (Z.to_nat 4) with 4%nat. reflexivity. }
  assert (F13 : forall x, R s13 x = if x =? 1 then 0 else if x =? 29 then d else if x =? 2 then w else R s8 x).
  { intros x. unfold s13, s12, s11, s10, s9. rewrite !R_setr by lia. cbn [setm R]. rewrite !R_setr by lia. eqs; reflexivity. }
  assert (M13 : MM s13 = stn 4 4 (MM s8) d w) by reflexivity.
  assert (R31 : R s10 31 = R s 31).
  { unfold s10, s9. rewrite !R_setr by lia. cbn [Z.eqb Pos.eqb]. rewrite K by (unfold changed; lia). rewrite F7. reflexivity. }
  clearbody s13. exists s10, s13.
  split. { eapply mstar_step; [exact T0|]. eapply mstar_step; [exact T1|]. eapply mstar_step; [exact T2|]. eapply mstar_step; [exact T3|]. eapply mstar_step; [exact T4|].
    eapply mstar_step; [exact T5|]. eapply mstar_step; [exact T6|]. eapply mstar_app; [exact T|]. eapply mstar_step; [exact T8|]. eapply mstar_step; [exact T9|]. constructor. }
  split; [exact R31|].
  split. { eapply mstar_step; [exact U0|]. eapply mstar_step; [exact U1|]. eapply mstar_step; [exact U2|]. constructor. }
  assert (X29 : R s13 29 = d) by (rewrite F13; reflexivity).
  assert (GW : forall x, MM s13 x mod 256 = MM s8 x mod 256).
  { intros x. rewrite M13. destruct (Z_lt_dec x d) as [L|L]; [change 4%nat with (Z.to_nat 4); rewrite (FnProps.sts_other 4 (or_intror eq_refl) addr) by (change (2 ^ (8 * 4)) with (2 ^ 32); lia); reflexivity|].
    destruct (Z_lt_dec x (d + 4)) as [L2|L2]; [|change 4%nat with (Z.to_nat 4); rewrite (FnProps.sts_other 4 (or_intror eq_refl) addr) by (change (2 ^ (8 * 4)) with (2 ^ 32); lia); reflexivity].
    rewrite <- (Zplus_minus d x). change (stn 4 4) with (stn 4 (Z.to_nat 4)). rewrite <- (FnProps.ldn_byte 4 (or_intror eq_refl) (Z.to_nat 4)) by (change (2 ^ (8 * 4)) with (2 ^ 32); lia).
    rewrite (FnProps.lds_sts 4 (or_intror eq_refl) addr) by (change (2 ^ (8 * 4)) with (2 ^ 32); lia). rewrite Ew.
    change 4%nat with (Z.to_nat 4). apply (FnProps.ldn_byte 4 (or_intror eq_refl) (Z.to_nat 4)); change (2 ^ (8 * 4)) with (2 ^ 32); lia. }
  assert (GO : forall x, ~ (d <= x < S0 + 16) -> MM s13 x = MM s x).
  { intros x Hx. rewrite M13. change 4%nat with (Z.to_nat 4). rewrite (FnProps.sts_other 4 (or_intror eq_refl) addr) by (change (2 ^ (8 * 4)) with (2 ^ 32); lia).
    rewrite EM. destruct (Z.leb_spec d x), (Z.ltb_spec x (d + n)); try lia; reflexivity. }
  split; [exact X29|]. rewrite X29. split; [|split; [|split]].
  - intros i Hi. rewrite GW, EM. replace (d <=? d + i) with true by lia. replace (d + i <? d + n) with true by lia. cbn [andb]. rewrite Zmod_mod.
    replace (src + (d + i - d)) with (src + i) by lia. pose proof (OB i Hi) as O1. destruct (m (src + i)) as [b|] eqn:E; [|congruence]. destruct (HA _ _ E) as (_ & -> & _). reflexivity.
  - split; [|split].
    + intros r. rewrite F13. pose proof (B8 r). eqs.
    + rewrite F13. cbn [Z.eqb Pos.eqb]. rewrite K by (unfold changed; lia). rewrite F7. exact Hfp.
    + rewrite X29. exact AL.
  - intros a b E. destruct (HA _ _ E) as (Q1 & Q2 & Q3 & Q4). split; [exact Q1|]. split; [|auto]. rewrite GO by lia. exact Q2.
  - intros a Ha. apply GO. destruct Ha as [Ha|Ha]; [lia|]. apply Hp in Ha. lia.
Qed.

(** ** Examples *)

(** A five-byte structure at 100 is assigned to the one at 200, and passed by value. *)
Definition hm_st (a0 a1 a2 : Z) : mst :=
  mkm (fun r => if r =? 4 then a0 else if r =? 5 then a1 else if r =? 6 then a2 else if r =? 29 then 1800 else if r =? 30 then 2000 else if r =? 31 then 777 else 9)
      (fun a => match HelpProps.hx_m a with Some b => b | None => 0 end) 0 0.
Lemma hm_regs a0 a1 a2 : 0 <= a0 < 300 -> 0 <= a1 < 300 -> 0 <= a2 < 300 -> mregs 2000 (hm_st a0 a1 a2).
Proof. intros H0 H1 H2. split; [|split; reflexivity]. intros r. unfold hm_st. cbn [R]. eqs. Qed.
Lemma hm_agree a0 a1 a2 : agree 500 1900 HelpProps.hx_prot HelpProps.hx_m (MM (hm_st a0 a1 a2)).
Proof.
  intros a b E. destruct (HelpProps.hx_agree [] a b E) as (Q1 & _ & Q3). split; [exact Q1|]. split; [|exact Q3].
  unfold hm_st. cbn [MM]. rewrite E. unfold HelpProps.hx_m in E.
  destruct (Z.leb_spec 100 a), (Z.ltb_spec a 105), (Z.leb_spec 200 a), (Z.ltb_spec a 205); cbn [andb] in E; try discriminate; try lia;
    injection E as <-; apply Z.mod_small; lia.
Qed.
Example hm_copy : copy_means 4 [5; 100; 200] HelpProps.hx_m 200 HelpProps.hx_m' /\ margs (hm_st 5 100 200) [5; 100; 200] /\ mregs 2000 (hm_st 5 100 200) /\
  exists s', mstar (fun _ => 0) (fun _ _ => None) (struct_copy 1) (0%nat, hm_st 5 100 200) (length (struct_copy 1), s') /\ R s' 2 = 200 /\ agree 500 1900 HelpProps.hx_prot HelpProps.hx_m' (MM s').
Proof.
  assert (C : copy_means 4 [5; 100; 200] HelpProps.hx_m 200 HelpProps.hx_m') by exact (proj1 HelpProps.hx_copy).
  assert (A : margs (hm_st 5 100 200) [5; 100; 200]).
  { intros [|[|[|i]]] v H; cbn in H; try (injection H as <-; reflexivity). destruct i; discriminate. }
  pose proof (hm_regs 5 100 200 ltac:(lia) ltac:(lia) ltac:(lia)) as G.
  split; [exact C|]. split; [exact A|]. split; [exact G|].
  destruct (C56_struct_copy (fun _ => 0) (fun _ _ => None) 1 500 1900 HelpProps.hx_prot 2000 _ _ _ _ _ G A (hm_agree 5 100 200) C ltac:(cbn [hd]; lia)) as (s' & T & E1 & _ & E2 & _).
  eauto.
Qed.
Example hm_push : margs (hm_st 100 5 0) [100; 5] /\ mregs 2000 (hm_st 100 5 0) /\ (forall i, 0 <= i < 5 -> HelpProps.hx_m (100 + i) <> None) /\
  500 + padded 4 5 <= R (hm_st 100 5 0) 29 /\ R (hm_st 100 5 0) 29 + 16 <= 1900.
Proof.
  split. { intros [|[|i]] v H; cbn in H; try (injection H as <-; reflexivity). destruct i; discriminate. }
  split; [apply hm_regs; lia|]. split; [exact (proj1 (proj2 (proj2 HelpProps.hx_push)))|]. split; vm_compute; discriminate.
Qed.

Print Assumptions C56_struct_copy.
Print Assumptions C56_struct_copy_convention.
Print Assumptions C56_struct_push.
