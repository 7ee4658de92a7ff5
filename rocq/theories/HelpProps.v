(** C55: the helper routines that the compiler adds to x86 programs: structure copy, structure
    arguments, stack probe. *)
From Verif Require Import Base BaseLemmas X86 ExprSpec ExprLemmas CgModel CgTree CgFuse MachSpec CgMach CgEmit CgSim CgCorrect CgProps StmtSpec StmtPre StmtModel StmtLab StmtLay StmtComp StmtCases StmtCheck StmtProps FnSpec FnModel FnProps HelpSpec HelpModel.
Ltac Zify.zify_post_hook ::= idtac.

Section Help.
Variable W : Z.
Hypothesis HW : W = 2 \/ W = 4.
Variable addr : Z -> Z.
Notation P := (2 ^ (8 * W)).
Notation nW := (Z.to_nat W).
Local Notation lds := (ldn W nW).
Local Notation sts := (stn W nW).
Let Wp := W_pos W HW.
Let Pp := P_pos W HW.

Lemma hexecs_F l : forall k h, hexecs W addr (map HF l ++ k) h =
  match fexecs W addr l (hs h) with
  | None => None
  | Some (Some a, s) => Some (Some a, with_st s h)
  | Some (None, s) => hexecs W addr k (with_st s h)
  end.
Proof.
  induction l as [|i l IH]; intros k h; [destruct h; reflexivity|]. cbn [map app hexecs].
  destruct i as [i| | |]; cbn [fexecs obind].
  - destruct (exec W addr i (hs h)) as [s|]; [cbn [obind]; rewrite IH; reflexivity|reflexivity].
  - rewrite IH. reflexivity.
  - rewrite IH. reflexivity.
  - reflexivity.
Qed.

Lemma movs_up n : forall f si di, 0 <= si -> si + Z.of_nat n <= P -> 0 <= di -> di + Z.of_nat n <= P ->
  si = di \/ si + Z.of_nat n <= di \/ di + Z.of_nat n <= si ->
  forall x, fst (fst (movs W n 1 f si di)) x = if (di <=? x) && (x <? di + Z.of_nat n) then f (si + (x - di)) mod 256 else f x.
Proof.
  induction n as [|n IH]; intros f si di H1 H2 H3 H4 H5 x; cbn [movs fst].
  - destruct (Z.leb_spec di x), (Z.ltb_spec x (di + Z.of_nat 0)); try reflexivity. lia.
  - destruct n as [|n].
    + cbn [movs fst]. unfold upd. destruct (Z.eqb_spec x di) as [->|N].
      * rewrite Z.leb_refl. replace (di <? di + Z.of_nat 1) with true by lia. cbn [andb]. f_equal. f_equal. lia.
      * destruct (Z.leb_spec di x), (Z.ltb_spec x (di + Z.of_nat 1)); try reflexivity. lia.
    + rewrite (uws W) by lia. rewrite (uws W) by lia. rewrite IH by lia. unfold upd.
      destruct (Z.eqb_spec x di) as [->|N].
      * replace (di + 1 <=? di) with false by lia. rewrite Z.leb_refl. replace (di <? di + Z.of_nat (S (S n))) with true by lia. cbn [andb].
        f_equal. f_equal. lia.
      * destruct (Z.leb_spec (di + 1) x), (Z.leb_spec di x); try lia; [|reflexivity]. cbn [andb].
        replace (di + 1 + Z.of_nat (S n)) with (di + Z.of_nat (S (S n))) by lia.
        destruct (Z.ltb_spec x (di + Z.of_nat (S (S n)))); [|reflexivity].
        replace (si + 1 + (x - (di + 1))) with (si + (x - di)) by lia. replace (si + (x - di) =? di) with false by lia. reflexivity.
Qed.
Lemma movs_dn n : forall f si di, si < P -> 0 <= si + 1 - Z.of_nat n -> di < P -> 0 <= di + 1 - Z.of_nat n ->
  si + Z.of_nat n <= di \/ di + Z.of_nat n <= si ->
  forall x, fst (fst (movs W n (-1) f si di)) x = if (di - Z.of_nat n <? x) && (x <=? di) then f (si + (x - di)) mod 256 else f x.
Proof.
  induction n as [|n IH]; intros f si di H1 H2 H3 H4 H5 x; cbn [movs fst].
  - destruct (Z.ltb_spec (di - Z.of_nat 0) x), (Z.leb_spec x di); try reflexivity. lia.
  - destruct n as [|n].
    + cbn [movs fst]. unfold upd. destruct (Z.eqb_spec x di) as [->|N].
      * rewrite Z.leb_refl. replace (di - Z.of_nat 1 <? di) with true by lia. cbn [andb]. f_equal. f_equal. lia.
      * destruct (Z.ltb_spec (di - Z.of_nat 1) x), (Z.leb_spec x di); try reflexivity. lia.
    + rewrite (uws W) by lia. rewrite (uws W) by lia. rewrite IH by lia. unfold upd.
      destruct (Z.eqb_spec x di) as [->|N].
      * replace (di <=? di + -1) with false by lia. rewrite Z.leb_refl. replace (di - Z.of_nat (S (S n)) <? di) with true by lia.
        rewrite andb_false_r. cbn [andb]. f_equal. f_equal. lia.
      * replace (di + -1 - Z.of_nat (S n)) with (di - Z.of_nat (S (S n))) by lia.
        destruct (Z.ltb_spec (di - Z.of_nat (S (S n))) x); [|reflexivity]. cbn [andb].
        destruct (Z.leb_spec x (di + -1)), (Z.leb_spec x di); try lia; try reflexivity.
        replace (si + -1 + (x - (di + -1))) with (si + (x - di)) by lia. replace (si + (x - di) =? di) with false by lia. reflexivity.
Qed.
Lemma movs_range n : forall d f si di, 0 <= si < P -> 0 <= di < P ->
  let r := movs W n d f si di in 0 <= snd (fst r) < P /\ 0 <= snd r < P.
Proof.
  induction n as [|n IH]; intros d f si di H1 H2; cbn [movs fst snd]; [auto|].
  apply IH; unfold uw, wrap; apply Z.mod_pos_bound; lia.
Qed.

Lemma land_pow k : 0 <= k <= 8 * W -> forall x, 0 <= x < P -> Z.land x (uw W (- 2 ^ k)) = x / 2 ^ k * 2 ^ k.
Proof.
  intros K x R.
  assert (E : uw W (- 2 ^ k) = Z.land (Z.lnot (Z.ones k)) (Z.ones (8 * W))).
  { unfold uw, wrap. rewrite <- Z.land_ones by lia. f_equal. rewrite Z.ones_equiv. unfold Z.lnot. lia. }
  rewrite E. rewrite (Z.land_comm (Z.lnot _)), Z.land_assoc.
  replace (Z.land x (Z.ones (8 * W))) with x.
  2: { rewrite Z.land_ones by lia. symmetry. apply Z.mod_small. lia. }
  rewrite <- Z.ldiff_land, Z.ldiff_ones_r by lia. rewrite Z.shiftr_div_pow2, Z.shiftl_mul_pow2 by lia. reflexivity.
Qed.
End Help.

(** Structure assignment: the routine copies the structure, whatever its size, and obeys the calling
    convention. *)
Theorem C55_struct_copy (W : Z) (addr : Z -> Z) (lo top : Z) (prot : Z -> Prop) (bp ra : Z) (vs : list Z) (m : mem) (v : Z) (m' : mem) (h : hst) :
  W = 2 \/ W = 4 -> 0 <= lo -> top < 2 ^ (8 * W) -> (forall a, prot a -> ~ (lo <= a < top)) ->
  regs W bp (hs h) -> 0 <= bp < 2 ^ (8 * W) -> 0 <= ra < 2 ^ (8 * W) -> args_at W (M (hs h)) (esp (hs h)) vs -> agree W lo top prot m (M (hs h)) ->
  lo + 2 * W <= esp (hs h) -> esp (hs h) + W * zlen vs <= top -> copy_means W vs m v m' ->
  exists h', hruns W addr (struct_copy W) ra h h' /\ ea (hs h') = v /\ regs W bp (hs h') /\ agree W lo top prot m' (M (hs h')) /\
    esp (hs h') = esp (hs h) /\ hdf h' = false /\ forall a, esp (hs h) + W * zlen vs <= a < top \/ prot a -> M (hs h') a = M (hs h) a.
Proof.
  intros HW Hlo Htop Hp HR Hb0 Hra HG HA Hs Ht (n & src & dst & -> & Bn & Bs & Bd & OB & DJ & -> & HM).
  pose proof (W_pos W HW) as Wp. pose proof (P_pos W HW) as Pp. change (zlen [n; src; dst]) with 3 in *. set (s := hs h) in *.
  destruct (prolog_ok W HW addr 0 bp ra s HR Hb0 Hra ltac:(lia) ltac:(lia)) as (s1 & X1 & R1 & S1 & L0 & L1 & M1).
  remember (esp s - 2 * W) as fp eqn:Efp.
  assert (G : forall i w, nth_error [n; src; dst] i = Some w -> ldn W (Z.to_nat W) (M s1) (uw W (fp + W * (2 + Z.of_nat i))) = w).
  { intros i w E. rewrite <- (HG i w E). assert (i < 3)%nat by (change 3%nat with (length [n; src; dst]); apply nth_error_Some; congruence).
    rewrite (uws W) by nia. replace (fp + W * (2 + Z.of_nat i)) with (esp s + W * Z.of_nat i) by lia.
    apply (lds_ext W HW addr); try nia. intros x Hx. apply M1. nia. }
  pose proof (G 0%nat n eq_refl) as Gn. pose proof (G 1%nat src eq_refl) as Gs. pose proof (G 2%nat dst eq_refl) as Gd. clear G.
  cbn [Z.of_nat Z.add Pos.add Pos.of_succ_nat Pos.succ] in Gn, Gs, Gd.
  destruct R1 as (Ra & Rb & Rc & Rd & Rs & Rp).
  assert (OM : forall i, 0 <= i < n -> (0 <= src + i < 2 ^ (8 * W) /\ 0 <= dst + i < 2 ^ (8 * W)) /\ ~ (lo <= src + i < top) /\ ~ (lo <= dst + i < top) /\ ~ prot (dst + i)).
  { intros i Hi. destruct (OB i Hi) as [O1 O2]. destruct (m (src + i)) as [b1|] eqn:E1; [|congruence]. destruct (m (dst + i)) as [b2|] eqn:E2; [|congruence].
    apply HA in E1, E2. tauto. }
  assert (FIT : src + n <= 2 ^ (8 * W) /\ dst + n <= 2 ^ (8 * W)).
  { destruct (Z.eq_dec n 0) as [->|N]; [lia|]. pose proof (OM (n - 1) ltac:(lia)). lia. }
  pose proof (movs_up W HW (Z.to_nat n) (M s1) src dst) as MV. pose proof (movs_range W HW (Z.to_nat n) 1 (M s1) src dst Bs Bd) as MR.
  rewrite Z2Nat.id in MV by lia. specialize (MV ltac:(lia) ltac:(lia) ltac:(lia) ltac:(lia) DJ).
  destruct (movs W (Z.to_nat n) 1 (M s1) src dst) as [[f si] di] eqn:EM. cbn [fst snd] in MV, MR. cbv zeta in MR.
  assert (KEEP : forall x, lo <= x < top \/ prot x -> f x = M s1 x).
  { intros x Hx. rewrite MV. destruct (Z.leb_spec dst x), (Z.ltb_spec x (dst + n)); cbn [andb]; try reflexivity.
    destruct (OM (x - dst) ltac:(lia)) as (_ & _ & Q1 & Q2). replace (dst + (x - dst)) with x in Q1, Q2 by lia. tauto. }
  assert (K0 : ldn W (Z.to_nat W) f fp = bp).
  { rewrite <- L0. apply (lds_ext W HW addr); try lia. intros x Hx. apply KEEP. lia. }
  assert (K1 : ldn W (Z.to_nat W) f (fp + W) = ra).
  { rewrite <- L1. apply (lds_ext W HW addr); try lia. intros x Hx. apply KEEP. lia. }
  assert (K4 : ldn W (Z.to_nat W) f (uw W (fp + W * 4)) = dst).
  { rewrite <- Gd. rewrite (uws W) by lia. apply (lds_ext W HW addr); try lia. intros x Hx. apply KEEP. lia. }
  set (s2 := mkst dst (eb s1) 0 (ed s1) (esp s1) fp f (fl s1)).
  assert (R2 : regs W fp s2) by (unfold regs, s2; cbn [ea eb ec ed esp ebp]; lia).
  destruct (epilog_ok W HW addr fp s2 R2) as (s3 & X3 & R3 & S3 & V3 & M3); try lia.
  cbn [s2 M ea] in X3, R3, V3, M3. rewrite K0 in R3. rewrite K1 in X3.
  exists (mkh s3 si di false). cbn [hs hdf].
  assert (EX : hruns W addr (struct_copy W) ra h (mkh s3 si di false)).
  { unfold hruns, struct_copy. rewrite hexecs_F. cbn [with_st hs]. fold s. rewrite X1.
    assert (EB : (if W =? 2 then
        [HmovM Hdi Hbp 8; HmovM Hsi Hbp 6; HmovM Hcx Hbp 4; Hcld; Hrepmovsb; HmovM Hax Hbp 8]
      else
        [HmovM Hdi Hbp 16; HmovM Hsi Hbp 12; HmovM Hcx Hbp 8; Hcld; Hrepmovsb; HmovM Hax Hbp 16]) =
      [HmovM Hdi Hbp (W * 4); HmovM Hsi Hbp (W * 3); HmovM Hcx Hbp (W * 2); Hcld; Hrepmovsb; HmovM Hax Hbp (W * 4)]).
    { destruct HW as [-> | ->]; reflexivity. }
    rewrite EB. clear EB. cbn [app hexecs hget hset with_st hs hsi hdi hdf set_ec M ebp set_M set_ea ec ea]. rewrite Rp, Gd, Gs, Gn. cbn iota. rewrite EM.
    cbn [app hexecs hget hset with_st hs hsi hdi hdf set_ec M ebp set_M set_ea ec ea eb ed esp fl]. rewrite K4.
    rewrite <- (app_nil_r (map HF gen_epilog)), hexecs_F. cbn [hs].
    match goal with |- context [fexecs W addr gen_epilog ?x] => change x with (mkst dst (eb s1) 0 (ed s1) (esp s1) (ebp s1) f (fl s1)) end.
    rewrite Rp. fold s2. rewrite X3. reflexivity. }
  split; [exact EX|]. split; [exact V3|]. split; [exact R3|]. rewrite M3. split; [|split; [rewrite S3; lia|split; [reflexivity|]]].
  - intros a b E. rewrite HM in E. destruct ((dst <=? a) && (a <? dst + n)) eqn:IN.
    + assert (IN' : dst <= a < dst + n) by lia. destruct (OM (a - dst) ltac:(lia)) as ((_ & Q0) & _ & Q1 & Q2). replace (dst + (a - dst)) with a in Q0, Q1, Q2 by lia.
      split; [exact Q0|]. split; [|tauto]. rewrite MV, IN. rewrite Zmod_mod. destruct (HA _ _ E) as (_ & Y & Y2 & _). rewrite M1 by lia. exact Y.
    + destruct (HA _ _ E) as (Y1 & Y2 & Y3 & Y4). split; [exact Y1|]. split; [|tauto]. rewrite MV, IN. rewrite M1 by lia. exact Y2.
  - intros a Ha. rewrite KEEP by (destruct Ha; [left; lia|now right]). apply M1. destruct Ha as [Ha|Ha]; [lia|]. apply Hp in Ha. lia.
Qed.

(** So structure assignments may be compiled as calls of the routine: if the other functions obey the
    calling convention, so do all of them together with the routine at address [f].  ([h s] is the
    full state of the machine: [esi], [edi] and the direction flag are arbitrary.) *)
Corollary C55_struct_copy_convention (W : Z) (addr : Z -> Z) (lo : Z) (callee callee2 : Z -> st -> option st) (ext ext2 : Z -> list Z -> mem -> option (Z * mem)) (room room2 : Z)
    (f : Z) (ra : st -> Z) (h : st -> hst) :
  W = 2 \/ W = 4 -> 0 <= lo -> calls_ok W lo callee ext room -> room <= room2 -> 2 * W <= room2 -> (forall s, 0 <= ra s < 2 ^ (8 * W)) -> (forall s, hs (h s) = s) ->
  (forall vs m v m', ext2 f vs m = Some (v, m') -> copy_means W vs m v m') ->
  (forall s h', hruns W addr (struct_copy W) (ra s) (h s) h' -> callee2 f s = Some (hs h')) ->
  (forall f' vs m, f' <> f -> ext2 f' vs m = ext f' vs m) -> (forall f' s, f' <> f -> callee2 f' s = callee f' s) ->
  calls_ok W lo callee2 ext2 room2.
Proof.
  intros HW Hlo HC Hr1 Hr2 Hra Hh HE HL HE' HL' bp top prot Hb0 Ht Hp g vs m v m' s E HR HA HG Hs Hst.
  destruct (Z.eq_dec g f) as [->|Ng].
  2:{ rewrite HE' in E by exact Ng. rewrite HL' by exact Ng. apply (HC bp top prot Hb0 Ht Hp g vs m v m' s E HR HA HG); [lia|exact Hst]. }
  destruct (C55_struct_copy W addr lo top prot bp (ra s) vs m v m' (h s)) as (h' & X1 & X2 & X3 & X4 & X5 & _ & X6); rewrite ?Hh in *; auto; [lia|].
  exists (hs h'). auto 10.
Qed.

Ltac hx := cbv [hexecs hget hset with_st pushw hs hsi hdi hdf set_ea set_eb set_ec set_ed set_esp set_ebp set_M ebp M ea eb ec ed esp fl].

(** Structure arguments: after the call of the routine, the removal of its two arguments and the push
    of its result, all as the caller does it, the two arguments have been replaced with the
    structure, padded to whole words. *)
Theorem C55_struct_push (W : Z) (addr : Z -> Z) (lo top : Z) (prot : Z -> Prop) (bp ra src n : Z) (m : mem) (h : hst) :
  W = 2 \/ W = 4 -> 0 <= lo -> top < 2 ^ (8 * W) -> (forall a, prot a -> ~ (lo <= a < top)) ->
  regs W bp (hs h) -> 0 <= bp < 2 ^ (8 * W) -> 0 <= ra < 2 ^ (8 * W) -> args_at W (M (hs h)) (esp (hs h)) [src; n] -> agree W lo top prot m (M (hs h)) ->
  0 < n -> 0 <= src -> (forall i, 0 <= i < n -> m (src + i) <> None) ->
  lo + 2 * W <= esp (hs h) -> lo + padded W n <= esp (hs h) -> esp (hs h) + 2 * W <= top ->
  exists h' s1 s2, hruns W addr (struct_push W) ra h h' /\
    exec W addr (I2 Iadd RSP (XC (2 * W))) (hs h') = Some s1 /\ exec W addr (I1 Ipush RA) s1 = Some s2 /\
    esp s2 = esp (hs h) + 2 * W - padded W n /\ (forall i, 0 <= i < n -> m (src + i) = Some (M s2 (esp s2 + i) mod 256)) /\
    regs W bp s2 /\ agree W lo top prot m (M s2) /\ hdf h' = false /\
    forall a, esp (hs h) + 2 * W <= a < top \/ prot a -> M s2 a = M (hs h) a.
Proof.
  intros HW Hlo Htop Hp HR Hb0 Hra HG HA Hn Hsrc OB Hs Hs2 Ht.
  pose proof (W_pos W HW) as Wp. pose proof (P_pos W HW) as Pp. set (s := hs h) in *.
  destruct (prolog_ok W HW addr 0 bp ra s HR Hb0 Hra ltac:(lia) ltac:(lia)) as (s1 & X1 & R1 & S1 & L0 & L1 & M1).
  remember (esp s - 2 * W) as fp eqn:Efp. rewrite Z.add_0_r in S1.
  assert (PD : n <= padded W n < n + W /\ padded W n mod W = 0 /\ W <= padded W n).
  { unfold padded. pose proof (Z.div_mod (n + W - 1) W ltac:(lia)). pose proof (Z.mod_pos_bound (n + W - 1) W ltac:(lia)).
    assert (1 <= (n + W - 1) / W) by (apply Z.div_le_lower_bound; lia). rewrite Z.mod_mul by lia. nia. }
  set (p := padded W n) in *. destruct PD as (PD1 & _ & PD2).
  assert (G : forall i w, nth_error [src; n] i = Some w -> ldn W (Z.to_nat W) (M s1) (uw W (fp + W * (2 + Z.of_nat i))) = w).
  { intros i w E. rewrite <- (HG i w E). assert (i < 2)%nat by (change 2%nat with (length [src; n]); apply nth_error_Some; congruence).
    rewrite (uws W) by nia. replace (fp + W * (2 + Z.of_nat i)) with (esp s + W * Z.of_nat i) by lia.
    apply (lds_ext W HW addr); try nia. intros x Hx. apply M1. nia. }
  pose proof (G 0%nat src eq_refl) as Gs. pose proof (G 1%nat n eq_refl) as Gn. clear G.
  cbn [Z.of_nat Z.add Pos.add Pos.of_succ_nat Pos.succ] in Gn, Gs.
  assert (Gr : ldn W (Z.to_nat W) (M s1) (uw W (fp + W)) = ra) by (rewrite (uws W) by lia; exact L1).
  assert (Gb : ldn W (Z.to_nat W) (M s1) (uw W (fp + 0)) = bp) by (rewrite Z.add_0_r, (uws W) by lia; exact L0).
  assert (Bn : n < 2 ^ (8 * W)) by lia.
  destruct R1 as (Ra & Rb & Rc & Rd & Rs & Rp).
  assert (OM : forall i, 0 <= i < n -> 0 <= src + i < 2 ^ (8 * W) /\ ~ (lo <= src + i < top)).
  { intros i Hi. pose proof (OB i Hi) as O1. destruct (m (src + i)) as [b1|] eqn:E1; [|congruence]. apply HA in E1. tauto. }
  assert (FIT : src + n <= 2 ^ (8 * W)) by (pose proof (OM (n - 1) ltac:(lia)); lia).
  remember (esp s + 2 * W - p) as S0 eqn:ES.
  assert (DJ : src + n <= S0 \/ S0 + n <= src).
  { destruct (Z_le_dec (src + n) lo) as [|Q]; [left; lia|]. right. destruct (Z_lt_dec src lo) as [L|L].
    - exfalso. apply (proj2 (OM (lo - src) ltac:(lia))). lia.
    - pose proof (OM 0 ltac:(lia)). lia. }
  remember (M s1) as F1 eqn:EF1. remember (ea s1) as a1 eqn:Ea1. remember (eb s1) as b1 eqn:Eb1. remember (fl s1) as fl1 eqn:Efl1.
  assert (CP : exists f si di, (if W =? 2 then movs W (Z.to_nat n) 1 (F1) src S0 else movs W (Z.to_nat n) (-1) (F1) (src + n - 1) (S0 + n - 1)) = (f, si, di) /\
    (forall x, f x = if (S0 <=? x) && (x <? S0 + n) then F1 (src + (x - S0)) mod 256 else F1 x)).
  { destruct (W =? 2).
    - pose proof (movs_up W HW (Z.to_nat n) (F1) src S0) as MV. rewrite Z2Nat.id in MV by lia.
      specialize (MV ltac:(lia) ltac:(lia) ltac:(lia) ltac:(lia) ltac:(lia)).
      destruct (movs W _ 1 (F1) src S0) as [[f si] di]. exists f, si, di. split; [reflexivity|exact MV].
    - pose proof (movs_dn W HW (Z.to_nat n) (F1) (src + n - 1) (S0 + n - 1)) as MV. rewrite Z2Nat.id in MV by lia.
      specialize (MV ltac:(lia) ltac:(lia) ltac:(lia) ltac:(lia) ltac:(lia)).
      destruct (movs W _ (-1) (F1) _ _) as [[f si] di]. exists f, si, di. split; [reflexivity|]. intros x. cbn [fst] in MV. rewrite MV.
      destruct (Z.ltb_spec (S0 + n - 1 - n) x), (Z.leb_spec S0 x), (Z.leb_spec x (S0 + n - 1)), (Z.ltb_spec x (S0 + n)); try lia; cbn [andb]; try reflexivity.
      f_equal. f_equal. lia. }
  destruct CP as (f & si & di & EM & MV).
  remember (ldn W (Z.to_nat W) f S0) as w eqn:Ew. assert (Bw : 0 <= w < 2 ^ (8 * W)) by (subst w; apply (lds_range W HW addr)).
  assert (A : forall rest, hexecs W addr (HmovM Hdx Hbp W :: HmovM Hsi Hbp (W * 2) :: HmovM Hcx Hbp (W * 3) :: HmovM Hbp Hbp 0 :: rest) (with_st s1 h) =
    hexecs W addr rest (mkh (mkst a1 b1 n ra fp bp F1 fl1) src (hdi h) (hdf h))).
  { intros rest. subst F1 a1 b1 fl1. cbn [hexecs hget hset with_st hs hsi hdi hdf set_ed set_ec set_ebp ebp M ea eb ec ed esp fl]. rewrite Rp, Gr, Gs, Gn, Gb. rewrite <- S1. reflexivity. }
  assert (RD : Z.land (uw W (n + (W - 1))) (uw W (- W)) = p).
  { unfold p, padded. rewrite (uws W) by lia. replace (n + (W - 1)) with (n + W - 1) by lia.
    pose proof HW as HW2; destruct HW2 as [E|E].
    - replace (- W) with (- 2 ^ 1) by lia. rewrite (land_pow W HW) by lia. rewrite E. reflexivity.
    - replace (- W) with (- 2 ^ 2) by lia. rewrite (land_pow W HW) by lia. rewrite E. reflexivity. }
  assert (EX : exists h', hruns W addr (struct_push W) ra h h' /\ ea (hs h') = w /\ eb (hs h') = b1 /\ ec (hs h') = 0 /\ ed (hs h') = ra /\ esp (hs h') = S0 - W /\ ebp (hs h') = bp /\
     (forall x, ~ (S0 - 2 * W <= x < S0 + W) -> M (hs h') x = f x) /\ hdf h' = false).
  { unfold hruns, struct_push. destruct (Z.eqb_spec W 2) as [W2|W4].
    - set (g0 := stn W (Z.to_nat W) f S0 w). set (g1 := stn W (Z.to_nat W) g0 (S0 - W) 0). set (g2 := stn W (Z.to_nat W) g1 (S0 - 2 * W) ra).
      assert (GR : ldn W (Z.to_nat W) g2 (S0 - 2 * W) = ra) by (unfold g2; apply (lds_sts W HW addr); lia).
      exists (mkh (mkst w b1 0 ra (S0 - W) bp g2 fl1) si di false). cbn [hs ea eb ec ed esp ebp M hdf]. split; [|repeat (split; [reflexivity|])].
      + rewrite hexecs_F. cbn [with_st hs]. fold s. rewrite X1.
        match goal with |- hexecs _ _ ?l _ = _ => replace l with
          [HmovM Hdx Hbp W; HmovM Hsi Hbp (W * 2); HmovM Hcx Hbp (W * 3); HmovM Hbp Hbp 0;
           HmovR Hax Hcx; HaddK Hax (W - 1); HandK Hax (- W); HaddK Hsp (4 * W); HsubR Hsp Hax;
           HmovR Hdi Hsp; Hcld; Hrepmovsb; HpopR Hax; HpushR Hax; HpushK 0; HpushR Hdx; Hret] by (rewrite W2; reflexivity) end.
        change (mkh s1 (hsi h) (hdi h) (hdf h)) with (with_st s1 h). change (with_st s1 (with_st (push_ra W ra s) h)) with (with_st s1 h). rewrite A.
        hx. rewrite RD.
        replace (uw W (uw W (fp + 4 * W) - p)) with S0 by (rewrite (uws W (fp + _)), (uws W) by lia; lia).
        rewrite EM. hx. rewrite <- Ew.
        replace (uw W (uw W (S0 + W) - W)) with S0 by (rewrite (uws W (S0 + W)), (uws W) by lia; lia).
        rewrite (uws W (S0 - W)) by lia. replace (S0 - W - W) with (S0 - 2 * W) by lia. rewrite (uws W (S0 - 2 * W)) by lia.
        replace (S0 - 2 * W + W) with (S0 - W) by lia. rewrite (uws W (S0 - W)) by lia. rewrite (uws W 0) by lia. fold g0 g1 g2. rewrite GR. reflexivity.
      + split; [|reflexivity]. intros x Hx. unfold g2, g1, g0. rewrite !(sts_other W HW addr) by lia. reflexivity.
    - set (g1 := stn W (Z.to_nat W) f (S0 - W) 0). set (g2 := stn W (Z.to_nat W) g1 (S0 - 2 * W) ra).
      assert (GR : ldn W (Z.to_nat W) g2 (S0 - 2 * W) = ra) by (unfold g2; apply (lds_sts W HW addr); lia).
      exists (mkh (mkst w b1 0 ra (S0 - W) bp g2 fl1) si di false). cbn [hs ea eb ec ed esp ebp M hdf]. split; [|repeat (split; [reflexivity|])].
      + rewrite hexecs_F. cbn [with_st hs]. fold s. rewrite X1.
        match goal with |- hexecs _ _ ?l _ = _ => replace l with
          [HmovM Hdx Hbp W; HmovM Hsi Hbp (W * 2); HmovM Hcx Hbp (W * 3); HmovM Hbp Hbp 0;
           Hlea Hax Hcx (W - 1); HandK Hax (- W); HaddK Hax (- (4 * W)); HsubR Hsp Hax;
           Hlea2 Hsi Hsi Hcx (-1); Hlea2 Hdi Hsp Hcx (-1); Hstd; Hrepmovsb; Hcld;
           HmovM Hax Hsp 0; HpushK 0; HpushR Hdx; Hret] by (pose proof HW as HW2; destruct HW2 as [E|E]; [congruence|rewrite E; reflexivity]) end.
        change (mkh s1 (hsi h) (hdi h) (hdf h)) with (with_st s1 h). change (with_st s1 (with_st (push_ra W ra s) h)) with (with_st s1 h). rewrite A.
        hx. rewrite RD.
        replace (uw W (fp - uw W (p + - (4 * W)))) with S0.
        2:{ unfold uw, wrap. rewrite Zminus_mod_idemp_r. rewrite Z.mod_small; lia. }
        rewrite (uws W (src + n + -1)), (uws W (S0 + n + -1)) by lia. replace (src + n + -1) with (src + n - 1) by lia. replace (S0 + n + -1) with (S0 + n - 1) by lia.
        rewrite EM. hx. rewrite Z.add_0_r, (uws W S0) by lia. rewrite <- Ew.
        rewrite (uws W (S0 - W)) by lia. replace (S0 - W - W) with (S0 - 2 * W) by lia. rewrite (uws W (S0 - 2 * W)) by lia.
        replace (S0 - 2 * W + W) with (S0 - W) by lia. rewrite (uws W (S0 - W)) by lia. rewrite (uws W 0) by lia. fold g1 g2. rewrite GR. reflexivity.
      + split; [|reflexivity]. intros x Hx. unfold g2, g1. rewrite !(sts_other W HW addr) by lia. reflexivity. }
  destruct EX as (h' & XR & Y1 & Y2 & Y3 & Y4 & Y5 & Y6 & Y7 & Y8).
  exists h', (set_esp (S0 + W) (set_fl None (hs h'))), (set_esp S0 (set_M (stn W (Z.to_nat W) (M (hs h')) S0 w) (set_esp (S0 + W) (set_fl None (hs h'))))).
  split; [exact XR|]. split.
  { cbn [exec width2 width rd obind alu wr esp set_fl]. rewrite Y5. unfold ub, wrap. rewrite (Z.mod_small (S0 - W)), (Z.mod_small (2 * W)) by lia.
    rewrite (lows W) by lia. replace (S0 - W + 2 * W) with (S0 + W) by lia. rewrite Z.mod_small by lia. reflexivity. }
  split.
  { cbn [exec rd obind ea set_esp set_fl esp]. rewrite Y1. unfold ub, wrap. rewrite (Z.mod_small w) by exact Bw. replace (S0 + W - W) with S0 by lia. rewrite (uws W) by lia. reflexivity. }
  cbn [esp set_esp M set_M]. split; [reflexivity|].
  set (g := stn W (Z.to_nat W) (M (hs h')) S0 w).
  assert (GW : forall x, ~ (S0 - 2 * W <= x < S0) -> g x mod 256 = f x mod 256).
  { intros x Hx. unfold g. destruct (Z_lt_dec x S0) as [L|L]; [rewrite (sts_other W HW addr), Y7 by lia; reflexivity|].
    destruct (Z_lt_dec x (S0 + W)) as [L2|L2]; [|rewrite (sts_other W HW addr), Y7 by lia; reflexivity].
    assert (NW : Z.of_nat (Z.to_nat W) = W) by lia.
    rewrite <- (Zplus_minus S0 x). rewrite <- (ldn_byte W HW (Z.to_nat W)) by lia. rewrite (lds_sts W HW addr) by lia. rewrite Ew. apply (ldn_byte W HW (Z.to_nat W)); lia. }
  assert (GO : forall x, ~ (lo <= x < esp s + 2 * W) -> g x = M s x).
  { intros x Hx. unfold g. rewrite (sts_other W HW addr), Y7 by lia. rewrite MV. destruct (Z.leb_spec S0 x), (Z.ltb_spec x (S0 + n)); try lia; cbn [andb]; apply M1; lia. }
  split; [|split; [|split; [|split]]].
  - intros i Hi. rewrite GW by lia. rewrite MV. replace (S0 <=? S0 + i) with true by lia. replace (S0 + i <? S0 + n) with true by lia. cbn [andb].
    rewrite Zmod_mod. replace (src + (S0 + i - S0)) with (src + i) by lia. destruct (OM i Hi) as [Q1 Q2]. rewrite M1 by lia.
    pose proof (OB i Hi) as O1. destruct (m (src + i)) as [b|] eqn:E; [|congruence]. destruct (HA _ _ E) as (_ & -> & _). reflexivity.
  - unfold regs. cbn [ea eb ec ed esp ebp set_esp set_M set_fl]. rewrite Y1, Y2, Y3, Y4, Y6. lia.
  - intros a b E. destruct (HA _ _ E) as (Q1 & Q2 & Q3 & Q4). split; [exact Q1|]. split; [|auto]. rewrite GO by lia. exact Q2.
  - exact Y8.
  - intros a Ha. apply GO. destruct Ha as [Ha|Ha]; [lia|]. apply Hp in Ha. lia.
Qed.

(** The stack probe. *)
Section Probe.
Variable addr : Z -> Z.
Variable callee : Z -> st -> option st.
Variable lbl : Z.
Local Notation code := (chkstk_loop lbl).
Local Notation step := (mstep 4 addr callee code).
Let HW4 : 4 = 2 \/ 4 = 4 := or_intror eq_refl.

Lemma truns_trans x l1 y : truns 4 addr callee code x l1 y -> forall l2 z, truns 4 addr callee code y l2 z -> truns 4 addr callee code x (l1 ++ l2) z.
Proof. induction 1 as [x|x y z l H1 H2 IH]; intros l2 w H; [exact H|]. rewrite <- app_assoc. econstructor; eauto. Qed.
Lemma low1 a v : 0 <= a < 2 ^ 32 -> 0 <= low 1 a v < 2 ^ 32.
Proof.
  intros H. unfold low, ub, wrap. change (2 ^ (8 * 1)) with 256. pose proof (Z.mod_pos_bound a 256 ltac:(lia)). pose proof (Z.mod_pos_bound v 256 ltac:(lia)).
  pose proof (Z.div_mod a 256 ltac:(lia)). assert (a / 256 < 2 ^ 24) by (apply Z.div_lt_upper_bound; lia). lia.
Qed.

Lemma probe_loop k : forall a c d p q f fg, 0 <= a < 2 ^ 32 -> 0 <= c -> c + 4096 * Z.of_nat (S k) < 2 ^ 32 ->
  exists a' fg', 0 <= a' < 2 ^ 32 /\
    truns 4 addr callee code (4%nat, mkst a (c + 4096 * Z.of_nat (S k)) c d p q f fg)
      (map (fun j => c + 4096 * Z.of_nat (S k) - 4096 * (Z.of_nat j + 1)) (seq 0 (S k)))
      (9%nat, mkst a' c c d p q f fg').
Proof.
  induction k as [|k IH]; intros a c d p q f fg Ha Hc Hk.
  - set (a' := low 1 a (ldn 4 1 f c)). exists a', (Some (c, c)). split; [apply low1; exact Ha|].
    assert (E0 : step (4%nat, mkst a (c + 4096 * Z.of_nat 1) c d p q f fg) = Some (5%nat, mkst a (c + 4096) c d p q f fg)) by reflexivity.
    assert (E1 : step (5%nat, mkst a (c + 4096) c d p q f fg) = Some (6%nat, mkst a c c d p q f None)).
    { unfold mstep, chkstk_loop. cbn [nth_error obind exec width2 width rd alu wr eb set_fl set_eb]. unfold ub, wrap. rewrite (Z.mod_small (c + 4096)), (Z.mod_small 4096) by lia.
      rewrite (lows 4) by lia. replace (c + 4096 - 4096) with c by lia. rewrite Z.mod_small by lia. reflexivity. }
    assert (E2 : step (6%nat, mkst a c c d p q f None) = Some (7%nat, mkst a' c c d p q f None)) by reflexivity.
    assert (E3 : step (7%nat, mkst a' c c d p q f None) = Some (8%nat, mkst a' c c d p q f (Some (c, c)))).
    { unfold mstep, chkstk_loop. cbn [nth_error obind exec width2 width rd eb ec set_fl]. unfold ub, wrap. rewrite (Z.mod_small c) by lia. reflexivity. }
    assert (E4 : step (8%nat, mkst a' c c d p q f (Some (c, c))) = Some (9%nat, mkst a' c c d p q f (Some (c, c)))).
    { unfold mstep, chkstk_loop. cbn [nth_error obind fl condv]. rewrite Z.eqb_refl. reflexivity. }
    cbn [seq map Z.of_nat]. replace (c + 4096 * Z.pos (Pos.of_succ_nat 0) - 4096 * (0 + 1)) with c by (cbn [Pos.of_succ_nat]; lia).
    change [c] with ([] ++ [] ++ [c] ++ [] ++ [] ++ @nil Z).
    eapply tr_cons with (l := [] ++ [c] ++ [] ++ [] ++ []); [exact E0|]. eapply tr_cons with (l := [c] ++ [] ++ [] ++ []); [exact E1|].
    eapply tr_cons with (l := [] ++ [] ++ []); [exact E2|]. eapply tr_cons with (l := [] ++ []); [exact E3|]. eapply tr_cons with (l := []); [exact E4|]. constructor.
  - set (b := c + 4096 * Z.of_nat (S k)). set (a1 := low 1 a (ldn 4 1 f b)).
    assert (EB : c + 4096 * Z.of_nat (S (S k)) = b + 4096) by (unfold b; lia). rewrite EB in *.
    destruct (IH a1 c d p q f (Some (b, c)) (low1 _ _ Ha) Hc ltac:(lia)) as (a' & fg' & Ba & T). fold b in T.
    exists a', fg'. split; [exact Ba|].
    assert (Bb : 0 <= b < 2 ^ 32 /\ c < b) by (unfold b; lia).
    assert (E0 : step (4%nat, mkst a (b + 4096) c d p q f fg) = Some (5%nat, mkst a (b + 4096) c d p q f fg)) by reflexivity.
    assert (E1 : step (5%nat, mkst a (b + 4096) c d p q f fg) = Some (6%nat, mkst a b c d p q f None)).
    { unfold mstep, chkstk_loop. cbn [nth_error obind exec width2 width rd alu wr eb set_fl set_eb]. unfold ub, wrap. rewrite (Z.mod_small (b + 4096)), (Z.mod_small 4096) by lia.
      rewrite (lows 4) by lia. replace (b + 4096 - 4096) with b by lia. rewrite Z.mod_small by lia. reflexivity. }
    assert (E2 : step (6%nat, mkst a b c d p q f None) = Some (7%nat, mkst a1 b c d p q f None)) by reflexivity.
    assert (E3 : step (7%nat, mkst a1 b c d p q f None) = Some (8%nat, mkst a1 b c d p q f (Some (b, c)))).
    { unfold mstep, chkstk_loop. cbn [nth_error obind exec width2 width rd eb ec set_fl]. unfold ub, wrap. rewrite (Z.mod_small b), (Z.mod_small c) by lia. reflexivity. }
    assert (E4 : step (8%nat, mkst a1 b c d p q f (Some (b, c))) = Some (4%nat, mkst a1 b c d p q f (Some (b, c)))).
    { unfold mstep, chkstk_loop. cbn [nth_error obind fl condv]. rewrite !(uws 4) by lia. replace (b =? c) with false by lia. cbn [negb].
      cbn [find_label]. rewrite Z.eqb_refl. reflexivity. }
    replace (map (fun j => b + 4096 - 4096 * (Z.of_nat j + 1)) (seq 0 (S (S k)))) with ([] ++ [] ++ [b] ++ [] ++ [] ++ map (fun j => b - 4096 * (Z.of_nat j + 1)) (seq 0 (S k))).
    { eapply tr_cons with (l := [] ++ [b] ++ [] ++ [] ++ _); [exact E0|]. eapply tr_cons with (l := [b] ++ [] ++ [] ++ _); [exact E1|].
      eapply tr_cons with (l := [] ++ [] ++ _); [exact E2|]. eapply tr_cons with (l := [] ++ _); [exact E3|]. eapply tr_cons; [exact E4|]. exact T. }
    cbn [app]. change (seq 0 (S (S k))) with (0%nat :: seq 1 (S k)). rewrite <- seq_shift. cbn [map]. f_equal; [lia|]. rewrite map_map. apply map_ext. intros j. lia.
Qed.
End Probe.

(** A frame of at least a page on Windows: the routine reads one byte of every page of the frame,
    from the page below the current one downwards, without leaving one out and without going below
    the frame's last page, and comes back with the stack and frame pointers and the stack
    as they were. *)
Theorem C55_stack_probe (addr : Z -> Z) (callee : Z -> st -> option st) (lbl bp ra : Z) (h : hst) :
  regs 4 bp (hs h) -> 0 <= ra < 2 ^ 32 -> probed (ea (hs h)) = true -> ea (hs h) <= esp (hs h) ->
  exists h1 s2 l h3,
    hexecs 4 addr chkstk_entry (with_st (push_ra 4 ra (hs h)) h) = Some (None, h1) /\
    truns 4 addr callee (chkstk_loop lbl) (0%nat, hs h1) l (length (chkstk_loop lbl), s2) /\
    hexecs 4 addr [Hret] (with_st s2 h1) = Some (Some ra, h3) /\
    regs 4 bp (hs h3) /\ esp (hs h3) = esp (hs h) /\ (forall x, ~ (esp (hs h) - 4 <= x < esp (hs h)) -> M (hs h3) x = M (hs h) x) /\
    (forall k a, nth_error l k = Some a -> a = page (esp (hs h)) - 4096 * (Z.of_nat k + 1)) /\
    (forall a, esp (hs h) - ea (hs h) <= a < esp (hs h) -> page a = page (esp (hs h)) \/ In (page a) l) /\
    (forall a, In a l -> page (esp (hs h) - ea (hs h)) <= a).
Proof.
  intros (R1 & R2 & R3 & R4 & R5 & R6) Hra Hp Hs. unfold probed in Hp. destruct h as [[a b c d p q f fg] si di df]. cbn [hs ea eb ec ed esp ebp M] in *. subst q.
  assert (HW4 : 4 = 2 \/ 4 = 4) by (now right). assert (Ha : 4096 <= a) by lia. change (2 ^ (8 * 4)) with (2 ^ 32) in *.
  set (f1 := stn 4 4 f (p - 4) ra). set (pp := page p). set (pc := page (p - a)).
  assert (B : pp <= p < pp + 4096 /\ pc <= p - a < pc + 4096 /\ 0 <= pc).
  { unfold pp, pc, page. pose proof (Z.div_mod p 4096). pose proof (Z.mod_pos_bound p 4096). pose proof (Z.div_mod (p - a) 4096). pose proof (Z.mod_pos_bound (p - a) 4096).
    pose proof (Z.div_pos (p - a) 4096). lia. }
  assert (EK : exists k, pp = pc + 4096 * Z.of_nat (S k)).
  { exists (Z.to_nat (p / 4096 - (p - a) / 4096 - 1)). rewrite Nat2Z.inj_succ, Z2Nat.id by (unfold pp, pc, page in B; lia). unfold pp, pc, page. lia. }
  destruct EK as [k EK].
  destruct (probe_loop addr callee lbl k a pc d (p - 4) bp f1 None ltac:(lia) ltac:(lia) ltac:(lia)) as (a' & fg' & Ba & T). rewrite <- EK in T.
  set (s1 := mkst a p c d (p - 4) bp f1 fg). set (s2 := mkst a' pc pc d (p - 4) bp f1 fg').
  exists (mkh s1 si di df), s2, (map (fun j => pp - 4096 * (Z.of_nat j + 1)) (seq 0 (S k))), (mkh (set_esp p s2) si di df).
  split.
  { unfold chkstk_entry, push_ra. cbn [with_st hs hsi hdi hdf esp]. rewrite (uws 4) by lia. change (Z.to_nat 4) with 4%nat. fold f1. hx. fold f1.
    rewrite (uws 4) by lia. replace (p - 4 + 4) with p by lia. reflexivity. }
  split.
  { assert (LA : forall x, 0 <= x < 2 ^ 32 -> Z.land x (ub 4 (-4096)) = page x).
    { intros x Hx. change (ub 4 (-4096)) with (uw 4 (- 2 ^ 12)). rewrite (land_pow 4 HW4) by lia. reflexivity. }
    cbn [hs]. assert (E0 : mstep 4 addr callee (chkstk_loop lbl) (0%nat, s1) = Some (1%nat, mkst a p p d (p - 4) bp f1 fg)).
    { unfold mstep, chkstk_loop, s1. cbn [nth_error obind exec width2 width rd wr eb ec set_ec]. unfold ub, wrap. rewrite (Z.mod_small p) by lia. rewrite (lows 4) by lia. rewrite Z.mod_small by lia. reflexivity. }
    assert (E1 : mstep 4 addr callee (chkstk_loop lbl) (1%nat, mkst a p p d (p - 4) bp f1 fg) = Some (2%nat, mkst a p (p - a) d (p - 4) bp f1 None)).
    { unfold mstep, chkstk_loop. cbn [nth_error obind exec width2 width rd alu wr ea ec set_ec set_fl]. unfold ub, wrap. rewrite (Z.mod_small p), (Z.mod_small a) by lia. rewrite (lows 4) by lia. rewrite Z.mod_small by lia. reflexivity. }
    assert (E2 : mstep 4 addr callee (chkstk_loop lbl) (2%nat, mkst a p (p - a) d (p - 4) bp f1 None) = Some (3%nat, mkst a pp (p - a) d (p - 4) bp f1 None)).
    { unfold mstep, chkstk_loop. cbn [nth_error obind exec width2 width rd alu wr eb set_eb set_fl]. rewrite (LA (ub 4 p)) by (unfold ub, wrap; apply Z.mod_pos_bound; lia).
      unfold ub, wrap. rewrite (Z.mod_small p) by lia. rewrite (lows 4) by lia. fold pp. rewrite Z.mod_small by lia. reflexivity. }
    assert (E3 : mstep 4 addr callee (chkstk_loop lbl) (3%nat, mkst a pp (p - a) d (p - 4) bp f1 None) = Some (4%nat, mkst a pp pc d (p - 4) bp f1 None)).
    { unfold mstep, chkstk_loop. cbn [nth_error obind exec width2 width rd alu wr ec set_ec set_fl]. rewrite (LA (ub 4 (p - a))) by (unfold ub, wrap; apply Z.mod_pos_bound; lia).
      unfold ub, wrap. rewrite (Z.mod_small (p - a)) by lia. rewrite (lows 4) by lia. fold pc. rewrite Z.mod_small by lia. reflexivity. }
    remember (map (fun j : nat => pp - 4096 * (Z.of_nat j + 1)) (seq 0 (S k))) as l eqn:El. clear El.
    change l with ([] ++ [] ++ [] ++ [] ++ l).
    eapply tr_cons with (l := [] ++ [] ++ [] ++ _); [exact E0|]. eapply tr_cons with (l := [] ++ [] ++ _); [exact E1|].
    eapply tr_cons with (l := [] ++ _); [exact E2|]. eapply tr_cons; [exact E3|]. exact T. }
  split.
  { unfold s2. hx. replace (p - 4 + 4) with p by lia. rewrite (uws 4) by lia. do 3 f_equal. unfold f1. apply (lds_sts 4 HW4 addr); lia. }
  unfold s2. cbn [hs ea eb ec ed esp ebp M set_esp]. split; [unfold regs; cbn [ea eb ec ed esp ebp set_esp]; change (2 ^ (8 * 4)) with (2 ^ 32); lia|]. split; [reflexivity|].
  split. { intros x Hx. unfold f1. apply (sts_other 4 HW4 addr); lia. }
  split.
  { intros j x E. rewrite nth_error_map in E. destruct (nth_error (seq 0 (S k)) j) as [i|] eqn:Ei; [|discriminate]. apply some_inj in E. subst x.
    assert (Hj : (j < S k)%nat) by (rewrite <- (seq_length (S k) 0); apply nth_error_Some; congruence).
    apply nth_error_nth with (d := 0%nat) in Ei. rewrite seq_nth in Ei by exact Hj. subst i. reflexivity. }
  split.
  - intros x Hx. destruct (Z.eq_dec (page x) pp) as [E|E]; [now left|]. right. apply in_map_iff.
    exists (Z.to_nat (p / 4096 - x / 4096 - 1)). assert (x / 4096 <= p / 4096) by (apply Z.div_le_mono; lia). assert ((p - a) / 4096 <= x / 4096) by (apply Z.div_le_mono; lia).
    unfold page, pp, pc, page in *. split; [lia|]. apply in_seq. lia.
  - intros x Hx. apply in_map_iff in Hx as (j & <- & Hj). apply in_seq in Hj. lia.
Qed.

(** ** Examples *)

(** A five-byte structure at 100 is assigned to the one at 200, and passed by value. *)
Definition hx_m : mem := fun a => if (100 <=? a) && (a <? 105) then Some (a - 90) else if (200 <=? a) && (a <? 205) then Some 7 else None.
Definition hx_m' : mem := fun a => if (100 <=? a) && (a <? 105) then Some (a - 90) else if (200 <=? a) && (a <? 205) then Some (a - 190) else None.
Definition hx_h (vs : list Z) : hst :=
  mkh (mkst 1 2 3 4 1800 2000 (fun a => match hx_m a with Some b => b | None => pbyte 4 vs (a - 1800) end) None) 11 12 true.
Definition hx_prot (a : Z) : Prop := a = 1950.
Lemma hx_agree vs : agree 4 500 1900 hx_prot hx_m (M (hs (hx_h vs))).
Proof.
  intros a b E. unfold hx_h. cbn [hs M]. rewrite E. unfold hx_m in E. unfold hx_prot.
  destruct (Z.leb_spec 100 a), (Z.ltb_spec a 105), (Z.leb_spec 200 a), (Z.ltb_spec a 205); cbn [andb] in E; try discriminate; try lia;
    injection E as <-; (split; [lia|]; split; [apply Z.mod_small; lia|lia]).
Qed.
Example hx_copy : copy_means 4 [5; 100; 200] hx_m 200 hx_m' /\ args_at 4 (M (hs (hx_h [5; 100; 200]))) 1800 [5; 100; 200] /\
  regs 4 2000 (hs (hx_h [5; 100; 200])) /\
  match hexecs 4 (fun _ => 0) (struct_copy 4) (with_st (push_ra 4 777 (hs (hx_h [5; 100; 200]))) (hx_h [5; 100; 200])) with
  | Some (Some r, h) => r = 777 /\ map (M (hs h)) [199; 200; 201; 202; 203; 204; 205] = [0; 10; 11; 12; 13; 14; 0]
  | _ => False
  end.
Proof.
  split; [|split; [|split; [repeat split; cbn; lia|vm_compute; auto]]].
  - exists 5, 100, 200. split; [reflexivity|]. split; [lia|]. split; [lia|]. split; [lia|]. split.
    { intros i Hi. unfold hx_m. replace (100 <=? 100 + i) with true by lia. replace (100 + i <? 105) with true by lia.
      replace (100 <=? 200 + i) with true by lia. replace (200 + i <? 105) with false by lia. replace (200 <=? 200 + i) with true by lia.
      replace (200 + i <? 205) with true by lia. cbn [andb]. split; discriminate. }
    split; [lia|]. split; [reflexivity|]. intros a. unfold hx_m', hx_m.
    destruct (Z.leb_spec 100 a), (Z.ltb_spec a 105), (Z.leb_spec 200 a), (Z.ltb_spec a 205), (Z.ltb_spec a (200 + 5)); cbn [andb]; try lia; try reflexivity.
    replace (100 <=? 100 + (a - 200)) with true by lia. replace (100 + (a - 200) <? 105) with true by lia. cbn [andb]. f_equal. lia.
  - intros [|[|[|i]]] v H; cbn in H; try (injection H as <-; vm_compute; reflexivity). destruct i; discriminate.
Qed.
Example hx_push : args_at 4 (M (hs (hx_h [100; 5]))) 1800 [100; 5] /\ regs 4 2000 (hs (hx_h [100; 5])) /\
  (forall i, 0 <= i < 5 -> hx_m (100 + i) <> None) /\ padded 4 5 = 8 /\
  match hexecs 4 (fun _ => 0) (struct_push 4) (with_st (push_ra 4 777 (hs (hx_h [100; 5]))) (hx_h [100; 5])) with
  | Some (Some r, h) => r = 777 /\ ea (hs h) = 10 + 256 * (11 + 256 * (12 + 256 * 13)) /\ esp (hs h) = 1796 /\ M (hs h) 1804 = 14
  | _ => False
  end.
Proof.
  split. { intros [|[|i]] v H; cbn in H; try (injection H as <-; vm_compute; reflexivity). destruct i; discriminate. }
  split; [repeat split; cbn; lia|]. split; [|split; [reflexivity|vm_compute; auto]].
  intros i Hi. unfold hx_m. replace (100 <=? 100 + i) with true by lia. replace (100 + i <? 105) with true by lia. discriminate.
Qed.
(** A frame of 10000 bytes below 50000: three more pages. *)
Definition hx_probe : hst := mkh (mkst 10000 2 3 4 50000 60000 (fun _ => 0) None) 11 12 false.
Example hx_probe_ok : regs 4 60000 (hs hx_probe) /\ probed (ea (hs hx_probe)) = true /\ ea (hs hx_probe) <= esp (hs hx_probe) /\
  page 50000 = 49152 /\ page (50000 - 10000) = 36864 /\ 36864 = page 50000 - 4096 * 3.
Proof. split; [repeat split; cbn; lia|]. split; [reflexivity|]. split; [cbn; lia|]. repeat split; reflexivity. Qed.

(** Structure assignment next to the functions of C54's example. *)
Definition hy_ext : Z -> list Z -> mem -> option (Z * mem) := fun f vs m =>
  if f =? 300 then
    match vs with
    | [5; 100; 200] =>
        if forallb (fun i => match m (100 + i), m (200 + i) with Some _, Some _ => true | _, _ => false end) [0; 1; 2; 3; 4] then
          Some (200, fun a => if (200 <=? a) && (a <? 200 + 5) then m (100 + (a - 200)) else m a) else None
    | _ => None
    end
  else ex_ext f vs m.
Definition hy_callee : Z -> st -> option st := fun f s =>
  if f =? 300 then
    match hexecs 4 (fun _ => 100) (struct_copy 4) (with_st (push_ra 4 777 s) (mkh s 0 0 false)) with Some (_, h) => Some (hs h) | None => None end
  else ex_callee f s.
Example hy_convention : calls_ok 4 500 hy_callee hy_ext 200.
Proof.
  apply (C55_struct_copy_convention 4 (fun _ => 100) 500 ex_callee hy_callee ex_ext hy_ext 64 200 300 (fun _ => 777) (fun s => mkh s 0 0 false)); try lia; try reflexivity.
  - apply ex_calls_ok.
  - intros vs m v m' E. unfold hy_ext in E. rewrite Z.eqb_refl in E.
    assert (EV : vs = [5; 100; 200]).
    { clear -E. repeat (match goal with H : match ?x with _ => _ end = Some _ |- _ => destruct x; try discriminate end). reflexivity. }
    subst vs. cbn [forallb] in E.
    assert (OK : forall i, 0 <= i < 5 -> m (100 + i) <> None /\ m (200 + i) <> None).
    { intros i Hi. assert (Ci : i = 0 \/ i = 1 \/ i = 2 \/ i = 3 \/ i = 4) by lia.
      destruct (m (100 + 0)) eqn:E0; [|discriminate]. destruct (m (200 + 0)) eqn:E0'; [|discriminate].
      destruct (m (100 + 1)) eqn:E1; [|discriminate]. destruct (m (200 + 1)) eqn:E1'; [|discriminate].
      destruct (m (100 + 2)) eqn:E2; [|discriminate]. destruct (m (200 + 2)) eqn:E2'; [|discriminate].
      destruct (m (100 + 3)) eqn:E3; [|discriminate]. destruct (m (200 + 3)) eqn:E3'; [|discriminate].
      destruct (m (100 + 4)) eqn:E4; [|discriminate]. destruct (m (200 + 4)) eqn:E4'; [|discriminate].
      destruct Ci as [->|[->|[->|[->| ->]]]]; split; congruence. }
    match type of E with (if ?c then _ else _) = _ => destruct c; [|discriminate] end. apply some_inj, pair_inj in E as [<- <-].
    exists 5, 100, 200. split; [reflexivity|]. split; [lia|]. split; [lia|]. split; [lia|]. split; [exact OK|]. split; [lia|]. split; reflexivity.
  - intros s h' H. unfold hruns in H. cbn [hs] in H. unfold hy_callee. rewrite Z.eqb_refl. rewrite H. reflexivity.
  - intros f vs m N. unfold hy_ext. destruct (Z.eqb_spec f 300); [contradiction|reflexivity].
  - intros f s N. unfold hy_callee. destruct (Z.eqb_spec f 300); [contradiction|reflexivity].
Qed.

Print Assumptions C55_struct_copy.
Print Assumptions C55_struct_copy_convention.
Print Assumptions C55_struct_push.
Print Assumptions C55_stack_probe.
