(** The instruction sequences emitted for single operators do what they should. *)
From Verif Require Import Base BaseLemmas X86 ExprSpec CgModel CgTree MachSpec.

Lemma pow8_pos n : 0 < 2 ^ (8 * n) \/ n < 0.
Proof. destruct (Z_lt_ge_dec n 0); [right; auto|left; apply Z.pow_pos_nonneg; lia]. Qed.
Lemma pow8_S n : 2 ^ (8 * Z.of_nat (S n)) = 256 * 2 ^ (8 * Z.of_nat n).
Proof.
  replace (8 * Z.of_nat (S n)) with (8 + 8 * Z.of_nat n) by lia.
  rewrite Z.pow_add_r by lia. reflexivity.
Qed.

Section Mach.
Variable W : Z.
Hypothesis HW : W = 2 \/ W = 4.
Variable addr : Z -> Z.
Variable bp : Z.
Variables lo top : Z.
Variable prot : Z -> Prop.
Hypothesis Hlo : 0 <= lo.
Hypothesis Htop : top < 2 ^ (8 * W).

Notation P := (2 ^ (8 * W)).
Notation exec := (exec W addr).
Notation uw := (uw W). Notation word := (word W).
Notation agree := (agree W lo top prot).
Notation regs := (regs W bp).
Notation ldn := (ldn W). Notation stn := (stn W).

Fixpoint execs (c : list instr) (s : st) : option st :=
  match c with [] => Some s | i :: c => let? s := exec i s in execs c s end.
Lemma execs_app c1 c2 s : execs (c1 ++ c2) s = let? s1 := execs c1 s in execs c2 s1.
Proof.
  revert s; induction c1; intros; cbn [app execs obind]; auto.
  destruct (exec a s); cbn [obind]; auto.
Qed.

Lemma P_pos : 65536 <= P.
Proof. destruct HW as [-> | ->]; vm_compute; discriminate. Qed.
Lemma uw_range z : 0 <= uw z < P.
Proof. apply wrap_range. destruct HW; lia. Qed.
Lemma uw_small z : 0 <= z < P -> uw z = z.
Proof. apply wrap_small. Qed.
Lemma uw_uw z : uw (uw z) = uw z.
Proof. apply wrap_wrap. Qed.
Lemma low_W old v : 0 <= old < P -> low W old v = uw v.
Proof.
  intros. unfold low, ub. fold (uw old) (uw v). rewrite (uw_small old) by auto.
  unfold uw, X86.uw. lia.
Qed.
Lemma ub_low n a v : 0 <= n -> ub n (low n a v) = ub n v.
Proof.
  intros. unfold low, ub, wrap. rewrite Zplus_mod, Zminus_mod_idemp_r, Z.sub_diag.
  rewrite Zmod_0_l, Z.add_0_l. rewrite !Zmod_mod. reflexivity.
Qed.
Lemma ub_ub n v : ub n (ub n v) = ub n v.
Proof. apply wrap_wrap. Qed.

(** ** Memory *)
Lemma ldn_range n f a : 0 <= ldn n f a < 2 ^ (8 * Z.of_nat n).
Proof.
  revert a; induction n; intros; cbn [X86.ldn]; [cbn; lia|].
  rewrite pow8_S. specialize (IHn (a + 1)).
  pose proof (Z.mod_pos_bound (f (uw a)) 256 ltac:(lia)). lia.
Qed.

Lemma mld_ldn n m f : forall a v, agree m f -> mld n m a = Some v -> ldn n f a = v.
Proof.
  induction n; intros a v HA; cbn [mld X86.ldn]; [congruence|].
  intros H. apply obind_Some in H as (b & Hb & H). apply obind_Some in H as (r & Hr & H).
  injection H as <-. destruct (HA _ _ Hb) as (R & Hf & _).
  rewrite uw_small, Hf by auto. rewrite (IHn _ _ HA Hr). reflexivity.
Qed.
Lemma mld_range n m f : forall a v, agree m f -> mld n m a = Some v -> 0 <= v < 2 ^ (8 * Z.of_nat n).
Proof. intros a v HA H. rewrite <- (mld_ldn _ _ _ _ _ HA H). apply ldn_range. Qed.
Lemma mld_addr n m f : forall a v, (0 < n)%nat -> agree m f -> mld n m a = Some v -> 0 <= a < P.
Proof.
  intros a v Hn HA H. destruct n; [lia|]. cbn [mld] in H.
  apply obind_Some in H as (b & Hb & H). apply (HA _ _ Hb).
Qed.

Lemma mst_stn n : forall m f a v v' m',
  agree m f -> mst n m a v = Some m' -> v mod 2 ^ (8 * Z.of_nat n) = v' mod 2 ^ (8 * Z.of_nat n) ->
  agree m' (stn n f a v') /\ forall x, lo <= x < top \/ prot x -> stn n f a v' x = f x.
Proof.
  induction n; intros m f a v v' m' HA H Hv; cbn [mst X86.stn] in *.
  - injection H as <-. auto.
  - apply obind_Some in H as (b & Hb & H). destruct (HA _ _ Hb) as (R & Hf & Hz & Hp).
    rewrite uw_small by auto.
    rewrite pow8_S in Hv.
    assert (E : v mod 256 = v' mod 256 /\ v / 256 mod 2 ^ (8 * Z.of_nat n) = v' / 256 mod 2 ^ (8 * Z.of_nat n)).
    { pose proof (Z.pow_pos_nonneg 2 (8 * Z.of_nat n) ltac:(lia) ltac:(lia)).
      rewrite (Z.rem_mul_r v 256), (Z.rem_mul_r v' 256) in Hv by lia.
      pose proof (Z.mod_pos_bound v 256 ltac:(lia)). pose proof (Z.mod_pos_bound v' 256 ltac:(lia)).
      pose proof (Z.mod_pos_bound (v / 256) (2 ^ (8 * Z.of_nat n)) ltac:(lia)).
      pose proof (Z.mod_pos_bound (v' / 256) (2 ^ (8 * Z.of_nat n)) ltac:(lia)). lia. }
    destruct E as [E1 E2].
    apply IHn with (f := upd f a (v' mod 256)) (v' := v' / 256) in H; auto.
    + destruct H as [HA' HK]. split; auto.
      intros x Hx. rewrite HK by auto. unfold upd. destruct (Z.eqb_spec x a); auto.
      subst x. tauto.
    + intros x c Hc. unfold upd. destruct (Z.eqb_spec x a).
      * subst x. injection Hc as <-. rewrite E1. rewrite Zmod_mod. auto.
      * apply HA, Hc.
Qed.

Lemma stn_other n : forall f a v x,
  0 <= a -> a + Z.of_nat n <= P -> x < a \/ a + Z.of_nat n <= x -> stn n f a v x = f x.
Proof.
  induction n; intros; cbn [X86.stn]; auto.
  rewrite uw_small by lia. rewrite IHn by lia. unfold upd.
  destruct (Z.eqb_spec x a); auto. lia.
Qed.
Lemma ldn_ext n : forall f g a,
  0 <= a -> a + Z.of_nat n <= P -> (forall x, a <= x < a + Z.of_nat n -> f x = g x) -> ldn n f a = ldn n g a.
Proof.
  induction n; intros; cbn [X86.ldn]; auto.
  rewrite uw_small by lia. rewrite H1 by lia. f_equal. f_equal. apply IHn; try lia.
  intros; apply H1; lia.
Qed.
Lemma ldn_stn n : forall f a v,
  0 <= a -> a + Z.of_nat n <= P -> ldn n (stn n f a v) a = v mod 2 ^ (8 * Z.of_nat n).
Proof.
  induction n; intros; cbn [X86.ldn X86.stn].
  - cbn. now rewrite Z.mod_1_r.
  - rewrite !uw_small by lia. rewrite stn_other by lia. unfold upd at 1. rewrite Z.eqb_refl.
    rewrite IHn by lia. rewrite pow8_S, Zmod_mod, Z.rem_mul_r; auto; lia.
Qed.

(** ** Sizes and conversions *)
Notation valid := (valid_size W).
Notation conv := (conv W).
Notation absz sz := (Z.abs sz).

Lemma valid_cases sz : valid sz ->
  (W = 2 /\ (sz = 1 \/ sz = -1 \/ sz = 2)) \/ (W = 4 /\ (sz = 1 \/ sz = -1 \/ sz = 2 \/ sz = -2 \/ sz = 4)).
Proof. unfold valid_size. destruct HW; lia. Qed.

Lemma conv_range sz v : valid sz -> 0 <= conv sz v < P.
Proof.
  intros H. unfold ExprSpec.conv. destruct (sz =? W) eqn:E; [apply uw_range|].
  destruct (sz <? 0) eqn:E2; [apply uw_range|].
  pose proof (wrap_range (8 * sz) v). apply valid_cases in H.
  assert (2 ^ (8 * sz) <= P) by (apply Z.pow_le_mono_r; lia). lia.
Qed.
Lemma conv_mod sz v : valid sz -> conv sz v mod 2 ^ (8 * absz sz) = v mod 2 ^ (8 * absz sz).
Proof.
  intros H. apply valid_cases in H. unfold ExprSpec.conv, ExprSpec.word.
  destruct (sz =? W) eqn:E.
  - replace (absz sz) with W by lia. apply Zmod_mod.
  - destruct (sz <? 0) eqn:E2.
    + replace (absz sz) with (- sz) by lia.
      unfold wrap. rewrite <- Znumtheory.Zmod_div_mod.
      * exact (wrap_swrap (8 * - sz) v ltac:(lia)).
      * apply Z.pow_pos_nonneg; lia.
      * apply Z.pow_pos_nonneg; lia.
      * exists (2 ^ (8 * W - 8 * - sz)). rewrite <- Z.pow_add_r by lia. f_equal. lia.
    + replace (absz sz) with sz by lia. apply Zmod_mod.
Qed.
Lemma conv_ext sz v v' : valid sz -> v mod 2 ^ (8 * absz sz) = v' mod 2 ^ (8 * absz sz) -> conv sz v = conv sz v'.
Proof.
  intros H E. apply valid_cases in H. unfold ExprSpec.conv, ExprSpec.word.
  destruct (sz =? W) eqn:E1.
  - replace (absz sz) with W in E by (clear E; lia). exact E.
  - destruct (sz <? 0) eqn:E2.
    + replace (absz sz) with (- sz) in E by (clear E; lia). unfold swrap. rewrite E. reflexivity.
    + replace (absz sz) with sz in E by (clear E; lia). exact E.
Qed.

(** ** Reading *)
Inductive mk := KLab (n : Z) | KLoc (n : Z) | KRB.
Definition mop (k : mk) (x : msize) : opnd :=
  match k with KLab n => MLab x n | KLoc n => MLoc x n | KRB => MRB x end.
Definition maddr (k : mk) (s : st) : Z :=
  match k with KLab n => uw (addr n) | KLoc n => uw (ebp s + n) | KRB => eb s end.

Lemma rd_mop n k x s : rd W addr n (mop k x) s = Some (ldn (Z.to_nat n) (M s) (maddr k s)).
Proof. destruct k; reflexivity. Qed.
Lemma wr_mop n k x v s :
  wr W addr n (mop k x) v s = Some (set_M (stn (Z.to_nat n) (M s) (maddr k s) v) s).
Proof. destruct k; reflexivity. Qed.
Lemma width_mop k x : width W (mop k x) = msz W x.
Proof. destruct k; reflexivity. Qed.
Lemma mov_mop d k x s :
  exec (I2 Imov d (mop k x)) s =
  let? w := match width W d with Some w => Some w | None => msz W x end in
  wr W addr w d (ldn (Z.to_nat w) (M s) (maddr k s)) s.
Proof.
  cbn [X86.exec]. unfold width2. rewrite width_mop.
  destruct (width W d) as [w|]; cbn [obind]; [now rewrite rd_mop|].
  destruct (msz W x); cbn [obind]; [now rewrite rd_mop|reflexivity].
Qed.

Lemma st_eta s : mkst (ea s) (eb s) (ec s) (ed s) (esp s) (ebp s) (M s) (fl s) = s.
Proof. destruct s; reflexivity. Qed.

Lemma selA_width sz : valid sz -> width W (selA W sz) = Some (absz sz).
Proof.
  intros H. apply valid_cases in H. unfold selA.
  destruct (sz =? W) eqn:E1; [cbn; f_equal; lia|].
  destruct ((sz =? 2) || (sz =? -2)) eqn:E2; cbn; f_equal; lia.
Qed.
Lemma selA_wr sz n v s : wr W addr n (selA W sz) v s = Some (set_ea (low n (ea s) v) s).
Proof.
  unfold selA. destruct (sz =? W); [reflexivity|]. destruct ((sz =? 2) || (sz =? -2)); reflexivity.
Qed.
Lemma selA_rd sz n s : rd W addr n (selA W sz) s = Some (ub n (ea s)).
Proof.
  unfold selA. destruct (sz =? W); [reflexivity|]. destruct ((sz =? 2) || (sz =? -2)); reflexivity.
Qed.

Lemma set_ea_ea v w s : set_ea v (set_ea w s) = set_ea v s.
Proof. reflexivity. Qed.

(** Sign or zero extension of the low part of eax. *)
Lemma extend_ok sz s v :
  valid sz -> 0 <= ea s < P -> ea s mod 2 ^ (8 * absz sz) = v mod 2 ^ (8 * absz sz) ->
  execs (gen_extend W sz) s = Some (set_ea (conv sz v) s).
Proof.
  intros Hv HR E. rewrite (conv_ext sz v (ea s)) by auto. clear E v.
  apply valid_cases in Hv. unfold gen_extend, ExprSpec.conv, ExprSpec.word.
  destruct Hv as [[EW Hs]|[EW Hs]]; rewrite EW in HR |- *.
  - destruct Hs as [->|[->| ->]]; cbn [Z.eqb Pos.eqb Z.opp Z.ltb Z.compare];
      cbn -[low wrap swrap Z.modulo Z.div Z.pow Z.mul];
      try (f_equal; unfold set_ea; f_equal; unfold X86.uw, low, ub, swrap, wrap; rewrite ?EW;
           change (2 ^ (8 * 2)) with 65536 in *; change (2 ^ (8 * 1)) with 256;
           change (2 ^ 8) with 256; rewrite ?(Z.mod_small (ea s) 65536) by lia).
    + change (8 * 1) with 8. change (2 ^ 8) with 256. lia.
    + change (2 =? 2) with true. cbn [obind]. f_equal. f_equal. change (8 * 1) with 8.
      rewrite Z.sub_diag, Z.add_0_l. reflexivity.
    + destruct s; reflexivity.
  - destruct Hs as [->|[->|[->|[->| ->]]]]; cbn [Z.eqb Pos.eqb Z.opp Z.ltb Z.compare];
      cbn -[low wrap swrap Z.modulo Z.div Z.pow Z.mul]; rewrite ?EW;
      try (f_equal; unfold set_ea; f_equal; unfold X86.uw, low, ub, swrap, wrap;
           change (8 * 4) with 32 in *; change (8 * 1) with 8; change (8 * 2) with 16; change (2 ^ 32) with 4294967296 in *;
           rewrite ?(Z.mod_small (ea s) 4294967296) by lia;
           change (2 ^ 8) with 256; change (2 ^ 16) with 65536; change (2 ^ (8 - 1)) with 128;
           change (2 ^ (16 - 1)) with 32768).
    5: { destruct s; reflexivity. }
    all: try lia.
    all: change (8 * - -1) with 8; change (8 * - -2) with 16; change (2 ^ 8) with 256; change (2 ^ 16) with 65536; change (2 ^ (8 - 1)) with 128;
           change (2 ^ (16 - 1)) with 32768; rewrite ?Zmod_mod; lia.
Qed.

Lemma nbytes_abs sz : nbytes sz = Z.to_nat (absz sz).
Proof. reflexivity. Qed.

(** Reading an object into eax or ecx. *)
Lemma read_ok sz k x s :
  valid sz -> 0 <= ea s < P ->
  execs (gen_read W sz (mop k x)) s = Some (set_ea (conv sz (ldn (nbytes sz) (M s) (maddr k s))) s).
Proof.
  intros Hv HR. unfold gen_read. rewrite execs_app.
  change (gen2 W Imov (selA W sz) (mop k x)) with [I2 Imov (selA W sz) (mop k x)].
  cbn [execs]. rewrite mov_mop, selA_width by auto. cbn [obind]. rewrite selA_wr. cbn [obind].
  rewrite (extend_ok sz _ (ldn (nbytes sz) (M s) (maddr k s))); auto.
  - cbn [ea set_ea]. pose proof (valid_cases _ Hv) as Hc.
    unfold low, ub, wrap.
    set (q := 2 ^ (8 * absz sz)). assert (Hq : 0 < q) by (apply Z.pow_pos_nonneg; lia).
    pose proof (Z.mod_pos_bound (ea s) q Hq).
    pose proof (Z.mod_pos_bound (ldn (Z.to_nat (absz sz)) (M s) (maddr k s)) q Hq).
    assert (Hd : exists d, 0 < d /\ P = q * d).
    { exists (2 ^ (8 * W - 8 * absz sz)). split; [apply Z.pow_pos_nonneg; lia|].
      unfold q. rewrite <- Z.pow_add_r by lia. f_equal. lia. }
    destruct Hd as (d & Hd1 & Hd). rewrite Hd in *.
    pose proof (Z.div_mod (ea s) q ltac:(lia)).
    assert (0 <= ea s / q < d).
    { split; [apply Z.div_pos; lia|apply Z.div_lt_upper_bound; lia]. }
    generalize dependent (ea s mod q). generalize dependent (ldn (Z.to_nat (absz sz)) (M s) (maddr k s) mod q).
    intros. clear - H H0 H1 H2. generalize dependent (ea s / q). intros. subst. nia.
  - cbn [ea set_ea]. exact (ub_low (absz sz) (ea s) _ ltac:(lia)).
Qed.

Lemma swrap8_conv sz v : valid sz -> sz <> W -> sz < 0 -> uw (swrap (8 * - sz) v) = conv sz v.
Proof.
  intros H H1 H2. unfold ExprSpec.conv. destruct (Z.eqb_spec sz W); [lia|].
  destruct (Z.ltb_spec sz 0); [|lia]. reflexivity.
Qed.
Lemma pos_conv sz v : valid sz -> sz <> W -> 0 < sz -> 0 <= v < 2 ^ (8 * sz) -> uw v = conv sz v.
Proof.
  intros H H1 H2 H3. unfold ExprSpec.conv. destruct (Z.eqb_spec sz W); [lia|].
  destruct (Z.ltb_spec sz 0); [lia|]. rewrite wrap_small by lia. apply uw_small.
  apply valid_cases in H. assert (2 ^ (8 * sz) <= P) by (apply Z.pow_le_mono_r; lia). lia.
Qed.

Lemma readc_ok sz k s :
  valid sz -> 0 <= ec s < P ->
  execs (gen_readc W sz (mop k)) s = Some (set_ec (conv sz (ldn (nbytes sz) (M s) (maddr k s))) s).
Proof.
  intros Hv HR. pose proof (valid_cases _ Hv) as Hc. unfold gen_readc.
  pose proof (ldn_range (nbytes sz) (M s) (maddr k s)) as Hl.
  destruct (Z.eqb_spec sz (-1)) as [->|N1].
  { change (gen2 W Imovsx RC (mop k MByte)) with [I2 Imovsx RC (mop k MByte)].
    cbn [execs X86.exec]. rewrite width_mop. cbn [width msz obind]. rewrite rd_mop. cbn [obind wr].
    rewrite low_W by auto. change (8 * 1) with (8 * - -1). rewrite swrap8_conv by (auto; lia). reflexivity. }
  destruct (Z.eqb_spec sz 1) as [->|N2].
  { change (gen2 W Imovzx RC (mop k MByte)) with [I2 Imovzx RC (mop k MByte)].
    cbn [execs X86.exec]. rewrite width_mop. cbn [width msz obind]. rewrite rd_mop. cbn [obind wr].
    rewrite low_W by auto. rewrite (pos_conv 1) by (auto; try lia; exact Hl). reflexivity. }
  destruct (negb (sz =? W) && negb (- sz =? W)) eqn:E.
  - destruct (Z.eqb_spec sz (-2)) as [->|N3].
    { change (gen2 W Imovsx RC (mop k MHalf)) with [I2 Imovsx RC (mop k MHalf)].
      cbn [execs X86.exec]. rewrite width_mop. cbn [width msz obind]. rewrite rd_mop. cbn [obind wr].
      rewrite low_W by auto. change (8 * 2) with (8 * - -2). rewrite swrap8_conv by (auto; lia). reflexivity. }
    destruct (Z.eqb_spec sz 2) as [->|N4]; [|lia].
    { change (gen2 W Imovzx RC (mop k MHalf)) with [I2 Imovzx RC (mop k MHalf)].
      cbn [execs X86.exec]. rewrite width_mop. cbn [width msz obind]. rewrite rd_mop. cbn [obind wr].
      rewrite low_W by auto. rewrite (pos_conv 2) by (auto; try lia; exact Hl). reflexivity. }
  - assert (sz = W) by lia. subst sz.
    change (gen2 W Imov RC (mop k MI)) with [I2 Imov RC (mop k MI)].
    cbn [execs]. rewrite mov_mop. cbn [width obind wr]. rewrite low_W by auto.
    unfold ExprSpec.conv. rewrite Z.eqb_refl. unfold nbytes. rewrite Z.abs_eq by lia. reflexivity.
Qed.

(** Writing the low part of eax. *)
Lemma write_ok sz k x s :
  valid sz -> msz W x = None ->
  exec (I2 Imov (mop k x) (selA W sz)) s =
    Some (set_M (stn (nbytes sz) (M s) (maddr k s) (ub (absz sz) (ea s))) s).
Proof.
  intros Hv Hx. cbn [X86.exec]. unfold width2. rewrite width_mop, Hx, selA_width by auto. cbn [obind].
  rewrite selA_rd. cbn [obind]. rewrite wr_mop. reflexivity.
Qed.

Definition rw_regs s := 0 <= ea s < P /\ 0 <= eb s < P /\ 0 <= ec s < P /\ 0 <= ed s < P /\
  0 <= esp s < P /\ ebp s = bp.

Notation load := (load W).
Lemma load_conv sz m s a v :
  agree m (M s) -> load sz m a = Some v -> conv sz (ldn (nbytes sz) (M s) a) = v.
Proof.
  intros HA H. unfold ExprSpec.load in H. apply obind_Some in H as (x & Hx & H). injection H as <-.
  now rewrite (mld_ldn _ _ _ _ _ HA Hx).
Qed.
Lemma load_range sz m f a v : valid sz -> agree m f -> load sz m a = Some v -> 0 <= v < P /\ 0 <= a < P.
Proof.
  intros Hv HA H. unfold ExprSpec.load in H. apply obind_Some in H as (x & Hx & H). injection H as <-.
  split; [now apply conv_range|]. eapply mld_addr; [|exact HA|exact Hx].
  unfold nbytes. apply valid_cases in Hv. lia.
Qed.

(** ** Operand values *)
Definition rval (k : tok) (sz a : Z) (m : mem) : option Z :=
  match k with
  | OpNum n | OpNumU n => Some (word n)
  | OpIdent n => Some (word (addr n))
  | OpLocal n => Some (word (bp + n))
  | OpAcc | OpStack => Some a
  | OpIndIdent n => load sz m (word (addr n))
  | OpIndLocal n => load sz m (word (bp + n))
  | OpIndAcc | OpIndStack => load sz m a
  | _ => None
  end.
Definition laddr (k : tok) (a : Z) : Z :=
  match k with
  | OpIndIdent n => word (addr n) | OpIndLocal n => word (bp + n) | _ => a
  end.

Lemma rval_range k sz a m f v : valid sz -> agree m f -> 0 <= a < P -> rval k sz a m = Some v -> 0 <= v < P.
Proof.
  intros Hv HA Ha. destruct k; cbn [rval]; intros H; try discriminate;
    try (injection H as <-; first [assumption|apply uw_range]);
    eapply load_range in H; eauto; tauto.
Qed.

Definition is_ind (k : tok) : bool :=
  match k with OpIndIdent _ | OpIndLocal _ | OpIndAcc | OpIndStack => true | _ => false end.
Definition is_stk (k : tok) : bool := match k with OpStack | OpIndStack => true | _ => false end.
Definition is_op (k : tok) : bool :=
  match k with
  | OpNum _ | OpNumU _ | OpIdent _ | OpLocal _ | OpAcc | OpIndIdent _ | OpIndLocal _ | OpIndAcc => true
  | _ => false
  end.

(** Saving the right operand. *)
Lemma save_right_ok kr v szr m s b :
  regs s -> agree m (M s) -> valid szr -> v mod 16 - 8 = szr -> rval kr szr (ea s) m = Some b ->
  exists s', execs (gen_save_right W kr v) s = Some s' /\ regs s' /\ ea s' = ea s /\ esp s' = esp s /\
    M s' = M s /\ (is_acc kr = true -> ec s' = b).
Proof.
  intros (Ra & Rb & Rc & Rd & Rs & Rbp) HA Hv Ev Hr.
  destruct kr; cbn [gen_save_right rval] in *; try discriminate;
    try (exists s; split; [reflexivity|]; repeat split; auto; (lia || discriminate)).
  - injection Hr as <-. exists (set_ec (low W (ec s) (ub W (ea s))) s). split; [reflexivity|].
    unfold MachSpec.regs. cbn [set_ec ea eb ec ed esp ebp M fl]. rewrite low_W by auto.
    unfold ub. fold (uw (ea s)). rewrite uw_uw, uw_small by auto. repeat split; auto; lia.
  - unfold gen_readc_ind. rewrite Ev. rewrite execs_app.
    cbn [gen2 execs X86.exec width2 width obind rd wr].
    change (gen_readc W szr MRB) with (gen_readc W szr (mop KRB)).
    rewrite readc_ok by auto. eexists. split; [reflexivity|].
    unfold MachSpec.regs. cbn [set_ec set_eb ea eb ec ed esp ebp M fl maddr]. rewrite low_W by auto.
    unfold ub. fold (uw (ea s)). rewrite uw_uw, uw_small by auto.
    repeat split; auto; try lia; try (apply conv_range; auto).
    intros _. eapply load_conv; eauto.
Qed.

Ltac st_simp := unfold MachSpec.regs; cbn [set_ea set_eb set_ec set_ed set_esp set_M set_fl ea eb ec ed esp ebp M fl maddr].
Ltac regs_tac := repeat split; auto; try lia; try apply uw_range; try (apply conv_range; auto).

Lemma ub_W z : ub W z = uw z.
Proof. reflexivity. Qed.
Lemma low_ub old z : 0 <= old < P -> low W old (ub W z) = uw z.
Proof. intros. rewrite low_W by auto. change (uw (uw z) = uw z). apply uw_uw. Qed.
Lemma low_uw old z : 0 <= old < P -> low W old (uw z) = uw z.
Proof. exact (low_ub old z). Qed.
Lemma ub_small z : 0 <= z < P -> ub W z = z.
Proof. exact (uw_small z). Qed.

Lemma gen_load_ok k sz a m s v :
  regs s -> agree m (M s) -> valid sz -> 0 <= a < P ->
  (is_acc k = true -> ea s = a) ->
  (is_stk k = true -> ldn (Z.to_nat W) (M s) (esp s) = a /\ esp s + W < P) ->
  rval k sz a m = Some v ->
  exists c s', gen_load W k sz = Some c /\ execs c s = Some s' /\ regs s' /\ ea s' = v /\ ec s' = ec s /\
    M s' = M s /\ esp s' = esp s + (if is_stk k then W else 0) /\
    eb s' = (match k with OpIndAcc | OpIndStack => a | _ => eb s end).
Proof.
  intros (Ra & Rb & Rc & Rd & Rs & Rbp) HA Hv Ha Hacc Hstk Hr.
  destruct k; cbn [rval is_acc is_stk] in *; try discriminate.
  - injection Hr as <-. eexists _, (set_ea (low W (ea s) (ub W n)) s). split; [reflexivity|]. split; [reflexivity|].
    st_simp. rewrite low_ub by auto. regs_tac.
  - injection Hr as <-. eexists _, (set_ea (low W (ea s) (ub W n)) s). split; [reflexivity|]. split; [reflexivity|].
    st_simp. rewrite low_ub by auto. regs_tac.
  - injection Hr as <-. eexists _, (set_ea (low W (ea s) (ub W (addr id))) s). split; [reflexivity|]. split; [reflexivity|].
    st_simp. rewrite low_ub by auto. regs_tac.
  - injection Hr as <-. eexists _, (set_ea (low W (ea s) (uw (ebp s + ofs))) s). split; [reflexivity|]. split; [reflexivity|].
    st_simp. rewrite low_uw, Rbp by auto. regs_tac.
  - injection Hr as <-. exists [], s. split; [reflexivity|]. split; [reflexivity|].
    st_simp. regs_tac.
  - eexists _, _. split; [reflexivity|]. change (MLab MI id) with (mop (KLab id) MI).
    split; [apply read_ok; auto|]. st_simp.
    erewrite load_conv; [|exact HA|exact Hr]. eapply load_range in Hr; eauto. regs_tac.
  - eexists _, _. split; [reflexivity|]. change (MLoc MI ofs) with (mop (KLoc ofs) MI).
    split; [apply read_ok; auto|]. st_simp. rewrite Rbp.
    erewrite load_conv; [|exact HA|exact Hr]. eapply load_range in Hr; eauto. regs_tac.
  - eexists _, _. split; [reflexivity|]. unfold gen_read_ind. change (MRB MI) with (mop KRB MI).
    rewrite execs_app. cbn [gen2 execs X86.exec width2 width obind rd wr].
    split; [apply read_ok; auto|]. st_simp.
    rewrite low_ub, uw_small by auto. rewrite Hacc by auto.
    erewrite load_conv; [|exact HA|exact Hr]. eapply load_range in Hr; eauto. regs_tac.
  - injection Hr as <-. destruct (Hstk eq_refl) as [Hl He].
    eexists _, (set_esp (uw (esp s + W)) (set_ea (low W (ea s) (ldn (Z.to_nat W) (M s) (esp s))) s)).
    split; [reflexivity|]. split; [reflexivity|].
    st_simp. rewrite low_W, Hl by auto. rewrite !uw_small by lia. regs_tac.
  - destruct (Hstk eq_refl) as [Hl He]. eexists _, _. split; [reflexivity|].
    change (MRB MI) with (mop KRB MI). rewrite execs_app.
    cbn [gen1 execs X86.exec obind wr].
    split; [apply read_ok; auto|]. st_simp.
    rewrite low_W, Hl by auto. rewrite !(uw_small a), uw_small by lia.
    erewrite load_conv; [|exact HA|exact Hr]. eapply load_range in Hr; eauto. regs_tac.
Qed.

(** ** Arithmetic *)
Lemma mod_bits n z : 0 <= n -> 0 <= z < 2 ^ n <-> (0 <= z /\ forall i, n <= i -> Z.testbit z i = false).
Proof.
  intros Hn. split.
  - intros [H0 H1]. split; auto. intros i Hi.
    rewrite <- (Z.mod_small z (2 ^ n)) by lia. apply Z.mod_pow2_bits_high. lia.
  - intros [H0 H1]. replace z with (z mod 2 ^ n); [apply Z.mod_pos_bound; apply Z.pow_pos_nonneg; lia|].
    apply Z.bits_inj'. intros i Hi. destruct (Z_lt_ge_dec i n).
    + apply Z.mod_pow2_bits_low. lia.
    + rewrite Z.mod_pow2_bits_high by lia. symmetry. apply H1. lia.
Qed.
Lemma logic_range a b : 0 <= a < P -> 0 <= b < P ->
  0 <= Z.land a b < P /\ 0 <= Z.lor a b < P /\ 0 <= Z.lxor a b < P.
Proof.
  intros Ha Hb. assert (Hn : 0 <= 8 * W) by (destruct HW; lia).
  apply (mod_bits _ _ Hn) in Ha as [A0 A1]. apply (mod_bits _ _ Hn) in Hb as [B0 B1].
  repeat split; try (apply mod_bits; auto; split).
  all: try (apply Z.land_nonneg; auto); try (apply Z.lor_nonneg; auto); try (apply Z.lxor_nonneg; tauto).
  all: try (intros i Hi; rewrite ?Z.land_spec, ?Z.lor_spec, ?Z.lxor_spec, A1, B1 by lia; reflexivity).
Qed.

Lemma rd_opnd_W x s : match x with RA => rd W addr W x s = Some (uw (ea s)) | _ => True end.
Proof. destruct x; auto. Qed.

(** Two-operand instructions on eax and a source [x] that reads as [b]. *)
Definition alu_val (i : mnem) (a b : Z) : option Z := alu i a b.
Definition is_xc (x : opnd) := match x with XC _ => true | _ => false end.

Lemma gen2_alu i x s b v :
  0 <= ea s < P -> rd W addr W x s = Some b -> b = uw b -> alu i (ea s) b = Some v ->
  (match i with Iadd | Isub | Iand | Ixor | Ior => True | _ => False end) ->
  (forall n, x = XC n -> b = uw n) ->
  exists s', execs (gen2 W i RA x) s = Some s' /\ ea s' = uw v /\ eb s' = eb s /\ ec s' = ec s /\
     ed s' = ed s /\ esp s' = esp s /\ ebp s' = ebp s /\ M s' = M s.
Proof.
  intros HR Hx Hb Hv Hi Hxc.
  assert (G : exec (I2 i RA x) s = Some (set_ea (uw v) (set_fl None s))).
  { destruct i; try contradiction; cbn [X86.exec width2 width obind]; rewrite Hx; cbn [rd obind];
      rewrite ub_small by auto; rewrite Hv; cbn [obind wr]; st_simp; rewrite low_W by auto; reflexivity. }
  assert (G2 : execs [I2 i RA x] s = Some (set_ea (uw v) (set_fl None s))) by (cbn [execs]; now rewrite G).
  destruct x; try (exists (set_ea (uw v) (set_fl None s));
    split; [destruct i; try contradiction; exact G2|]; st_simp; repeat split; auto).
  specialize (Hxc n eq_refl).
  assert (GI : exec (I1 Iinc RA) s = Some (set_ea (uw (ea s + 1)) (set_fl None s)) /\
               exec (I1 Idec RA) s = Some (set_ea (uw (ea s - 1)) (set_fl None s))).
  { split; cbn [X86.exec width obind rd wr]; st_simp; rewrite ub_small, low_W by auto; reflexivity. }
  destruct i; try contradiction; cbn [alu] in Hv; injection Hv as <-; cbn [gen2];
    try (eexists; split; [exact G2|]; st_simp; repeat split; auto; fail).
  - destruct (Z.eqb_spec (X86.uw W n) 0) as [E0|E0].
    { exists s. split; [reflexivity|]. rewrite Hxc, E0, Z.add_0_r, uw_small by auto. repeat split; auto. }
    destruct (Z.eqb_spec n 1) as [->|N1].
    { eexists. split; [cbn [execs]; rewrite (proj1 GI); reflexivity|]. st_simp. rewrite Hxc.
      rewrite (uw_small 1) by (pose proof P_pos; lia). repeat split; auto. }
    destruct (Z.eqb_spec n (-1)) as [->|N2].
    { eexists. split; [cbn [execs]; rewrite (proj2 GI); reflexivity|]. st_simp. rewrite Hxc.
      unfold X86.uw. rewrite wrap_add_r. repeat split; auto. }
    exists (set_ea (uw (ea s + b)) (set_fl None s)). split; [exact G2|]; st_simp; repeat split; auto.
  - destruct (Z.eqb_spec (X86.uw W n) 0) as [E0|E0].
    { exists s. split; [reflexivity|]. rewrite Hxc, E0, Z.sub_0_r, uw_small by auto. repeat split; auto. }
    destruct (Z.eqb_spec n (-1)) as [->|N1].
    { eexists. split; [cbn [execs]; rewrite (proj1 GI); reflexivity|]. st_simp. rewrite Hxc.
      unfold X86.uw. rewrite wrap_sub_r. repeat split; auto. }
    destruct (Z.eqb_spec n 1) as [->|N2].
    { eexists. split; [cbn [execs]; rewrite (proj2 GI); reflexivity|]. st_simp. rewrite Hxc.
      rewrite (uw_small 1) by (pose proof P_pos; lia). repeat split; auto. }
    exists (set_ea (uw (ea s - b)) (set_fl None s)). split; [exact G2|]; st_simp; repeat split; auto.
Qed.

Lemma load_word m s a b : agree m (M s) -> load W m a = Some b -> ldn (Z.to_nat W) (M s) a = b.
Proof.
  intros HA Hr. apply (load_conv _ _ s) in Hr; auto. rewrite <- Hr. unfold ExprSpec.conv, nbytes.
  rewrite Z.eqb_refl, Z.abs_eq by (destruct HW; lia). symmetry. apply uw_small.
  pose proof (ldn_range (Z.to_nat W) (M s) a) as H. rewrite Z2Nat.id in H by (destruct HW; lia). exact H.
Qed.
Ltac rtac := repeat (split; [first [reflexivity|assumption|discriminate|idtac]|]); try reflexivity; try assumption; try discriminate; try (intros ? E; injection E as <-).
(** The right operand as a source operand, possibly after loading it into ecx. *)
Lemma right_src kr szr m s b :
  regs s -> agree m (M s) -> valid szr -> is_op kr = true ->
  (is_acc kr = true -> ec s = b /\ 0 <= b < P) -> (is_acc kr = false -> rval kr szr 0 m = Some b) ->
  exists pre x s1, execs pre s = Some s1 /\ regs s1 /\ ea s1 = ea s /\ eb s1 = eb s /\ ed s1 = ed s /\
    esp s1 = esp s /\ M s1 = M s /\ rd W addr W x s1 = Some b /\ b = uw b /\
    (forall n, x = XC n -> b = uw n) /\ (forall i, gen_op2 W i kr szr = Some (pre ++ gen2 W i RA x)) .
Proof.
  intros HR HA Hv Hop Hacc Hr. pose proof HR as (Ra & Rb & Rc & Rd & Rs & Rbp).
  assert (Hb : is_acc kr = false -> b = uw b).
  { intros Hn. symmetry. apply uw_small. eapply rval_range in Hr; eauto. pose proof P_pos; lia. }
  destruct kr; cbn [rval is_acc is_op] in *; try discriminate;
    try (specialize (Hr eq_refl); specialize (Hb eq_refl)).
  - injection Hr as Hr. exists [], (XC n), s. rtac; subst b; first [reflexivity|assumption].
  - injection Hr as Hr. exists [], (XC n), s. rtac; subst b; first [reflexivity|assumption].
  - injection Hr as Hr. exists [], (XLab id), s. rtac; subst b; first [reflexivity|assumption].
  - injection Hr as Hr. exists (gen2 W Ilea RC (MLoc MI ofs)), RC, (set_ec b s).
    split. { cbn [gen2 execs X86.exec width obind ofsof wr]. rewrite low_uw by auto. rewrite Rbp. subst b. reflexivity. }
    st_simp. assert (0 <= b < P) by (subst b; apply uw_range).
    split; [regs_tac|]. rtac. cbn [rd]. st_simp. now rewrite ub_small by auto.
  - destruct (Hacc eq_refl) as [He Hbr]. exists [], RC, s.
    rtac; [cbn [rd]; now rewrite He, ub_small|]. now rewrite uw_small.
  - cbn [gen_op2]. destruct (Z.eqb_spec szr W) as [->|Hn]; cbn [negb].
    + exists [], (MLab MI id), s. rtac.
      change (MLab MI id) with (mop (KLab id) MI). rewrite rd_mop. cbn [maddr].
      f_equal. exact (load_word _ _ _ _ HA Hr).
    + exists (gen_readc W szr (fun s => MLab s id)), RC, (set_ec b s).
      split. { change (fun s => MLab s id) with (mop (KLab id)). rewrite readc_ok by auto. cbn [maddr].
               erewrite load_conv; [|exact HA|exact Hr]; reflexivity. }
      eapply load_range in Hr; eauto.
      st_simp. split; [regs_tac|]. rtac. cbn [rd]. st_simp. now rewrite ub_small by tauto.
  - cbn [gen_op2]. destruct (Z.eqb_spec szr W) as [->|Hn]; cbn [negb].
    + exists [], (MLoc MI ofs), s. rtac.
      change (MLoc MI ofs) with (mop (KLoc ofs) MI). rewrite rd_mop. cbn [maddr]. rewrite Rbp.
      f_equal. exact (load_word _ _ _ _ HA Hr).
    + exists (gen_readc W szr (fun s => MLoc s ofs)), RC, (set_ec b s).
      split. { change (fun s => MLoc s ofs) with (mop (KLoc ofs)). rewrite readc_ok by auto. cbn [maddr]. rewrite Rbp.
               erewrite load_conv; [|exact HA|exact Hr]; reflexivity. }
      eapply load_range in Hr; eauto.
      st_simp. split; [regs_tac|]. rtac. cbn [rd]. st_simp. now rewrite ub_small by tauto.
  - destruct (Hacc eq_refl) as [He Hbr]. exists [], RC, s.
    rtac; [cbn [rd]; now rewrite He, ub_small|]. now rewrite uw_small.
Qed.

Definition gsrc (i : mnem) (kr : tok) (szr : Z) : option (list instr) :=
    match kr with
    | OpNum n | OpNumU n => Some (gen2 W Imov RC (XC n) ++ gen1 i RC)
    | OpIdent n => Some (gen2 W Imov RC (XLab n) ++ gen1 i RC)
    | OpLocal n => Some (gen2 W Ilea RC (MLoc MI n) ++ gen1 i RC)
    | OpAcc | OpIndAcc => Some (gen1 i RC)
    | OpIndIdent n =>
        Some (if negb (szr =? W) then gen_readc W szr (fun s => MLab s n) ++ gen1 i RC
              else gen1 i (MLab MWord n))
    | OpIndLocal n =>
        Some (if negb (szr =? W) then gen_readc W szr (fun s => MLoc s n) ++ gen1 i RC
              else gen1 i (MLoc MWord n))
    | _ => None
    end.

Definition src_at kr szr (m : mem) s b :=
  is_op kr = true /\ (is_acc kr = true -> ec s = b /\ 0 <= b < P) /\
  (is_acc kr = false -> rval kr szr 0 m = Some b).

Lemma right_src1 kr szr m s b :
  regs s -> agree m (M s) -> valid szr -> src_at kr szr m s b ->
  exists pre x s1, execs pre s = Some s1 /\ regs s1 /\ ea s1 = ea s /\ eb s1 = eb s /\ ed s1 = ed s /\
    esp s1 = esp s /\ M s1 = M s /\ rd W addr W x s1 = Some b /\ width W x = Some W /\ 0 <= b < P /\
    (forall i, gsrc i kr szr = Some (pre ++ gen1 i x)).
Proof.
  intros HR HA Hv (Hop & Hacc & Hr). pose proof HR as (Ra & Rb & Rc & Rd & Rs & Rbp).
  assert (Hb : 0 <= b < P).
  { destruct (is_acc kr) eqn:E; [now apply Hacc|]. specialize (Hr eq_refl).
    eapply rval_range in Hr; eauto. pose proof P_pos; lia. }
  destruct kr; cbn [rval is_acc is_op gsrc] in *; try discriminate;
    try (specialize (Hr eq_refl)).
  - injection Hr as Hr. exists (gen2 W Imov RC (XC n)), RC, (set_ec b s).
    split. { cbn [gen2 execs X86.exec width width2 rd obind ofsof wr]. rewrite low_ub by auto. subst b. reflexivity. }
    st_simp. split; [regs_tac|]. rtac. cbn [rd]. st_simp. now rewrite ub_small by auto.
  - injection Hr as Hr. exists (gen2 W Imov RC (XC n)), RC, (set_ec b s).
    split. { cbn [gen2 execs X86.exec width width2 rd obind ofsof wr]. rewrite low_ub by auto. subst b. reflexivity. }
    st_simp. split; [regs_tac|]. rtac. cbn [rd]. st_simp. now rewrite ub_small by auto.
  - injection Hr as Hr. exists (gen2 W Imov RC (XLab id)), RC, (set_ec b s).
    split. { cbn [gen2 execs X86.exec width width2 rd obind ofsof wr]. rewrite low_ub by auto. subst b. reflexivity. }
    st_simp. split; [regs_tac|]. rtac. cbn [rd]. st_simp. now rewrite ub_small by auto.
  - injection Hr as Hr. exists (gen2 W Ilea RC (MLoc MI ofs)), RC, (set_ec b s).
    split. { cbn [gen2 execs X86.exec width obind ofsof wr]. rewrite low_uw by auto. rewrite Rbp. subst b. reflexivity. }
    st_simp. split; [regs_tac|]. rtac. cbn [rd]. st_simp. now rewrite ub_small by auto.
  - destruct (Hacc eq_refl) as [He Hbr]. exists [], RC, s.
    rtac. cbn [rd]; now rewrite He, ub_small.
  - destruct (Z.eqb_spec szr W) as [->|Hn]; cbn [negb].
    + exists [], (MLab MWord id), s. rtac.
      change (MLab MWord id) with (mop (KLab id) MWord). rewrite rd_mop. cbn [maddr].
      f_equal. exact (load_word _ _ _ _ HA Hr).
    + exists (gen_readc W szr (fun s => MLab s id)), RC, (set_ec b s).
      split. { change (fun s => MLab s id) with (mop (KLab id)). rewrite readc_ok by auto. cbn [maddr].
               erewrite load_conv; [|exact HA|exact Hr]; reflexivity. }
      st_simp. split; [regs_tac|]. rtac. cbn [rd]. st_simp. now rewrite ub_small by tauto.
  - destruct (Z.eqb_spec szr W) as [->|Hn]; cbn [negb].
    + exists [], (MLoc MWord ofs), s. rtac.
      change (MLoc MWord ofs) with (mop (KLoc ofs) MWord). rewrite rd_mop. cbn [maddr]. rewrite Rbp.
      f_equal. exact (load_word _ _ _ _ HA Hr).
    + exists (gen_readc W szr (fun s => MLoc s ofs)), RC, (set_ec b s).
      split. { change (fun s => MLoc s ofs) with (mop (KLoc ofs)). rewrite readc_ok by auto. cbn [maddr]. rewrite Rbp.
               erewrite load_conv; [|exact HA|exact Hr]; reflexivity. }
      st_simp. split; [regs_tac|]. rtac. cbn [rd]. st_simp. now rewrite ub_small by tauto.
  - destruct (Hacc eq_refl) as [He Hbr]. exists [], RC, s.
    rtac. cbn [rd]; now rewrite He, ub_small.
Qed.

Definition op_post s (v : Z) s' :=
  regs s' /\ ea s' = v /\ eb s' = eb s /\ esp s' = esp s /\ M s' = M s.

Lemma mul_ok kr szr m s b :
  regs s -> agree m (M s) -> valid szr -> src_at kr szr m s b ->
  exists c s', gen_mul W kr szr = Some c /\ execs c s = Some s' /\ op_post s (word (ea s * b)) s'.
Proof.
  intros HR HA Hv Hs. pose proof HR as (Ra & Rb & Rc & Rd & Rs & Rbp).
  assert (G : (forall i, gsrc i kr szr = gen_mul W kr szr \/ i <> Imul) ->
    exists c s', gen_mul W kr szr = Some c /\ execs c s = Some s' /\ op_post s (word (ea s * b)) s').
  { intros HG. destruct (HG Imul) as [HG'|]; [|congruence].
    destruct (right_src1 _ _ _ _ _ HR HA Hv Hs) as (pre & x & s1 & E1 & R1 & Ea & Eb & Ed & Es & Em & Hrd & Hw & Hb & Hg).
    rewrite <- HG', Hg. eexists _, _. split; [reflexivity|]. rewrite execs_app, E1.
    split. { cbn [gen1 execs X86.exec]. rewrite Hw. cbn [obind]. rewrite Hrd. cbn [obind]. rewrite Z.eqb_refl. reflexivity. }
    destruct R1 as (? & ? & ? & ? & ? & ?). unfold op_post. st_simp. rewrite Ea, (uw_small (ea s)) by auto.
    regs_tac. }
  destruct Hs as (Hop & Hacc & Hr).
  destruct kr; cbn [rval is_acc is_op gsrc] in *; try discriminate;
    try (apply G; intros []; auto; right; discriminate);
    specialize (Hr eq_refl); injection Hr as <-.
  - eexists _, (set_ea (uw (ea s * uw n)) (set_fl None s)). split; [reflexivity|]. split.
    { cbn [execs X86.exec width obind rd wr]. st_simp. rewrite ub_small, low_W by auto. reflexivity. }
    unfold op_post. st_simp. regs_tac.
  - eexists _, (set_ea (uw (ea s * uw n)) (set_fl None s)). split; [reflexivity|]. split.
    { cbn [execs X86.exec width obind rd wr]. st_simp. rewrite ub_small, low_W by auto. reflexivity. }
    unfold op_post. st_simp. regs_tac.
  - eexists _, (set_ea (uw (ea s * uw (addr id))) (set_fl None s)). split; [reflexivity|]. split.
    { cbn [execs X86.exec width obind rd wr]. st_simp. rewrite ub_small, low_W by auto. reflexivity. }
    unfold op_post. st_simp. regs_tac.
Qed.

Local Notation sw := (X86.sw W). Local Notation sint := (ExprSpec.sint W).
Local Notation arith_val := (ExprSpec.arith_val W).
Lemma sw_range z : - 2 ^ (8 * W - 1) <= sw z < 2 ^ (8 * W - 1).
Proof. apply swrap_range. destruct HW; lia. Qed.
Lemma P_half : P = 2 * 2 ^ (8 * W - 1).
Proof. rewrite <- Z.pow_succ_r by (destruct HW; lia). f_equal. lia. Qed.
Lemma sw_eq a : 0 <= a < P -> sw a = if a <? 2 ^ (8 * W - 1) then a else a - P.
Proof.
  intros H. unfold X86.sw, swrap. rewrite Z.mod_small by auto. destruct (a <? 2 ^ (8 * W - 1)); reflexivity.
Qed.

(** Sign extension into edx and back. *)
Lemma cdq_val a : 0 <= a < P -> sw (uw (sw a / P)) * P + a = sw a.
Proof.
  intros H. pose proof P_half as PH. pose proof P_pos as PP. pose proof (sw_eq a H) as E.
  destruct (Z.ltb_spec a (2 ^ (8 * W - 1))) as [H1|H1].
  - rewrite E. rewrite Z.div_small by lia. rewrite uw_small by lia.
    rewrite sw_eq by lia. destruct (Z.ltb_spec 0 (2 ^ (8 * W - 1))); lia.
  - assert (E2 : sw a / P = -1) by (symmetry; apply (Z.div_unique _ _ _ a); lia).
    rewrite E2. assert (E3 : uw (-1) = P - 1).
    { unfold X86.uw, wrap. symmetry. apply (Z.mod_unique _ _ (-1)); lia. }
    rewrite E3, sw_eq by lia. destruct (Z.ltb_spec (P - 1) (2 ^ (8 * W - 1))); lia.
Qed.

Lemma quot_range a b : - 2 ^ (8 * W - 1) <= a < 2 ^ (8 * W - 1) -> b <> 0 ->
  ~ (a = - 2 ^ (8 * W - 1) /\ b = -1) -> - 2 ^ (8 * W - 1) <= Z.quot a b < 2 ^ (8 * W - 1).
Proof.
  intros Ha Hb Hn. set (H := 2 ^ (8 * W - 1)) in *.
  assert (0 < H) by (unfold H; apply Z.pow_pos_nonneg; destruct HW; lia).
  assert (Q : Z.abs (Z.quot a b) <= Z.abs a).
  { rewrite <- Z.quot_abs by auto.
    rewrite Z.quot_div_nonneg by lia. apply Z.div_le_upper_bound; nia. }
  destruct (Z.eq_dec (Z.quot a b) H) as [E|E]; [|lia].
  exfalso. assert (Z.abs a = H) by lia. assert (Ea : a = - H) by lia.
  pose proof (Z.quot_rem a b Hb) as QR. rewrite E in QR.
  pose proof (Z.rem_bound_abs a b Hb).
  assert (b < 0) by nia. assert (b <> -1) by tauto.
  assert (Z.abs (Z.quot a b) * 2 <= Z.abs a).
  { rewrite <- Z.quot_abs by auto. rewrite Z.quot_div_nonneg by lia.
    rewrite Z.mul_comm. etransitivity; [|apply (Z.mul_div_le (Z.abs a) 2); lia].
    apply Z.mul_le_mono_nonneg_l; [lia|]. apply Z.div_le_compat_l; lia. }
  lia.
Qed.

Lemma div_ok sgn rem kr szr m s b v :
  regs s -> agree m (M s) -> valid szr -> src_at kr szr m s b ->
  arith_val (if sgn : bool then (if rem : bool then EMod else EDiv) else (if rem then EUMod else EUDiv)) (ea s) b = Some v ->
  exists c s', gen_div W sgn rem kr szr = Some c /\ execs c s = Some s' /\ op_post s v s'.
Proof.
  intros HR HA Hv Hs Hval. pose proof HR as (Ra & Rb & Rc & Rd & Rs & Rbp).
  pose proof P_pos as PP. pose proof P_half as PH.
  change (gen_div W sgn rem kr szr) with
    (let? c := gsrc (if sgn then Iidiv else Idiv) kr szr in
     Some ((if sgn then (if W =? 2 then [I0 Icwd] else [I0 Icdq]) else gen2 W Imov RD (XC 0)) ++ c ++
           (if rem then gen2 W Imov RA RD else []))).
  set (d0 := if sgn then uw (sw (ea s) / P) else 0).
  set (s0 := set_ed d0 s).
  assert (E0 : execs (if sgn then (if W =? 2 then [I0 Icwd] else [I0 Icdq]) else gen2 W Imov RD (XC 0)) s = Some s0).
  { unfold s0, d0. destruct sgn.
    - destruct HW as [EW|EW]; rewrite EW; cbn [Z.eqb Pos.eqb execs X86.exec]; rewrite EW; reflexivity.
    - cbn [gen2 execs X86.exec width2 width obind rd wr]. rewrite low_ub by auto. rewrite uw_small by lia. reflexivity. }
  assert (R0 : regs s0).
  { unfold s0. st_simp. assert (0 <= d0 < P) by (unfold d0; destruct sgn; [apply uw_range|lia]). regs_tac. }
  destruct (right_src1 kr szr m s0 b R0 HA Hv Hs) as (pre & x & s1 & E1 & R1 & Ea & Eb & Ed & Es & Em & Hrd & Hw & Hb & Hg).
  cbn [s0 set_ed ea eb ed esp M] in Ea, Eb, Ed, Es, Em.
  rewrite Hg. cbn [obind].
  assert (D : exists q r, exec (I1 (if sgn then Iidiv else Idiv) x) s1 = Some (set_fl None (set_ed r (set_ea q s1))) /\
              (if rem then r else q) = v /\ 0 <= q < P /\ 0 <= r < P).
  { destruct sgn; cbn [X86.exec]; rewrite Hw; cbn [obind]; rewrite Hrd; cbn [obind]; rewrite Z.eqb_refl; cbn [andb].
    - rewrite Ed, Ea. unfold d0. rewrite (uw_small (ea s)) by auto. rewrite cdq_val by auto.
      assert (Hdef : sw b <> 0 /\ ~ (sw (ea s) = - 2 ^ (8 * W - 1) /\ sw b = -1) /\
                v = (if rem then uw (Z.rem (sw (ea s)) (sw b)) else uw (Z.quot (sw (ea s)) (sw b)))).
      { clear - Hval. destruct rem; cbn [ExprSpec.arith_val] in Hval;
          change (ExprSpec.sint W) with (X86.sw W) in Hval; change (ExprSpec.word W) with (X86.uw W) in Hval;
          destruct (Z.eqb_spec (sw b) 0); cbn [orb] in Hval; try discriminate;
          destruct (Z.eqb_spec (sw (ea s)) (- 2 ^ (8 * W - 1))); cbn [andb] in Hval;
          try (destruct (Z.eqb_spec (sw b) (-1)); try discriminate); injection Hval as <-; tauto. }
      destruct Hdef as (D1 & D2 & D3).
      pose proof (quot_range (sw (ea s)) (sw b) (sw_range _) D1 D2) as QR.
      replace (negb (sw b =? 0)) with true by (symmetry; apply Bool.negb_true_iff; now apply Z.eqb_neq).
      replace (- 2 ^ (8 * W - 1) <=? Z.quot (sw (ea s)) (sw b)) with true by (symmetry; apply Z.leb_le; tauto).
      replace (Z.quot (sw (ea s)) (sw b) <? 2 ^ (8 * W - 1)) with true by (symmetry; apply Z.ltb_lt; tauto).
      cbn [andb]. eexists _, _. split; [reflexivity|]. rewrite D3. destruct rem; split; auto using uw_range.
    - rewrite Ed, Ea. unfold d0. rewrite (uw_small (ea s)) by auto. rewrite (uw_small 0) by lia.
      replace (0 * P + ea s) with (ea s) by lia.
      assert (Hdef : b <> 0 /\ v = (if rem then ea s mod b else ea s / b)).
      { clear - Hval. destruct rem; cbn [ExprSpec.arith_val] in Hval; destruct (Z.eqb_spec b 0); try discriminate;
          injection Hval as <-; auto. }
      destruct Hdef as (D1 & D3).
      assert (0 <= ea s / b < P).
      { split; [apply Z.div_pos; lia|]. eapply Z.le_lt_trans; [|apply Ra]. apply Z.div_le_upper_bound; nia. }
      assert (0 <= ea s mod b < P) by (pose proof (Z.mod_pos_bound (ea s) b); lia).
      replace (negb (b =? 0)) with true by (symmetry; apply Bool.negb_true_iff; now apply Z.eqb_neq).
      replace (ea s / b <? P) with true by (symmetry; apply Z.ltb_lt; tauto).
      cbn [andb]. eexists _, _. split; [reflexivity|]. rewrite D3. destruct rem; auto. }
  destruct D as (q & r & ED & EV & Hq & Hr).
  eexists _, (if rem then set_ea v (set_fl None (set_ed r (set_ea q s1))) else set_fl None (set_ed r (set_ea q s1))).
  split; [reflexivity|]. rewrite !execs_app, E0. cbn [obind]. rewrite !execs_app, E1. cbn [obind gen1 execs]. rewrite ED. cbn [obind].
  destruct R1 as (? & ? & ? & ? & ? & ?).
  destruct rem; subst v.
  - split. { cbn [gen2 execs X86.exec width2 width obind rd wr]. st_simp. rewrite low_ub by auto. rewrite uw_small by auto. reflexivity. }
    unfold op_post. st_simp. regs_tac.
  - split; [reflexivity|]. unfold op_post. st_simp. regs_tac.
Qed.

Lemma load_byte szr m s a b :
  valid szr -> agree m (M s) -> load szr m a = Some b -> 0 <= b < 256 -> ldn 1 (M s) a = b.
Proof.
  intros Hv HA Hr Hb. pose proof (load_conv _ _ s _ _ HA Hr) as Hc.
  pose proof (conv_mod szr (ldn (nbytes szr) (M s) a) Hv) as Hm. rewrite Hc in Hm. clear Hc Hr.
  apply valid_cases in Hv. assert (Ha : 1 <= absz szr) by (clear Hm; lia). clear Hv.
  set (l := ldn (nbytes szr) (M s) a) in *. revert Hm.
  assert (Hl : l mod 256 = ldn 1 (M s) a).
  { unfold l. unfold nbytes. destruct (Z.to_nat (absz szr)) eqn:E; [lia|]. cbn [X86.ldn].
    rewrite Z.mul_0_r, Z.add_0_r. rewrite Z.mul_comm, Z.mod_add by lia. apply Zmod_mod. }
  rewrite <- Hl.
  assert (Hd : (256 | 2 ^ (8 * absz szr))).
  { exists (2 ^ (8 * absz szr - 8)). change 256 with (2 ^ 8). rewrite <- Z.pow_add_r by lia. f_equal. lia. }
  assert (Hp : 0 < 2 ^ (8 * absz szr)) by (apply Z.pow_pos_nonneg; lia).
  intros Hm. transitivity (b mod 256); [|apply Z.mod_small; clear Hm; lia].
  rewrite (Znumtheory.Zmod_div_mod 256 (2 ^ (8 * absz szr)) l) by (auto; clear Hm; lia).
  rewrite (Znumtheory.Zmod_div_mod 256 (2 ^ (8 * absz szr)) b) by (auto; clear Hm; lia).
  now rewrite Hm.
Qed.
Lemma low_range n old v : 0 <= old < P -> 0 <= n <= W -> 0 <= low n old v < P.
Proof.
  intros Ho Hn. unfold low, ub, wrap.
  assert (Hp : 0 < 2 ^ (8 * n)) by (apply Z.pow_pos_nonneg; lia).
  assert (EP : P = 2 ^ (8 * n) * 2 ^ (8 * W - 8 * n)).
  { rewrite <- Z.pow_add_r by lia. f_equal. lia. }
  pose proof (Z.mod_pos_bound v (2 ^ (8 * n)) Hp) as B1.
  pose proof (Z.mod_pos_bound old (2 ^ (8 * n)) Hp) as B2.
  pose proof (Z.div_mod old (2 ^ (8 * n)) ltac:(lia)) as D.
  assert (old / 2 ^ (8 * n) < 2 ^ (8 * W - 8 * n)) by (apply Z.div_lt_upper_bound; lia).
  assert (0 <= old / 2 ^ (8 * n)) by (apply Z.div_pos; lia).
  set (q := old / 2 ^ (8 * n)) in *. set (p := 2 ^ (8 * n)) in *. set (k := 2 ^ (8 * W - 8 * n)) in *.
  replace (old - old mod p) with (p * q) by lia.
  rewrite EP. clear EP D B2 Ho. nia.
Qed.

Lemma shift_ok i kr szr m s b v :
  regs s -> agree m (M s) -> valid szr -> src_at kr szr m s b -> b < 8 * W ->
  (match i with
   | Ishl => v = word (ea s * 2 ^ b) | Isar => v = word (sint (ea s) / 2 ^ b) | Ishr => v = ea s / 2 ^ b
   | _ => False end) ->
  exists c s', gen_shift W i kr = Some c /\ execs c s = Some s' /\ op_post s v s'.
Proof.
  intros HR HA Hv Hs Hb Hval. pose proof HR as (Ra & Rb & Rc & Rd & Rs & Rbp).
  pose proof P_pos as PP.
  assert (Hb0 : 0 <= b).
  { destruct Hs as (_ & Hacc & Hr). destruct (is_acc kr); [specialize (Hacc eq_refl); lia|].
    specialize (Hr eq_refl). eapply rval_range in Hr; eauto; lia. }
  assert (Hb32 : b < 32) by (destruct HW; lia).
  assert (Hvr : i = Ishr -> 0 <= v < P).
  { intros ->. subst v. split; [apply Z.div_pos; [lia|apply Z.pow_pos_nonneg; lia]|].
    eapply Z.le_lt_trans; [|apply Ra]. apply Z.div_le_upper_bound; [apply Z.pow_pos_nonneg; lia|].
    assert (0 < 2 ^ b) by (apply Z.pow_pos_nonneg; lia). nia. }
  assert (E : forall x s1, ea s1 = ea s -> (exists b', rd W addr 1 x s1 = Some b' /\ b' mod 32 = b) ->
            exec (I2 i RA x) s1 = Some (set_ea v (set_fl None s1))).
  { intros x s1 Ea (b' & Hrd & Hm). destruct i; try contradiction; cbn [X86.exec width obind rd];
      rewrite Hrd; cbn [obind wr]; st_simp; rewrite Hm, Ea, ub_small by auto; rewrite low_W by auto; f_equal; f_equal; subst v; try reflexivity.
    apply uw_small. auto. }
  assert (Hb256 : forall z, z mod 256 = b -> wrap 8 z mod 32 = b).
  { intros z Hz. unfold wrap. change (2 ^ 8) with 256. rewrite Hz. apply Z.mod_small. lia. }
  assert (HwP : forall z, uw z = b -> wrap 8 z mod 32 = b).
  { intros z Hz. apply Hb256. rewrite <- Hz. unfold X86.uw, wrap.
    assert (Hd : (256 | P)).
    { destruct HW as [EW|EW]; rewrite EW; [exists 256|exists (256 ^ 3)]; reflexivity. }
    assert (Hz2 : z mod P mod 256 = z mod 256).
    { symmetry. apply Znumtheory.Zmod_div_mod; auto; lia. }
    rewrite <- Hz2. fold (wrap (8 * W) z). change (wrap (8 * W) z) with (uw z). rewrite Hz. apply Z.mod_small. lia. }
  assert (Hgv : 0 <= v < P).
  { destruct i; try contradiction; subst v; try apply uw_range; auto. }
  assert (Hone : forall c x s1, gen_shift W i kr = Some (c ++ [I2 i RA x]) -> execs c s = Some s1 -> regs s1 ->
     ea s1 = ea s -> eb s1 = eb s -> esp s1 = esp s -> M s1 = M s ->
     (exists b', rd W addr 1 x s1 = Some b' /\ b' mod 32 = b) ->
     exists c s', gen_shift W i kr = Some c /\ execs c s = Some s' /\ op_post s v s').
  { intros c x s1 Hg Hc (? & ? & ? & ? & ? & ?) Ea Eb Es Em Hx. eexists _, _. split; [exact Hg|].
    rewrite execs_app, Hc. cbn [execs obind]. rewrite E by auto. split; [reflexivity|].
    unfold op_post. st_simp. regs_tac. }
  assert (Hg2 : forall x, gen2 W i RA x = [I2 i RA x]) by (destruct i; contradiction || reflexivity).
  destruct Hs as (Hop & Hacc & Hr).
  destruct kr; cbn [rval is_acc is_op gsrc] in *; try discriminate; cbn [gen_shift] in *; rewrite ?Hg2 in *;
    try (specialize (Hr eq_refl)); try (injection Hr as Hr).
  - apply (Hone [] (XC n) s); auto. cbn [rd]. eexists; split; [reflexivity|]. now apply HwP.
  - apply (Hone [] (XC n) s); auto. cbn [rd]. eexists; split; [reflexivity|]. now apply HwP.
  - apply (Hone [] (XLab id) s); auto. cbn [rd]. eexists; split; [reflexivity|]. now apply HwP.
  - apply (Hone (gen2 W Ilea RC (MLoc MI ofs)) RCB (set_ec b s)); auto.
    + cbn [gen2 execs X86.exec width obind ofsof wr]. rewrite low_uw by auto. rewrite Rbp. subst b. reflexivity.
    + assert (0 <= b < P) by (subst b; apply uw_range). st_simp. regs_tac.
    + cbn [rd]. st_simp. eexists; split; [reflexivity|]. apply HwP. apply uw_small. subst b. apply uw_range.
  - destruct (Hacc eq_refl) as [He Hbr]. apply (Hone [] RCB s); auto.
    cbn [rd]. eexists; split; [reflexivity|]. apply HwP. rewrite He. now apply uw_small.
  - assert (Hl : ldn 1 (M s) (uw (addr id)) = b).
    { eapply load_byte; [exact Hv|exact HA|exact Hr|lia]. }
    apply (Hone [I2 Imov RCB (MLab MI id)] RCB (set_ec (low 1 (ec s) b) s)); auto.
    + cbn [execs X86.exec width2 width obind]. change (MLab MI id) with (mop (KLab id) MI). rewrite rd_mop.
      cbn [obind maddr wr]. change (Z.to_nat 1) with 1%nat. rewrite Hl. reflexivity.
    + assert (0 <= low 1 (ec s) b < P) by (apply low_range; auto; destruct HW; lia). st_simp. regs_tac.
    + cbn [rd]. st_simp. eexists; split; [reflexivity|]. rewrite ub_low by lia. apply Hb256. apply Z.mod_small. lia.
  - assert (Hl : ldn 1 (M s) (uw (bp + ofs)) = b).
    { eapply load_byte; [exact Hv|exact HA|exact Hr|lia]. }
    apply (Hone [I2 Imov RCB (MLoc MI ofs)] RCB (set_ec (low 1 (ec s) b) s)); auto.
    + cbn [execs X86.exec width2 width obind]. change (MLoc MI ofs) with (mop (KLoc ofs) MI). rewrite rd_mop.
      cbn [obind maddr wr]. rewrite Rbp. change (Z.to_nat 1) with 1%nat. rewrite Hl. reflexivity.
    + assert (0 <= low 1 (ec s) b < P) by (apply low_range; auto; destruct HW; lia). st_simp. regs_tac.
    + cbn [rd]. st_simp. eexists; split; [reflexivity|]. rewrite ub_low by lia. apply Hb256. apply Z.mod_small. lia.
  - destruct (Hacc eq_refl) as [He Hbr]. apply (Hone [] RCB s); auto.
    cbn [rd]. eexists; split; [reflexivity|]. apply HwP. rewrite He. now apply uw_small.
Qed.

Lemma arith_ok o kr szr m s b v :
  regs s -> agree m (M s) -> valid szr -> src_at kr szr m s b -> arith_val o (ea s) b = Some v ->
  exists c s', gen_arith W (tok_arith o) kr szr = Some c /\ execs c s = Some s' /\ op_post s v s'.
Proof.
  intros HR HA Hv Hs Hval. pose proof HR as (Ra & Rb & Rc & Rd & Rs & Rbp).
  assert (Halu : forall i v0, v = uw v0 -> alu i (ea s) b = Some v0 ->
     (match i with Iadd | Isub | Iand | Ixor | Ior => True | _ => False end) ->
     exists c s', gen_op2 W i kr szr = Some c /\ execs c s = Some s' /\ op_post s v s').
  { intros i v0 Ev Hi1 Hi2. destruct Hs as (H1 & H2 & H3).
    destruct (right_src kr szr m s b HR HA Hv H1 H2 H3)
      as (pre & x & s1 & E1 & (R1 & R2 & R3 & R4 & R5 & R6) & Ea & Eb & Ed & Es & Em & Hrd & Hb & Hxc & Hg).
    rewrite <- Ea in Hi1.
    destruct (gen2_alu i x s1 b v0 R1 Hrd Hb Hi1 Hi2 Hxc) as (s2 & E2 & Q1 & Q2 & Q3 & Q4 & Q5 & Q6 & Q7).
    exists (pre ++ gen2 W i RA x), s2. split; [apply Hg|]. split; [now rewrite execs_app, E1|].
    unfold op_post. unfold MachSpec.regs. rewrite Q1, Q2, Q3, Q4, Q5, Q6, Q7, Ev. pose proof (uw_range v0).
    repeat split; auto; try lia; congruence. }
  assert (Hb : 0 <= b < P).
  { destruct Hs as (_ & Hacc & Hr). destruct (is_acc kr); [apply Hacc; auto|]. specialize (Hr eq_refl).
    eapply rval_range in Hr; eauto. pose proof P_pos; lia. }
  destruct (logic_range (ea s) b Ra Hb) as (L1 & L2 & L3).
  destruct o; cbn [tok_arith gen_arith].
  - injection Hval as <-. eapply Halu; [reflexivity|reflexivity|exact I].
  - injection Hval as <-. eapply Halu; [reflexivity|reflexivity|exact I].
  - injection Hval as <-. eapply Halu; [|reflexivity|exact I]. now rewrite uw_small.
  - injection Hval as <-. eapply Halu; [|reflexivity|exact I]. now rewrite uw_small.
  - injection Hval as <-. eapply Halu; [|reflexivity|exact I]. now rewrite uw_small.
  - injection Hval as <-. now apply mul_ok with m.
  - now apply div_ok with m b.
  - now apply div_ok with m b.
  - now apply div_ok with m b.
  - now apply div_ok with m b.
  - cbn [ExprSpec.arith_val] in Hval. destruct (Z.ltb_spec b (8 * W)); [|discriminate]. injection Hval as <-.
    now apply shift_ok with szr m b.
  - cbn [ExprSpec.arith_val] in Hval. destruct (Z.ltb_spec b (8 * W)); [|discriminate]. injection Hval as <-.
    now apply shift_ok with szr m b.
  - cbn [ExprSpec.arith_val] in Hval. destruct (Z.ltb_spec b (8 * W)); [|discriminate]. injection Hval as <-.
    now apply shift_ok with szr m b.
Qed.

Lemma cmp_ok kr szr m s b :
  regs s -> agree m (M s) -> valid szr -> src_at kr szr m s b ->
  exists c s', gen_op2 W Icmp kr szr = Some c /\ execs c s = Some s' /\ op_post s (ea s) s' /\ fl s' = Some (ea s, b) /\ 0 <= b < P.
Proof.
  intros HR HA Hv Hs. pose proof HR as (Ra & Rb & Rc & Rd & Rs & Rbp).
  assert (Hb : 0 <= b < P).
  { destruct Hs as (_ & Hacc & Hr). destruct (is_acc kr); [apply Hacc; auto|]. specialize (Hr eq_refl).
    eapply rval_range in Hr; eauto. pose proof P_pos; lia. }
  destruct Hs as (H1 & H2 & H3).
  destruct (right_src kr szr m s b HR HA Hv H1 H2 H3)
      as (pre & x & s1 & E1 & (R1 & R2 & R3 & R4 & R5 & R6) & Ea & Eb & Ed & Es & Em & Hrd & Hb' & Hxc & Hg).
  exists (pre ++ gen2 W Icmp RA x), (set_fl (Some (ea s, b)) s1).
  split; [apply Hg|]. split.
  { rewrite execs_app, E1. cbn [obind]. change (gen2 W Icmp RA x) with [I2 Icmp RA x].
    cbn [execs X86.exec width2 width obind rd]. rewrite Hrd. cbn [obind]. rewrite Z.eqb_refl, Ea, ub_small by auto. reflexivity. }
  unfold op_post. st_simp. regs_tac.
Qed.

Lemma condv_cmp c a b : 0 <= a < P -> 0 <= b < P -> condv W (tok_cmp c) a b = cmp_val W c a b.
Proof.
  intros Ha Hb.
  destruct c; cbn [tok_cmp condv cmp_val]; rewrite ?uw_small by auto; auto;
    change (X86.sw W) with (ExprSpec.sint W); rewrite ?Z.gtb_ltb, ?Z.geb_leb; reflexivity.
Qed.

Lemma P_256 : 256 <= P.
Proof. destruct HW as [-> | ->]; cbn; lia. Qed.

(** al := condition, then widened. *)
Lemma setcc_ok c s a b :
  regs s -> fl s = Some (a, b) ->
  execs (gen1 (Isetcc c) RAB ++ (if W =? 2 then [I0 Icbw] else gen2 W Imovzx RA RAB)) s =
    Some (set_ea (if condv W c a b then 1 else 0) s).
Proof.
  intros (Ra & Rb & Rc & Rd & Rs & Rbp) Hf. set (v := if condv W c a b then 1 else 0).
  assert (Hv : v = 0 \/ v = 1) by (unfold v; destruct condv; auto).
  rewrite execs_app. cbn [gen1 execs X86.exec]. rewrite Hf. cbn [obind wr]. fold v.
  assert (HL : ub 1 (low 1 (ea s) v) = v).
  { rewrite ub_low by lia. unfold ub, wrap. apply Z.mod_small. cbn. lia. }
  assert (HLr : 0 <= low 1 (ea s) v < P) by (apply low_range; auto; destruct HW; lia).
  pose proof P_256.
  destruct HW as [EW|EW]; rewrite EW; cbn [Z.eqb Pos.eqb gen2 execs X86.exec width obind rd]; rewrite EW; cbn [Z.eqb Pos.eqb obind wr]; st_simp.
  - replace (swrap 8 (low 1 (ea s) v)) with v.
    + rewrite <- EW at 1. rewrite low_W by auto. rewrite uw_small by lia. reflexivity.
    + unfold ub in HL. rewrite <- swrap_wrap. change (8 * 1) with 8 in HL. rewrite HL. destruct Hv as [-> | ->]; reflexivity.
  - rewrite <- EW, HL, low_W by auto. rewrite uw_small by lia. reflexivity.
Qed.
Lemma setcc_ok' c s a b :
  regs s -> fl s = Some (a, b) ->
  execs (gen1 (Isetcc c) RAB ++ (if W =? 2 then [I0 Icbw] else gen2 W Imovsx RA RAB)) s =
    Some (set_ea (if condv W c a b then 1 else 0) s).
Proof.
  intros HR Hf. rewrite <- (setcc_ok c s a b HR Hf). rewrite !execs_app.
  cbn [gen1 execs X86.exec]. rewrite Hf. cbn [obind wr].
  destruct (Z.eqb_spec W 2); auto. cbn [gen2 execs X86.exec width obind rd wr]. st_simp.
  rewrite ub_low by lia. destruct (condv W c a b); reflexivity.
Qed.

Lemma land_self a : Z.land a a = a.
Proof. apply Z.land_diag. Qed.

Lemma conv_extend sz s :
  valid sz -> 0 <= ea s < P -> execs (gen_extend W sz) s = Some (set_ea (conv sz (ea s)) s).
Proof. intros. now apply extend_ok. Qed.

Lemma unop_ok u s :
  regs s -> u <> EPlus -> (match u with EShort | EUShort => W = 4 | _ => True end) ->
  exists c s', gen_step W [TUn (tok_un u)] 0 = Some (c, 1) /\
    execs c s = Some s' /\ op_post s (unop_val W u (ea s)) s'.
Proof.
  intros HR Hu Hw. pose proof HR as (Ra & Rb & Rc & Rd & Rs & Rbp). pose proof P_256 as P2.
  assert (HI : forall c v s', 0 <= v < P -> execs c s = Some s' -> s' = set_ea v s \/ s' = set_ea v (set_fl None s) \/
                 (exists f, s' = set_ea v (set_fl f s)) -> op_post s v s').
  { intros c v s' Hv _ [->|[->|[f ->]]]; unfold op_post; st_simp; regs_tac. }
  destruct u; try congruence; cbn [tok_un unop_val].
  - eexists _, (set_ea (uw (-1 - ea s)) s). split; [reflexivity|].
    split; [cbn [gen1 execs X86.exec width obind rd wr]; now rewrite ub_small, low_W by auto|].
    unfold op_post. st_simp. regs_tac.
  - eexists _, (set_ea (uw (- ea s)) (set_fl None s)). split; [reflexivity|].
    split; [cbn [gen1 execs X86.exec width obind rd wr]; st_simp; now rewrite ub_small, low_W by auto|].
    unfold op_post. st_simp. regs_tac.
  - eexists _, (set_ea (if ea s =? 0 then 0 else 1) (set_fl (Some (ea s, 0)) s)).
    split; [reflexivity|]. split.
    + rewrite execs_app. change (gen2 W Itest RA RA) with [I2 Itest RA RA].
      cbn [execs X86.exec width2 width obind rd]. rewrite Z.eqb_refl, ub_small, land_self by auto. cbn [obind].
      erewrite setcc_ok'; [|st_simp; exact HR|reflexivity]. cbn [condv]. rewrite !uw_small by lia.
      destruct (ea s =? 0); reflexivity.
    + unfold op_post. st_simp. destruct (ea s =? 0); regs_tac.
  - eexists _, s. split; [reflexivity|]. split; [reflexivity|]. unfold op_post. regs_tac.
  - change (gen_step W [TUn UUChar] 0) with (Some (gen2 W Iand RA (XC 255), 1)).
    assert (E : Z.land (ea s) 255 = conv 1 (ea s)).
    { unfold ExprSpec.conv. destruct (Z.eqb_spec 1 W); [destruct HW; lia|].
      change 255 with (Z.ones 8). rewrite Z.land_ones by lia. reflexivity. }
    eexists _, (set_ea (conv 1 (ea s)) (set_fl None s)). split; [reflexivity|].
    assert (V1 : valid 1) by (left; auto). pose proof (conv_range 1 (ea s) V1).
    split. { cbn [gen2 execs X86.exec width2 width obind rd alu wr]; st_simp.
      rewrite (ub_small (ea s)) by auto. rewrite (ub_small 255) by lia. rewrite low_W by auto. rewrite E, uw_small by auto. reflexivity. }
    unfold op_post. st_simp. regs_tac.
  - change (gen_step W [TUn USChar] 0) with (Some (if W =? 2 then [I0 Icbw] else gen2 W Imovsx RA RAB, 1)).
    assert (E : (if W =? 2 then [I0 Icbw] else gen2 W Imovsx RA RAB) = gen_extend W (-1)) by (unfold gen_extend; destruct (W =? 2); reflexivity).
    assert (V1 : valid (-1)) by (right; left; auto). pose proof (conv_range (-1) (ea s) V1).
    eexists _, _. split; [reflexivity|]. rewrite E. rewrite conv_extend by auto. split; [reflexivity|].
    unfold op_post. st_simp. regs_tac.
  - change (gen_step W [TUn UShort] 0) with (Some (gen2 W Imovsx RA RAH, 1)).
    assert (E : gen2 W Imovsx RA RAH = gen_extend W (-2)) by (unfold gen_extend; rewrite Hw; reflexivity).
    assert (V1 : valid (-2)) by (do 3 right; auto). pose proof (conv_range (-2) (ea s) V1).
    eexists _, _. split; [reflexivity|]. rewrite E. rewrite conv_extend by auto. split; [reflexivity|].
    unfold op_post. st_simp. regs_tac.
  - change (gen_step W [TUn UUShort] 0) with (Some (gen2 W Imovzx RA RAH, 1)).
    assert (E : gen2 W Imovzx RA RAH = gen_extend W 2) by (unfold gen_extend; rewrite Hw; reflexivity).
    assert (V1 : valid 2) by (do 3 right; auto). pose proof (conv_range 2 (ea s) V1).
    eexists _, _. split; [reflexivity|]. rewrite E. rewrite conv_extend by auto. split; [reflexivity|].
    unfold op_post. st_simp. regs_tac.
Qed.

(** ** Writing *)
Definition keepm s s' := forall x, lo <= x < top \/ prot x -> M s' x = M s x.
Lemma absz_n sz : valid sz -> 8 * Z.of_nat (nbytes sz) = 8 * absz sz.
Proof. intros H. apply valid_cases in H. unfold nbytes. lia. Qed.

Lemma store_ok k sz m m' s v :
  regs s -> agree m (M s) -> valid sz -> store sz m (maddr k s) v = Some m' ->
  ea s mod 2 ^ (8 * absz sz) = v mod 2 ^ (8 * absz sz) ->
  exists s', execs (gen2 W Imov (mop k MI) (selA W sz) ++ gen_extend W sz) s = Some s' /\
    regs s' /\ agree m' (M s') /\ keepm s s' /\ ea s' = conv sz v /\ eb s' = eb s /\ ec s' = ec s /\ esp s' = esp s.
Proof.
  intros HR HA Hv Hs Hm. pose proof HR as (Ra & Rb & Rc & Rd & Rs & Rbp).
  change (gen2 W Imov (mop k MI) (selA W sz)) with [I2 Imov (mop k MI) (selA W sz)].
  rewrite execs_app. cbn [execs]. rewrite write_ok by auto. cbn [obind].
  erewrite extend_ok; [|auto|auto|exact Hm].
  eexists. split; [reflexivity|]. st_simp.
  pose proof (conv_range sz v Hv).
  assert (G : agree m' (stn (nbytes sz) (M s) (maddr k s) (ub (absz sz) (ea s))) /\
     forall x, lo <= x < top \/ prot x -> stn (nbytes sz) (M s) (maddr k s) (ub (absz sz) (ea s)) x = M s x).
  { eapply mst_stn; [exact HA|exact Hs|]. rewrite absz_n by auto. unfold ub, wrap. now rewrite Zmod_mod. }
  clear Hm. destruct G as [G1 G2]. split; [regs_tac|]. split; [exact G1|]. split; [exact G2|]. auto.
Qed.

Lemma mld_bound n : forall m f a v, agree m f -> mld (S n) m a = Some v -> 0 <= a /\ a + Z.of_nat (S n) <= P.
Proof.
  induction n; intros m f a v HA H.
  - cbn [mld] in H. apply obind_Some in H as (b & Hb & _). destruct (HA _ _ Hb). lia.
  - change (mld (S (S n)) m a) with (let? b := m a in let? r := mld (S n) m (a + 1) in Some (b + 256 * r)) in H.
    apply obind_Some in H as (b & Hb & H). apply obind_Some in H as (r & Hr & _).
    destruct (HA _ _ Hb) as (? & _). apply (IHn _ _ _ _ HA) in Hr. lia.
Qed.
Lemma load_bound sz m f a v : valid sz -> agree m f -> load sz m a = Some v ->
  0 <= a /\ a + Z.of_nat (nbytes sz) <= P.
Proof.
  intros Hv HA H. unfold ExprSpec.load in H. apply obind_Some in H as (x & Hx & _).
  apply valid_cases in Hv. destruct (nbytes sz) eqn:E; [unfold nbytes in E; lia|]. eapply mld_bound; eauto.
Qed.
Lemma stn_same n : forall f a x, 0 <= a -> a + Z.of_nat n <= P -> stn n f a (ldn n f a) x mod 256 = f x mod 256.
Proof.
  induction n; intros f a x H0 H1; cbn [X86.ldn X86.stn]; auto.
  rewrite uw_small by lia.
  assert (E1 : (f a mod 256 + 256 * ldn n f (a + 1)) mod 256 = f a mod 256).
  { rewrite Z.mul_comm, Z.mod_add by lia. apply Zmod_mod. }
  assert (E2 : (f a mod 256 + 256 * ldn n f (a + 1)) / 256 = ldn n f (a + 1)).
  { rewrite Z.mul_comm, Z.div_add by lia. rewrite Z.div_small by (apply Z.mod_pos_bound; lia). lia. }
  rewrite E1, E2. rewrite (ldn_ext n f (upd f a (f a mod 256)) (a + 1)).
  - rewrite IHn by lia. unfold upd. destruct (Z.eqb_spec x a); auto. subst x. apply Zmod_mod.
  - lia.
  - lia.
  - intros y Hy. unfold upd. destruct (Z.eqb_spec y a); auto. lia.
Qed.
Lemma agree_ext m f g : agree m f -> (forall x, g x mod 256 = f x mod 256) -> agree m g.
Proof. intros H E a b Hb. destruct (H a b Hb) as (? & ? & ? & ?). rewrite E. auto. Qed.

Lemma selM_width sz k : valid sz -> width W (mop k (selM W sz)) = Some (absz sz).
Proof.
  intros H. rewrite width_mop. apply valid_cases in H. unfold selM.
  destruct (Z.eqb_spec sz W); [cbn; f_equal; lia|].
  destruct ((sz =? 2) || (sz =? -2)) eqn:E2; cbn; f_equal; lia.
Qed.

Definition modifies (c : list instr) (v v' : Z) (k : mk) (sz : Z) : Prop :=
  (c = [I1 Iinc (mop k (selM W sz))] /\ v' = v + 1) \/
  (c = [I1 Idec (mop k (selM W sz))] /\ v' = v - 1) \/
  (exists n, c = [I2 Iadd (mop k (selM W sz)) (XC n)] /\ v' = v + n) \/
  (exists n, c = [I2 Isub (mop k (selM W sz)) (XC n)] /\ v' = v - n) \/
  (c = [] /\ uw (v' - v) = 0).

Lemma mod_sub_mult a b n : a mod n = b mod n -> forall k, (a + k) mod n = (b + k) mod n.
Proof. intros H k. rewrite Zplus_mod, H, <- Zplus_mod. reflexivity. Qed.
Lemma P_div sz : valid sz -> (2 ^ (8 * absz sz) | P).
Proof.
  intros H. apply valid_cases in H. exists (2 ^ (8 * W - 8 * absz sz)).
  rewrite <- Z.pow_add_r by lia. f_equal. lia.
Qed.

Lemma modify_ok c k sz v v' m m' s :
  modifies c v v' k sz -> regs s -> agree m (M s) -> valid sz ->
  load sz m (maddr k s) = Some v -> store sz m (maddr k s) v' = Some m' ->
  exists s', execs c s = Some s' /\ ea s' = ea s /\ eb s' = eb s /\ ec s' = ec s /\ ed s' = ed s /\ esp s' = esp s /\
    ebp s' = ebp s /\ agree m' (M s') /\ keepm s s' /\
    ldn (nbytes sz) (M s') (maddr k s) mod 2 ^ (8 * absz sz) = v' mod 2 ^ (8 * absz sz).
Proof.
  intros HM HR HA Hv Hl Hs.
  set (a := maddr k s) in *. set (l := ldn (nbytes sz) (M s) a).
  destruct (load_bound _ _ _ _ _ Hv HA Hl) as [B0 B1].
  assert (Ev : v mod 2 ^ (8 * absz sz) = l mod 2 ^ (8 * absz sz)).
  { rewrite <- (load_conv _ _ _ _ _ HA Hl). apply conv_mod. auto. }
  assert (Hn : Z.to_nat (absz sz) = nbytes sz) by reflexivity.
  pose proof (absz_n sz Hv) as Hn8.
  assert (Pp : 0 < 2 ^ (8 * absz sz)) by (apply Z.pow_pos_nonneg; clear; lia).
  assert (HX : forall n, wrap (8 * absz sz) n mod 2 ^ (8 * absz sz) = n mod 2 ^ (8 * absz sz)).
  { intros. unfold wrap. apply Zmod_mod. }
  assert (G : forall l', v' mod 2 ^ (8 * absz sz) = l' mod 2 ^ (8 * absz sz) ->
     agree m' (stn (nbytes sz) (M s) a l') /\
     (forall x, lo <= x < top \/ prot x -> stn (nbytes sz) (M s) a l' x = M s x) /\
     ldn (nbytes sz) (stn (nbytes sz) (M s) a l') a mod 2 ^ (8 * absz sz) = v' mod 2 ^ (8 * absz sz)).
  { intros l' E. rewrite <- Hn8 in E. destruct (mst_stn _ _ _ _ _ l' _ HA Hs E) as [G1 G2].
    split; auto. split; auto. rewrite ldn_stn by auto. rewrite Hn8 in *. rewrite Zmod_mod. auto. }
  assert (W1 : forall i l', exec i s = Some (set_M (stn (nbytes sz) (M s) a l') (set_fl None s)) -> c = [i] ->
     v' mod 2 ^ (8 * absz sz) = l' mod 2 ^ (8 * absz sz) ->
     exists s', execs c s = Some s' /\ ea s' = ea s /\ eb s' = eb s /\ ec s' = ec s /\ ed s' = ed s /\ esp s' = esp s /\
    ebp s' = ebp s /\ agree m' (M s') /\ keepm s s' /\
    ldn (nbytes sz) (M s') a mod 2 ^ (8 * absz sz) = v' mod 2 ^ (8 * absz sz)).
  { intros i l' E1 -> E2. destruct (G l' E2) as (G1 & G2 & G3). cbn [execs]. rewrite E1. eexists. split; [reflexivity|].
    st_simp. split; [auto|]. split; [auto|]. split; [auto|]. split; [auto|]. split; [auto|]. split; [auto|]. split; [exact G1|]. split; [exact G2|]. exact G3. }
  destruct HM as [[-> ->]|[[-> ->]|[(n & -> & ->)|[(n & -> & ->)|[-> Hu]]]]].
  - eapply (W1 (I1 Iinc (mop k (selM W sz))) (l + 1)); [cbn [X86.exec]; rewrite selM_width by auto; cbn [obind]; rewrite rd_mop; cbn [obind]; rewrite wr_mop; reflexivity|reflexivity|].
    now apply mod_sub_mult.
  - eapply (W1 (I1 Idec (mop k (selM W sz))) (l - 1)); [cbn [X86.exec]; rewrite selM_width by auto; cbn [obind]; rewrite rd_mop; cbn [obind]; rewrite wr_mop; reflexivity|reflexivity|].
    now apply (mod_sub_mult _ _ _ Ev (-1)).
  - eapply (W1 (I2 Iadd (mop k (selM W sz)) (XC n)) (l + ub (absz sz) n)); [cbn [X86.exec]; unfold width2; rewrite selM_width by auto; cbn [obind]; rewrite rd_mop; cbn [obind rd]; cbn [alu obind]; rewrite wr_mop; reflexivity|reflexivity|].
    rewrite Zplus_mod, (Zplus_mod l). rewrite Ev. unfold ub. rewrite HX. reflexivity.
  - eapply (W1 (I2 Isub (mop k (selM W sz)) (XC n)) (l - ub (absz sz) n)); [cbn [X86.exec]; unfold width2; rewrite selM_width by auto; cbn [obind]; rewrite rd_mop; cbn [obind rd]; cbn [alu obind]; rewrite wr_mop; reflexivity|reflexivity|].
    rewrite Zminus_mod, (Zminus_mod l). rewrite Ev. unfold ub. rewrite HX. reflexivity.
  - exists s. assert (E : v' mod 2 ^ (8 * absz sz) = l mod 2 ^ (8 * absz sz)).
    { rewrite <- Ev. unfold X86.uw, wrap in Hu. apply Z.mod_divide in Hu; [|clear - HW; destruct HW; subst; discriminate].
      destruct (Z.divide_trans _ _ _ (P_div sz Hv) Hu) as [q Hq]. replace v' with (v + q * 2 ^ (8 * absz sz)) by (clear Hl Hs Ev; lia).
      apply Z.mod_add. clear - Pp; lia. }
    split; [reflexivity|]. do 6 (split; [reflexivity|]). destruct (G l E) as (G1 & G2 & G3).
    split; [|split; [intros x Hx; reflexivity|symmetry; exact E]].
    eapply agree_ext; [exact G1|]. intros x. symmetry. unfold l. apply stn_same; auto.
Qed.

Lemma maddr_ext k s s' : eb s' = eb s -> ebp s' = ebp s -> maddr k s' = maddr k s.
Proof. intros. destruct k; cbn [maddr]; congruence. Qed.

Lemma gen2_modifies add n v k sz :
  modifies (gen2 W (if add : bool then Iadd else Isub) (mop k (selM W sz)) (XC n)) v (if add then v + n else v - n) k sz.
Proof.
  unfold modifies. destruct add; cbn [gen2].
  - destruct (Z.eqb_spec (X86.uw W n) 0) as [E|E]; [do 4 right; split; auto; replace (v + n - v) with n by lia; auto|].
    destruct (Z.eqb_spec n 1) as [->|]; [auto|]. destruct (Z.eqb_spec n (-1)) as [->|]; [right; left; split; auto; lia|].
    right; right; left; eauto.
  - destruct (Z.eqb_spec (X86.uw W n) 0) as [E|E].
    { do 4 right; split; auto. replace (v - n - v) with (0 - n) by lia. unfold X86.uw in *. rewrite <- wrap_sub_r, E. apply (Zmod_0_l (2 ^ (8 * W))). }
    destruct (Z.eqb_spec n (-1)) as [->|]; [left; split; auto; lia|]. destruct (Z.eqb_spec n 1) as [->|]; [auto|].
    right; right; right; left; eauto.
Qed.

Lemma premod_ok c k sz v v' m m' s :
  modifies c v v' k sz -> regs s -> agree m (M s) -> valid sz ->
  load sz m (maddr k s) = Some v -> store sz m (maddr k s) v' = Some m' ->
  exists s', execs (c ++ gen2 W Imov (selA W sz) (mop k MI) ++ gen_extend W sz) s = Some s' /\
    regs s' /\ agree m' (M s') /\ keepm s s' /\ ea s' = conv sz v' /\ esp s' = esp s.
Proof.
  intros HM HR HA Hv Hl Hs. pose proof HR as (Ra & Rb & Rc & Rd & Rs & Rbp).
  destruct (modify_ok _ _ _ _ _ _ _ _ HM HR HA Hv Hl Hs) as (s1 & E & Q1 & Q2 & Q3 & Q4 & Q5 & Q6 & Q7 & Q8 & Q9).
  rewrite execs_app, E. cbn [obind]. change (gen2 W Imov (selA W sz) (mop k MI) ++ gen_extend W sz) with (gen_read W sz (mop k MI)).
  rewrite read_ok by (auto; rewrite Q1; auto). rewrite (maddr_ext k s s1) by auto.
  erewrite conv_ext; [|auto|exact Q9]. clear Q9.
  eexists. split; [reflexivity|]. st_simp. pose proof (conv_range sz v' Hv).
  rewrite Q2, Q3, Q4, Q5, Q6. split; [regs_tac|]. auto.
Qed.
Lemma postmod_ok c k sz v v' m m' s :
  modifies c v v' k sz -> regs s -> agree m (M s) -> valid sz ->
  load sz m (maddr k s) = Some v -> store sz m (maddr k s) v' = Some m' ->
  exists s', execs (gen2 W Imov (selA W sz) (mop k MI) ++ gen_extend W sz ++ c) s = Some s' /\
    regs s' /\ agree m' (M s') /\ keepm s s' /\ ea s' = v /\ esp s' = esp s.
Proof.
  intros HM HR HA Hv Hl Hs. pose proof HR as (Ra & Rb & Rc & Rd & Rs & Rbp).
  rewrite app_assoc. change (gen2 W Imov (selA W sz) (mop k MI) ++ gen_extend W sz) with (gen_read W sz (mop k MI)).
  rewrite execs_app, read_ok by auto. cbn [obind]. rewrite (load_conv _ _ _ _ _ HA Hl).
  destruct (load_range _ _ _ _ _ Hv HA Hl) as [Hr _].
  assert (HR' : regs (set_ea v s)) by (st_simp; regs_tac).
  assert (Em : maddr k (set_ea v s) = maddr k s) by (destruct k; reflexivity). rewrite <- Em in Hl, Hs.
  destruct (modify_ok _ _ _ _ _ _ _ _ HM HR' HA Hv Hl Hs) as (s1 & E & Q1 & Q2 & Q3 & Q4 & Q5 & Q6 & Q7 & Q8 & _).
  exists s1. split; [exact E|]. cbn [set_ea ea eb ec ed esp ebp] in Q1, Q2, Q3, Q4, Q5, Q6.
  split; [unfold MachSpec.regs; rewrite Q1, Q2, Q3, Q4, Q5, Q6; regs_tac|]. auto.
Qed.

(** The memory operand behind an lvalue kind. *)
Lemma gen_lval_ok kk s :
  regs s -> (match kk with OpIndIdent _ | OpIndLocal _ | OpIndAcc => True | _ => False end) ->
  exists p k s1, gen_lval W kk = Some (p, mop k) /\ execs p s = Some s1 /\ regs s1 /\ ea s1 = ea s /\ M s1 = M s /\
    esp s1 = esp s /\ maddr k s1 = laddr kk (ea s).
Proof.
  intros (Ra & Rb & Rc & Rd & Rs & Rbp) Hk. destruct kk; try contradiction; cbn [gen_lval laddr].
  - exists [], (KLab id), s. repeat split; auto; lia.
  - exists [], (KLoc ofs), s. repeat split; auto; try lia. cbn [maddr]. now rewrite Rbp.
  - exists (gen2 W Imov RB RA), KRB, (set_eb (ea s) s). split; [reflexivity|].
    split; [cbn [gen2 execs X86.exec width2 width obind rd wr]; rewrite low_ub, uw_small by auto; reflexivity|].
    st_simp. regs_tac.
Qed.
End Mach.
