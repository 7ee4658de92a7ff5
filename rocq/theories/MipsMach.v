(** What the instructions that are emitted do. *)
From Verif Require Import Base BaseLemmas X86 ExprSpec CgModel CgTree CgMach MipsModel MipsSpec MipsCode.
Ltac Zify.zify_post_hook ::= idtac.
Local Notation HW4 := (or_intror eq_refl : 4 = 2 \/ 4 = 4).

Section Mach.
Variable addr : Z -> Z.
Variables lo top : Z.
Variable prot : Z -> Prop.
Notation P32 := (2 ^ 32).
Notation exec := (MipsSpec.exec addr).
Notation agree := (MipsSpec.agree lo top prot).
Notation nop := (fun _ : Z => False).

Fixpoint execs (c : list mins) (s : mst) : option mst :=
  match c with [] => Some s | i :: c => let? s1 := exec i s in execs c s1 end.
Lemma execs_app c1 c2 s : execs (c1 ++ c2) s = let? s1 := execs c1 s in execs c2 s1.
Proof. revert s. induction c1 as [|i c IH]; intros s; [reflexivity|]. cbn [app execs]. destruct (exec i s); cbn [obind]; auto. Qed.

Definition wd (s : mst) : Prop := forall r, 0 <= R s r < P32.
Definition upd (s s' : mst) (r v : Z) : Prop :=
  R s' r = v /\ (forall x, x <> r -> x <> 1 -> R s' x = R s x) /\ MM s' = MM s /\ 0 <= R s' 1 < P32.
Definition gp (r : Z) : Prop := r <> 0 /\ r <> 1.

Lemma upd_trans s s1 s2 w v1 v2 : upd s s1 w v1 -> upd s1 s2 w v2 -> upd s s2 w v2.
Proof.
  intros (A1 & A2 & A3 & A4) (B1 & B2 & B3 & B4). split; [auto|]. split; [|split; [congruence|auto]].
  intros x H1 H2. rewrite B2, A2; auto.
Qed.
Lemma upd_wd s s' r v : upd s s' r v -> wd s -> 0 <= v < P32 -> wd s'.
Proof.
  intros (A1 & A2 & A3 & A4) W V x. destruct (Z.eq_dec x r) as [->|H1]; [congruence|]. destruct (Z.eq_dec x 1) as [->|H2]; [auto|].
  rewrite A2; auto.
Qed.
Lemma upd_id s r : wd s -> upd s s r (R s r).
Proof. intros W. repeat split; auto; apply W. Qed.
Lemma reg_gp s r : r <> 0 -> reg s r = R s r.
Proof. intros H. unfold reg. replace (r =? 0) with false by lia. reflexivity. Qed.
Lemma reg_rng s r : wd s -> 0 <= reg s r < P32.
Proof. intros W. unfold reg. destruct (r =? 0); [lia|apply W]. Qed.
Lemma w32_rng z : 0 <= w32 z < P32.
Proof. apply wrap_range. lia. Qed.
Lemma w32_small z : 0 <= z < P32 -> w32 z = z.
Proof. apply wrap_small. Qed.
Lemma R_setr r v s x : r <> 0 -> R (setr r v s) x = if x =? r then v else R s x.
Proof. intros H. unfold setr. replace (r =? 0) with false by lia. reflexivity. Qed.
Lemma MM_setr r v s : MM (setr r v s) = MM s.
Proof. unfold setr. destruct (r =? 0); reflexivity. Qed.
Lemma setr_upd s r v : wd s -> gp r -> upd s (setr r v s) r v.
Proof.
  intros W [H0 H1]. unfold upd. rewrite !R_setr, MM_setr, Z.eqb_refl by assumption. split; [reflexivity|]. split; [|split; [reflexivity|]].
  - intros x Hx _. rewrite R_setr by assumption. now replace (x =? r) with false by lia.
  - replace (1 =? r) with false by lia. apply W.
Qed.
Lemma setr_upd1 s r v c : gp r -> 0 <= c < P32 -> upd s (setr r v (setr 1 c s)) r v.
Proof.
  intros [H0 H1] Hc. unfold upd. rewrite !R_setr, !MM_setr, Z.eqb_refl by (assumption || lia). split; [reflexivity|]. split; [|split; [reflexivity|]].
  - intros x Hx Hx1. rewrite R_setr by assumption. replace (x =? r) with false by lia. rewrite R_setr by lia. now replace (x =? 1) with false by lia.
  - replace (1 =? r) with false by lia. cbn. exact Hc.
Qed.

Lemma li_ok r n s : wd s -> gp r -> exists s', execs [Mli r n] s = Some s' /\ upd s s' r (w32 n).
Proof. intros W G. eexists. split; [reflexivity|]. now apply setr_upd. Qed.
Lemma la_ok r id s : wd s -> gp r -> exists s', execs [Mla r id] s = Some s' /\ upd s s' r (w32 (addr id)).
Proof. intros W G. eexists. split; [reflexivity|]. now apply setr_upd. Qed.
Lemma move_ok r q s : wd s -> gp r -> q <> 0 -> exists s', execs [Mmove r q] s = Some s' /\ upd s s' r (R s q).
Proof. intros W G Q. eexists. split; [reflexivity|]. cbn [obind]. rewrite reg_gp by assumption. now apply setr_upd. Qed.
Lemma hl s s' a b r v : upd s s' r v -> upd s (mkm (R s') (MM s') a b) r v.
Proof. auto. Qed.
Lemma gen3_ok op rd rs rt s : wd s -> gp rd -> exists s', execs (gen3 op rd rs rt) s = Some s' /\ upd s s' rd (aluv op (reg s rs) (reg s rt)).
Proof.
  intros W G. pose proof (setr_upd s rd (aluv op (reg s rs) (reg s rt)) W G) as U.
  destruct op; eexists; (split; [reflexivity|]); exact U.
Qed.
Lemma alui_ok op rd rs n s : wd s -> gp rd -> rs <> 0 -> exists s', execs [Malu op rd rs (OC n)] s = Some s' /\ upd s s' rd (aluv op (R s rs) (w32 n)).
Proof.
  intros W G Q. pose proof (setr_upd1 s rd (aluv op (R s rs) (w32 n)) (w32 n) G (w32_rng n)) as U.
  rewrite <- (reg_gp s rs Q) in *. destruct op; eexists; (split; [reflexivity|]); exact U.
Qed.
Lemma gen3c_ok op rd rs n s : wd s -> gp rd -> rs <> 0 -> exists s', execs (gen3c op rd rs n) s = Some s' /\ upd s s' rd (aluv op (R s rs) (w32 n)).
Proof.
  intros W G Q. unfold gen3c. destruct op; try (now apply alui_ok);
    (destruct ((n =? 0) && (rd =? rs)) eqn:E; [|now apply alui_ok]);
    apply andb_prop in E as [E1 E2]; assert (n = 0) as -> by lia; assert (rs = rd) as -> by lia;
    exists s; (split; [reflexivity|]); cbn [aluv]; rewrite (w32_small 0) by lia; rewrite ?Z.add_0_r, ?Z.sub_0_r;
    rewrite w32_small by apply W; now apply upd_id.
Qed.

(** *** Arithmetic *)
Lemma aluv_ok o a b v : 0 <= a < P32 -> 0 <= b < P32 -> is_div (tok_arith o) = None -> arith_val 4 o a b = Some v ->
  aluv (alu_of (tok_arith o)) a b = v.
Proof.
  intros Ha Hb. destruct o; cbn [tok_arith is_div alu_of aluv arith_val]; try discriminate; intros _; try (intros [= <-]; reflexivity);
    change (8 * 4) with 32; (destruct (Z.ltb_spec b 32); [|discriminate]); intros [= <-]; rewrite (Z.mod_small b) by lia; reflexivity.
Qed.
Lemma s32_0 a : 0 <= a < P32 -> s32 a = 0 -> a = 0.
Proof.
  intros Ha H. rewrite <- (w32_small a Ha). unfold w32. rewrite <- (wrap_swrap 32) by lia. unfold s32 in H. rewrite H. reflexivity.
Qed.
Lemma gen_bin_ok o w L Rr s v : wd s -> gp w -> arith_val 4 o (reg s L) (reg s Rr) = Some v ->
  exists s', execs (gen_bin (tok_arith o) w L Rr) s = Some s' /\ upd s s' w v.
Proof.
  intros W G V. pose proof (reg_rng s L W) as HL. pose proof (reg_rng s Rr W) as HR. unfold gen_bin.
  destruct (is_div (tok_arith o)) as [[sgn rem]|] eqn:E.
  2:{ rewrite <- (aluv_ok o _ _ v HL HR E V). now apply gen3_ok. }
  assert (Fin : forall h l, wd (mkm (R s) (MM s) h l)) by (intros h l; exact W).
  Ltac fin Fin G := cbn [obind]; eexists; (split; [reflexivity|]);
    match goal with |- upd _ (setr _ _ (mkm _ _ ?h ?l)) _ _ => apply (setr_upd (mkm _ _ h l) _ _ (Fin h l) G) end.
  Ltac sdiv := match goal with V : _ = Some ?v, Fin : _, G : gp _ |- context [reg ?s ?Rr =? 0] =>
    change (sint 4) with s32 in V; change (8 * 4 - 1) with 31 in V;
       (destruct (s32 (reg s Rr) =? 0) eqn:E0; [discriminate V|]); cbn [orb] in V;
       match type of V with (if ?c then _ else _) = _ => destruct c eqn:E1; [discriminate V|] end; injection V as <-;
       (replace (reg s Rr =? 0) with false by (symmetry; apply Z.eqb_neq; intros H; rewrite H in E0; discriminate E0));
       fin Fin G end.
  Ltac udiv := match goal with V : _ = Some ?v, Fin : _, G : gp _ |- context [reg ?s ?Rr =? 0] =>
    (destruct (reg s Rr =? 0) eqn:E0; [discriminate V|]); injection V as <-; fin Fin G end.
  destruct o; cbn [tok_arith is_div] in E; try discriminate E; injection E as <- <-; cbn [arith_val] in V; cbn [execs MipsSpec.exec].
  - sdiv.
  - udiv.
  - sdiv.
  - udiv.
Qed.

(** *** Memory *)
Lemma hilo a : w32 (hi16 a + lo16 a) = w32 a.
Proof.
  unfold hi16, lo16, w32. rewrite wrap_add_l. f_equal. unfold swrap, wrap.
  change (2 ^ 16) with 65536. change (2 ^ (16 - 1)) with 32768.
  pose proof (Z.div_mod a 65536 ltac:(lia)) as D. pose proof (Z.mod_pos_bound a 65536 ltac:(lia)) as B.
  destruct (a mod 65536 <? 32768) eqn:E; cbv zeta.
  - replace ((a + 32768) / 65536) with (a / 65536); [lia|]. apply Z.div_unique with (r := a mod 65536 + 32768); lia.
  - replace ((a + 32768) / 65536) with (a / 65536 + 1); [lia|]. apply Z.div_unique with (r := a mod 65536 - 32768); lia.
Qed.
Definition paddr (s : mst) (p : place) : Z :=
  match p with PId id => w32 (addr id) | PLoc o => w32 (R s 30 + o) | PReg r => R s r end.
Definition pgp (p : place) : Prop := match p with PReg r => gp r | _ => True end.
Lemma valid4 sz : valid_size 4 sz -> sz = 1 \/ sz = -1 \/ sz = 2 \/ sz = -2 \/ sz = 4.
Proof. intros [H|[H|[H|[_ H]]]]; tauto. Qed.
Lemma lsize_ok sz : valid_size 4 sz -> lsize sz = sz.
Proof. intros H. destruct (valid4 sz H) as [->|[->|[->|[->| ->]]]]; reflexivity. Qed.
Lemma load_val sz m s a v : valid_size 4 sz -> agree m (MM s) -> load 4 sz m a = Some v ->
  (if sz <? 0 then w32 (swrap (8 * Z.abs sz) (ldn 4 (Z.to_nat (Z.abs sz)) (MM s) a)) else ldn 4 (Z.to_nat (Z.abs sz)) (MM s) a) = v.
Proof.
  intros Hv HA Hl. unfold load in Hl. destruct (mld (nbytes sz) m a) as [x|] eqn:E; [|discriminate]. injection Hl as <-.
  pose proof (mld_ldn 4 lo top prot _ m (MM s) a x HA E) as L. unfold nbytes in L. rewrite L.
  pose proof (ldn_range 4 HW4 addr nop (Z.to_nat (Z.abs sz)) (MM s) a) as G. rewrite L in G. unfold conv, word, w32.
  change (8 * 4) with 32.
  destruct (valid4 sz Hv) as [->|[->|[->|[->| ->]]]]; cbn [Z.eqb Pos.eqb Z.ltb Z.compare]; try reflexivity;
    symmetry; apply wrap_small; exact G.
Qed.
Lemma gread_ok p rd sz s m v : wd s -> agree m (MM s) -> valid_size 4 sz -> load 4 sz m (paddr s p) = Some v ->
  paddr s p mod Z.abs sz = 0 -> gp rd -> pgp p ->
  exists s', execs (gread p rd sz) s = Some s' /\ upd s s' rd v.
Proof.
  intros W HA Hv Hl Al G Gp. pose proof (load_val _ _ _ _ _ Hv HA Hl) as LV.
  destruct p as [id|o|r]; cbn [gread paddr] in *; unfold read_ident, read_local, read_ind; rewrite lsize_ok by assumption; cbn [execs MipsSpec.exec obind].
  - set (s1 := setr 1 (hi16 (addr id)) s).
    assert (E : ea addr s1 (ALo id) = w32 (addr id)).
    { unfold ea, s1. rewrite reg_gp, R_setr by lia. cbn [Z.eqb Pos.eqb]. apply hilo. }
    rewrite E, Al. cbn [Z.eqb obind]. eexists. split; [reflexivity|]. unfold s1 at 1 2. rewrite MM_setr, LV. cbn [clobA].
    apply setr_upd1; [assumption|apply w32_rng].
  - assert (E : ea addr s (AInd o rFP) = w32 (R s 30 + o)) by reflexivity.
    rewrite E, Al. cbn [Z.eqb obind]. eexists. split; [reflexivity|]. rewrite LV. cbn [clobA].
    apply setr_upd1; [assumption|apply w32_rng].
  - destruct Gp as [Gp _]. assert (E : ea addr s (AInd 0 r) = R s r) by (unfold ea; rewrite reg_gp, Z.add_0_r by assumption; apply w32_small, W).
    rewrite E, Al. cbn [Z.eqb obind]. eexists. split; [reflexivity|]. rewrite LV. cbn [clobA].
    apply setr_upd1; [assumption|apply w32_rng].
Qed.
Definition updm (s s' : mst) (m' : mem) : Prop :=
  (forall x, x <> 1 -> R s' x = R s x) /\ 0 <= R s' 1 < P32 /\ agree m' (MM s') /\
  (forall a, lo <= a < top \/ prot a -> MM s' a = MM s a).
Lemma updm_wd s s' m' : updm s s' m' -> wd s -> wd s'.
Proof. intros (A1 & A2 & _) W x. destruct (Z.eq_dec x 1) as [->|H]; [auto|]. rewrite A1; auto. Qed.
Lemma gwrite_ok p rs sz s m m' v : wd s -> agree m (MM s) -> valid_size 4 sz -> store sz m (paddr s p) v = Some m' ->
  paddr s p mod Z.abs sz = 0 -> pgp p -> rs <> 1 -> reg s rs mod 2 ^ (8 * Z.abs sz) = v mod 2 ^ (8 * Z.abs sz) ->
  exists s', execs (gwrite p rs sz) s = Some s' /\ updm s s' m'.
Proof.
  intros W HA Hv Hs Al Gp Grs Hr. unfold store in Hs.
  assert (N : 8 * Z.of_nat (nbytes sz) = 8 * Z.abs sz) by (unfold nbytes; lia).
  assert (Q : forall r, r mod 2 ^ (8 * Z.abs sz) = v mod 2 ^ (8 * Z.abs sz) -> forall f, agree m f ->
     agree m' (stn 4 (Z.to_nat (Z.abs sz)) f (paddr s p) r) /\ (forall x, lo <= x < top \/ prot x -> stn 4 (Z.to_nat (Z.abs sz)) f (paddr s p) r x = f x)).
  { intros r Hr' f Hf. apply (mst_stn 4 HW4 addr lo top prot (nbytes sz) m f (paddr s p) v r m' Hf Hs). rewrite N. now symmetry. }
  destruct p as [id|o|r]; cbn [gwrite paddr] in *; unfold write_ident, write_local, write_ind; rewrite lsize_ok by assumption; cbn [execs MipsSpec.exec obind].
  - set (s1 := setr 1 (hi16 (addr id)) s).
    assert (E : ea addr s1 (ALo id) = w32 (addr id)).
    { unfold ea, s1. rewrite reg_gp, R_setr by lia. cbn [Z.eqb Pos.eqb]. apply hilo. }
    rewrite E, Al. cbn [Z.eqb obind]. eexists. split; [reflexivity|]. cbn [clobA].
    assert (E1 : reg s1 rs = reg s rs).
    { unfold reg, s1. destruct (rs =? 0); [reflexivity|]. rewrite R_setr by lia. now replace (rs =? 1) with false by lia. }
    unfold updm. cbn [setm R MM]. rewrite E1. unfold s1. rewrite MM_setr. destruct (Q _ Hr _ HA) as [Q1 Q2].
    split; [|split; [|split; [exact Q1|exact Q2]]].
    + intros x Hx. rewrite R_setr by lia. now replace (x =? 1) with false by lia.
    + rewrite R_setr by lia. cbn [Z.eqb Pos.eqb]. apply w32_rng.
  - assert (E : ea addr s (AInd o rFP) = w32 (R s 30 + o)) by reflexivity.
    rewrite E, Al. cbn [Z.eqb obind]. eexists. split; [reflexivity|]. cbn [clobA]. destruct (Q _ Hr _ HA) as [Q1 Q2].
    unfold updm. rewrite !MM_setr. split; [|split; [|split; [exact Q1|exact Q2]]].
    + intros x Hx. rewrite R_setr by lia. now replace (x =? 1) with false by lia.
    + rewrite R_setr by lia. cbn [Z.eqb Pos.eqb]. apply w32_rng.
  - destruct Gp as [Gp _]. assert (E : ea addr s (AInd 0 r) = R s r) by (unfold ea; rewrite reg_gp, Z.add_0_r by assumption; apply w32_small, W).
    rewrite E, Al. cbn [Z.eqb obind]. eexists. split; [reflexivity|]. cbn [clobA]. destruct (Q _ Hr _ HA) as [Q1 Q2].
    unfold updm. rewrite !MM_setr. split; [|split; [|split; [exact Q1|exact Q2]]].
    + intros x Hx. rewrite R_setr by lia. now replace (x =? 1) with false by lia.
    + rewrite R_setr by lia. cbn [Z.eqb Pos.eqb]. apply w32_rng.
Qed.

Lemma land255 a n : 0 <= n -> 0 <= a -> Z.land a (2 ^ n - 1) = wrap n a.
Proof. intros Hn Ha. rewrite Z.sub_1_r, <- Z.ones_equiv. now apply Z.land_ones. Qed.
Lemma ext_u w n k s : wd s -> gp w -> 0 <= n <= 16 -> k = 2 ^ n - 1 -> exists s', execs (gen3c Mand w w k) s = Some s' /\ upd s s' w (wrap n (R s w)).
Proof.
  intros W G Hn ->. destruct (gen3c_ok Mand w w (2 ^ n - 1) s W G (proj1 G)) as (s' & E & U). exists s'. split; [exact E|].
  cbn [aluv] in U. assert (2 ^ n <= 2 ^ 16) by (apply Z.pow_le_mono_r; lia). pose proof (Z.pow_pos_nonneg 2 n ltac:(lia) ltac:(lia)).
  change (2 ^ 16) with 65536 in *.
  rewrite w32_small in U by (change P32 with 4294967296; lia). rewrite land255 in U; [exact U|lia|apply W].
Qed.
Lemma seb_ok w s : wd s -> gp w -> exists s', execs [Mseb w w] s = Some s' /\ upd s s' w (w32 (swrap 8 (R s w))).
Proof. intros W G. eexists. split; [reflexivity|]. rewrite reg_gp by apply G. now apply setr_upd. Qed.
Lemma seh_ok w s : wd s -> gp w -> exists s', execs [Mseh w w] s = Some s' /\ upd s s' w (w32 (swrap 16 (R s w))).
Proof. intros W G. eexists. split; [reflexivity|]. rewrite reg_gp by apply G. now apply setr_upd. Qed.
Lemma extend_ok w sz s : wd s -> valid_size 4 sz -> gp w -> exists s', execs (gen_extend w sz) s = Some s' /\ upd s s' w (conv 4 sz (R s w)).
Proof.
  intros W Hv G. destruct (valid4 sz Hv) as [->|[->|[->|[->| ->]]]]; unfold gen_extend; cbn [Z.eqb Pos.eqb]; unfold conv; cbn [Z.eqb Pos.eqb Z.ltb Z.compare].
  - now apply ext_u with (n := 8).
  - now apply seb_ok.
  - now apply ext_u with (n := 16).
  - now apply seh_ok.
  - exists s. split; [reflexivity|]. unfold word. change (8 * 4) with 32. change (wrap 32 (R s w)) with (w32 (R s w)). rewrite w32_small by apply W. now apply upd_id.
Qed.
Lemma unc_ok u w s : wd s -> gp w -> exists s', execs (unc u w) s = Some s' /\ upd s s' w (unop_val 4 u (R s w)).
Proof.
  intros W G. pose proof (proj1 G) as G0. destruct u; cbn [unc unop_val].
  - destruct (gen3_ok Mnor w w w s W G) as (s' & E & U). exists s'. split; [exact E|]. cbn [aluv] in U. rewrite reg_gp, Z.lor_diag in U by assumption. exact U.
  - exists s. split; [reflexivity|]. now apply upd_id.
  - destruct (gen3_ok Msubu w 0 w s W G) as (s' & E & U). exists s'. split; [exact E|]. cbn [aluv] in U. rewrite (reg_gp s w) in U by assumption. exact U.
  - destruct (gen3_ok Msltu w 0 w s W G) as (s' & E & U). exists s'. split; [exact E|]. cbn [aluv] in U. rewrite (reg_gp s w) in U by assumption.
    change (reg s 0) with 0 in U. replace (if R s w =? 0 then 0 else 1) with (if 0 <? R s w then 1 else 0); [exact U|].
    specialize (W w). destruct (Z.ltb_spec 0 (R s w)), (Z.eqb_spec (R s w) 0); lia.
  - exists s. split; [reflexivity|]. now apply upd_id.
  - now apply ext_u with (n := 8).
  - now apply seb_ok.
  - now apply seh_ok.
  - now apply ext_u with (n := 16).
Qed.

(** *** Comparisons *)
Definition b2 (b : bool) : Z := if b then 1 else 0.
Lemma b2_rng b : 0 <= b2 b < P32.
Proof. destruct b; cbn; lia. Qed.
Lemma then_c s s1 c1 op w v n : wd s -> gp w -> execs c1 s = Some s1 -> upd s s1 w v -> 0 <= v < P32 ->
  exists s', execs (c1 ++ gen3c op w w n) s = Some s' /\ upd s s' w (aluv op v (w32 n)).
Proof.
  intros W G E U V. destruct (gen3c_ok op w w n s1 (upd_wd _ _ _ _ U W V) G (proj1 G)) as (s' & E' & U'). exists s'.
  rewrite execs_app, E. cbn [obind]. split; [exact E'|]. replace (R s1 w) with v in U' by (symmetry; apply U). eapply upd_trans; eauto.
Qed.
Lemma then_r s s1 c1 w v : wd s -> gp w -> execs c1 s = Some s1 -> upd s s1 w v -> 0 <= v < P32 ->
  exists s', execs (c1 ++ gen3 Msltu w 0 w) s = Some s' /\ upd s s' w (b2 (negb (v =? 0))).
Proof.
  intros W G E U V. destruct (gen3_ok Msltu w 0 w s1 (upd_wd _ _ _ _ U W V) G) as (s' & E' & U'). exists s'.
  rewrite execs_app, E. cbn [obind]. split; [exact E'|]. cbn [aluv] in U'. rewrite (reg_gp s1 w) in U' by apply G. replace (R s1 w) with v in U' by (symmetry; apply U).
  change (reg s1 0) with 0 in U'. replace (b2 (negb (v =? 0))) with (if 0 <? v then 1 else 0); [eapply upd_trans; eauto|].
  unfold b2. destruct (Z.ltb_spec 0 v), (Z.eqb_spec v 0); cbn; lia.
Qed.
Lemma xor1 b : aluv Mxor (b2 b) (w32 1) = b2 (negb b).
Proof. destruct b; reflexivity. Qed.
Lemma sltu1 v : 0 <= v < P32 -> aluv Msltu v (w32 1) = b2 (v =? 0).
Proof. intros H. cbn [aluv]. rewrite w32_small by lia. unfold b2. destruct (Z.ltb_spec v 1), (Z.eqb_spec v 0); lia. Qed.
Lemma lxor_0 a b : (Z.lxor a b =? 0) = (a =? b).
Proof.
  destruct (Z.eqb_spec a b) as [->|H]; [rewrite Z.lxor_nilpotent; reflexivity|]. apply Z.eqb_neq. intros E. apply Z.lxor_eq in E. contradiction.
Qed.
Lemma lxor_rng a b : 0 <= a < P32 -> 0 <= b < P32 -> 0 <= Z.lxor a b < P32.
Proof. intros A B. apply (logic_range 4 HW4 addr nop a b A B). Qed.

Lemma cmp_reg_ok c w L Rr s : wd s -> gp w ->
  exists s', execs (cmp_reg (tok_cmp c) w L Rr) s = Some s' /\ upd s s' w (b2 (cmp_val 4 c (reg s L) (reg s Rr))).
Proof.
  intros W G. pose proof (reg_rng s L W) as HL. pose proof (reg_rng s Rr W) as HR.
  set (a := reg s L) in *. set (b := reg s Rr) in *.
  assert (LT : exists s', execs (gen3 Mslt w L Rr) s = Some s' /\ upd s s' w (b2 (s32 a <? s32 b))) by exact (gen3_ok Mslt w L Rr s W G).
  assert (LTU : exists s', execs (gen3 Msltu w L Rr) s = Some s' /\ upd s s' w (b2 (a <? b))) by exact (gen3_ok Msltu w L Rr s W G).
  assert (GT : exists s', execs (gen3 Mslt w Rr L) s = Some s' /\ upd s s' w (b2 (s32 b <? s32 a))) by exact (gen3_ok Mslt w Rr L s W G).
  assert (GTU : exists s', execs (gen3 Msltu w Rr L) s = Some s' /\ upd s s' w (b2 (b <? a))) by exact (gen3_ok Msltu w Rr L s W G).
  assert (XO : exists s', execs (gen3 Mxor w L Rr) s = Some s' /\ upd s s' w (Z.lxor a b)) by exact (gen3_ok Mxor w L Rr s W G).
  pose proof (lxor_rng a b HL HR) as XR.
  assert (NOT : forall c1 x, (exists s', execs c1 s = Some s' /\ upd s s' w (b2 x)) ->
     exists s', execs (c1 ++ gen3c Mxor w w 1) s = Some s' /\ upd s s' w (b2 (negb x))).
  { intros c1 x (s1 & E1 & U1). rewrite <- xor1. exact (then_c s s1 c1 Mxor w _ 1 W G E1 U1 (b2_rng x)). }
  unfold cmp_reg. destruct c; unfold slt_of; cbn [tok_cmp cmp_op fst snd cmp_blocks Z.eqb Pos.eqb map gen_blk concat app cmp_val];
    rewrite ?app_nil_r; change (sint 4) with s32.
  - exact LT.
  - exact LTU.
  - rewrite Z.gtb_ltb. exact GT.
  - rewrite Z.gtb_ltb. exact GTU.
  - rewrite Z.leb_antisym. apply NOT, GT.
  - rewrite Z.leb_antisym. apply NOT, GTU.
  - rewrite Z.geb_leb, Z.leb_antisym. apply NOT, LT.
  - rewrite Z.geb_leb, Z.leb_antisym. apply NOT, LTU.
  - destruct XO as (s1 & E1 & U1). rewrite <- lxor_0, <- sltu1 by assumption. exact (then_c s s1 _ Msltu w _ 1 W G E1 U1 XR).
  - destruct XO as (s1 & E1 & U1). rewrite <- lxor_0. exact (then_r s s1 _ w _ W G E1 U1 XR).
Qed.

(** Comparison with a constant; the constants for which [k + 1] would overflow are excluded. *)
Definition cmp_fit (c : ecmp) (k : Z) : Prop :=
  match c with
  | ELe | EGt => tru k <> 2147483647
  | EULe | EUGt => tru k <> 4294967295
  | _ => True
  end.
Lemma tri_w k : w32 (tri k) = w32 k.
Proof. unfold w32, tri. apply wrap_swrap. lia. Qed.
Lemma tri_w1 k : w32 (tri k + 1) = w32 (w32 k + 1).
Proof. unfold w32, tri. rewrite <- (wrap_add_l 32 (swrap 32 k)), wrap_swrap by lia. reflexivity. Qed.
Lemma kval k : (if k =? 0 then 0 else tri k) = tri k.
Proof. destruct (Z.eqb_spec k 0) as [->|]; reflexivity. Qed.
Lemma s32_w k : s32 (w32 k) = tri k.
Proof. apply swrap_wrap. Qed.
Lemma s32_eq a : 0 <= a < P32 -> s32 a = if a <? 2147483648 then a else a - 4294967296.
Proof. intros H. apply (sw_eq 4 a H). Qed.
Lemma le_succ c k a : match c with ELe | EGt => True | _ => False end -> cmp_fit c k -> 0 <= a < P32 ->
  (s32 a <? s32 (w32 (w32 k + 1))) = (s32 a <=? tri k).
Proof.
  intros Hc Hf Ha. assert (N : w32 k <> 2147483647) by (destruct c; try contradiction; exact Hf).
  rewrite <- (s32_w k). pose proof (w32_rng k) as K. set (x := w32 k) in *. clearbody x. change P32 with 4294967296 in *.
  destruct (Z.eq_dec x 4294967295) as [->|].
  - change (w32 (4294967295 + 1)) with 0. change (s32 0) with 0. change (s32 4294967295) with (-1). lia.
  - rewrite w32_small by (change P32 with 4294967296; lia). rewrite !s32_eq by (change P32 with 4294967296; lia).
    destruct (Z.ltb_spec a 2147483648), (Z.ltb_spec (x + 1) 2147483648), (Z.ltb_spec x 2147483648); lia.
Qed.
Lemma leu_succ c k a : match c with EULe | EUGt => True | _ => False end -> cmp_fit c k -> 0 <= a < P32 ->
  (a <? w32 (w32 k + 1)) = (a <=? w32 k).
Proof.
  intros Hc Hf Ha. assert (N : w32 k <> 4294967295) by (destruct c; try contradiction; exact Hf).
  pose proof (w32_rng k) as K. set (x := w32 k) in *. clearbody x. change P32 with 4294967296 in *.
  rewrite w32_small by (change P32 with 4294967296; lia). lia.
Qed.

Lemma cmp_imm_ok c k w s : wd s -> gp w -> cmp_fit c k ->
  exists s', execs (cmp_imm (tok_cmp c) k w) s = Some s' /\ upd s s' w (b2 (cmp_val 4 c (R s w) (w32 k))).
Proof.
  intros W G Hf. pose proof (W w) as HL. set (a := R s w) in *. pose proof (proj1 G) as G0.
  assert (rw : reg s w = a) by now apply reg_gp.
  assert (LI : forall op n, exists s', execs (gen3c op w w n) s = Some s' /\ upd s s' w (aluv op a (w32 n))) by (intros; now apply gen3c_ok).
  assert (NOT : forall c1 x, (exists s', execs c1 s = Some s' /\ upd s s' w (b2 x)) ->
     exists s', execs (c1 ++ gen3c Mxor w w 1) s = Some s' /\ upd s s' w (b2 (negb x))).
  { intros c1 x (s1 & E1 & U1). rewrite <- xor1. exact (then_c s s1 c1 Mxor w _ 1 W G E1 U1 (b2_rng x)). }
  assert (R3 : forall op, exists s', execs (gen3 op w w 0) s = Some s' /\ upd s s' w (aluv op a 0)).
  { intros op. pose proof (gen3_ok op w w 0 s W G) as H. rewrite rw in H. exact H. }
  assert (R0 : forall op, exists s', execs (gen3 op w 0 w) s = Some s' /\ upd s s' w (aluv op 0 a)).
  { intros op. pose proof (gen3_ok op w 0 w s W G) as H. rewrite rw in H. exact H. }
  assert (LT : exists s', execs (gen3c Mslt w w (tri k)) s = Some s' /\ upd s s' w (b2 (s32 a <? s32 (w32 k)))).
  { pose proof (LI Mslt (tri k)) as H. cbn [aluv] in H. rewrite tri_w in H. exact H. }
  assert (LTU : exists s', execs (gen3c Msltu w w (tri k)) s = Some s' /\ upd s s' w (b2 (a <? w32 k))).
  { pose proof (LI Msltu (tri k)) as H. cbn [aluv] in H. rewrite tri_w in H. exact H. }
  assert (LE : match c with ELe | EGt => True | _ => False end -> exists s', execs (gen3c Mslt w w (tri k + 1)) s = Some s' /\ upd s s' w (b2 (s32 a <=? s32 (w32 k)))).
  { intros Hc. pose proof (LI Mslt (tri k + 1)) as H. cbn [aluv] in H. rewrite tri_w1, (le_succ c) in H by assumption. rewrite s32_w. exact H. }
  assert (LEU : match c with EULe | EUGt => True | _ => False end -> exists s', execs (gen3c Msltu w w (tri k + 1)) s = Some s' /\ upd s s' w (b2 (a <=? w32 k))).
  { intros Hc. pose proof (LI Msltu (tri k + 1)) as H. cbn [aluv] in H. rewrite tri_w1, (leu_succ c) in H by assumption. exact H. }
  assert (XO : exists s', execs (gen3c Mxor w w (tri k)) s = Some s' /\ upd s s' w (Z.lxor a (w32 k))).
  { pose proof (LI Mxor (tri k)) as H. cbn [aluv] in H. rewrite tri_w in H. exact H. }
  pose proof (lxor_rng a (w32 k) HL (w32_rng k)) as XR.
  unfold cmp_imm. rewrite kval. destruct (Z.eqb_spec k 0) as [->|Hk].
  - change (w32 0) with 0 in *. destruct c; unfold slt_of; cbn [tok_cmp cmp_op fst snd cmp_blocks Z.eqb Pos.eqb map gen_blk concat app cmp_val];
      rewrite ?app_nil_r; change (sint 4) with s32; change (s32 0) with 0 in *.
    + exact (R3 Mslt).
    + exact (R3 Msltu).
    + rewrite Z.gtb_ltb. exact (R0 Mslt).
    + rewrite Z.gtb_ltb. exact (R0 Msltu).
    + exact (LE Logic.I).
    + exact (LEU Logic.I).
    + rewrite Z.geb_leb, Z.leb_antisym. apply NOT, (R3 Mslt).
    + rewrite Z.geb_leb, Z.leb_antisym. apply NOT, (R3 Msltu).
    + rewrite <- sltu1 by assumption. apply LI.
    + replace (b2 (negb (a =? 0))) with (aluv Msltu 0 a); [apply R0|]. cbn [aluv]. unfold b2. destruct (Z.ltb_spec 0 a), (Z.eqb_spec a 0); cbn; lia.
  - destruct c; unfold slt_of; cbn [tok_cmp cmp_op fst snd cmp_blocks Z.eqb Pos.eqb map gen_blk concat app cmp_val];
      rewrite ?app_nil_r; change (sint 4) with s32.
    + exact LT.
    + exact LTU.
    + rewrite Z.gtb_ltb, Z.ltb_antisym. apply NOT, (LE Logic.I).
    + rewrite Z.gtb_ltb, Z.ltb_antisym. apply NOT, (LEU Logic.I).
    + exact (LE Logic.I).
    + exact (LEU Logic.I).
    + rewrite Z.geb_leb, Z.leb_antisym. apply NOT, LT.
    + rewrite Z.geb_leb, Z.leb_antisym. apply NOT, LTU.
    + destruct XO as (s1 & E1 & U1). rewrite <- lxor_0, <- sltu1 by assumption. exact (then_c s s1 _ Msltu w _ 1 W G E1 U1 XR).
    + destruct XO as (s1 & E1 & U1). rewrite <- lxor_0. exact (then_r s s1 _ w _ W G E1 U1 XR).
Qed.
End Mach.
