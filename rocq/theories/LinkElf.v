(** ELF program files (C40, C41). *)
From Verif Require Import Base BaseLemmas LexModel LexSpec LexProof LinkModel LinkSpec LinkReloc LinkResolve LinkLayout LinkFind LinkPlace LinkImage LinkSpan LinkWhole LinkAddr LinkOut.
From Coq Require Import Sorted String Permutation.
Close Scope string_scope.

(** ** pages *)
Lemma low12_ok v : 0 <= v < 2 ^ 32 -> low12 v = v - v mod 4096.
Proof.
  intros V. unfold low12. replace 4294963200 with (Z.ldiff (Z.ones 32) (Z.ones 12)) by reflexivity.
  replace (Z.land v (Z.ldiff (Z.ones 32) (Z.ones 12))) with (Z.ldiff (Z.land v (Z.ones 32)) (Z.ones 12)).
  2: { apply Z.bits_inj'. intros n N. rewrite Z.ldiff_spec, !Z.land_spec, Z.ldiff_spec. destruct (Z.testbit v n), (Z.testbit (Z.ones 32) n), (Z.testbit (Z.ones 12) n); reflexivity. }
  rewrite Z.land_ones by lia. rewrite (Z.mod_small v) by lia. rewrite Z.ldiff_ones_r by lia. rewrite Z.shiftr_div_pow2, Z.shiftl_mul_pow2 by lia.
  change (2 ^ 12) with 4096. lia.
Qed.
(** the first page boundary from [x] on *)
Definition pageUp (x : Z) : Z := (x + 4095) / 4096 * 4096.
Lemma pageUp_ok x : x <= pageUp x < x + 4096 /\ (4096 | pageUp x).
Proof. unfold pageUp. split; [lia|]. exists ((x + 4095) / 4096). reflexivity. Qed.
Lemma pageUp_le x m : x <= m -> (4096 | m) -> pageUp x <= m.
Proof. intros L [k ->]. unfold pageUp. lia. Qed.
Lemma roundup_page a x : roundup a 4096 x -> x = pageUp a.
Proof.
  intros (H1 & H2 & H3). destruct H3 as [H3|[k ->]]; [lia|]. unfold pageUp. lia.
Qed.
Lemma roundup_small a al x : (4096 | a) -> al <= 1 \/ (al | 4096) -> 0 <= al -> roundup a al x -> x = a.
Proof.
  intros [k ->] AL A0 (H1 & H2 & H3). destruct AL as [AL|[j AL]]; [lia|]. destruct H2 as [H2|H2]; [|auto]. destruct H3 as [H3|[i ->]]; [lia|].
  assert (k * 4096 = (k * j) * al) by (rewrite AL; ring). rewrite H in *. assert (i - k * j = 0) by nia. nia.
Qed.
Lemma pow_align a : 0 <= a <= 4096 -> has a (u32 (a - 1)) = false -> a <= 1 \/ (a | 4096).
Proof.
  intros A H. assert (T : forallb (fun n => has (Z.of_nat n) (u32 (Z.of_nat n - 1)) || (Z.of_nat n <=? 1) || (4096 mod Z.of_nat n =? 0)) (seq 0 4097) = true) by (vm_compute; reflexivity).
  rewrite forallb_forall in T. specialize (T (Z.to_nat a)). rewrite Z2Nat.id in T by lia. rewrite H in T. cbn [orb] in T.
  assert (I : In (Z.to_nat a) (seq 0 4097)) by (apply in_seq; lia). specialize (T I). apply orb_true_iff in T as [T|T]; [left; lia|].
  destruct (Z.eq_dec a 0); [left; lia|]. right. apply Z.mod_divide; [auto|lia].
Qed.

(** ** alignments *)
Lemma foldP_align e pass j isData its : forall p p', foldP e pass j isData its p = Ok p' -> Forall (fun it => exists al, alignOf (e_fmt e) isData (isect it) = Ok al) its.
Proof.
  induction its as [|[[[f o] k] s] its IH]; intros p p' H; cbn [foldP] in H; [constructor|].
  destruct (placeSect e pass j isData f o k s p) as [p1| |] eqn:E; try discriminate. cbn [rbind] in H. constructor; [|eapply IH; eauto].
  unfold placeSect in E. cbn. destruct (alignOf (e_fmt e) isData s) as [al| |]; try discriminate. eauto.
Qed.
Lemma passLoop_align e pass l : forall j p p', passLoop e pass j l p = Ok p' ->
  Forall (fun d => Forall (fun it => exists al, alignOf (e_fmt e) (negb (has SHF_EXECINSTR (d_attrs d))) (isect it) = Ok al) (items (d_name d) 0 (e_objs e))) l.
Proof.
  induction l as [|d l IH]; intros j p p' H; [constructor|]. rewrite passLoop_cons in H. cbv zeta in H. rewrite placeObjs_fold in H.
  destruct (foldP _ _ _ _ _ _) as [p1| |] eqn:E1; try discriminate. cbn [rbind] in H.
  match type of H with rbind ?x _ = _ => destruct x as [p2| |] eqn:E2; try discriminate end. cbn [rbind] in H.
  destruct (padAfter e pass d (hd_error l) p2) as [p3| |] eqn:E3; try discriminate. cbn [rbind] in H.
  constructor; [eapply foldP_align; eauto|eapply IH; eauto].
Qed.

(** ** the layout cut after one name *)
Lemma chain_cut e l1 d l2 : forall a gs c, chain e a (l1 ++ d :: l2) gs c ->
  exists g1 g g2 a' b m, gs = g1 ++ g :: g2 /\ List.length g1 = List.length l1 /\ runs (e_fmt e) a g1 a' /\ run (e_fmt e) a' g b /\
    (if padsB e d (hd_error l2) then roundup b 4096 m else m = b) /\ chain e m l2 g2 c.
Proof.
  induction l1 as [|x l1 IH]; intros a gs c CH; cbn [app] in CH.
  - inversion CH; subst. exists [], g, gs0, a, b, b'. split; [reflexivity|]. split; [reflexivity|]. split; [constructor|]. auto.
  - inversion CH as [|? ? ? g0 gs0 b0 b' c' R P C]; subst. destruct (IH b' gs0 c C) as (g1 & g & g2 & a' & b & m & -> & L & RR & RG & PD & CC).
    exists (g0 :: g1), g, g2, a', b, m. split; [reflexivity|]. split; [cbn; congruence|]. split; [|auto].
    eapply runs_cons; [apply Z.le_refl|exact R|]. eapply runs_le; [|exact RR]. destruct (padsB e x (hd_error (l1 ++ d :: l2))); [apply P|lia].
Qed.
Lemma run_last fmt a g b : run fmt a g b -> g <> [] -> exists sq, In sq g /\ pl_addr (snd sq) + sh_size (fst sq) = b.
Proof.
  intros R. induction R as [a|a s q l b R1 R2 R3 IH]; intros N; [contradiction|]. destruct l as [|x l].
  - inversion R3; subst. exists (s, q). split; [left; auto|auto].
  - destruct IH as (sq & I & E); [discriminate|]. exists sq. split; [right; auto|auto].
Qed.
Lemma run_maxE fmt a g b : Forall (fun sq => wfSect (fst sq)) g -> 0 <= a -> run fmt a g b -> g <> [] -> maxE g = b.
Proof.
  intros W A R N. destruct (run_before _ _ _ _ W R) as (_ & F & _). rewrite Forall_forall in F.
  destruct (maxE_ok g N) as ((sq & I & E) & L).
  { intros sq I. specialize (F sq I). rewrite Forall_forall in W. destruct (W sq I). lia. }
  destruct (run_last _ _ _ _ R N) as (sq' & I' & E'). specialize (L sq' I'). specialize (F sq I). lia.
Qed.

(** ** how long the file is *)
Section Length.
  Variables (e : env) (ds : list descr) (outF : list placed).
  Let inD (d : descr) : Prop := has SHT_NOBITS (d_attrs d) = false \/ e_useBss e = false.

  Lemma step_file d rest j p p' new : inv e ds outF p -> e_relod e = 0 -> goodRelod e -> Forall (okDescr e) (d :: rest) -> e_fmt e <> FormatDosExeSmall ->
    inD d -> synced e p -> passLoop e true j (d :: rest) p = Ok p' -> p_out p' = new ++ p_out p -> Forall (settledQ outF) new ->
    exists p3 newR g, passLoop e true (S j) rest p3 = Ok p' /\ p_out p' = newR ++ p_out p3 /\ new = newR ++ rev (map snd g) /\
      inv e ds outF p3 /\ synced e p3 /\ placesFor (items (d_name d) 0 (e_objs e)) g /\
      (forall sq, In sq g -> pl_addr (snd sq) + sh_size (fst sq) <= p_ofs p3) /\ p_ofs p <= p_ofs p3 /\
      p_startOfs p3 = p_startOfs p /\ p_written p3 = p_written p /\
      (padsB e d (hd_error rest) = true -> (4096 | p_ofs p3) /\ (g <> [] -> exists sq, In sq g /\ p_ofs p3 = pageUp (pl_addr (snd sq) + sh_size (fst sq)))).
  Proof.
    intros IV R0 GR OKD NS ID SY H ON ST.
    inversion_clear OKD as [|? ? OI OKD']. destruct OI as (D1 & D2 & D3 & D4).
    rewrite passLoop_cons in H. cbv zeta in H. unfold resetP in H. rewrite placeObjs_fold in H. rewrite R0 in H. change (negb (0 =? 0)) with false in H. cbn [andb] in H.
    destruct (foldP _ _ _ _ _ _) as [p1| |] eqn:E1; try discriminate. cbn [rbind] in H.
    destruct (padAfter e true d (hd_error rest) p1) as [p3| |] eqn:E3; try discriminate. cbn [rbind] in H.
    assert (WS : Forall (fun it => wfSect (isect it) /\ negb (has SHF_EXECINSTR (d_attrs d)) = negb (has SHF_EXECINSTR (sh_flags (isect it)))) (items (d_name d) 0 (e_objs e))).
    { revert D1. apply Forall_impl. intros [[[f' o'] k'] s'] (A1 & _ & _ & A4). cbn. auto. }
    destruct (foldP_inv e true j (negb (has SHF_EXECINSTR (d_attrs d))) (items (d_name d) 0 (e_objs e)) p p1 (proj1 IV) WS E1) as (g & G1 & G2 & G3 & _ & G5 & G6 & G7).
    destruct (padAfter_inv e true d (hd_error rest) p1 p3 G7) as (P1 & P2 & P3 & P4 & P5); auto; [intros; contradiction|].
    destruct (passLoop_run e true rest (S j) p3 p' P5 GR (okDescr_good _ _ OKD')) as (gs & _ & _ & L3 & _); [intros; contradiction|exact H|].
    exists p3, (rev (map snd (List.concat gs))), g.
    assert (EN : new = rev (map snd (List.concat gs)) ++ rev (map snd g)). { apply (app_inv_tail (p_out p)). rewrite <- ON, L3, P4, G3, <- app_assoc. reflexivity. }
    rewrite EN in ST. apply Forall_app in ST as [ST2 ST1].
    destruct (foldP_file e ds outF j _ _ p p1 _ IV D1 E1 G3 ST1) as (F1 & (w1 & F2) & F3 & F4).
    destruct (padAfter_file e ds outF d (hd_error rest) p1 p3 F1 NS E3 D3) as (U1 & (w3 & U2) & U3 & U4).
    assert (WG : Forall (fun sq => wfSect (fst sq)) g).
    { apply Forall_forall. intros sq I. destruct (placesFor_in _ _ G1 sq I) as (it & I1 & -> & _). rewrite Forall_forall in WS. apply (WS it I1). }
    destruct (run_before _ _ _ _ WG G2) as (_ & B & B2). rewrite Forall_forall in B.
    split; [exact H|]. split; [exact L3|]. split; [exact EN|]. split; [exact U1|]. split.
    { apply U3. apply F3; [auto|]. destruct ID as [N|N]; [|apply Forall_forall; auto]. rewrite N in D2. revert D2. apply Forall_impl. auto. }
    split; [exact G1|]. split; [intros sq I; specialize (B sq I); lia|]. split; [lia|]. split; [congruence|]. split; [congruence|].
    intros PB. pose proof (padAfter_exact e true d (hd_error rest) p1 p3 G7 NS E3) as PX. rewrite PB in PX. apply roundup_page in PX. rewrite PX. split; [apply pageUp_ok|].
    intros NG. destruct (run_last _ _ _ _ G2 NG) as (sq & J1 & J2). exists sq. split; [auto|congruence].
  Qed.

  (** the names that follow are placed after this offset, the first at once *)
  Lemma rest_at l j p p' new : okState e p -> goodRelod e -> Forall (okDescr e) l -> e_fmt e <> FormatDosExeSmall ->
    passLoop e true j l p = Ok p' -> p_out p' = new ++ p_out p ->
    p_ofs p' <= limit (e_fmt e) /\ p_ofs p <= p_ofs p' /\
    (forall d it, In d l -> In it (items (d_name d) 0 (e_objs e)) -> exists q, In q new /\ pl_obj q = iobj it /\ pl_sect q = isec it /\ p_ofs p <= pl_addr q) /\
    (forall d l' it its, l = d :: l' -> items (d_name d) 0 (e_objs e) = it :: its ->
       exists q, In q new /\ pl_obj q = iobj it /\ pl_sect q = isec it /\ roundup (p_ofs p) (alignment (e_fmt e) (isect it)) (pl_addr q)).
  Proof.
    intros OK GR OKD NS H ON. pose proof (okDescr_good _ _ OKD) as GN.
    destruct (passLoop_run e true l j p p' OK GR GN) as (gs & L1 & L2 & L3 & _ & _ & _ & L7); [intros; contradiction|exact H|].
    assert (EN : new = rev (map snd (List.concat gs))) by (apply (app_inv_tail (p_out p)); congruence).
    destruct (runs_before _ _ _ _ (groups_wf e l gs L1 GN) L2) as (_ & B & B2). rewrite Forall_forall in B.
    split; [apply L7|]. split; [auto|]. split.
    - intros d it I IT. destruct (group_ex e l gs L1 d I) as (g & IG). destruct (group_of e l gs L1 d g IG) as [_ PF].
      destruct (placesFor_in2 _ _ PF _ IT) as (sq & J1 & J2 & J3). exists (snd sq).
      assert (IC : In sq (List.concat gs)) by (apply (groups_in e l gs L1); exists d, g; auto).
      split; [rewrite EN, <- in_rev; apply in_map; auto|]. unfold pkey, ikey in J3. injection J3 as J3 J4. split; [auto|]. split; [auto|]. apply (B sq IC).
    - intros d l' it its EL EI. rewrite EL in H, OKD. inversion_clear OKD as [|? ? OI OKD']. destruct OI as (D1 & D2 & D3 & D4).
      rewrite passLoop_cons in H. cbv zeta in H. unfold resetP in H. rewrite placeObjs_fold in H.
      destruct (foldP _ _ _ _ _ _) as [p1| |] eqn:E1; try discriminate. cbn [rbind] in H.
      match type of H with rbind ?x _ = _ => destruct x as [p2| |] eqn:E2; try discriminate end. cbn [rbind] in H.
      destruct (padAfter e true d (hd_error l') p2) as [p3| |] eqn:E3; try discriminate. cbn [rbind] in H.
      destruct (foldP_inv e true j (negb (has SHF_EXECINSTR (d_attrs d))) (items (d_name d) 0 (e_objs e)) p p1 OK) as (g & G1 & G2 & G3 & _ & _ & _ & G7); [|exact E1|].
      { revert D1. apply Forall_impl. intros [[[f' o'] k'] s'] (A1 & _ & _ & A4). cbn. auto. }
      assert (O2 : p_out p2 = p_out p1 /\ okState e p2).
      { destruct (negb (e_relod e =? 0) && eqs (d_name d) RELOD) eqn:EB; [|injection E2 as <-; auto]. apply andb_true_iff in EB as [EB _]. destruct GR as [GR1 GR2].
        destruct (placeRelod_inv e true j _ p1 p2 G7 GR1 (GR2 ltac:(lia)) E2) as (_ & _ & _ & R4 & R5 & _). auto. }
      destruct (padAfter_inv e true d (hd_error l') p2 p3 (proj2 O2)) as (_ & _ & _ & P4 & P5); auto; [intros; contradiction|].
      destruct (passLoop_run e true l' (S j) p3 p' P5 GR (okDescr_good _ _ OKD')) as (gs' & _ & _ & L3' & _); [intros; contradiction|exact H|].
      rewrite EI in G1. inversion G1 as [|? sq ? g' K1 K2]; subst. inversion G2 as [|? s q ? ? R1 R2 R3]; subst. exists q. split.
      + assert (EN2 : rev (map snd (List.concat gs)) = rev (map snd (List.concat gs')) ++ rev (map snd ((s, q) :: g'))).
        { apply (app_inv_tail (p_out p)). rewrite <- ON, L3', P4, (proj1 O2), G3, <- app_assoc. reflexivity. }
        rewrite EN2. apply in_or_app. right. rewrite <- in_rev. left. reflexivity.
      + cbn [fst snd] in K1. destruct K1 as (K1 & K3 & K4). split; [auto|]. split; [auto|]. rewrite <- K1. exact R1.
  Qed.

  Lemma passLoop_mid l1 : forall d l2 j p p' new, inv e ds outF p -> e_relod e = 0 -> goodRelod e -> Forall (okDescr e) (l1 ++ d :: l2) -> e_fmt e <> FormatDosExeSmall ->
    StronglySorted (fun d d' => has SHT_NOBITS (d_attrs d) = true -> has SHT_NOBITS (d_attrs d') = true) (l1 ++ d :: l2) ->
    Forall inD (l1 ++ [d]) -> synced e p -> padsB e d (hd_error l2) = true ->
    passLoop e true j (l1 ++ d :: l2) p = Ok p' -> p_out p' = new ++ p_out p -> Forall (settledQ outF) new ->
    exists M, (4096 | M) /\ p_ofs p <= M /\ e_hdrsz e + p_written p + (M - p_startOfs p) <= zlen (p_file p') /\
      (forall d' it, In d' (l1 ++ [d]) -> In it (items (d_name d') 0 (e_objs e)) ->
        exists q, In q new /\ pl_obj q = iobj it /\ pl_sect q = isec it /\ pl_addr q + sh_size (isect it) <= M) /\
      M <= limit (e_fmt e) /\
      (items (d_name d) 0 (e_objs e) <> [] -> exists it q, In it (items (d_name d) 0 (e_objs e)) /\ In q new /\ pl_obj q = iobj it /\ pl_sect q = isec it /\
         M = pageUp (pl_addr q + sh_size (isect it))) /\
      (forall d' it, In d' l2 -> In it (items (d_name d') 0 (e_objs e)) -> exists q, In q new /\ pl_obj q = iobj it /\ pl_sect q = isec it /\ M <= pl_addr q) /\
      (forall d' l' it its, l2 = d' :: l' -> items (d_name d') 0 (e_objs e) = it :: its ->
         exists q, In q new /\ pl_obj q = iobj it /\ pl_sect q = isec it /\ roundup M (alignment (e_fmt e) (isect it)) (pl_addr q)).
  Proof.
    induction l1 as [|x l1 IH]; intros d l2 j p p' new IV R0 GR OKD NS SS FI SY PB H ON ST; cbn [app] in *.
    - inversion_clear FI as [|? ? FI1 _].
      destruct (step_file d l2 j p p' new IV R0 GR OKD NS FI1 SY H ON ST) as (p3 & newR & g & S1 & S2 & S3 & S4 & S5 & S6 & S7 & S8 & S9 & S10 & S11).
      destruct (S11 PB) as [S12 S13]. exists (p_ofs p3). split; [auto|]. split; [auto|]. inversion_clear OKD as [|? ? _ OKD']. inversion_clear SS as [|? ? SS' _].
      rewrite S3 in ST. apply Forall_app in ST as [ST2 ST1].
      destruct (passLoop_file e ds outF l2 (S j) p3 p' newR S4 GR OKD' NS SS' (or_introl S5) S1 S2 ST2) as (_ & (w & W) & _).
      split. { rewrite W, zlen_app. unfold synced in S5. pose proof (zlen_nonneg w). lia. }
      destruct (rest_at l2 (S j) p3 p' newR (proj1 S4) GR OKD' NS S1 S2) as (A1 & A2 & A3 & A4).
      split; [|split; [lia|split; [|split]]].
      2: { intros NI. destruct S13 as (sq & J1 & J2). { intros EG. rewrite EG in S6. inversion S6. congruence. }
        destruct (placesFor_in _ _ S6 sq J1) as (it & I1 & I2 & I3). exists it, (snd sq). split; [auto|].
        split; [rewrite S3; apply in_or_app; right; apply in_rev; rewrite rev_involutive; apply in_map; auto|].
        unfold pkey, ikey in I3. injection I3 as I3 I4. split; [auto|]. split; [auto|]. rewrite <- I2. auto. }
      2: { intros d' it I IT. destruct (A3 d' it I IT) as (q & Q1 & Q2). exists q. split; [rewrite S3; apply in_or_app; auto|auto]. }
      2: { intros d' l' it its EL EI. destruct (A4 d' l' it its EL EI) as (q & Q1 & Q2). exists q. split; [rewrite S3; apply in_or_app; auto|auto]. }
      intros d' it [<- |[]] IT. destruct (placesFor_in2 _ _ S6 _ IT) as (sq & J1 & J2 & J3). exists (snd sq).
      split; [rewrite S3; apply in_or_app; right; apply in_rev; rewrite rev_involutive; apply in_map; auto|].
      unfold pkey, ikey in J3. injection J3 as J3 J4. split; [auto|]. split; [auto|]. rewrite <- J2. auto.
    - inversion_clear FI as [|? ? FI1 FI2].
      destruct (step_file x (l1 ++ d :: l2) j p p' new IV R0 GR OKD NS FI1 SY H ON ST) as (p3 & newR & g & S1 & S2 & S3 & S4 & S5 & S6 & S7 & S8 & S9 & S10 & _).
      inversion_clear OKD as [|? ? _ OKD']. inversion_clear SS as [|? ? SS' _]. rewrite S3 in ST. apply Forall_app in ST as [ST2 ST1].
      destruct (IH d l2 (S j) p3 p' newR S4 R0 GR OKD' NS SS' FI2 S5 PB S1 S2 ST2) as (M & M1 & M2 & M3 & M4 & M5 & M6 & M7 & M8).
      exists M. split; [auto|]. split; [lia|]. split; [rewrite S9, S10 in M3; auto|].
      assert (UP : forall q, In q newR -> In q new) by (intros q Q; rewrite S3; apply in_or_app; auto).
      split; [|split; [auto|split; [|split]]].
      2: { intros NI. destruct (M6 NI) as (it & q & Q0 & Q1 & Q2). exists it, q. auto. }
      2: { intros d' it I IT. destruct (M7 d' it I IT) as (q & Q1 & Q2). exists q. auto. }
      2: { intros d' l' it its EL EI. destruct (M8 d' l' it its EL EI) as (q & Q1 & Q2). exists q. auto. }
      intros d' it [<- |I] IT.
      + destruct (placesFor_in2 _ _ S6 _ IT) as (sq & J1 & J2 & J3). exists (snd sq).
        split; [rewrite S3; apply in_or_app; right; apply in_rev; rewrite rev_involutive; apply in_map; auto|].
        unfold pkey, ikey in J3. injection J3 as J3 J4. split; [auto|]. split; [auto|]. rewrite <- J2. specialize (S7 sq J1). lia.
      + destruct (M4 d' it I IT) as (q & Q1 & Q2). exists q. split; [rewrite S3; apply in_or_app; auto|auto].
  Qed.
End Length.

Section Cut.
  Variables (op : opts) (objs : list obj) (st : rst) (e0 : env) (ds : list descr).
  Hypothesis PR : prepare op objs = Ok (st, e0, ds).
  Hypothesis WF : wellFormed objs.
  Let entry := op_entry op.
  Hypothesis EL : op_fmt op = FormatElf32.
  Lemma elf_ns : op_fmt op <> FormatDosExeSmall.
  Proof. rewrite EL. discriminate. Qed.
  Lemma elf_nu : op_fmt op <> FormatDosExeUnreal.
  Proof. rewrite EL. discriminate. Qed.
  Variables (hs origin : Z) (dsX : list descr) (out0 : list placed) (buf : list Z) (p0 : pst) (file : list Z) (p : pst).
  Hypothesis OR : 0 <= origin <= limit (op_fmt op).
  Hypothesis NA : map na dsX = map na ds.
  Hypothesis HS : 0 <= hs <= origin.
  Hypothesis BU : zlen buf = FBUF + 3.
  Hypothesis FL : zlen file = hs.
  Hypothesis P1 : Pass (withHdr e0 hs) false origin dsX out0 buf [] = Ok p0.
  Hypothesis P2 : Pass (withHdr e0 hs) true origin (p_ds p0) (p_out p0) buf file = Ok p.
  Let addr := outAddr (p_out p0).

  Lemma cut_ok l1 d l2 hidden : ds = (l1 ++ d :: l2) ++ hidden -> e_cnt e0 = List.length (l1 ++ d :: l2) ->
    Forall (fun d => has SHT_NOBITS (d_attrs d) = false \/ op_useBss op = false) (l1 ++ [d]) -> padsB (withHdr e0 hs) d (hd_error l2) = true ->
    exists M, (4096 | M) /\ origin <= M <= limit (op_fmt op) /\ hs + (M - origin) <= zlen (p_file p) /\
      (forall f k o s, included objs entry f k o s -> In (sh_name s) (map d_name (l1 ++ [d])) -> addr f k + sh_size s <= M) /\
      (forall f k o s, included objs entry f k o s -> In (sh_name s) (map d_name l2) -> M <= addr f k) /\
      (exists f k o s, included objs entry f k o s /\ sh_name s = d_name d /\ M = pageUp (addr f k + sh_size s)) /\
      (forall d2 l2', l2 = d2 :: l2' -> exists f k o s, included objs entry f k o s /\ sh_name s = d_name d2 /\ addr f k = M).
  Proof.
    intros EDS CNT FI PB.
    destruct (pass_state op objs st e0 ds PR WF elf_ns elf_nu hs origin dsX out0 buf p0 OR NA P1) as (l & hidden' & gs & EDS0 & CNT0 & GF & CH & OUT & OFF & NA0 & ST & ST2 & _ & _ & _ & _ & LK).
    destruct (prep_names op objs st e0 ds PR WF (noRelod op objs elf_nu)) as (l' & hidden'' & EDS' & CNT' & LH & NE & OKl & ND & SS & OKD & R0 & GR & FOR & FROM & UNI & HD & X4 & LD & HID).
    assert (CUT : forall (a b c d : list descr), a ++ b = c ++ d -> List.length a = List.length c -> a = c).
    { intros a b c d' E L. apply (f_equal (firstn (List.length a))) in E. rewrite L in E at 2. rewrite !firstn_app, !firstn_all, !Nat.sub_diag in E. cbn in E. rewrite !app_nil_r in E. auto. }
    assert (l' = l1 ++ d :: l2) by (eapply CUT; [rewrite <- EDS'; exact EDS|congruence]).
    assert (l = l1 ++ d :: l2) by (eapply CUT; [rewrite <- EDS0; exact EDS|congruence]).
    subst l'. subst l. set (l := l1 ++ d :: l2) in *. assert (ELL : l = l1 ++ d :: l2) by reflexivity. clearbody l. clear CUT EDS0 EDS'.
    specialize (R0 elf_nu). destruct (prep_resolve op objs st e0 ds PR) as (R & EO & EF & EU & FS & EC & EH).
    pose proof P1 as H. pose proof P2 as K.
    unfold Pass in H, K. cbn [withHdr e_cnt] in H, K. rewrite CNT in H, K.
    rewrite (passLoop_na _ _ _ l) in H by (apply (firstn_na dsX l hidden); rewrite NA, EDS; auto).
    rewrite (passLoop_na _ _ _ l) in K by (apply (firstn_na (p_ds p0) l hidden); rewrite NA0, EDS; auto).
    set (Q0 := mkPst origin origin 0 _ out0 buf []) in H. set (Q1 := mkPst origin origin 0 _ (p_out p0) buf file) in K. set (e := withHdr e0 hs) in *.
    destruct (passLoop_twins e l 0 Q1 Q0 p p0) as (_ & new & N1 & N2); [repeat split|exact K|exact H|].
    unfold Q0 in N2. cbn [p_out] in N2. unfold Q1 in N1. cbn [p_out] in N1.
    assert (EN : new = rev (map snd (List.concat gs))) by (apply (app_inv_tail out0); rewrite <- N2; auto).
    assert (SQ : Forall (settledQ (p_out p0)) new).
    { apply Forall_forall. intros q I. rewrite EN, <- in_rev in I. apply in_map_iff in I as (sq & <- & I). unfold settledQ. rewrite outAddr_lookup, (LK sq I). reflexivity. }
    pose proof (passLoop_align e true l 0 Q1 p K) as AL.
    rewrite ELL in K, OKD, OKl, SS, AL.
    destruct (passLoop_mid e (p_ds p0) (p_out p0) l1 d l2 0 Q1 p new) as (M & M1 & M2 & M3 & M4 & M5 & M6 & M7 & M8); auto.
    { unfold inv, okState, roomy, Q1. cbn. rewrite EF. split; [auto|]. split; [pose proof (limit_u32 (op_fmt op)); lia|]. split; [auto|]. split; [|auto]. intros f k; reflexivity. }
    { apply OKD. }
    { unfold e. cbn. rewrite EF. apply elf_ns. }
    { apply sorted_nobits; auto. }
    { unfold e. cbn. rewrite EU. auto. }
    { unfold synced, Q1, e. cbn. lia. }
    assert (SA : forall q, In q new -> addr (pl_obj q) (pl_sect q) = pl_addr q) by (intros q I; rewrite Forall_forall in SQ; exact (SQ q I)).
    assert (IT : forall f k o s d', included objs entry f k o s -> sh_name s = d_name d' -> In (f, o, k, s) (items (d_name d') 0 (e_objs e))).
    { intros f k o s d' IN N. apply items_in. exists f, k, o, s. split; [auto|]. split; [|auto]. apply (prep_incl op objs st e0 ds PR f k o s). split; apply IN. }
    assert (TI : forall d' it, In d' l -> In it (items (d_name d') 0 (e_objs e)) -> included objs entry (iobj it) (isec it) (snd (fst (fst it))) (isect it) /\ sh_name (isect it) = d_name d').
    { intros d' it I J. apply items_in in J as (f & k & o & s & -> & H1 & H2). cbn. apply (prep_incl op objs st e0 ds PR f k o s) in H1 as [H1 H3].
      destruct (UNI f k o s d' I H1 H3 H2). split; [split; [auto|split; auto]|auto]. }
    unfold Q1, e in M3. cbn in M3. unfold Q1 in M2. cbn in M2. unfold e in M5. cbn in M5. rewrite EF in M5.
    exists M. split; [auto|]. split; [lia|]. split; [lia|]. split; [|split; [|split]].
    - intros f k o s IN I. apply in_map_iff in I as (d' & I1 & I2). destruct (M4 d' (f, o, k, s) I2 (IT f k o s d' IN (eq_sym I1))) as (q & A1 & A2 & A3 & A4).
      cbn in A2, A3, A4. rewrite <- A2, <- A3, (SA q A1). auto.
    - intros f k o s IN I. apply in_map_iff in I as (d' & I1 & I2). destruct (M7 d' (f, o, k, s) I2 (IT f k o s d' IN (eq_sym I1))) as (q & A1 & A2 & A3 & A4).
      cbn in A2, A3. rewrite <- A2, <- A3, (SA q A1). auto.
    - assert (ID : In d l) by (rewrite ELL; apply in_or_app; right; left; auto). destruct (FROM d ID R0) as (f & k & o & s & IN & N).
      destruct M6 as (it & q & A0 & A1 & A2 & A3 & A4). { pose proof (IT f k o s d IN (eq_sym N)) as J. intros C. unfold e in J. cbn in J, C. rewrite C in J. destruct J. }
      destruct (TI d it ID A0) as [T1 T2]. exists (iobj it), (isec it), (snd (fst (fst it))), (isect it). split; [auto|]. split; [auto|].
      rewrite <- A2, <- A3, (SA q A1). auto.
    - intros d2 l2' E2. assert (ID : In d2 l) by (rewrite ELL, E2; apply in_or_app; right; right; left; auto). destruct (FROM d2 ID R0) as (f & k & o & s & IN & N).
      pose proof (IT f k o s d2 IN (eq_sym N)) as J. destruct (items (d_name d2) 0 (e_objs e)) as [|it its] eqn:EI; [destruct J|].
      destruct (M8 d2 l2' it its E2 EI) as (q & A1 & A2 & A3 & A4).
      destruct (TI d2 it ID) as [T1 T2]; [rewrite EI; left; auto|]. exists (iobj it), (isec it), (snd (fst (fst it))), (isect it). split; [auto|]. split; [auto|].
      rewrite <- A2, <- A3, (SA q A1).
      rewrite Forall_forall in AL. assert (ID' := ID). rewrite ELL in ID'. specialize (AL d2 ID'). rewrite EI in AL. inversion_clear AL as [|? ? A5 _]. destruct A5 as (al & A5).
      unfold e in A4, A5. cbn in A4, A5. rewrite EF, EL in A4, A5. unfold alignOf in A5. change (is16 FormatElf32) with false in A5. change (FormatElf32 =? FormatDosExeHuge) with false in A5.
      change (isPaged FormatElf32) with true in A5. cbv iota in A5. destruct (has (sh_align (isect it)) (u32 (sh_align (isect it) - 1))) eqn:HA; [discriminate|].
      destruct (4096 <? sh_align (isect it)) eqn:HB; [discriminate|].
      change (alignment FormatElf32 (isect it)) with (sh_align (isect it)) in A4.
      destruct (proj1 WF _ _ _ _ (proj1 (proj2 T1)) (proj2 (proj2 T1))) as (_ & W2 & _).
      apply (roundup_small M (sh_align (isect it))); auto; [|lia]. apply pow_align; [lia|auto].
  Qed.
End Cut.

(** ** segments *)
Lemma lastBits_ok ds : forall n i, lastBits ds n = Some i -> (i <= n)%nat /\ (exists d, nth_error ds i = Some d /\ has SHT_NOBITS (d_attrs d) = false) /\
  forall j d, (i < j <= n)%nat -> nth_error ds j = Some d -> has SHT_NOBITS (d_attrs d) = true.
Proof.
  induction n as [|n IH]; intros i H; cbn [lastBits] in H.
  - destruct (nth_error ds 0) as [d|] eqn:E; [|discriminate]. destruct (has SHT_NOBITS (d_attrs d)) eqn:B; [discriminate|]. injection H as <-.
    split; [lia|]. split; [exists d; auto|]. intros; lia.
  - destruct (nth_error ds (S n)) as [d|] eqn:E; [|discriminate]. destruct (has SHT_NOBITS (d_attrs d)) eqn:B.
    + destruct (IH i H) as (A1 & A2 & A3). split; [lia|]. split; [auto|]. intros j d' J N. destruct (Nat.eq_dec j (S n)) as [-> |J2]; [congruence|]. apply (A3 j); auto. lia.
    + injection H as <-. split; [lia|]. split; [exists d; auto|]. intros; lia.
Qed.
Lemma na_nth (a b : list descr) i d : map na a = map na b -> nth_error a i = Some d -> exists d', nth_error b i = Some d' /\ d_name d' = d_name d /\ d_attrs d' = d_attrs d.
Proof.
  intros E H. pose proof (map_nth_error na i a H) as M. rewrite E in M.
  destruct (nth_error b i) as [d'|] eqn:B; [|apply nth_error_None in B; rewrite <- (map_length na) in B; apply nth_error_None in B; congruence].
  rewrite (map_nth_error na i b B) in M. injection M as M1 M2. exists d'. auto.
Qed.
Lemma occurs_get file off b i : occurs file off b -> 0 <= i < zlen b -> zget file (off + i) = zget b i.
Proof.
  intros (a & c & -> & <-) I. rewrite zget_app_r by lia. replace (zlen a + i - zlen a) with i by lia. rewrite zget_app_l by lia. reflexivity.
Qed.
Lemma zget_repeat n i : 0 <= i < Z.of_nat n -> zget (repeat 0 n) i = Some 0.
Proof.
  intros I. unfold zget. replace (i <? 0) with false by lia. apply nth_error_repeat. lia.
Qed.
Lemma number_le32 v : 0 <= v < 2 ^ 32 -> number (le32 v) = v.
Proof. intros V. unfold le32, u8, wrap, number. rewrite !Z.shiftr_div_pow2 by lia. lia. Qed.
Lemma number_le16 v : 0 <= v < 2 ^ 16 -> number (le16 v) = v.
Proof. intros V. unfold le16, u8, wrap, number. rewrite !Z.shiftr_div_pow2 by lia. lia. Qed.

Definition seg32 (g : segm) : Prop := 0 <= g_off g < 2 ^ 32 /\ 0 <= g_vaddr g < 2 ^ 32 /\ 0 <= g_filesz g < 2 ^ 32 /\ 0 <= g_memsz g < 2 ^ 32 /\ 0 <= g_flags g < 2 ^ 32.
Lemma elf_header v segs w : 0 <= v < 2 ^ 32 -> (exists c, segs = [c] \/ exists d, segs = [c; d]) -> Forall seg32 segs ->
  elfProgram (elfHeader v (zlen segs) ++ flat_map elfPhdr segs ++ w) v segs.
Proof.
  intros V (c & SG) F. unfold elfProgram, elfHeader, word.
  assert (NZ : 0 <= zlen segs < 2 ^ 16) by (destruct SG as [-> |(d & ->)]; unfold zlen; cbn; lia).
  split; [reflexivity|]. split; [reflexivity|]. split; [reflexivity|]. split.
  { etransitivity; [|apply (number_le32 v V)]. reflexivity. }
  split; [reflexivity|]. split; [reflexivity|]. split.
  { etransitivity; [|apply (number_le16 _ NZ)]. reflexivity. }
  destruct SG as [-> |(d & ->)].
  - intros i g G. destruct i as [|i]; [|destruct i; discriminate]. cbn in G. injection G as <-. inversion_clear F as [|? ? F1 _]. destruct F1 as (F1 & F2 & F3 & F4 & F5).
    cbv zeta. split; [reflexivity|]. repeat split; (etransitivity; [|eapply number_le32; eassumption]) || idtac; reflexivity.
  - intros i g G. inversion_clear F as [|? ? F1 F']. inversion_clear F' as [|? ? F2 _]. destruct F1 as (F1a & F1b & F1c & F1d & F1e), F2 as (F2a & F2b & F2c & F2d & F2e).
    destruct i as [|[|i]]; [| |destruct i; discriminate]; cbn in G; injection G as <-; cbv zeta;
      (split; [reflexivity|]); repeat split; (etransitivity; [|eapply number_le32; eassumption]) || idtac; reflexivity.
Qed.

Section ElfFile.
  Variables (op : opts) (objs : list obj) (st : rst) (e0 : env) (ds : list descr).
  Hypothesis PR : prepare op objs = Ok (st, e0, ds).
  Hypothesis WF : wellFormed objs.
  Let entry := op_entry op.
  Hypothesis EL : op_fmt op = FormatElf32.
  Variables (base : Z) (buf : list Z) (p0 : pst) (file : list Z) (p : pst) (segs : list segm).
  Let origin := base + 4096.
  Let e := withHdr e0 4096.
  Hypothesis BA : (4096 | base).
  Hypothesis B0 : 0 <= base /\ base + 4096 < 2 ^ 32.
  Hypothesis BU : zlen buf = FBUF + 3.
  Hypothesis FL : zlen file = 4096.
  Hypothesis P1 : Pass e false origin ds [] buf [] = Ok p0.
  Hypothesis P2 : Pass e true origin (p_ds p0) (p_out p0) buf file = Ok p.
  Hypothesis SG : elfSegs e (p_ds p0) base = Ok segs.
  Let addr := outAddr (p_out p0).

  Lemma page_up x : 0 <= x < 2 ^ 32 -> low12 (u32 (x + 4095)) = if x + 4095 <? 2 ^ 32 then pageUp x else 0.
  Proof.
    intros X. rewrite low12_ok by apply u32_range. unfold pageUp, u32, wrap. destruct (x + 4095 <? 2 ^ 32) eqn:C; lia.
  Qed.

  Lemma elf_segs :
    (exists c, segs = [c] \/ exists d, segs = [c; d]) /\ Forall seg32 segs /\ Forall (segOk (p_file p)) segs /\ (forall c d, segs = [c; d] -> g_vaddr c + g_memsz c <= g_vaddr d) /\
    (forall g, In g segs -> g_off g = g_vaddr g - base) /\
    forall f k o s, included objs entry f k o s -> exists g, In g segs /\ g_flags g = (if isExec s then 5 else 6) /\
      g_vaddr g <= addr f k /\ addr f k + sh_size s <= g_vaddr g + g_memsz g /\
      (sh_type s = 1 \/ op_useBss op = false -> addr f k + sh_size s <= g_vaddr g + g_filesz g) /\
      (sh_type s = 8 -> op_useBss op = true -> g_vaddr g + g_filesz g <= addr f k) /\
      (forall g', In g' segs -> g' <> g -> g_flags g' <> g_flags g).
  Proof.
    pose proof (elf_ns op EL) as NS. pose proof (elf_nu op EL) as NU.
    assert (LIM : limit (op_fmt op) = 2 ^ 32 - 1) by (rewrite EL; reflexivity).
    assert (OR : 0 <= origin <= limit (op_fmt op)) by (unfold origin; lia).
    destruct (facts op objs st e0 ds PR WF NS NU 4096 origin ds [] buf p0 OR eq_refl P1) as
      (l & hidden & gs & EDS & CNT & NE & OKl & ND & SS & R0 & GF & CH & NA0 & HD & X4 & LD & HID & ST & ST2 & CS & CE & DS & DE & GNE & PART & ALL & PARTS & NEC & NED).
    destruct (prep_resolve op objs st e0 ds PR) as (R & EO & EF & EU & FS & EC & EH).
    destruct (layout_general op objs st e0 ds PR WF (noRelod op objs NU) 4096 false origin ds [] buf [] p0 NS OR eq_refl P1) as (L1 & _).
    assert (CUTOK : forall l1 d l2, l = l1 ++ d :: l2 -> Forall (fun d => has SHT_NOBITS (d_attrs d) = false \/ op_useBss op = false) (l1 ++ [d]) -> padsB e d (hd_error l2) = true ->
      exists M, (4096 | M) /\ origin <= M <= limit (op_fmt op) /\ 4096 + (M - origin) <= zlen (p_file p) /\
      (forall f k o s, included objs entry f k o s -> In (sh_name s) (map d_name (l1 ++ [d])) -> addr f k + sh_size s <= M) /\
      (forall f k o s, included objs entry f k o s -> In (sh_name s) (map d_name l2) -> M <= addr f k) /\
      (exists f k o s, included objs entry f k o s /\ sh_name s = d_name d /\ M = pageUp (addr f k + sh_size s)) /\
      (forall d2 l2', l2 = d2 :: l2' -> exists f k o s, included objs entry f k o s /\ sh_name s = d_name d2 /\ addr f k = M)).
    { intros l1 d l2 E A1 A2. apply (cut_ok op objs st e0 ds PR WF EL 4096 origin ds [] buf p0 file p OR eq_refl) with (hidden := hidden); auto; try congruence. unfold origin; lia. }
    destruct (code_split l SS OKl X4) as (code & data & ELL & FC & FD).
    assert (AD : forall f k o s, included objs entry f k o s -> origin <= addr f k /\ addr f k + sh_size s <= 2 ^ 32 - 1 /\ 0 <= sh_size s).
    { intros f k o s IN. destruct (L1 f k o s IN Logic.I) as (q & Q1 & Q2 & Q3 & _). unfold end_ in Q3. unfold addr. rewrite outAddr_lookup, Q1.
      destruct (proj1 WF f k o s) as (S1 & _); [apply IN|apply IN|]. lia. }
    assert (NAMES : forall f k o s, included objs entry f k o s -> exists d, In d l /\ d_name d = sh_name s /\ d_attrs d = attrs s).
    { intros f k o s IN. destruct (ALL f k o s IN) as (d & g & q & A1 & _ & A3 & A4 & _). exists d. split; [apply in_combine_l in A1; auto|auto]. }
    assert (ATTR : forall f k o s d, included objs entry f k o s -> In d l -> sh_name s = d_name d -> d_attrs d = attrs s).
    { intros f k o s d IN I N. destruct (NAMES f k o s IN) as (d' & D1 & D2 & D3). assert (d' = d) as <-; [|auto].
      assert (NN : d_name d' = d_name d) by congruence. clear - ND D1 I NN. induction l as [|x l IH]; [destruct I|]. cbn [map] in ND. inversion_clear ND as [|? ? N1 N2].
      destruct D1 as [-> |D1], I as [-> |I]; auto; exfalso; apply N1; [rewrite NN|rewrite <- NN]; apply in_map; auto. }
    assert (INC : forall f k o s, included objs entry f k o s -> isExec s = true -> In (sh_name s) (map d_name code)).
    { intros f k o s IN X. destruct (NAMES f k o s IN) as (d & D1 & D2 & D3). rewrite <- D2. apply in_map. rewrite ELL in D1. apply in_app_or in D1 as [D1|D1]; [auto|].
      exfalso. rewrite Forall_forall in FD. specialize (FD d D1). unfold isCode in FD. rewrite D3, has_exec_attrs, X in FD. discriminate. }
    assert (IND : forall f k o s, included objs entry f k o s -> isExec s = false -> In (sh_name s) (map d_name data)).
    { intros f k o s IN X. destruct (NAMES f k o s IN) as (d & D1 & D2 & D3). rewrite <- D2. apply in_map. rewrite ELL in D1. apply in_app_or in D1 as [D1|D1]; [|auto].
      exfalso. rewrite Forall_forall in FC. specialize (FC d D1). unfold isCode in FC. rewrite D3, has_exec_attrs, X in FC. discriminate. }
    assert (FMT : e_fmt e = FormatElf32) by (unfold e; cbn; congruence).
    assert (UB : e_useBss e = op_useBss op) by (unfold e; cbn; congruence).
    assert (A4B : has SHT_NOBITS 4 = false) by (vm_compute; reflexivity).
    (* the code *)
    assert (NCO : code <> []).
    { intros C. subst code. cbn in ELL. subst data. destruct l as [|d l']; [contradiction|]. specialize (HD d eq_refl). inversion FD. congruence. }
    destruct (exists_last NCO) as (c1 & dc & EC1). assert (DC : isCode dc = true) by (rewrite Forall_forall in FC; apply FC; rewrite EC1; apply in_or_app; right; left; auto).
    destruct (CUTOK c1 dc data) as (M1 & M1a & M1b & M1c & M1d & M1e & _ & M1g).
    { rewrite ELL, EC1, <- app_assoc. reflexivity. }
    { rewrite <- EC1. apply Forall_forall. intros d I. left. rewrite (X4 d); [exact A4B|rewrite ELL; apply in_or_app; auto|rewrite Forall_forall in FC; auto]. }
    { unfold padsB. rewrite FMT. change (isPaged FormatElf32) with true. cbn [orb andb]. unfold lastCodeB. unfold isCode in DC. rewrite DC. cbn [andb].
      replace (nextHas SHF_EXECINSTR (hd_error data)) with false; [reflexivity|]. destruct data as [|d0 data']; [reflexivity|]. cbn. inversion FD as [|? ? D0 _]. unfold isCode in D0. auto. }
    rewrite <- EC1 in M1d.
    destruct (PARTS true NEC) as [[(f1 & k1 & o1 & s1 & IN1 & X1 & E1) MIN1] [(f2 & k2 & o2 & s2 & IN2 & X2 & E2) MAX1]]. fold addr in E1, MIN1, E2, MAX1.
    set (mi := minA (partOf true l gs)) in *. set (ma := maxE (partOf true l gs)) in *.
    assert (MA1 : ma <= M1) by (rewrite E2; apply (M1d f2 k2 o2 s2 IN2); apply (INC f2 k2 o2 s2); auto).
    destruct (AD f1 k1 o1 s1 IN1) as (AD1 & AD1' & AD1''). destruct (AD f2 k2 o2 s2 IN2) as (AD2 & AD2' & AD2'').
    assert (MIMA : mi <= ma) by (specialize (MIN1 (addr f2 k2)); assert (mi <= addr f2 k2) by (apply MIN1; exists f2, k2, o2, s2; auto); lia).
    unfold elfSegs in SG. cbv zeta in SG. replace (e_cnt e) with (e_cnt e0) in SG by reflexivity. rewrite CS, CE, DS, DE in SG. fold mi ma in SG.
    assert (Hmi : origin <= mi < 2 ^ 32) by lia. assert (Hma : 0 <= ma < 2 ^ 32) by lia.
    rewrite (low12_ok mi) in SG by lia. rewrite (page_up ma Hma) in SG.
    assert (NW1 : (ma + 4095 <? 2 ^ 32) = true) by (destruct M1a as [z M1a]; lia). rewrite NW1 in SG.
    destruct (pageUp_ok ma) as [PU1 PU1']. pose proof (pageUp_le ma M1 MA1 M1a) as PU1''. destruct BA as [zb ZB]. destruct M1a as [z1 Z1]. destruct PU1' as [zp ZP].
    set (sc := mi - mi mod 4096) in *. set (ec := pageUp ma) in *.
    assert (SC : origin <= sc <= mi /\ sc <= ec /\ (4096 | sc)). { unfold sc, origin in *. split; [lia|]. split; [lia|]. exists (mi / 4096). lia. }
    destruct SC as (SC1 & SC2 & SC3).
    rewrite (u32_small (sc - base)) in SG by (unfold origin in *; lia). rewrite (u32_small (ec - sc)) in SG by lia.
    set (cseg := mkSegm (sc - base) sc (ec - sc) (ec - sc) 5) in *.
    assert (COK : seg32 cseg /\ segOk (p_file p) cseg).
    { unfold seg32, segOk, cseg. cbn. unfold origin in *. split; [lia|]. split; [auto|]. split; [destruct SC3 as [z3 SC3]; exists (z3 - zb); lia|]. lia. }
    assert (CIN : forall f k o s, included objs entry f k o s -> isExec s = true -> sc <= addr f k /\ addr f k + sh_size s <= sc + (ec - sc) /\ sh_type s <> 8).
    { intros f k o s IN X. assert (mi <= addr f k) by (apply MIN1; exists f, k, o, s; auto). assert (addr f k + sh_size s <= ma) by (apply MAX1; exists f, k, o, s; auto).
      split; [lia|]. split; [lia|]. intros T. destruct (NAMES f k o s IN) as (d & D1 & D2 & D3). specialize (X4 d D1). unfold isCode in X4. rewrite D3, has_exec_attrs in X4. specialize (X4 X).
      rewrite attrs_eq, T in X4. destruct (Z.testbit (sh_flags s) 0), (Z.testbit (sh_flags s) 2); vm_compute in X4; discriminate. }
    (* last name *)
    destruct (exists_last NE) as (lx & dl & EDL).
    assert (NL : nth_error ds (pred (e_cnt e0)) = Some dl).
    { rewrite EDS, CNT, EDL, app_length. cbn [List.length]. rewrite Nat.add_1_r. cbn [pred]. rewrite <- app_assoc, nth_error_app2, Nat.sub_diag by lia. reflexivity. }
    destruct (na_nth ds (p_ds p0) (pred (e_cnt e0)) dl (eq_sym NA0) NL) as (dl' & NL' & _ & ATL).
    unfold hasData in SG. rewrite NL', ATL in SG. assert (LL : forall x, last l x = dl) by (intros; rewrite EDL; apply last_last). rewrite LL in NED.
    destruct (has SHF_EXECINSTR (d_attrs dl)) eqn:HX; cbn [negb] in SG.
    - (* no data *)
      injection SG as <-. split; [exists cseg; auto|]. split; [constructor; [apply COK|constructor]|]. split; [constructor; [apply COK|constructor]|].
      split; [intros c d C; discriminate|]. split; [intros g [<- |[]]; reflexivity|].
      intros f k o s IN. assert (X : isExec s = true).
      { destruct (isExec s) eqn:X; [auto|]. exfalso. pose proof (IND f k o s IN X) as I. apply in_map_iff in I as (d & _ & I).
        destruct (exists_last (l := data)) as (dx & dl2 & EDD); [intros C; rewrite C in I; destruct I|]. rewrite EDL, EDD, app_assoc in ELL. apply app_inj_tail in ELL as [_ ->].
        rewrite Forall_forall in FD. assert (isCode dl2 = false) by (apply FD; rewrite EDD; apply in_or_app; right; left; auto). unfold isCode in H. congruence. }
      destruct (CIN f k o s IN X) as (C1 & C2 & C3). exists cseg. rewrite X. split; [left; auto|]. split; [reflexivity|]. split; [exact C1|]. split; [exact C2|]. split; [auto|].
      split; [intros; contradiction|]. intros g' [<- |[]] C. contradiction.
    - (* data *)
      destruct (PARTS false (NED eq_refl)) as [[(f3 & k3 & o3 & s3 & IN3 & X3 & E3) MIN2] [(f4 & k4 & o4 & s4 & IN4 & X4' & E4) MAX2]]. fold addr in E3, MIN2, E4, MAX2.
      set (mi2 := minA (partOf false l gs)) in *. set (ma2 := maxE (partOf false l gs)) in *.
      assert (MIM : mi2 = M1).
      { assert (M1 <= mi2) by (rewrite E3; apply (M1e f3 k3 o3 s3 IN3); apply (IND f3 k3 o3 s3); auto).
        destruct data as [|d0 data'] eqn:EDA.
        - exfalso. pose proof (IND f3 k3 o3 s3 IN3 X3) as C. destruct C.
        - destruct (M1g d0 data' eq_refl) as (f & k & o & s & IN & N & A). assert (mi2 <= M1); [|lia]. rewrite <- A. apply MIN2. exists f, k, o, s. split; [auto|]. split; [|auto].
          assert (I0 : In d0 l) by (rewrite ELL; apply in_or_app; right; left; auto). pose proof (ATTR f k o s d0 IN I0 N) as AA. inversion FD as [|? ? D0 _]. unfold isCode in D0. rewrite AA, has_exec_attrs in D0. auto. }
      destruct (AD f3 k3 o3 s3 IN3) as (AD3 & AD3' & AD3''). destruct (AD f4 k4 o4 s4 IN4) as (AD4 & AD4' & AD4'').
      assert (MIMA2 : mi2 <= ma2) by (specialize (MIN2 (addr f4 k4)); assert (mi2 <= addr f4 k4) by (apply MIN2; exists f4, k4, o4, s4; auto); lia).
      assert (Hma2 : 0 <= ma2 < 2 ^ 32) by lia.
      rewrite (low12_ok mi2) in SG by lia. rewrite (page_up ma2 Hma2) in SG.
      replace (mi2 - mi2 mod 4096) with M1 in SG by (rewrite MIM, Z1; lia).
      set (stop2 := if ma2 + 4095 <? 2 ^ 32 then pageUp ma2 else 0) in *. destruct (pageUp_ok ma2) as [PU2 PU2']. destruct PU2' as [zq ZQ].
      assert (MS : u32 (stop2 - M1) = pageUp ma2 - M1 /\ pageUp ma2 <= 2 ^ 32).
      { unfold stop2. destruct (ma2 + 4095 <? 2 ^ 32) eqn:C; [split; [apply u32_small; lia|lia]|]. split; [|lia]. assert (pageUp ma2 = 2 ^ 32) by lia. rewrite H. unfold u32, wrap. unfold origin in *. lia. }
      destruct MS as [MS MS2]. rewrite MS in SG. rewrite (u32_small (M1 - base)) in SG by (unfold origin in *; lia).
      assert (FIN : forall fsz, segs = [cseg; mkSegm (M1 - base) M1 fsz (pageUp ma2 - M1) 6] -> 0 <= fsz <= pageUp ma2 - M1 -> M1 - base + fsz <= zlen (p_file p) ->
        (forall f k o s, included objs entry f k o s -> isExec s = false -> sh_type s = 1 \/ op_useBss op = false -> addr f k + sh_size s <= M1 + fsz) ->
        (forall f k o s, included objs entry f k o s -> isExec s = false -> sh_type s = 8 -> op_useBss op = true -> M1 + fsz <= addr f k) ->
        (exists c, segs = [c] \/ exists d, segs = [c; d]) /\ Forall seg32 segs /\ Forall (segOk (p_file p)) segs /\ (forall c d, segs = [c; d] -> g_vaddr c + g_memsz c <= g_vaddr d) /\
        (forall g, In g segs -> g_off g = g_vaddr g - base) /\
        forall f k o s, included objs entry f k o s -> exists g, In g segs /\ g_flags g = (if isExec s then 5 else 6) /\
          g_vaddr g <= addr f k /\ addr f k + sh_size s <= g_vaddr g + g_memsz g /\
          (sh_type s = 1 \/ op_useBss op = false -> addr f k + sh_size s <= g_vaddr g + g_filesz g) /\
          (sh_type s = 8 -> op_useBss op = true -> g_vaddr g + g_filesz g <= addr f k) /\
          (forall g', In g' segs -> g' <> g -> g_flags g' <> g_flags g)).
      { intros fsz ES F1 F2 F3 F4. set (dseg := mkSegm (M1 - base) M1 fsz (pageUp ma2 - M1) 6) in *. rewrite ES.
        assert (DOK : seg32 dseg /\ segOk (p_file p) dseg).
        { unfold seg32, segOk, dseg. cbn. unfold origin in *. split; [lia|]. split; [exists z1; auto|]. split; [exists (z1 - zb); lia|]. lia. }
        split; [exists cseg; right; exists dseg; auto|]. split; [constructor; [apply COK|constructor; [apply DOK|constructor]]|]. split; [constructor; [apply COK|constructor; [apply DOK|constructor]]|].
        split; [intros c d C; injection C as <- <-; unfold cseg, dseg; cbn; lia|]. split; [intros g [<- |[<- |[]]]; reflexivity|].
        intros f k o s IN. destruct (isExec s) eqn:X.
        - destruct (CIN f k o s IN X) as (C1 & C2 & C3). exists cseg. split; [left; auto|]. split; [reflexivity|]. split; [exact C1|]. split; [exact C2|]. split; [auto|].
          split; [intros; contradiction|]. intros g' [<- |[<- |[]]] C; [contradiction|]. cbn. lia.
        - exists dseg. split; [right; left; auto|]. split; [reflexivity|].
          assert (M1 <= addr f k) by (apply (M1e f k o s IN); apply (IND f k o s); auto). assert (addr f k + sh_size s <= ma2) by (apply MAX2; exists f, k, o, s; auto).
          unfold dseg. cbn [g_vaddr g_memsz g_filesz g_flags]. split; [auto|]. split; [lia|]. split; [eauto|]. split; [eauto|].
          intros g' [<- |[<- |[]]] C; [|contradiction]. cbn. lia. }
      replace (e_useBss e) with (op_useBss op) in SG.
      destruct (has SHT_NOBITS (d_attrs dl) && op_useBss op) eqn:HB.
      + (* zero-initialized sections not in the file *)
        apply andb_true_iff in HB as [HB HU].
        destruct (lastBits (p_ds p0) (pred (e_cnt e0))) as [i|] eqn:LB; [|discriminate]. cbn [inb rbind] in SG. injection SG as SG.
        destruct (lastBits_ok _ _ _ LB) as (LB1 & (di' & LB2 & LB3) & LB4).
        destruct (na_nth (p_ds p0) ds i di' NA0 LB2) as (di & LB5 & _ & LB6).
        assert (IL : (i < List.length l)%nat) by (assert (List.length l <> 0%nat) by (destruct l; [contradiction|cbn; lia]); lia).
        rewrite EDS, nth_error_app1 in LB5 by auto. destruct (nth_error_split l i LB5) as (l1 & l2 & ES1 & ES2).
        assert (NB2 : forall d, In d l2 -> has SHT_NOBITS (d_attrs d) = true).
        { intros d I. apply In_nth_error in I as (j & J). assert (JL : nth_error l (S i + j) = Some d).
          { rewrite ES1, nth_error_app2 by lia. replace (S i + j - List.length l1)%nat with (S j) by lia. exact J. }
          assert (JJ : (S i + j < List.length l)%nat) by (apply nth_error_Some; congruence).
          assert (JD : nth_error ds (S i + j) = Some d) by (rewrite EDS, nth_error_app1 by auto; auto).
          destruct (na_nth ds (p_ds p0) _ d (eq_sym NA0) JD) as (d' & D1 & _ & D3). rewrite <- D3. apply (LB4 (S i + j)%nat); [lia|auto]. }
        assert (NB1 : forall d, In d (l1 ++ [di]) -> has SHT_NOBITS (d_attrs d) = false).
        { intros d I. destruct (has SHT_NOBITS (d_attrs d)) eqn:B; [|auto]. exfalso. pose proof (sorted_nobits l OKl SS) as SN. rewrite ES1 in SN.
          assert (has SHT_NOBITS (d_attrs di) = true); [|congruence]. apply in_app_or in I as [I|[-> |[]]]; [|auto].
          clear - SN I B. induction l1 as [|x l1 IH]; [destruct I|]. cbn in SN. inversion_clear SN as [|? ? S1 S2]. destruct I as [-> |I]; [|auto].
          rewrite Forall_forall in S2. apply S2; auto. apply in_or_app. right. left. auto. }
        assert (L2N : l2 <> []).
        { intros C. subst l2. rewrite EDL in ES1. apply app_inj_tail in ES1 as [_ ->]. congruence. }
        destruct l2 as [|d2 l2']; [contradiction|].
        destruct (CUTOK l1 di (d2 :: l2') ES1) as (M3 & M3a & M3b & M3c & M3d & M3e & (f5 & k5 & o5 & s5 & IN5 & N5 & E5) & M3g).
        { apply Forall_forall. intros d I. left. auto. }
        { unfold padsB. rewrite FMT. change (isPaged FormatElf32) with true. cbn [orb andb hd_error nextHas]. rewrite UB, HU. rewrite (NB1 di) by (apply in_or_app; right; left; auto).
          rewrite (NB2 d2) by (left; auto). cbn. rewrite !orb_true_r. reflexivity. }
        destruct (M3g d2 l2' eq_refl) as (f6 & k6 & o6 & s6 & IN6 & N6 & E6).
        assert (BITS : forall f k o s d, included objs entry f k o s -> In d l -> sh_name s = d_name d -> has SHT_NOBITS (d_attrs d) = (sh_type s =? 8)).
        { intros f k o s d IN I N. rewrite (ATTR f k o s d IN I N), attrs_eq. destruct (proj1 WF f k o s) as (_ & _ & _ & TY & _); [apply IN|apply IN|].
          destruct TY as [-> | ->]; destruct (Z.testbit (sh_flags s) 0), (Z.testbit (sh_flags s) 2); vm_compute; reflexivity. }
        assert (ID2 : In d2 l) by (rewrite ES1; apply in_or_app; right; right; left; auto).
        assert (M13 : M1 <= M3).
        { rewrite <- E6. apply (M1e f6 k6 o6 s6 IN6). apply (IND f6 k6 o6 s6 IN6). destruct (isExec s6) eqn:X; [|auto]. exfalso.
          pose proof (BITS f6 k6 o6 s6 d2 IN6 ID2 N6) as BB. rewrite (NB2 d2) in BB by (left; auto). destruct (CIN f6 k6 o6 s6 IN6 X) as (_ & _ & C). lia. }
        (* the end of the last name in the file *)
        destruct (nth_error gs i) as [gi|] eqn:GI; [|apply nth_error_None in GI; pose proof (Forall2_len _ _ _ GF); lia].
        destruct (ST i gi GI) as [_ STI]. rewrite STI in SG.
        assert (IGI : In (di, gi) (combine l gs)) by (apply (nth_error_In _ i); apply nth_combine; auto).
        assert (IDI : In di l) by (rewrite ES1; apply in_or_app; right; left; auto).
        destruct (maxE_ok gi (GNE di gi IGI)) as ((sqm & SQ1 & SQ2) & SQ3).
        { intros sq I. destruct (PART di gi sq IGI I) as (f & k & o & A1 & _ & _ & A4). destruct (AD f k o (fst sq) A1) as (A5 & _ & A6). unfold addr in A5. rewrite outAddr_lookup, A4 in A5. lia. }
        assert (MG1 : maxE gi <= M3).
        { destruct (PART di gi sqm IGI SQ1) as (f & k & o & A1 & A2 & _ & A4). rewrite SQ2.
          assert (A5 : addr f k = pl_addr (snd sqm)) by (unfold addr; rewrite outAddr_lookup, A4; reflexivity). rewrite <- A5. apply (M3d f k o (fst sqm) A1). rewrite A2. apply in_map. apply in_or_app. right. left. auto. }
        assert (MG2 : addr f5 k5 + sh_size s5 <= maxE gi).
        { destruct (ALL f5 k5 o5 s5 IN5) as (d & g & q & A1 & A2 & A3 & A4 & A5). assert (E : (d, g) = (di, gi)).
          { apply In_nth_error in A1 as (i' & A1). apply nth_combine_inv in A1 as [A1 A6].
            assert (i' = i) by (apply (proj1 (NoDup_nth_error (map d_name l)) ND); [rewrite map_length; apply nth_error_Some; congruence|]; erewrite !map_nth_error by eauto; congruence).
            subst i'. congruence. }
          injection E as -> ->. specialize (SQ3 _ A2). cbn [fst snd] in SQ3. unfold addr. rewrite outAddr_lookup, A5. exact SQ3. }
        assert (GM : 0 <= maxE gi < 2 ^ 32) by (pose proof (maxE_ge gi); lia). destruct M3a as [z3 Z3].
        assert (PM : pageUp (maxE gi) = M3) by (unfold pageUp in *; lia).
        rewrite (page_up _ GM), PM in SG. replace (maxE gi + 4095 <? 2 ^ 32) with true in SG by lia. rewrite (u32_small (M3 - M1)) in SG by lia.
        apply (FIN (M3 - M1)); [auto| |unfold origin in *; lia| |].
        { assert (M3 <= ma2); [|lia]. rewrite <- E6. assert (addr f6 k6 + sh_size s6 <= ma2); [apply MAX2; exists f6, k6, o6, s6; split; [auto|]; split; [|auto]|destruct (AD f6 k6 o6 s6 IN6); lia].
          destruct (isExec s6) eqn:X; [|auto]. exfalso. pose proof (BITS f6 k6 o6 s6 d2 IN6 ID2 N6) as BB. rewrite (NB2 d2) in BB by (left; auto). destruct (CIN f6 k6 o6 s6 IN6 X) as (_ & _ & C). lia. }
        { intros f k o s IN X T. replace (M1 + (M3 - M1)) with M3 by lia. apply (M3d f k o s IN). destruct (NAMES f k o s IN) as (d & D1 & D2 & D3). rewrite <- D2. apply in_map.
          destruct T as [T|T]; [|congruence]. pose proof (BITS f k o s d IN D1 (eq_sym D2)) as BB. rewrite ES1 in D1. apply in_app_or in D1 as [D1|[D1|D1]]; [apply in_or_app; auto|apply in_or_app; right; left; auto|].
          exfalso. rewrite (NB2 d D1) in BB. lia. }
        { intros f k o s IN X T _. replace (M1 + (M3 - M1)) with M3 by lia. apply (M3e f k o s IN). destruct (NAMES f k o s IN) as (d & D1 & D2 & D3). rewrite <- D2. apply in_map.
          pose proof (BITS f k o s d IN D1 (eq_sym D2)) as BB. rewrite ES1 in D1. apply in_app_or in D1 as [D1|[D1|D1]]; [| |exact D1]; exfalso; (rewrite (NB1 d) in BB; [lia|]); apply in_or_app; [left; auto|right; left; auto]. }
      + (* everything in the file *)
        cbn [rbind] in SG. injection SG as SG.
        assert (INF : forall d, In d l -> has SHT_NOBITS (d_attrs d) = false \/ op_useBss op = false).
        { intros d I. destruct (op_useBss op) eqn:U; [|auto]. left. rewrite andb_true_r in HB. destruct (has SHT_NOBITS (d_attrs d)) eqn:B; [|auto]. exfalso.
          pose proof (sorted_nobits l OKl SS) as SN. rewrite EDL in SN, I. apply in_app_or in I as [I|[-> |[]]]; [|congruence].
          assert (has SHT_NOBITS (d_attrs dl) = true); [|congruence]. clear - SN I B. induction lx as [|x lx IH]; [destruct I|]. cbn in SN. inversion_clear SN as [|? ? S1 S2]. destruct I as [-> |I]; [|auto].
          rewrite Forall_forall in S2. apply S2; auto. apply in_or_app. right. left. auto. }
        destruct (CUTOK lx dl [] EDL) as (M2 & M2a & M2b & M2c & M2d & _).
        { rewrite <- EDL. apply Forall_forall. exact INF. }
        { unfold padsB. rewrite FMT. change (isPaged FormatElf32) with true. cbn [orb andb hd_error nextHas]. rewrite UB. destruct (op_useBss op) eqn:U; cbn [negb andb orb]; rewrite ?orb_true_r; auto.
          rewrite andb_true_r in HB. rewrite HB. cbn. rewrite !orb_true_r. reflexivity. }
        rewrite <- EDL in M2d.
        assert (LM : forall f k o s, included objs entry f k o s -> addr f k + sh_size s <= M2).
        { intros f k o s IN. apply (M2d f k o s IN). destruct (NAMES f k o s IN) as (d & D1 & D2 & D3). rewrite <- D2. apply in_map. auto. }
        assert (MA2 : ma2 <= M2) by (rewrite E4; apply (LM f4 k4 o4 s4 IN4)). pose proof (pageUp_le ma2 M2 MA2 M2a) as PU3.
        apply (FIN (pageUp ma2 - M1)); [auto|lia|unfold origin in *; lia| |].
        { intros f k o s IN X _. assert (addr f k + sh_size s <= ma2) by (apply MAX2; exists f, k, o, s; auto). lia. }
        { intros f k o s IN X T U. exfalso. destruct (NAMES f k o s IN) as (d & D1 & D2 & D3). destruct (INF d D1) as [C|C]; [|congruence].
          rewrite D3, attrs_eq, T in C. destruct (Z.testbit (sh_flags s) 0), (Z.testbit (sh_flags s) 2); vm_compute in C; discriminate. }
  Qed.
End ElfFile.

Lemma patch_len w base r v : inside w r -> zlen (patch w base r v) = zlen w.
Proof.
  intros [A B]. unfold patch. assert (0 <= width r) by (destruct (width_cases r) as [-> | ->]; lia).
  rewrite !zlen_app. unfold zlen in *. rewrite firstn_length, skipn_length, digits_len. lia.
Qed.
Lemma patchAll_len base v rels : forall w, Forall (inside w) rels -> zlen (patchAll w base v rels) = zlen w.
Proof.
  induction rels as [|r rels IH]; intros w F; [reflexivity|]. cbn [patchAll]. inversion_clear F as [|? ? F1 F2].
  rewrite IH, patch_len; auto. eapply Forall_impl; [|exact F2]. intros r' [A B]. split; [auto|]. rewrite patch_len; auto.
Qed.
Lemma final_len objs entry addr stack f k o s b : wellFormed objs -> included objs entry f k o s ->
  finalBytes objs entry addr stack f k o s b -> zlen b = sh_size s.
Proof.
  intros WF IN H. destruct (proj1 WF f k o s) as (S1 & _ & _ & TY & BY & RL); [apply IN|apply IN|]. unfold finalBytes in H.
  destruct TY as [TY|TY]; rewrite TY in *.
  - change (1 =? 8) with false in H. cbv iota in H. destruct (BY eq_refl) as (B1 & _). destruct H as [(rs & v & R1 & R2 & ->)|(_ & ->)]; [|auto].
    rewrite patchAll_len; [auto|]. apply (RL rs R1).
  - change (8 =? 8) with true in H. cbv iota in H. subst b. unfold zlen. rewrite repeat_length. lia.
Qed.

Section ElfOk.
  Variables (op : opts) (objs : list obj) (st : rst) (e0 : env) (ds : list descr).
  Hypothesis PR : prepare op objs = Ok (st, e0, ds).
  Hypothesis WF : wellFormed objs.
  Let entry := op_entry op.
  Hypothesis EL : op_fmt op = FormatElf32.

  Theorem elf_ok p segs v : 0 <= op_origin op < 2 ^ 32 -> rwElf op e0 ds = Ok (p, segs, v) ->
    exists base addr,
      base = (if op_origin op =? 2 ^ 32 - 1 then 134512640 else op_origin op - op_origin op mod 4096) /\
      goodLayout objs entry FormatElf32 (lookup (p_out p)) (base + 4096) /\
      (forall f k q, lookup (p_out p) f k = Some q -> addr f k = pl_addr q) /\
      symbolAt objs entry addr None entry v /\
      elfProgram (p_file p) v segs /\ Forall (segOk (p_file p)) segs /\ ForallOrdPairs segApart segs /\
      forall f k o s, included objs entry f k o s -> exists g b, In g segs /\ finalBytes objs entry addr None f k o s b /\
        g_flags g = (if isExec s then 5 else 6) /\ g_vaddr g <= addr f k /\ addr f k + sh_size s <= g_vaddr g + g_memsz g /\
        forall i, 0 <= i < sh_size s -> memory (p_file p) segs (addr f k + i) = zget b i.
  Proof.
    intros OO H. pose proof (elf_ns op EL) as NS. pose proof (elf_nu op EL) as NU.
    unfold rwElf in H. cbv zeta in H.
    set (base := if op_origin op =? UNSPEC then 134512640 else low12 (op_origin op)) in *.
    destruct (4294963200 <=? base) eqn:E1; [discriminate|].
    assert (BA : (4096 | base) /\ 0 <= base).
    { unfold base. destruct (op_origin op =? UNSPEC); [split; [exists 32840; reflexivity|lia]|]. rewrite low12_ok by lia. split; [exists (op_origin op / 4096); lia|lia]. }
    assert (BV : base = (if op_origin op =? 2 ^ 32 - 1 then 134512640 else op_origin op - op_origin op mod 4096)).
    { unfold base, UNSPEC. destruct (op_origin op =? 2 ^ 32 - 1); [auto|apply low12_ok; lia]. }
    clearbody base. destruct BA as [BA B0]. assert (B1 : base + 4096 < 2 ^ 32) by (change (2 ^ 32) with 4294967296; lia).
    rewrite (u32_small (base + 4096)) in H by (lia).
    change (mkEnv (e_objs e0) (e_fmt e0) (e_useBss e0) (e_bs e0) (e_relod e0) (e_cnt e0) 4096) with (withHdr e0 4096) in H.
    set (buf := repeat 0 1027) in *. assert (BU : zlen buf = FBUF + 3) by (vm_compute; reflexivity).
    destruct (Pass (withHdr e0 4096) false (base + 4096) ds [] buf []) as [p0| |] eqn:P1; try discriminate. cbn [rbind] in H.
    cbn [withHdr e_objs e_bs] in H.
    destruct (symAddress (e_objs e0) (e_bs e0) (p_ds p0) (p_out p0) (op_entry op)) as [ip| |] eqn:SY; try discriminate. cbn [rbind] in H.
    change (mkEnv (e_objs e0) (e_fmt e0) (e_useBss e0) (e_bs e0) (e_relod e0) (e_cnt e0) 4096) with (withHdr e0 4096) in H.
    destruct (elfSegs (withHdr e0 4096) (p_ds p0) base) as [sg| |] eqn:SG; try discriminate. cbn [rbind] in H.
    set (file := (elfHeader ip (zlen sg) ++ _) ++ _) in H.
    destruct (Pass (withHdr e0 4096) true (base + 4096) (p_ds p0) (p_out p0) buf file) as [p2| |] eqn:P2; try discriminate. cbn [rbind] in H. injection H as -> -> ->.
    assert (LIM : limit (op_fmt op) = 2 ^ 32 - 1) by (rewrite EL; reflexivity).
    assert (SGS : exists c, segs = [c] \/ exists d, segs = [c; d]).
    { unfold elfSegs in SG. cbv zeta in SG. destruct (hasData _ _) in SG; [|injection SG as <-; eexists; left; reflexivity].
      match type of SG with rbind ?x _ = _ => destruct x; try discriminate end. cbn [rbind] in SG. injection SG as <-. eexists. right. eexists. reflexivity. }
    assert (FL : zlen file = 4096).
    { unfold file. destruct SGS as (c & [-> |(d & ->)]); unfold zlen; rewrite !app_length, !repeat_length; cbn [flat_map]; rewrite ?app_length, ?app_nil_r; vm_compute; reflexivity. }
    destruct (flat_pass op objs st e0 ds PR WF NS NU 4096 (base + 4096) ds [] buf p0 file p) as (F1 & (w & F2) & F3 & F4 & F5); auto; try lia.
    destruct (elf_segs op objs st e0 ds PR WF EL base buf p0 file p segs BA (conj B0 B1) BU FL P1 P2 SG) as (_ & G1 & G2 & G3 & G4 & G5).
    assert (STN : stackOf op e0 ds = None) by (unfold stackOf; rewrite EL; reflexivity). rewrite STN in F4, F5.
    set (addr := outAddr (p_out p0)) in *. rewrite EL in F1.
    assert (SV : symbolAt objs entry addr None entry v) by (apply F4; auto; left; left; auto).
    assert (AD : forall f k o s, included objs entry f k o s -> 0 <= addr f k /\ addr f k + sh_size s < 2 ^ 32 /\ 0 <= sh_size s).
    { intros f k o s IN. destruct F1 as (L1 & _). destruct (L1 f k o s IN Logic.I) as (q & Q1 & Q2 & Q3 & _). unfold end_ in Q3. rewrite (F3 f k q Q1).
      change (limit FormatElf32) with (2 ^ 32 - 1) in Q3. destruct (proj1 WF f k o s) as (S1 & _); [apply IN|apply IN|]. lia. }
    assert (VV : 0 <= v < 2 ^ 32).
    { destruct SV as [(i & o & y & _ & _ & _ & _ & _ & ->)|(_ & m & nm & _ & B)]; [apply Z.mod_pos_bound; lia|].
      destruct B as [(_ & (B & _))|[(_ & (B & _))|[(_ & _ & (B & _))|[(_ & _ & (B & _))|[(_ & _ & (B & _))|[(_ & _ & (B & _))|[(_ & _ & B)|(_ & _ & B)]]]]]]];
        try discriminate B; destruct B as (f & k & o & s & IN & _ & ->); specialize (AD f k o s IN); lia. }
    exists base, addr. split; [exact BV|].
    split; [exact F1|]. split; [exact F3|]. split; [exact SV|].
    split; [rewrite F2; unfold file; rewrite <- !app_assoc; apply elf_header; auto|]. split; [exact G2|]. split.
    { destruct SGS as (c & [-> |(d & ->)]); [repeat constructor|]. constructor; [constructor; [left; apply G3; auto|constructor]|repeat constructor]. }
    intros f k o s IN. destruct (G5 f k o s IN) as (g & IG & FG & A1 & A2 & A3 & A4 & A5).
    destruct (proj1 WF f k o s) as (S1 & _ & _ & TY & _); [apply IN|apply IN|].
    assert (MEM : forall i, 0 <= i < sh_size s -> memory (p_file p) segs (addr f k + i) =
      if addr f k + i <? g_vaddr g + g_filesz g then zget (p_file p) (addr f k - base + i) else Some 0).
    { intros i I. pose proof (G4 g IG) as OG. destruct SGS as (c & [-> |(d & ->)]).
      - destruct IG as [<- |[]]. cbn [memory]. replace ((g_vaddr c <=? addr f k + i) && (addr f k + i <? g_vaddr c + g_memsz c)) with true by lia.
        rewrite OG. replace (g_vaddr c - base + (addr f k + i - g_vaddr c)) with (addr f k - base + i) by lia. reflexivity.
      - specialize (G3 c d eq_refl). cbn [memory]. destruct IG as [<- |[<- |[]]].
        + replace ((g_vaddr c <=? addr f k + i) && (addr f k + i <? g_vaddr c + g_memsz c)) with true by lia.
          rewrite OG. replace (g_vaddr c - base + (addr f k + i - g_vaddr c)) with (addr f k - base + i) by lia. reflexivity.
        + replace ((g_vaddr c <=? addr f k + i) && (addr f k + i <? g_vaddr c + g_memsz c)) with false by lia.
          replace ((g_vaddr d <=? addr f k + i) && (addr f k + i <? g_vaddr d + g_memsz d)) with true by lia.
          rewrite OG. replace (g_vaddr d - base + (addr f k + i - g_vaddr d)) with (addr f k - base + i) by lia. reflexivity. }
    exists g. destruct (Bool.bool_dec ((sh_type s =? 8) && op_useBss op) true) as [NB|NB].
    - apply andb_true_iff in NB as [NB U]. exists (repeat 0 (Z.to_nat (sh_size s))). split; [auto|]. split; [unfold finalBytes; rewrite NB; reflexivity|]. split; [auto|]. split; [auto|]. split; [auto|].
      intros i I. rewrite MEM, zget_repeat by lia. specialize (A4 ltac:(lia) U). replace (addr f k + i <? g_vaddr g + g_filesz g) with false by lia. reflexivity.
    - assert (INF : sh_type s = 1 \/ op_useBss op = false) by (destruct TY as [TY|TY]; [auto|]; right; destruct (op_useBss op); [exfalso; apply NB; rewrite TY; reflexivity|auto]).
      destruct (F5 f k o s IN INF) as (b & FB & OC). exists b. split; [auto|]. split; [auto|]. split; [auto|]. split; [auto|]. split; [auto|].
      intros i I. rewrite MEM by lia. specialize (A3 INF). replace (addr f k + i <? g_vaddr g + g_filesz g) with true by lia.
      replace (base + 4096 - 4096) with base in OC by lia. apply (occurs_get _ _ _ _ OC). rewrite (final_len _ _ _ _ _ _ _ _ _ WF IN FB). exact I.
  Qed.
End ElfOk.
