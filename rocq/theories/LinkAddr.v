(** The two passes together; addresses of symbols (C41). *)
From Verif Require Import Base BaseLemmas LexModel LexSpec LexProof LinkModel LinkSpec LinkReloc LinkResolve LinkLayout LinkFind LinkPlace LinkImage LinkSpan LinkWhole.
From Coq Require Import Sorted String Permutation.
Close Scope string_scope.

Lemma nobits_rank a b : In a attrSet -> In b attrSet -> rank a <= rank b -> has SHT_NOBITS a = true -> has SHT_NOBITS b = true.
Proof.
  intros A B. assert (T : forallb (fun x => forallb (fun y => negb (rank x <=? rank y) || negb (has SHT_NOBITS x) || has SHT_NOBITS y) attrSet) attrSet = true) by (vm_compute; reflexivity).
  rewrite forallb_forall in T. specialize (T a A). rewrite forallb_forall in T. specialize (T b B). intros L N. rewrite N in T.
  destruct (has SHT_NOBITS b); [auto|]. cbn in T. lia.
Qed.
Lemma sorted_nobits (l : list descr) : Forall okD l -> StronglySorted rankLe l ->
  StronglySorted (fun d d' => has SHT_NOBITS (d_attrs d) = true -> has SHT_NOBITS (d_attrs d') = true) l.
Proof.
  intros OK SS. induction SS as [|d l SS IH F]; [constructor|]. inversion_clear OK as [|? ? O1 O2]. constructor; [auto|].
  apply Forall_forall. intros d' I. rewrite Forall_forall in F, O2. apply nobits_rank; [exact O1|apply (O2 d' I)|apply (F d' I)].
Qed.
Lemma sameOut_lookup a b : (forall f k, lookup a f k = lookup b f k) -> sameOut a b.
Proof. intros H f k. rewrite !outAddr_lookup, H. reflexivity. Qed.

Section Passes.
  Variables (op : opts) (objs : list obj) (st : rst) (e0 : env) (ds : list descr).
  Hypothesis PR : prepare op objs = Ok (st, e0, ds).
  Hypothesis WF : wellFormed objs.
  Let entry := op_entry op.
  Hypothesis NS : op_fmt op <> FormatDosExeSmall.
  Hypothesis NU : op_fmt op <> FormatDosExeUnreal.
  Lemma noRelod : op_fmt op = FormatDosExeUnreal -> forall f k o s, sectionOf objs f k o s -> sh_name s <> RELOD.
  Proof. intros; contradiction. Qed.

  (** what the first pass leaves behind *)
  Lemma pass_state hs origin dsX out0 buf p0 : 0 <= origin <= limit (op_fmt op) -> map na dsX = map na ds ->
    Pass (withHdr e0 hs) false origin dsX out0 buf [] = Ok p0 ->
    exists l hidden gs, ds = l ++ hidden /\ e_cnt e0 = List.length l /\ groupsFor e0 l gs /\ chain (withHdr e0 hs) origin l gs (p_ofs p0) /\
      p_out p0 = rev (map snd (List.concat gs)) ++ out0 /\ Forall (Forall (fun sq => pl_off (snd sq) = u32 (hs + (pl_addr (snd sq) - origin)))) gs /\
      map na (p_ds p0) = map na ds /\
      (forall i g, nth_error gs i = Some g -> startOf (p_ds p0) i = minA g /\ stopOf (p_ds p0) i = maxE g) /\
      (forall i, (e_cnt e0 + 1 < i)%nat -> startOf (p_ds p0) i = startOf dsX i /\ stopOf (p_ds p0) i = stopOf dsX i) /\
      startOf (p_ds p0) (e_cnt e0) = minA (partOf true l gs) /\ stopOf (p_ds p0) (e_cnt e0) = maxE (partOf true l gs) /\
      startOf (p_ds p0) (S (e_cnt e0)) = minA (partOf false l gs) /\ stopOf (p_ds p0) (S (e_cnt e0)) = maxE (partOf false l gs) /\
      (forall sq, In sq (List.concat gs) -> lookup (p_out p0) (pl_obj (snd sq)) (pl_sect (snd sq)) = Some (snd sq)).
  Proof.
    intros OR NA H.
    destruct (prep_names op objs st e0 ds PR WF noRelod) as (l & hidden & EDS & CNT & LH & NE & OKl & ND & SS & OKD & R0 & GR & FOR & FROM & UNI & HD & X4 & LD & HID).
    destruct (prep_resolve op objs st e0 ds PR) as (R & EO & EF & EU & FS & EC & EH).
    exists l, hidden. pose proof NA as NA2. rewrite EDS in NA.
    assert (LX : List.length dsX = (e_cnt e0 + 3)%nat) by (rewrite <- (map_length na), NA, map_length, app_length; lia).
    unfold Pass in H. cbn [withHdr e_cnt] in H.
    rewrite (passLoop_na _ _ _ l) in H by (rewrite CNT; apply (firstn_na dsX l hidden); auto).
    set (P0 := mkPst origin origin 0 _ out0 buf []) in H. set (e := withHdr e0 hs) in *.
    assert (G : forall i, startOf (p_ds P0) i = (if Nat.eqb i (S (e_cnt e0)) then 2 ^ 32 - 1 else if Nat.eqb i (e_cnt e0) then 2 ^ 32 - 1 else startOf dsX i) /\
      stopOf (p_ds P0) i = (if Nat.eqb i (S (e_cnt e0)) then 0 else if Nat.eqb i (e_cnt e0) then 0 else stopOf dsX i)).
    { intros i. unfold P0. cbn [p_ds]. destruct (reset_get (reset dsX (e_cnt e0)) (S (e_cnt e0)) i) as [-> ->]; [rewrite reset_len; lia|].
      destruct (reset_get dsX (e_cnt e0) i) as [-> ->]; [lia|]. destruct (Nat.eqb i (S (e_cnt e0))); auto. }
    assert (N1 : Nat.eqb (e_cnt e0) (S (e_cnt e0)) = false) by (apply Nat.eqb_neq; lia).
    destruct (G (e_cnt e0)) as [G1 G2]. rewrite N1, Nat.eqb_refl in G1, G2. destruct (G (S (e_cnt e0))) as [G3 G4]. rewrite Nat.eqb_refl in G3, G4.
    destruct (passLoop_span e l 0 P0 p0) as (gs & H1 & H2 & H3 & H4 & H5 & H6 & H7 & H8 & H9 & H10 & H11 & H12 & H13); auto.
    { unfold okState, P0, e. cbn. rewrite EF. auto. }
    { apply okDescr_good. apply OKD. }
    { cbn. rewrite EF. auto. }
    { unfold P0. cbn [p_ds e withHdr e_cnt]. rewrite !reset_len. auto. }
    { cbn. lia. }
    { unfold segsOk. cbn [e withHdr e_cnt]. rewrite G1, G2, G3, G4. lia. }
    exists gs. split; [auto|]. split; [auto|]. split; [exact H1|]. split; [exact H2|]. split; [exact H3|]. split.
    { revert H4. apply Forall_impl. intros g. apply Forall_impl. intros sq E. rewrite E. unfold offOf, e, P0. cbn. f_equal. lia. }
    split. { destruct (passLoop_ds _ _ _ _ _ _ H) as [D _]. rewrite D. unfold P0. cbn [p_ds]. rewrite !reset_na. auto. }
    split; [exact H8|]. split.
    { intros i I. destruct (H9 i) as [A1 A2]; [right; exact I|]. destruct (G i) as [A3 A4].
      replace (Nat.eqb i (S (e_cnt e0))) with false in A3, A4 by (symmetry; apply Nat.eqb_neq; lia).
      replace (Nat.eqb i (e_cnt e0)) with false in A3, A4 by (symmetry; apply Nat.eqb_neq; lia). split; congruence. }
    cbn [e withHdr e_cnt] in H10, H11, H12, H13. rewrite H10, H11, H12, H13, G1, G2, G3, G4.
    pose proof (minA_le (partOf true l gs)). pose proof (minA_le (partOf false l gs)). pose proof (maxE_ge (partOf true l gs)). pose proof (maxE_ge (partOf false l gs)).
    split; [lia|]. split; [lia|]. split; [lia|]. split; [lia|].
    intros sq I. rewrite H3. apply lookup_rev; [|apply in_map; auto]. rewrite qkeys. apply (groups_keys e l gs H1 ND).
  Qed.

  (** the second pass writes what the addresses of the first ask for *)
  Lemma two_pass hs origin dsX out0 buf p0 file p : 0 <= origin <= limit (op_fmt op) -> map na dsX = map na ds ->
    0 <= hs <= origin -> zlen buf = FBUF + 3 -> zlen file = hs ->
    Pass (withHdr e0 hs) false origin dsX out0 buf [] = Ok p0 -> Pass (withHdr e0 hs) true origin (p_ds p0) (p_out p0) buf file = Ok p ->
    p_ds p = p_ds p0 /\ sameOut (p_out p) (p_out p0) /\
    (forall f k o s, included objs entry f k o s -> lookup (p_out p) f k = lookup (p_out p0) f k) /\
    (exists w, p_file p = file ++ w) /\
    (forall f k o s, included objs entry f k o s -> sh_type s = SHT_PROGBITS \/ op_useBss op = false ->
      exists q b, lookup (p_out p0) f k = Some q /\ contents (withHdr e0 hs) (p_ds p0) (p_out p0) f k o s (pl_addr q) b /\ occurs (p_file p) (pl_off q) b).
  Proof.
    intros OR NA HS BU FL H K.
    destruct (pass_state hs origin dsX out0 buf p0 OR NA H) as (l & hidden & gs & EDS & CNT & GF & CH & OUT & OFF & NA0 & ST & ST2 & _ & _ & _ & _ & LK).
    destruct (prep_names op objs st e0 ds PR WF noRelod) as (l' & hidden' & EDS' & CNT' & LH & NE & OKl & ND & SS & OKD & R0 & GR & FOR & FROM & UNI & HD & X4 & LD & HID).
    assert (l' = l /\ hidden' = hidden) as [-> ->].
    { rewrite EDS in EDS'. split.
      - apply (f_equal (firstn (e_cnt e0))) in EDS'. rewrite CNT in EDS' at 1. rewrite CNT' in EDS'. rewrite !firstn_app, !firstn_all, !Nat.sub_diag in EDS'. cbn in EDS'. rewrite !app_nil_r in EDS'. auto.
      - apply (f_equal (skipn (e_cnt e0))) in EDS'. rewrite CNT in EDS' at 1. rewrite CNT' in EDS'. rewrite !skipn_app, !skipn_all, !Nat.sub_diag in EDS'. cbn in EDS'. auto. }
    destruct (prep_resolve op objs st e0 ds PR) as (R & EO & EF & EU & FS & EC & EH).
    pose proof NA as NA2. rewrite EDS in NA, NA0.
    unfold Pass in H, K. cbn [withHdr e_cnt] in H, K. rewrite CNT in H, K.
    rewrite (passLoop_na _ _ _ l) in H by (apply (firstn_na dsX l hidden); auto).
    rewrite (passLoop_na _ _ _ l) in K by (apply (firstn_na (p_ds p0) l hidden); auto).
    set (P0 := mkPst origin origin 0 _ out0 buf []) in H. set (P1 := mkPst origin origin 0 _ (p_out p0) buf file) in K. set (e := withHdr e0 hs) in *.
    destruct (passLoop_twins e l 0 P1 P0 p p0) as (_ & new & N1 & N2); [repeat split|exact K|exact H|].
    unfold P0 in N2. cbn [p_out] in N2. unfold P1 in N1. cbn [p_out] in N1.
    assert (new = rev (map snd (List.concat gs))). { apply (app_inv_tail out0). rewrite <- N2. auto. }
    assert (SQ : Forall (settledQ (p_out p0)) new).
    { apply Forall_forall. intros q I. rewrite H0, <- in_rev in I. apply in_map_iff in I as (sq & <- & I). unfold settledQ. rewrite outAddr_lookup, (LK sq I). reflexivity. }
    destruct (passLoop_file e (p_ds p0) (p_out p0) l 0 P1 p new) as ((V1 & V2 & V3 & V4 & V5) & F2 & F3 & F4); auto.
    { unfold inv, okState, roomy, P1. cbn. rewrite EF. split; [auto|]. split; [pose proof (limit_u32 (op_fmt op)); lia|]. split; [auto|]. split; [|auto]. intros f k; reflexivity. }
    { apply OKD. }
    { unfold e. cbn. rewrite EF. auto. }
    { apply sorted_nobits; auto. }
    { left. unfold synced, P1, e. cbn. lia. }
    split; [auto|]. split; [auto|]. split.
    { intros f k o s IN. rewrite N1, lookup_app. destruct (FOR f k o s IN) as (d & D1 & D2 & D3).
      destruct (groups_all e l gs GF f k o s d D1) as (q & Q1 & Q2 & Q3); [apply (proj2 (prep_incl op objs st e0 ds PR f k o s)); split; apply IN|auto|].
      specialize (LK _ Q1). cbn [snd] in LK. rewrite Q2, Q3 in LK. rewrite LK.
      destruct (lookup new f k) as [q'|] eqn:E; [|auto]. rewrite <- LK, N2, lookup_app, E. reflexivity. }
    split; [exact F2|].
    intros f k o s IN INF. destruct (FOR f k o s IN) as (d & D1 & D2 & D3).
    assert (IC : incl (e_objs e0) f k o s) by (apply (proj2 (prep_incl op objs st e0 ds PR f k o s)); split; apply IN).
    destruct (groups_all e l gs GF f k o s d D1 IC) as (q & Q1 & Q2 & Q3); [auto|].
    specialize (LK _ Q1). cbn [snd] in LK. rewrite Q2, Q3 in LK.
    rewrite Forall_forall in F3. destruct (F3 q) with (o := o) (s := s) as (b & B1 & B2).
    { rewrite H0, <- in_rev. apply in_map_iff. exists (s, q). auto. }
    { rewrite Q2, Q3. exact IC. }
    { cbn. rewrite EU. auto. }
    rewrite Q2, Q3 in B1. exists q, b. auto.
  Qed.
End Passes.

(** ** addresses *)
Lemma bmatch_stands p : forall q, bmatch p q = true -> stands p q.
Proof.
  induction p as [|a p IH]; intros [|b q]; cbn [bmatch]; try discriminate; [constructor|].
  rewrite andb_true_iff, orb_true_iff, andb_true_iff, !Z.eqb_eq. intros [H1 H2]. constructor; auto. apply IH; auto.
Qed.
Lemma findBound_ok p ds : forall i j, findBound ds i p = Some j -> exists k d, j = i + Z.of_nat k /\ nth_error ds k = Some d /\ stands p (d_name d).
Proof.
  induction ds as [|d ds IH]; intros i j; cbn [findBound]; [discriminate|]. destruct (bmatch p (d_name d)) eqn:E.
  - intros H. injection H as <-. exists O, d. split; [cbn; lia|]. split; [reflexivity|]. apply bmatch_stands. auto.
  - intros H. apply IH in H as (k & d' & -> & K & ST). exists (S k), d'. split; [lia|]. auto.
Qed.
Lemma findBsym_ok ds ns : forall bs n, linkDeferred ds ns = Ok bs ->
  match findBsym bs n with Some (i, stop) => In n ns /\ linkDeferred1 ds n = Ok (n, i, stop) | None => ~ In n ns end.
Proof.
  induction ns as [|m ns IH]; intros bs n H; cbn [linkDeferred] in H; [injection H as <-; cbn; auto|].
  destruct (linkDeferred1 ds m) as [[[m' i] stop]| |] eqn:E; try discriminate. cbn [rbind] in H.
  destruct (linkDeferred ds ns) as [bs'| |] eqn:E2; try discriminate. cbn [rbind] in H. injection H as <-.
  assert (m' = m) as -> by (unfold linkDeferred1 in E; destruct (findBound _ _ _); [|discriminate]; injection E; auto).
  cbn [findBsym]. destruct (eqs m n) eqn:EM.
  - apply eqs_true in EM. subst n. split; [left; auto|auto].
  - specialize (IH bs' n eq_refl). destruct (findBsym bs' n) as [[i' stop']|]; [destruct IH; split; [right; auto|auto]|].
    intros [-> |C]; [rewrite (proj2 (eqs_true n n)) in EM by auto; discriminate|auto].
Qed.
Lemma findAddrSym_ok ys n : match findAddrSym ys n with Some y => In y ys /\ st_name y = Some n | None => existsb (fun y => nameIs y n) ys = false end.
Proof.
  induction ys as [|y ys IH]; cbn [findAddrSym existsb]; [reflexivity|]. destruct (nameIs y n) eqn:E; [|destruct (findAddrSym ys n); [destruct IH; split; [right|]; auto|auto]].
  split; [left; auto|]. unfold nameIs in E. destruct (st_name y); [|discriminate]. apply eqs_true in E. congruence.
Qed.
Lemma findAddrObj_ok n out v os : forall f, findAddrObj os f out n = Ok v ->
  (exists i o y s, nth_error os i = Some (o, true) /\ In y (exports o) /\ st_name y = Some n /\ zget o (st_shndx y) = Some s /\
     v = u32 (outAddr out (f + i) (Z.to_nat (st_shndx y)) + st_value y)) \/
  (forall i o, nth_error os i = Some (o, true) -> ~ defines o n).
Proof.
  induction os as [|[o nd] os IH]; intros f H; cbn [findAddrObj] in H; [right; intros [|i] o C; discriminate|].
  pose proof (findAddrSym_ok (exports o) n) as FA.
  destruct (if nd then findAddrSym (exports o) n else None) as [y|] eqn:E.
  - destruct nd; [|discriminate]. rewrite E in FA. destruct (st_shndx y =? SHN_COMMON); [discriminate|]. unfold sectAddr in H.
    destruct (zget o (st_shndx y)) as [s|] eqn:Z; [|discriminate]. cbn [inb rbind] in H. injection H as <-.
    left. exists O, o, y, s. rewrite Nat.add_0_r. repeat split; auto; apply FA.
  - destruct (IH (S f) H) as [(i & o' & y & s & A1 & A2 & A3 & A4 & A5)|A].
    + left. exists (S i), o', y, s. rewrite Nat.add_succ_r. auto 10.
    + right. intros [|i] o' N; [|apply (A i); auto]. cbn in N. injection N as -> ->. rewrite E in FA. intros C. apply exports_defines in C. congruence.
Qed.
Lemma exports_global o y n : In y (exports o) -> st_name y = Some n -> globalOf o y /\ st_shndx y <> 0.
Proof.
  intros H N. unfold exports in H. apply filter_In in H as [H E]. unfold exported in E. rewrite N in E. rewrite !andb_true_iff, negb_true_iff in E.
  apply in_globals in H as (t & k & H1 & H2 & H3 & H4). unfold STB_GLOBAL in E. split; [exists t, k; repeat split; auto; lia|lia].
Qed.

Lemma minA_ok g : g <> [] -> (forall sq, In sq g -> pl_addr (snd sq) <= 2 ^ 32 - 1) ->
  (exists sq, In sq g /\ minA g = pl_addr (snd sq)) /\ forall sq, In sq g -> minA g <= pl_addr (snd sq).
Proof.
  unfold minA. induction g as [|x g IH]; intros NE B; [contradiction|]. cbn [fold_right]. destruct g as [|y g].
  - cbn [fold_right]. specialize (B x (or_introl eq_refl)). split; [exists x; split; [left; auto|lia]|]. intros sq [<- |[]]. lia.
  - destruct IH as ((sq & I & E) & L); [discriminate|intros; apply B; right; auto|]. set (m := fold_right _ _ _) in *. split.
    + destruct (Z.le_ge_cases (pl_addr (snd x)) m); [exists x; split; [left; auto|lia]|exists sq; split; [right; auto|lia]].
    + intros z [<- |Z]; [lia|]. specialize (L z Z). lia.
Qed.
Lemma maxE_ok g : g <> [] -> (forall sq, In sq g -> 0 <= pl_addr (snd sq) + sh_size (fst sq)) ->
  (exists sq, In sq g /\ maxE g = pl_addr (snd sq) + sh_size (fst sq)) /\ forall sq, In sq g -> pl_addr (snd sq) + sh_size (fst sq) <= maxE g.
Proof.
  unfold maxE. induction g as [|x g IH]; intros NE B; [contradiction|]. cbn [fold_right]. destruct g as [|y g].
  - cbn [fold_right]. specialize (B x (or_introl eq_refl)). split; [exists x; split; [left; auto|lia]|]. intros sq [<- |[]]. lia.
  - destruct IH as ((sq & I & E) & L); [discriminate|intros; apply B; right; auto|]. set (m := fold_right _ _ _) in *. split.
    + destruct (Z.le_ge_cases m (pl_addr (snd x) + sh_size (fst x))); [exists x; split; [left; auto|lia]|exists sq; split; [right; auto|lia]].
    + intros z [<- |Z]; [lia|]. specialize (L z Z). lia.
Qed.
Lemma in_partOf c l : forall gs sq, In sq (partOf c l gs) <-> exists d g, In (d, g) (combine l gs) /\ isCode d = c /\ In sq g.
Proof.
  induction l as [|d l IH]; intros [|g gs] sq; cbn [partOf combine]; try (split; [intros []|intros (d' & g' & [] & _)]).
  rewrite in_app_iff, IH. split.
  - intros [H|(d' & g' & A & B)]; [|exists d', g'; split; [right; apply A|auto]].
    destruct (Bool.eqb (isCode d) c) eqn:E; [|destruct H]. apply Bool.eqb_prop in E. exists d, g. split; [left; auto|auto].
  - intros (d' & g' & [A|A] & B & C); [|right; eauto]. injection A as <- <-. left. rewrite B, Bool.eqb_reflx. auto.
Qed.
Lemma startOf_get ds i d : zget ds i = Some d -> d_start d = startOf ds (Z.to_nat i) /\ d_stop d = stopOf ds (Z.to_nat i) /\ 0 <= i.
Proof.
  unfold zget. destruct (i <? 0) eqn:E; [discriminate|]. intros H. unfold startOf, stopOf. rewrite H. split; [auto|]. split; [auto|lia].
Qed.

Lemma Forall2_len {A B} (R : A -> B -> Prop) a b : Forall2 R a b -> List.length a = List.length b.
Proof. induction 1; cbn; congruence. Qed.
Lemma pre_start m : prefixb START (str "__start_" ++ m) = true.
Proof. apply prefixb_app. exists m. reflexivity. Qed.
Lemma pre_stop m : prefixb START (str "__stop_" ++ m) = false.
Proof. reflexivity. Qed.

Section Symbols.
  Variables (op : opts) (objs : list obj) (st : rst) (e0 : env) (ds : list descr).
  Hypothesis PR : prepare op objs = Ok (st, e0, ds).
  Hypothesis WF : wellFormed objs.
  Let entry := op_entry op.
  Hypothesis NS : op_fmt op <> FormatDosExeSmall.
  Hypothesis NU : op_fmt op <> FormatDosExeUnreal.
  Variables (hs origin : Z) (dsX : list descr) (out0 : list placed) (buf : list Z) (p0 : pst).
  Hypothesis OR : 0 <= origin <= limit (op_fmt op).
  Hypothesis NA : map na dsX = map na ds.
  Hypothesis PS : Pass (withHdr e0 hs) false origin dsX out0 buf [] = Ok p0.
  Let addr := outAddr (p_out p0).
  Definition stackOf (dsX : list descr) : option (Z * Z) :=
    if op_fmt op =? FormatDosComTiny then Some (startOf dsX (e_cnt e0 + 2), stopOf dsX (e_cnt e0 + 2)) else None.

  Lemma bounds_ok (G : list (sect * placed)) (Q : sect -> Prop) : G <> [] ->
    (forall sq, In sq G -> exists f k o, included objs entry f k o (fst sq) /\ Q (fst sq) /\ lookup (p_out p0) f k = Some (snd sq)) ->
    (forall f k o s, included objs entry f k o s -> Q s -> exists q, In (s, q) G /\ lookup (p_out p0) f k = Some q) ->
    firstOf objs entry addr Q (minA G) /\ endOf objs entry addr Q (maxE G).
  Proof.
    intros NE H1 H2. destruct (layout_general op objs st e0 ds PR WF (noRelod op objs NU) hs false origin dsX out0 buf [] p0 NS OR NA PS) as (EP & _).
    assert (B : forall sq, In sq G -> 0 <= pl_addr (snd sq) /\ pl_addr (snd sq) + sh_size (fst sq) <= limit (op_fmt op) /\ 0 <= sh_size (fst sq)).
    { intros sq I. destruct (H1 sq I) as (f & k & o & IN & QS & LK). destruct (EP f k o (fst sq) IN Logic.I) as (q & Q1 & Q2 & Q3 & _).
      rewrite LK in Q1. injection Q1 as <-. unfold end_ in Q3. destruct (proj1 WF f k o (fst sq)) as (S1 & _); [apply IN|apply IN|]. lia. }
    pose proof (limit_u32 (op_fmt op)).
    destruct (minA_ok G NE) as ((sq & I & E) & L); [intros sq I; destruct (B sq I); lia|].
    destruct (maxE_ok G NE) as ((sq' & I' & E') & L'); [intros sq' I'; destruct (B sq' I'); lia|].
    assert (AD : forall f k q, lookup (p_out p0) f k = Some q -> addr f k = pl_addr q) by (intros f k q L0; unfold addr; rewrite outAddr_lookup, L0; reflexivity).
    split; split.
    - destruct (H1 sq I) as (f & k & o & IN & QS & LK). exists f, k, o, (fst sq). rewrite (AD _ _ _ LK). auto.
    - intros x (f & k & o & s & IN & QS & ->). destruct (H2 f k o s IN QS) as (q & J & LK). rewrite (AD _ _ _ LK). apply (L (s, q) J).
    - destruct (H1 sq' I') as (f & k & o & IN & QS & LK). exists f, k, o, (fst sq'). rewrite (AD _ _ _ LK). auto.
    - intros x (f & k & o & s & IN & QS & ->). destruct (H2 f k o s IN QS) as (q & J & LK). rewrite (AD _ _ _ LK). apply (L' (s, q) J).
  Qed.

  (** the groups of placements of the first pass *)
  Lemma facts : exists l hidden gs, ds = l ++ hidden /\ e_cnt e0 = List.length l /\ l <> [] /\ Forall okD l /\ NoDup (map d_name l) /\ StronglySorted rankLe l /\ e_relod e0 = 0 /\
      groupsFor e0 l gs /\ chain (withHdr e0 hs) origin l gs (p_ofs p0) /\ map na (p_ds p0) = map na ds /\
      (forall d, hd_error l = Some d -> isCode d = true) /\ (forall d, In d l -> isCode d = true -> d_attrs d = 4) /\
      linkDeferred ds (deferred st) = Ok (e_bs e0) /\
      hidden = [mkDescr (str "allcode__") 0 0 0;
        mkDescr (if has SHF_EXECINSTR (d_attrs (last l (mkDescr [] 0 0 0))) then [] else str "alldata__") 0 0 0;
        mkDescr (if (op_fmt op =? FormatDosComTiny) || (op_fmt op =? FormatDosExeSmall) then str "stack__" else []) 0 0 0] /\
      (forall i g, nth_error gs i = Some g -> startOf (p_ds p0) i = minA g /\ stopOf (p_ds p0) i = maxE g) /\
      (forall i, (e_cnt e0 + 1 < i)%nat -> startOf (p_ds p0) i = startOf dsX i /\ stopOf (p_ds p0) i = stopOf dsX i) /\
      startOf (p_ds p0) (e_cnt e0) = minA (partOf true l gs) /\ stopOf (p_ds p0) (e_cnt e0) = maxE (partOf true l gs) /\
      startOf (p_ds p0) (S (e_cnt e0)) = minA (partOf false l gs) /\ stopOf (p_ds p0) (S (e_cnt e0)) = maxE (partOf false l gs) /\
      (forall d g, In (d, g) (combine l gs) -> g <> []) /\
      (forall d g sq, In (d, g) (combine l gs) -> In sq g ->
        exists f k o, included objs entry f k o (fst sq) /\ sh_name (fst sq) = d_name d /\ d_attrs d = attrs (fst sq) /\ lookup (p_out p0) f k = Some (snd sq)) /\
      (forall f k o s, included objs entry f k o s -> exists d g q, In (d, g) (combine l gs) /\ In (s, q) g /\ d_name d = sh_name s /\ d_attrs d = attrs s /\ lookup (p_out p0) f k = Some q) /\
      (forall c, partOf c l gs <> [] -> firstOf objs entry addr (fun s => isExec s = c) (minA (partOf c l gs)) /\ endOf objs entry addr (fun s => isExec s = c) (maxE (partOf c l gs))) /\
      partOf true l gs <> [] /\ (has SHF_EXECINSTR (d_attrs (last l (mkDescr [] 0 0 0))) = false -> partOf false l gs <> []).
  Proof.
    destruct (pass_state op objs st e0 ds PR WF NS NU hs origin dsX out0 buf p0 OR NA PS) as (l & hidden & gs & EDS & CNT & GF & CH & OUT & OFF & NA0 & ST & ST2 & CS & CE & DS & DE & LK).
    destruct (prep_names op objs st e0 ds PR WF (noRelod op objs NU)) as (l' & hidden' & EDS' & CNT' & LH & NE & OKl & ND & SS & OKD & R0 & GR & FOR & FROM & UNI & HD & X4 & LD & HID).
    assert (l' = l /\ hidden' = hidden) as [-> ->].
    { rewrite EDS in EDS'. split.
      - apply (f_equal (firstn (e_cnt e0))) in EDS'. rewrite CNT in EDS' at 1. rewrite CNT' in EDS'. rewrite !firstn_app, !firstn_all, !Nat.sub_diag in EDS'. cbn in EDS'. rewrite !app_nil_r in EDS'. auto.
      - apply (f_equal (skipn (e_cnt e0))) in EDS'. rewrite CNT in EDS' at 1. rewrite CNT' in EDS'. rewrite !skipn_app, !skipn_all, !Nat.sub_diag in EDS'. cbn in EDS'. auto. }
    specialize (R0 NU).
    (* every name has sections *)
    assert (GNE : forall d g, In (d, g) (combine l gs) -> g <> []).
    { intros d' g IG E. destruct (group_of e0 l gs GF d' g IG) as [ID PF]. destruct (FROM d' ID R0) as (f & k' & o & s & IN & N).
      assert (IT : In (f, o, k', s) (items (d_name d') 0 (e_objs e0))).
      { apply items_in. exists f, k', o, s. split; [auto|]. split; [|auto]. apply (prep_incl op objs st e0 ds PR f k' o s). split; apply IN. }
      destruct (placesFor_in2 _ _ PF _ IT) as (sq & J & _). rewrite E in J. destruct J. }
    (* the sections of a part *)
    assert (PART : forall d g sq, In (d, g) (combine l gs) -> In sq g ->
      exists f k o, included objs entry f k o (fst sq) /\ sh_name (fst sq) = d_name d /\ d_attrs d = attrs (fst sq) /\ lookup (p_out p0) f k = Some (snd sq)).
    { intros d' g sq IG IS. destruct (group_of e0 l gs GF d' g IG) as [ID PF]. destruct (placesFor_in _ _ PF sq IS) as (it & I1 & I2 & I3).
      apply items_in in I1 as (f & k' & o & s & -> & H1 & H2). cbn in I2.
      apply (prep_incl op objs st e0 ds PR f k' o s) in H1 as [H1 H3]. destruct (UNI f k' o s d' ID H1 H3 H2) as [U1 U2].
      exists f, k', o. rewrite I2. split; [split; [auto|split; auto]|]. split; [auto|]. split; [auto|].
      unfold pkey, ikey in I3. cbn in I3. injection I3 as I3 I4. rewrite <- I3, <- I4. apply LK. apply (groups_in e0 l gs GF). exists d', g. auto. }
    assert (ALL : forall f k o s, included objs entry f k o s -> exists d g q, In (d, g) (combine l gs) /\ In (s, q) g /\ d_name d = sh_name s /\ d_attrs d = attrs s /\ lookup (p_out p0) f k = Some q).
    { intros f k' o s IN. destruct (FOR f k' o s IN) as (d' & D1 & D2 & D3). destruct (group_ex e0 l gs GF d' D1) as (g & IG).
      destruct (group_of e0 l gs GF d' g IG) as [_ PF].
      assert (IT : In (f, o, k', s) (items (d_name d') 0 (e_objs e0))).
      { apply items_in. exists f, k', o, s. split; [auto|]. split; [|auto]. apply (prep_incl op objs st e0 ds PR f k' o s). split; apply IN. }
      destruct (placesFor_in2 _ _ PF _ IT) as ([s' q] & J1 & J2 & J3). cbn in J2. subst s'. exists d', g, q. split; [auto|]. split; [auto|]. split; [auto|]. split; [auto|].
      unfold pkey, ikey in J3. cbn in J3. injection J3 as J3 J4. rewrite <- J3, <- J4. apply (LK (s, q)). apply (groups_in e0 l gs GF). exists d', g. auto. }
    assert (PARTS : forall c, partOf c l gs <> [] -> firstOf objs entry addr (fun s => isExec s = c) (minA (partOf c l gs)) /\ endOf objs entry addr (fun s => isExec s = c) (maxE (partOf c l gs))).
    { intros c NEP. apply bounds_ok; [auto| |].
      - intros sq I. apply in_partOf in I as (d' & g & IG & IC & IS). destruct (PART d' g sq IG IS) as (f & k' & o & A1 & A2 & A3 & A4).
        exists f, k', o. split; [auto|]. split; [|auto]. rewrite <- has_exec_attrs, <- A3. exact IC.
      - intros f k' o s IN X. destruct (ALL f k' o s IN) as (d' & g & q & A1 & A2 & A3 & A4 & A5). exists q. split; [|auto].
        apply in_partOf. exists d', g. split; [auto|]. split; [|auto]. unfold isCode. rewrite A4, has_exec_attrs. auto. }
    exists l, hidden, gs. split; [auto|]. split; [auto|]. split; [auto|]. split; [auto|]. split; [auto|]. split; [auto|]. split; [auto|].
    split; [auto|]. split; [auto|]. split; [auto|]. split; [auto|]. split; [auto|]. split; [auto|]. split; [auto|]. split; [auto|]. split; [auto|].
    split; [auto|]. split; [auto|]. split; [auto|]. split; [auto|]. split; [auto|]. split; [auto|]. split; [auto|]. split; [auto|]. split.
    - destruct l as [|d0 l']; [contradiction|]. destruct (group_ex e0 _ gs GF d0 (or_introl eq_refl)) as (g & IG). pose proof (GNE d0 g IG) as NG.
      destruct g as [|sq g]; [contradiction|]. intros C. assert (J : In sq (partOf true (d0 :: l') gs)); [|rewrite C in J; destruct J].
      apply in_partOf. exists d0, (sq :: g). split; [auto|]. split; [apply HD; reflexivity|left; auto].
    - intros HX. destruct (exists_last NE) as (l' & d0 & EL). assert (I0 : In d0 l) by (rewrite EL; apply in_or_app; right; left; auto).
      destruct (group_ex e0 _ gs GF d0 I0) as (g & IG). pose proof (GNE d0 g IG) as NG.
      destruct g as [|sq g]; [contradiction|]. intros C. assert (J : In sq (partOf false l gs)); [|rewrite C in J; destruct J].
      apply in_partOf. exists d0, (sq :: g). split; [auto|]. split; [|left; auto]. rewrite EL, last_last in HX. exact HX.
  Qed.

  Lemma bsym_ok n i stop d : findBsym (e_bs e0) n = Some (i, stop) -> zget (p_ds p0) i = Some d ->
    nobody objs n /\ boundaryAt objs entry addr (stackOf dsX) n (if stop then d_stop d else d_start d).
  Proof.
    intros FB GD.
    destruct facts as (l & hidden & gs & EDS & CNT & NE & OKl & ND & SS & R0 & GF & CH & NA0 & HD & X4 & LD & HID & ST & ST2 & CS & CE & DS & DE & GNE & PART & ALL & PARTS & NEC & NED).
    destruct (prep_resolve op objs st e0 ds PR) as (R & EO & EF & EU & FS & EC & EH).
    pose proof (resolve_ok objs (op_entry op)) as RO. rewrite R in RO. destruct RO as (_ & NR & SE & DF & _).
    pose proof (findBsym_ok ds (deferred st) (e_bs e0) n LD) as FBO. rewrite FB in FBO. destruct FBO as [IN L1].
    apply DF in IN as (W & (m & NM & NN) & NB). split; [exact NB|].
    unfold linkDeferred1 in L1. cbv zeta in L1. remember (negb (prefixb START n)) as isStop eqn:IST.
    destruct (findBound ds 0 _) as [j|] eqn:FBD; [|discriminate]. injection L1 as -> ->. rename IST into ST1. symmetry in ST1.
    apply findBound_ok in FBD as (k & dk & -> & K & STD). rewrite Z.add_0_l in GD.
    apply startOf_get in GD as (GS & GE & _). rewrite Nat2Z.id in GS, GE. rewrite GS, GE. clear GS GE.
    assert (NB2 : n = (if stop then str "__stop_" else str "__start_") ++ skipn (if stop then 7 else 8) n /\ skipn (if stop then 7 else 8) n = m).
    { destruct NN as [-> | ->]; [rewrite pre_start in ST1|rewrite pre_stop in ST1]; cbn [negb] in ST1; rewrite <- ST1; split; reflexivity. }
    destruct NB2 as [NEQ M1]. set (m0 := skipn (if stop then 7 else 8) n) in *.
    assert (M0 : m0 <> []) by congruence.
    exists m0, (d_name dk). split; [exact STD|].
    rewrite EDS in K.
    destruct (Nat.lt_ge_cases k (List.length l)) as [KL|KL].
    - rewrite nth_error_app1 in K by auto.
      destruct (nth_error gs k) as [g|] eqn:KG; [|apply nth_error_None in KG; pose proof (Forall2_len _ _ _ GF); lia].
      destruct (ST k g KG) as [-> ->].
      assert (IG : In (dk, g) (combine l gs)) by (apply (nth_error_In _ k); apply nth_combine; auto).
      destruct (bounds_ok g (fun s => sh_name s = d_name dk)) as [BF BE].
      { eapply GNE; eauto. }
      { intros sq IS. destruct (PART dk g sq IG IS) as (f & k' & o & A1 & A2 & A3 & A4). exists f, k', o. auto. }
      { intros f k' o s IN N. destruct (ALL f k' o s IN) as (d' & g' & q & A1 & A2 & A3 & A4 & A5). exists q. split; [|auto].
        assert (E : (d', g') = (dk, g)); [|injection E as -> ->; auto].
        apply In_nth_error in A1 as (i' & A1). apply nth_combine_inv in A1 as [A1 A6].
        assert (i' = k).
        { apply (proj1 (NoDup_nth_error (map d_name l)) ND); [rewrite map_length; apply nth_error_Some; congruence|]. erewrite !map_nth_error by eauto. congruence. }
        subst i'. congruence. }
      destruct stop; [right; left|left]; split; auto.
    - rewrite nth_error_app2 in K by auto. rewrite HID in K.
      destruct (k - List.length l)%nat as [|[|[|x]]] eqn:KK; cbn [nth_error] in K.
      + injection K as <-. replace k with (e_cnt e0) in * by lia. rewrite CS, CE. cbn [d_name].
        destruct (PARTS true NEC) as [BF BE]. destruct stop; [do 3 right; left|do 2 right; left]; auto.
      + injection K as <-. replace k with (S (e_cnt e0)) in * by lia. rewrite DS, DE. cbn [d_name] in *.
        destruct (has SHF_EXECINSTR (d_attrs (last l (mkDescr [] 0 0 0)))) eqn:HX.
        { inversion STD as [E1 E2|]. exfalso. apply M0. auto. }
        destruct (PARTS false (NED eq_refl)) as [BF BE]. destruct stop; [do 5 right; left|do 4 right; left]; auto.
      + injection K as <-. replace k with (e_cnt e0 + 2)%nat in * by lia. destruct (ST2 (e_cnt e0 + 2)%nat) as [-> ->]; [lia|]. cbn [d_name] in *.
        destruct ((op_fmt op =? FormatDosComTiny) || (op_fmt op =? FormatDosExeSmall)) eqn:T.
        2: { inversion STD as [E1 E2|]. exfalso. apply M0. auto. }
        assert (TT : (op_fmt op =? FormatDosComTiny) = true) by lia. unfold stackOf. rewrite TT.
        destruct stop; [do 7 right|do 6 right; left]; auto.
      + destruct x; discriminate.
  Qed.

  Lemma sym_ok n v : (wanted objs entry n \/ exists i o, reach objs entry i /\ nth_error objs i = Some o /\ defines o n) ->
    symAddress (e_objs e0) (e_bs e0) (p_ds p0) (p_out p0) n = Ok v -> symbolAt objs entry addr (stackOf dsX) n v.
  Proof.
    intros W H. unfold symAddress in H.
    destruct (prep_resolve op objs st e0 ds PR) as (R & EO & EF & EU & FS & EC & EH).
    destruct (prep_names op objs st e0 ds PR WF (noRelod op objs NU)) as (l & hidden & EDS & CNT & LH & NE & OKl & ND & SS & OKD & R0 & GR & FOR & FROM & UNI & HD & X4 & LD & HID).
    pose proof (resolve_ok objs (op_entry op)) as RO. rewrite R in RO. destruct RO as (LN & NR & SE & DF & _).
    pose proof (findBsym_ok ds (deferred st) (e_bs e0) n LD) as FBO.
    destruct (findBsym (e_bs e0) n) as [[i stop]|] eqn:E.
    - destruct (zget (p_ds p0) i) as [d|] eqn:G; [|discriminate]. cbn [inb rbind] in H. injection H as <-. right. apply (bsym_ok n i stop d E G).
    - left. rewrite EO in H. apply findAddrObj_ok in H as [(i & o & y & s & A1 & A2 & A3 & A4 & A5)|A].
      + apply nth_combine_inv in A1 as [A1 A6]. apply NR in A6. destruct (exports_global o y n A2 A3) as [G1 G2]. exists i, o, y. split; [auto|]. split; [auto|].
        split; [auto|]. split; [auto|]. split; [unfold zget in A4; destruct (st_shndx y <? 0) eqn:C; [discriminate|lia]|]. exact A5.
      + exfalso. destruct W as [W|(i & o & W1 & W2 & W3)].
        * destruct (SE n W) as [(i & B & NI)|(_ & _ & C)]; [|contradiction]. destruct B as [(o & B1 & B2) _]. apply (A i o); auto. apply nth_combine; auto.
        * apply (A i o); auto. apply nth_combine; auto. apply NR. auto.
  Qed.

  Lemma rel_ok f k o s rs r v : included objs entry f k o s -> relocationsOf o k rs ->
    relSym (e_objs e0) (e_bs e0) (p_ds p0) (p_out p0) f o rs r = Ok v -> refers objs entry addr (stackOf dsX) f o rs r v.
  Proof.
    intros IN RS H. destruct IN as (RE & SE & AL). destruct (proj1 WF f k o s SE AL) as (_ & _ & _ & _ & _ & WR). destruct (WR rs RS) as (_ & _ & t & T1 & T2 & T3 & T4).
    unfold relSym in H. destruct (r_sym r =? 0) eqn:E0; [injection H as <-; left; split; [lia|auto]|].
    assert (ZT : zget o (sh_link rs) = Some t) by (unfold zget; replace (sh_link rs <? 0) with false by lia; auto).
    rewrite ZT in H. cbn [inb rbind] in H. destruct (zget (s_syms t) (r_sym r)) as [y|] eqn:Y; [|discriminate]. cbn [inb rbind] in H.
    assert (YN : nth_error (s_syms t) (Z.to_nat (r_sym r)) = Some y) by (unfold zget in Y; destruct (r_sym r <? 0); [discriminate|auto]).
    right. exists t, y. split; [auto|]. split; [auto|]. unfold STT_SECTION, STB_GLOBAL, STB_LOCAL in H.
    destruct (st_type y =? 3) eqn:E1.
    { left. split; [lia|]. unfold sectAddr in H. destruct (zget o (st_shndx y)); [|discriminate]. cbn in H. injection H as <-. reflexivity. }
    right. destruct (st_bind y =? 1) eqn:E2.
    - destruct (st_name y) as [n|] eqn:N.
      + cbn [andb] in H. left. split; [lia|]. split; [lia|]. exists n. split; [auto|]. apply sym_ok.
        * assert (GO : globalOf o y). { exists t, (Z.to_nat (r_sym r)). split; [eapply nth_error_In; eauto|]. split; [auto|]. split; [apply (T4 _ _ YN); lia|]. split; [auto|lia]. }
          destruct (Z.eq_dec (st_shndx y) 0); [left; right; exists f, o; split; [auto|]; split; [apply SE|]; exists y; auto|right; exists f, o; split; [auto|]; split; [apply SE|]; exists y; auto].
        * unfold symName in H. rewrite N in H. exact H.
      + cbn [andb] in H. replace (st_bind y =? 0) with false in H by lia. discriminate.
    - cbn [andb] in H. right. destruct (st_bind y =? 0) eqn:E3; [|discriminate]. split; [lia|]. split; [lia|].
      unfold sectAddr in H. destruct (zget o (st_shndx y)); [|discriminate]. cbn in H. injection H as <-. reflexivity.
  Qed.

  Lemma contents_final f k o s q b : included objs entry f k o s -> lookup (p_out p0) f k = Some q ->
    contents (withHdr e0 hs) (p_ds p0) (p_out p0) f k o s (pl_addr q) b -> finalBytes objs entry addr (stackOf dsX) f k o s b.
  Proof.
    intros IN LK C. pose proof IN as (RE & SE & AL). destruct (proj1 WF f k o s SE AL) as (_ & _ & _ & TY & _ & _).
    unfold contents in C. unfold finalBytes. unfold SHT_PROGBITS in C.
    destruct TY as [TY|TY]; rewrite TY in *; [|exact C]. cbn [Z.eqb] in C |- *. change (1 =? 8) with false. change (1 =? 1) with true in C. cbv iota in C |- *.
    destruct (relSect o k) as [rs|] eqn:RS.
    - left. destruct C as [C1 C2]. apply relSect_of in RS. exists rs, (fun r => num (val (withHdr e0 hs) (p_ds p0) (p_out p0) f o rs r)).
      split; [auto|]. split; [|unfold addr; rewrite outAddr_lookup, LK; exact C2].
      revert C1. apply Forall_impl. intros r (K & v & V). split; [auto|]. rewrite V. cbn [num]. unfold val in V. cbn [withHdr e_objs e_bs] in V. apply (rel_ok f k o s rs r v); auto.
    - right. split; [apply relSect_none; auto|auto].
  Qed.
End Symbols.
