(** Local objects: proofs. *)
From Verif Require Import Base BaseLemmas DeclSpec FoldModel FoldProof DeclModel DeclProof FrameSpec FrameModel.

Section P.
Variable W : Z.
Hypothesis HW : W = 2 \/ W = 4.
Variable L : Z.
Hypothesis HL : 0 < L < 2 ^ (8 * W - 1).

Lemma tI_small n : - 2 ^ (8 * W - 1) <= n < 2 ^ (8 * W - 1) -> truncInt W n = n.
Proof. intros H. rewrite (tI W HW). apply (sint_id W HW). exact H. Qed.
Lemma alloc_ok a m s : 0 <= a <= m -> m <= L -> a mod W = 0 -> oksize s ->
  allocLocal W L (- a, - m) s =
  if a + up s W <=? L then Some ((- (a + up s W), - Z.max m (a + up s W)), - (a + up s W)) else None.
Proof.
  intros A ML AW S. unfold oksize in S. unfold allocLocal.
  assert (P2 : p2 W) by (destruct HW; unfold p2; lia).
  assert (W0 : 0 < W <= 4) by lia.
  assert (L31 : L < 2 ^ 31). { destruct HW as [E|E]; rewrite E in *; cbn in HL; lia. }
  rewrite land_lnot_pow by (exact P2 || apply u32_range).
  pose proof (up_ge s W ltac:(lia)) as U. pose proof (up_mod s W ltac:(lia)) as UM.
  assert (EX : exists q, a + up s W = q * W).
  { apply Z.mod_divide in AW; [|lia]. apply Z.mod_divide in UM; [|lia]. destruct AW as [x X], UM as [y Y]. exists (x + y). lia. }
  destruct EX as [q Q].
  assert (WD : exists k, 2 ^ 32 = k * W) by (destruct HW as [-> | ->]; [exists (2 ^ 31)|exists (2 ^ 30)]; reflexivity). destruct WD as [k K].
  assert (UB : up s W <= 2 ^ 32). { rewrite K. apply up_min; [lia|lia|]. apply Z.mod_mul. lia. }
  (* the rounded value *)
  assert (V : exists v, u32 (- a - s) / W * W = v /\ (a + s <= 2 ^ 32 -> v = 2 ^ 32 - (a + up s W)) /\ (2 ^ 32 < a + s -> v = 2 * 2 ^ 32 - (a + up s W))).
  { eexists. split; [reflexivity|]. split; intros C.
    - assert (E : u32 (- a - s) = 2 ^ 32 - (a + s)). { unfold u32. symmetry. apply (Z.mod_unique _ _ (-1)); lia. }
      rewrite E. replace (2 ^ 32 - (a + up s W)) with ((k - q) * W) by lia. f_equal.
      symmetry. apply (Z.div_unique _ _ _ (up s W - s)); lia.
    - assert (E : u32 (- a - s) = 2 * 2 ^ 32 - (a + s)). { unfold u32. symmetry. apply (Z.mod_unique _ _ (-2)); lia. }
      rewrite E. replace (2 * 2 ^ 32 - (a + up s W)) with ((2 * k - q) * W) by lia. f_equal.
      symmetry. apply (Z.div_unique _ _ _ (up s W - s)); lia. }
  destruct V as (v & -> & V1 & V2).
  assert (SW : forall x, - 2 ^ 31 <= x < 2 ^ 31 -> forall j, s32 (x + j * 2 ^ 32) = x).
  { intros x X j. unfold s32. rewrite <- BaseLemmas.swrap_wrap. unfold wrap. rewrite Z.mod_add by lia.
    change (x mod 2 ^ 32) with (wrap 32 x). rewrite BaseLemmas.swrap_wrap. apply swrap_small; [lia|exact X]. }
  clear Q K.
  destruct (a + up s W <=? L) eqn:F.
  - rewrite V1 by lia. replace (s32 (2 ^ 32 - (a + up s W))) with (- (a + up s W)).
    2: { symmetry. replace (2 ^ 32 - (a + up s W)) with (- (a + up s W) + 1 * 2 ^ 32) by lia. apply SW. lia. }
    rewrite tI_small by lia. rewrite Z.eqb_refl. replace (- a <=? - (a + up s W)) with false by lia.
    replace (- (a + up s W) <? - L) with false by lia. cbn [orb negb]. do 3 f_equal.
    destruct (- (a + up s W) <? - m) eqn:C; lia.
  - set (n := s32 v). assert (N : (- a <=? n) || (n <? - L) = true).
    { destruct (Z_le_dec (a + s) (2 ^ 32)) as [C|C].
      - specialize (V1 C). destruct (Z_lt_dec v (2 ^ 31)) as [D|D].
        + assert (n = v) by (unfold n; replace v with (v + 0 * 2 ^ 32) at 1 by lia; apply SW; lia). lia.
        + assert (n = v - 2 ^ 32) by (unfold n; replace v with (v - 2 ^ 32 + 1 * 2 ^ 32) at 1 by lia; apply SW; lia). lia.
      - specialize (V2 ltac:(lia)).
        assert (n = v - 2 ^ 32) by (unfold n; replace v with (v - 2 ^ 32 + 1 * 2 ^ 32) at 1 by lia; apply SW; lia). lia. }
    destruct (- a <=? n); [reflexivity|]. cbn [orb] in *. rewrite N. rewrite orb_true_r. reflexivity.
Qed.

Definition Good {A B} (a m p u : Z) (r : option ((Z * Z) * B)) (back : B -> A) (x : A)
  (snd_ : Z -> list (Z * Z) -> B -> list (Z * Z) -> Prop) : Prop :=
  match r with
  | Some (s', b) => s' = (- u, - Z.max m p) /\ Z.max m p <= L /\ back b = x /\
      (forall F live, Z.max m p <= F -> Forall (fun o => - a <= fst o) live ->
         exists live', snd_ F live b live' /\ Forall (fun o => - u <= fst o) live')
  | None => L < p
  end.

Lemma alloc_good a m s : 0 <= a <= m -> m <= L -> a mod W = 0 -> oksize s ->
  match allocLocal W L (- a, - m) s with
  | Some (s', o) => s' = (- (a + up s W), - Z.max m (a + up s W)) /\ o = - (a + up s W) /\ a + up s W <= L /\
      forall F live, a + up s W <= F -> Forall (fun p => - a <= fst p) live ->
        fresh W F live (o, s) /\ Forall (fun p => - (a + up s W) <= fst p) ((o, s) :: live)
  | None => L < a + up s W
  end.
Proof.
  intros A M AW S. rewrite alloc_ok by assumption. destruct (a + up s W <=? L) eqn:E; [|lia].
  split; [reflexivity|]. split; [reflexivity|]. split; [lia|]. intros F live HF LV.
  assert (W0 : 0 < W) by lia. pose proof (up_ge s W W0) as U. pose proof (up_mod s W W0) as UM. unfold oksize in S.
  split.
  - unfold fresh. cbn [fst snd]. split; [|split; [lia|split; [lia|]]].
    + apply Z.mod_opp_l_z; [lia|]. rewrite Z.add_mod, AW, UM by lia. reflexivity.
    + apply Forall_forall. intros p I. rewrite Forall_forall in LV. specialize (LV p I). cbn beta in LV. left. lia.
  - constructor; [cbn [fst]; lia|]. eapply Forall_impl; [|exact LV]. cbn beta. intros p P. lia.
Qed.
Lemma step_ok a s : 0 <= a -> a mod W = 0 -> oksize s -> 0 <= a + up s W /\ (a + up s W) mod W = 0 /\ a <= a + up s W.
Proof.
  intros A AW S. assert (W0 : 0 < W) by lia. pose proof (up_ge s W W0) as U. pose proof (up_mod s W W0) as UM. unfold oksize in S.
  split; [lia|]. split; [|lia]. rewrite Z.add_mod, AW, UM by lia. reflexivity.
Qed.
Lemma needT_ge ts : forall a, 0 <= a -> a mod W = 0 -> Forall oksize ts -> a <= needT W a ts.
Proof.
  induction ts as [|t ts IH]; intros a A AW F; cbn [needT]; [lia|]. apply Forall_cons_iff in F. destruct F as [S F].
  destruct (step_ok a t A AW S) as (X & Y & Z). specialize (IH _ X Y F). lia.
Qed.
Lemma needT_mod ts : forall a, 0 <= a -> a mod W = 0 -> Forall oksize ts -> needT W a ts mod W = 0.
Proof.
  induction ts as [|t ts IH]; intros a A AW F; cbn [needT]; [exact AW|]. apply Forall_cons_iff in F. destruct F as [S F].
  destruct (step_ok a t A AW S) as (X & Y & Z). apply IH; assumption.
Qed.

Lemma temporaries_good ts : forall a m, 0 <= a <= m -> m <= L -> a mod W = 0 -> Forall oksize ts ->
  match temporaries W L (- a, - m) ts with
  | Some (s', os) => s' = (- needT W a ts, - Z.max m (needT W a ts)) /\ Z.max m (needT W a ts) <= L /\ map snd os = ts /\
      (forall F live, needT W a ts <= F -> Forall (fun o => - a <= fst o) live -> temps W F live os)
  | None => L < needT W a ts
  end.
Proof.
  induction ts as [|t ts IH]; intros a m A M AW FS; cbn [temporaries needT].
  - rewrite Z.max_l by lia. repeat split; try lia. intros. constructor.
  - apply Forall_cons_iff in FS. destruct FS as [S FS]. pose proof (alloc_good a m t A M AW S) as G.
    destruct (step_ok a t ltac:(lia) AW S) as (X & Y & Z). pose proof (needT_ge ts _ X Y FS) as NG.
    destruct (allocLocal W L (- a, - m) t) as [[s1 o]|]; cbn [obind]; [|lia]. destruct G as (-> & Ho & G1 & G2).
    specialize (IH (a + up t W) (Z.max m (a + up t W)) ltac:(lia) ltac:(lia) Y FS).
    destruct (temporaries W L _ ts) as [[s2 os]|]; cbn [obind]; [|exact IH]. destruct IH as (-> & I1 & I2 & I3).
    rewrite <- Z.max_assoc in *. rewrite (Z.max_r (a + up t W)) in * by lia.
    split; [reflexivity|]. split; [lia|]. split; [cbn [map snd]; now rewrite I2|].
    intros F live HF LV. destruct (G2 F live ltac:(lia) LV) as [G3 G4]. constructor; [exact G3|]. apply I3; assumption.
Qed.
Lemma parseExpr_good ts a m : 0 <= a <= m -> m <= L -> a mod W = 0 -> Forall oksize ts ->
  match parseExpr W L (- a, - m) ts with
  | Some (s', os) => s' = (- a, - Z.max m (needT W a ts)) /\ Z.max m (needT W a ts) <= L /\ map snd os = ts /\
      (forall F live, needT W a ts <= F -> Forall (fun o => - a <= fst o) live -> temps W F live os)
  | None => L < needT W a ts
  end.
Proof.
  intros A M AW FS. pose proof (temporaries_good ts a m A M AW FS) as G. unfold parseExpr. cbv zeta.
  destruct (temporaries W L (- a, - m) ts) as [[s' os]|]; cbn [obind]; [|exact G]. destruct G as (-> & G). split; [reflexivity|exact G].
Qed.
Definition vgood (d : Z * list Z) : Prop := oksize (fst d) /\ Forall oksize (snd d).
Ltac fl := repeat match goal with
  | H : _ mod _ = 0 |- _ => clear H | H : W = _ \/ _ |- _ => clear H | H : 0 < L < _ |- _ => clear H
  | H : Forall _ _ |- _ => clear H end; lia.
Lemma needV_ge d a : 0 <= a -> a mod W = 0 -> vgood d ->
  a <= snd (needV W a d) <= fst (needV W a d) /\ snd (needV W a d) mod W = 0.
Proof.
  intros A AW [S T]. unfold needV. cbn [fst snd]. destruct (step_ok a (fst d) A AW S) as (X & Y & Z).
  pose proof (needT_ge (snd d) _ X Y T). split; [lia|exact Y].
Qed.
Definition vback (d : (Z * Z) * list (Z * Z)) : Z * list Z := (snd (fst d), map snd (snd d)).
Lemma localVar_good d a m : 0 <= a <= m -> m <= L -> a mod W = 0 -> vgood d ->
  Good a m (fst (needV W a d)) (snd (needV W a d)) (localVar W L (- a, - m) (fst d) (snd d)) vback d
    (fun F live o live' => sound W F live (IVar (fst o) (snd o)) live').
Proof.
  intros A M AW [S T]. unfold Good, localVar, needV. cbn [fst snd]. pose proof (alloc_good a m (fst d) A M AW S) as G.
  destruct (step_ok a (fst d) ltac:(lia) AW S) as (X & Y & Z). pose proof (needT_ge (snd d) _ X Y T) as NG.
  destruct (allocLocal W L (- a, - m) (fst d)) as [[s1 o]|]; cbn [obind]; [|lia]. destruct G as (-> & Ho & G1 & G2).
  pose proof (parseExpr_good (snd d) (a + up (fst d) W) (Z.max m (a + up (fst d) W)) ltac:(lia) ltac:(lia) Y T) as G.
  destruct (parseExpr W L _ (snd d)) as [[s2 os]|]; cbn [obind]; [|exact G]. destruct G as (-> & I1 & I2 & I3).
  rewrite <- Z.max_assoc in *. rewrite (Z.max_r (a + up (fst d) W)) in * by lia.
  split; [reflexivity|]. split; [lia|]. split; [unfold vback; cbn [fst snd]; rewrite I2; destruct d; reflexivity|].
  intros F live HF LV. destruct (G2 F live ltac:(lia) LV) as [G3 G4]. exists ((o, fst d) :: live). split; [|exact G4].
  constructor; [exact G3|]. apply I3; [lia|exact G4].
Qed.
Lemma needVs_ge ds : forall a, 0 <= a -> a mod W = 0 -> Forall vgood ds ->
  a <= snd (needVs W a ds) <= fst (needVs W a ds) /\ snd (needVs W a ds) mod W = 0.
Proof.
  induction ds as [|d ds IH]; intros a A AW F; cbn [needVs]; [cbn [fst snd]; split; [fl|exact AW]|].
  apply Forall_cons_iff in F. destruct F as [S F]. destruct (needV_ge d a A AW S) as [X Y].
  destruct (needV W a d) as [p1 u1]. cbn [fst snd] in *. destruct (IH u1 ltac:(fl) Y F) as [X2 Y2].
  destruct (needVs W u1 ds) as [p2 u2]. cbn [fst snd] in *. split; [fl|exact Y2].
Qed.
Lemma localVars_good ds : forall a m, 0 <= a <= m -> m <= L -> a mod W = 0 -> Forall vgood ds ->
  Good a m (fst (needVs W a ds)) (snd (needVs W a ds)) (localVars W L (- a, - m) ds) (map vback) ds
    (fun F live os live' => sounds W F live (map (fun d => IVar (fst d) (snd d)) os) live').
Proof.
  induction ds as [|d ds IH]; intros a m A M AW FS; cbn [needVs localVars].
  - cbn [fst snd]. unfold Good. rewrite Z.max_l by fl. repeat split; try fl. intros F live HF LV. exists live. split; [constructor|exact LV].
  - apply Forall_cons_iff in FS. destruct FS as [S FS]. pose proof (localVar_good d a m A M AW S) as G.
    destruct (needV_ge d a ltac:(fl) AW S) as [X Y]. destruct (needV W a d) as [p1 u1] eqn:EV. cbn [fst snd] in *.
    destruct (needVs_ge ds u1 ltac:(fl) Y FS) as [X2 Y2].
    unfold Good in *. destruct (localVar W L (- a, - m) (fst d) (snd d)) as [[s1 o]|]; cbn [obind].
    2: { destruct (needVs W u1 ds). cbn [fst]. fl. }
    destruct G as (-> & G1 & G2 & G3).
    specialize (IH u1 (Z.max m p1) ltac:(fl) ltac:(fl) Y FS).
    destruct (needVs W u1 ds) as [p2 u2]. cbn [fst snd] in *.
    destruct (localVars W L _ ds) as [[s2 os]|]; cbn [obind]; [|fl]. destruct IH as (-> & I1 & I2 & I3).
    rewrite <- Z.max_assoc in *. split; [reflexivity|]. split; [fl|]. split; [cbn [map]; rewrite G2, I2; reflexivity|].
    intros F live HF LV. destruct (G3 F live ltac:(fl) LV) as (l1 & S1 & V1). destruct (I3 F l1 ltac:(fl) V1) as (l2 & S2 & V2).
    exists l2. split; [|exact V2]. cbn [map]. econstructor; eassumption.
Qed.
Definition needE (u : Z) (es : list (list Z)) : Z := fold_right (fun ts m => Z.max (needT W u ts) m) u es.
Lemma needE_ge u es : u <= needE u es.
Proof. induction es as [|e es IH]; cbn [needE fold_right]; [lia|]. unfold needE in IH. lia. Qed.
Lemma exprs_good es : forall a m, 0 <= a <= m -> m <= L -> a mod W = 0 -> Forall (Forall oksize) es ->
  match exprs W L (- a, - m) es with
  | Some (s', os) => s' = (- a, - Z.max m (needE a es)) /\ Z.max m (needE a es) <= L /\ map (map snd) os = es /\
      (forall F live, needE a es <= F -> Forall (fun o => - a <= fst o) live -> Forall (temps W F live) os)
  | None => L < needE a es
  end.
Proof.
  induction es as [|e es IH]; intros a m A M AW FS; cbn [exprs].
  - cbn [needE fold_right]. rewrite Z.max_l by lia. repeat split; try lia. intros. constructor.
  - apply Forall_cons_iff in FS. destruct FS as [S FS]. pose proof (parseExpr_good e a m A M AW S) as G.
    cbn [needE fold_right]. fold (needE a es). pose proof (needE_ge a es).
    destruct (parseExpr W L (- a, - m) e) as [[s1 o]|]; cbn [obind]; [|lia]. destruct G as (-> & G1 & G2 & G3).
    specialize (IH a (Z.max m (needT W a e)) ltac:(lia) ltac:(lia) AW FS).
    destruct (exprs W L _ es) as [[s2 os]|]; cbn [obind]; [|lia]. destruct IH as (-> & I1 & I2 & I3).
    rewrite <- Z.max_assoc in *. split; [reflexivity|]. split; [lia|]. split; [cbn [map]; rewrite G2, I2; reflexivity|].
    intros F live HF LV. constructor; [apply G3; [lia|exact LV]|apply I3; [lia|exact LV]].
Qed.

Lemma item_ind' (P : item Z -> Prop) :
  (forall s ts, P (IVar s ts)) -> (forall ts, P (IExpr ts)) -> (forall l, Forall P l -> P (IBlock l)) ->
  (forall ds es b, P b -> P (IFor ds es b)) -> forall i, P i.
Proof.
  intros H1 H2 H3 H4. fix IH 1. intros [s ts|ts|l|ds es b]; [apply H1|apply H2| |apply H4, IH]. apply H3.
  induction l as [|i l IHl]; constructor; [apply IH|exact IHl].
Qed.
Definition needL : Z -> list (item Z) -> Z :=
  fix go used l := match l with
                   | [] => used
                   | i :: l => let '(p, u) := need W used i in Z.max p (go u l)
                   end.
Definition okL : list (item Z) -> Prop := fix go l := match l with [] => True | i :: l => okitem i /\ go l end.
Definition parseL : Z * Z -> list (item Z) -> option ((Z * Z) * list (item (Z * Z))) :=
  fix go s l :=
    match l with
    | [] => Some (s, [])
    | i :: l => let? (s, o) := parseItem W L s i in let? (s, os) := go s l in Some (s, o :: os)
    end.
Lemma need_ge i : forall a, 0 <= a -> a mod W = 0 -> okitem i ->
  a <= snd (need W a i) <= fst (need W a i) /\ snd (need W a i) mod W = 0.
Proof.
  induction i as [s ts|ts|l IH|ds es b IH] using item_ind'; intros a A AW OK.
  - apply (needV_ge (s, ts)); assumption.
  - cbn [need fst snd]. cbn [okitem] in OK. pose proof (needT_ge ts a A AW OK). split; [lia|exact AW].
  - cbn [need fst snd]. split; [|exact AW]. split; [lia|]. change (a <= needL a l). cbn [okitem] in OK. fold okL in OK. revert a A AW OK.
    induction IH as [|i l Hi F IHl]; intros a A AW OK; cbn [needL]; [lia|]. destruct OK as [O1 O2].
    destruct (Hi a A AW O1) as [X Y]. destruct (need W a i) as [p u]. cbn [fst snd] in *. specialize (IHl u ltac:(lia) Y O2).
    change (a <= Z.max p (needL u l)). lia.
  - cbn [need]. destruct OK as (O1 & O2 & O3 & O4). destruct (needVs_ge ds a A AW O1) as [X Y].
    destruct (needVs W a ds) as [p u]. cbn [fst snd] in *. split; [lia|exact AW].
Qed.

Lemma parse_good i : forall a m, 0 <= a <= m -> m <= L -> a mod W = 0 -> okitem i ->
  Good a m (fst (need W a i)) (snd (need W a i)) (parseItem W L (- a, - m) i) (imap snd) i (sound W).
Proof.
  induction i as [s ts|ts|l IH|ds es b IH] using item_ind'; intros a m A M AW OK.
  - pose proof (localVar_good (s, ts) a m A M AW OK) as G. cbn [parseItem need]. unfold Good in *. cbn [fst snd] in G.
    destruct (localVar W L (- a, - m) s ts) as [[s' [o os]]|]; cbn [obind]; [|exact G]. destruct G as (G0 & G1 & G2 & G3).
    split; [exact G0|]. split; [exact G1|]. split; [|exact G3]. unfold vback in G2. cbn [fst snd] in G2. injection G2 as <- <-. reflexivity.
  - cbn [okitem] in OK. pose proof (parseExpr_good ts a m A M AW OK) as G. cbn [parseItem need fst snd]. unfold Good.
    destruct (parseExpr W L (- a, - m) ts) as [[s' os]|]; cbn [obind]; [|exact G]. destruct G as (G0 & G1 & G2 & G3).
    split; [exact G0|]. split; [exact G1|]. split; [cbn [imap]; now rewrite G2|].
    intros F live HF LV. exists live. split; [|exact LV]. constructor. apply G3; [fl|exact LV].
  - assert (GL : forall a m, 0 <= a <= m -> m <= L -> a mod W = 0 -> okL l ->
      match parseL (- a, - m) l with
      | Some (s', os) => snd s' = - Z.max m (needL a l) /\ Z.max m (needL a l) <= L /\ map (imap snd) os = l /\
          (forall F live, Z.max m (needL a l) <= F -> Forall (fun o => - a <= fst o) live -> exists live', sounds W F live os live')
      | None => L < needL a l
      end).
    { clear a m A M AW OK. induction IH as [|i l Hi F IHl]; intros a m A M AW OK.
      - cbn [parseL needL fst snd map]. rewrite Z.max_l by fl. repeat split; try fl. intros F live HF LV. exists live. constructor.
      - destruct OK as [O1 O2]. specialize (Hi a m A M AW O1). destruct (need_ge i a ltac:(fl) AW O1) as [X Y].
        change (parseL (- a, - m) (i :: l)) with (let? (s, o) := parseItem W L (- a, - m) i in let? (s, os) := parseL s l in Some (s, o :: os)).
        change (needL a (i :: l)) with (let '(p, u) := need W a i in Z.max p (needL u l)).
        destruct (need W a i) as [p u]. cbn [fst snd] in *. unfold Good in Hi.
        destruct (parseItem W L (- a, - m) i) as [[s1 o]|]; cbn [obind]; [|fl]. destruct Hi as (-> & H1 & H2 & H3).
        specialize (IHl u (Z.max m p) ltac:(fl) ltac:(fl) Y O2).
        destruct (parseL _ l) as [[s2 os]|]; cbn [obind]; [|fl]. destruct IHl as (I0 & I1 & I2 & I3).
        rewrite <- Z.max_assoc in *. split; [exact I0|]. split; [exact I1|]. split; [cbn [map]; rewrite H2, I2; reflexivity|].
        intros F0 live HF LV. destruct (H3 F0 live ltac:(fl) LV) as (l1 & S1 & V1). destruct (I3 F0 l1 HF V1) as (l2 & S2).
        exists l2. econstructor; eassumption. }
    specialize (GL a m A M AW OK).
    change (parseItem W L (- a, - m) (IBlock l)) with (let? (s, os) := parseL (- a, - m) l in Some ((- a, snd s), IBlock os)).
    change (need W a (IBlock l)) with (needL a l, a). cbn [fst snd]. unfold Good.
    destruct (parseL (- a, - m) l) as [[s' os]|]; cbn [obind]; [|exact GL]. destruct GL as (G0 & G1 & G2 & G3).
    split; [now rewrite G0|]. split; [exact G1|]. split; [cbn [imap]; now rewrite G2|].
    intros F live HF LV. destruct (G3 F live HF LV) as (l' & S'). exists live. split; [|exact LV]. econstructor. exact S'.
  - destruct OK as (O1 & O2 & O3 & O4). cbn [parseItem need]. cbv zeta.
    pose proof (localVars_good ds a m A M AW O1) as G. destruct (needVs_ge ds a ltac:(fl) AW O1) as [X Y].
    unfold Good in *. destruct (needVs W a ds) as [p u] eqn:EN. cbn [fst snd] in *. fold (needE u es). pose proof (needE_ge u es) as NE.
    destruct (need_ge b u ltac:(fl) Y O4) as [XB YB].
    destruct (localVars W L (- a, - m) ds) as [[s1 ods]|]; cbn [obind]; [|fl]. destruct G as (-> & G1 & G2 & G3).
    pose proof (exprs_good es u (Z.max m p) ltac:(fl) ltac:(fl) Y O2) as GE.
    destruct (exprs W L _ es) as [[s2 oes]|]; cbn [obind]; [|fl]. destruct GE as (-> & E1 & E2 & E3).
    specialize (IH u (Z.max (Z.max m p) (needE u es)) ltac:(fl) ltac:(fl) Y O4).
    destruct (parseItem W L _ b) as [[s3 ob]|]; cbn [obind]; [|fl]. destruct IH as (-> & I1 & I2 & I3). cbn [fst snd].
    assert (U : (if zlen ds =? 0 then - snd (need W u b) else - a) = - a).
    { destruct ds as [|d ds].
      - change (zlen (@nil (Z * list Z)) =? 0) with true. cbv iota. cbn [needVs] in EN. injection EN as <- <-.
        destruct b; try contradiction; cbn [need snd]; try reflexivity. destruct (needVs W a ds). reflexivity.
      - rewrite zlen_cons. pose proof (zlen_nonneg ds). replace (1 + zlen ds =? 0) with false by fl. reflexivity. }
    rewrite U. rewrite <- !Z.max_assoc in *. split; [reflexivity|]. split; [fl|].
    split; [cbn [imap]; rewrite I2, E2; f_equal; exact G2|].
    intros F live HF LV. destruct (G3 F live ltac:(fl) LV) as (l1 & S1 & V1). destruct (I3 F l1 ltac:(fl) V1) as (l2 & S2 & V2).
    exists live. split; [|exact LV]. econstructor; [exact S1| |exact S2]. apply E3; [fl|exact V1].
Qed.

Theorem function_ok l : okitem (IBlock l) ->
  match parseFunction W L l with
  | Some (frame, os) => frame = needs W l /\ frame <= L /\ map (imap snd) os = l /\ exists live, sounds W frame [] os live
  | None => L < needs W l
  end.
Proof.
  intros OK. pose proof (parse_good (IBlock l) 0 0 ltac:(lia) ltac:(lia) ltac:(apply Z.mod_0_l; lia) OK) as G.
  destruct (need_ge (IBlock l) 0 ltac:(lia) ltac:(apply Z.mod_0_l; lia) OK) as [X _].
  assert (X' : 0 <= needL 0 l) by exact (proj2 X). clear X.
  unfold parseFunction. change (- 0) with 0 in G. unfold Good in G. fold (needs W l) in *.
  assert (L31 : L < 2 ^ 31). { destruct HW as [E|E]; rewrite E in *; cbn in HL; lia. }
  destruct (parseItem W L (0, 0) (IBlock l)) as [[s' i]|] eqn:E; cbn [obind]; [|exact G]. destruct G as (-> & G1 & G2 & G3).
  destruct i as [| |os|]; try discriminate G2. cbn [imap] in G2. injection G2 as G2. cbn [snd fst need] in *. fold (needL 0 l) in *.
  change (fst (need W 0 (IBlock l))) with (needL 0 l) in *. change (needs W l) with (needL 0 l).
  change (needs W l) with (needL 0 l) in *. rewrite Z.max_r in * by lia. rewrite Z.opp_involutive. rewrite u32_small by lia.
  split; [reflexivity|]. split; [exact G1|]. split; [exact G2|].
  destruct (G3 (needL 0 l) [] ltac:(lia) ltac:(constructor)) as (l' & S' & _). inversion S'; subst. eexists. eassumption.
Qed.
End P.
