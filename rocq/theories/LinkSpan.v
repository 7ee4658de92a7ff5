(** Start and Stop of the names, page gaps (C40); programs without a generated section. *)
From Verif Require Import Base BaseLemmas LexModel LexSpec LexProof LinkModel LinkSpec LinkReloc LinkResolve LinkLayout LinkFind LinkPlace LinkImage.
From Coq Require Import Sorted String Permutation.
Close Scope string_scope.

Definition padsB (e : env) (d : descr) (nxt : option descr) : bool :=
  let isLast := match nxt with None => true | Some _ => false end in
  let lastData := (negb (e_useBss e) && isLast) ||
      (e_useBss e && negb (has SHT_NOBITS (d_attrs d)) && (isLast || nextHas SHT_NOBITS nxt)) in
  let lastImp := (e_fmt e =? FormatWinPe32) && prefixb DLL (d_name d) && (Z.land (d_attrs d) KEEP =? SHF_WRITE) &&
      match nxt with None => true | Some n => negb (prefixb DLL (d_name n)) end in
  let lastRo := (e_fmt e =? FormatWinPe32) && negb (has KEEP (d_attrs d)) && (isLast || nextHas SHF_WRITE nxt) in
  (isPaged (e_fmt e) || (e_fmt e =? FormatAout)) && (lastCodeB d nxt || lastRo || lastImp || lastData).

Inductive chain (e : env) : Z -> list descr -> list (list (sect * placed)) -> Z -> Prop :=
  | chain_nil a : chain e a [] [] a
  | chain_cons a d l g gs b b' c : run (e_fmt e) a g b -> (if padsB e d (hd_error l) then roundup b 4096 b' else b' = b) ->
      chain e b' l gs c -> chain e a (d :: l) (g :: gs) c.

Lemma padAfter_exact e pass d nxt p p' : okState e p -> e_fmt e <> FormatDosExeSmall -> padAfter e pass d nxt p = Ok p' ->
  if padsB e d nxt then roundup (p_ofs p) 4096 (p_ofs p') else p_ofs p' = p_ofs p.
Proof.
  intros OK NS H. unfold padAfter in H. rewrite negb_involutive in H. fold (lastCodeB d nxt) in H. destruct (e_fmt e =? FormatDosExeSmall) eqn:EF; [lia|].
  unfold padsB. destruct (isPaged (e_fmt e) || (e_fmt e =? FormatAout)); cbn [andb]; [|injection H as <-; auto].
  match type of H with (if ?c then _ else _) = _ => destruct c eqn:EC end; [|injection H as <-; auto].
  destruct (alignTo (p_ofs p) 4096 <? p_ofs p) eqn:E1; [discriminate|]. injection H as <-. cbn [p_ofs].
  pose proof (limit_u32 (e_fmt e)). unfold okState in OK. destruct (alignTo_ok (p_ofs p) 4096); try lia. auto.
Qed.

(** ** minima and maxima *)
Definition minA (g : list (sect * placed)) : Z := fold_right (fun sq m => Z.min (pl_addr (snd sq)) m) (2 ^ 32 - 1) g.
Definition maxE (g : list (sect * placed)) : Z := fold_right (fun sq m => Z.max (pl_addr (snd sq) + sh_size (fst sq)) m) 0 g.
Lemma minA_app a b : minA (a ++ b) = Z.min (minA a) (minA b).
Proof. unfold minA. induction a as [|x a IH]; cbn [app fold_right]; [|rewrite IH; lia]. clear. induction b as [|x b IH]; cbn [fold_right]; lia. Qed.
Lemma maxE_app a b : maxE (a ++ b) = Z.max (maxE a) (maxE b).
Proof. unfold maxE. induction a as [|x a IH]; cbn [app fold_right]; [|rewrite IH; lia]. clear. induction b as [|x b IH]; cbn [fold_right]; lia. Qed.
Lemma minA_le g : minA g <= 2 ^ 32 - 1.
Proof. unfold minA. induction g; cbn [fold_right]; lia. Qed.
Lemma maxE_ge g : 0 <= maxE g.
Proof. unfold maxE. induction g; cbn [fold_right]; lia. Qed.

Lemma startOf_setMin ds i v k : (i < List.length ds)%nat -> startOf (setMin ds i v) k = if Nat.eqb k i then Z.min (startOf ds i) v else startOf ds k.
Proof.
  intros L. unfold setMin. destruct (nth_error ds i) as [d|] eqn:E; [|apply nth_error_None in E; lia]. unfold startOf.
  destruct (Nat.eqb k i) eqn:K.
  - apply Nat.eqb_eq in K. subst k. rewrite lset_nth_same by auto. rewrite E. cbn. destruct (v <? d_start d) eqn:V; lia.
  - apply Nat.eqb_neq in K. rewrite lset_nth_other by auto. reflexivity.
Qed.
Lemma stopOf_setMin ds i v k : stopOf (setMin ds i v) k = stopOf ds k.
Proof.
  unfold setMin. destruct (nth_error ds i) as [d|] eqn:E; [|reflexivity]. unfold stopOf.
  destruct (Nat.eq_dec k i) as [-> |N]; [rewrite lset_nth_same, E; [reflexivity|apply nth_error_Some; congruence]|rewrite lset_nth_other by auto; reflexivity].
Qed.
Lemma stopOf_setMax ds i v k : (i < List.length ds)%nat -> stopOf (setMax ds i v) k = if Nat.eqb k i then Z.max (stopOf ds i) v else stopOf ds k.
Proof.
  intros L. unfold setMax. destruct (nth_error ds i) as [d|] eqn:E; [|apply nth_error_None in E; lia]. unfold stopOf.
  destruct (Nat.eqb k i) eqn:K.
  - apply Nat.eqb_eq in K. subst k. rewrite lset_nth_same by auto. rewrite E. cbn. destruct (d_stop d <? v) eqn:V; lia.
  - apply Nat.eqb_neq in K. rewrite lset_nth_other by auto. reflexivity.
Qed.
Lemma startOf_setMax ds i v k : startOf (setMax ds i v) k = startOf ds k.
Proof.
  unfold setMax. destruct (nth_error ds i) as [d|] eqn:E; [|reflexivity]. unfold startOf.
  destruct (Nat.eq_dec k i) as [-> |N]; [rewrite lset_nth_same, E; [reflexivity|apply nth_error_Some; congruence]|rewrite lset_nth_other by auto; reflexivity].
Qed.
Lemma reset_get ds i k : (i < List.length ds)%nat -> startOf (reset ds i) k = (if Nat.eqb k i then 2 ^ 32 - 1 else startOf ds k) /\
  stopOf (reset ds i) k = (if Nat.eqb k i then 0 else stopOf ds k).
Proof.
  intros L. unfold reset. destruct (nth_error ds i) as [d|] eqn:E; [|apply nth_error_None in E; lia]. unfold startOf, stopOf.
  destruct (Nat.eqb k i) eqn:K.
  - apply Nat.eqb_eq in K. subst k. rewrite lset_nth_same by auto. auto.
  - apply Nat.eqb_neq in K. rewrite !lset_nth_other by auto. auto.
Qed.
Lemma setMin_len ds i v : List.length (setMin ds i v) = List.length ds.
Proof. unfold setMin. destruct (nth_error ds i); [apply lset_length|reflexivity]. Qed.
Lemma setMax_len ds i v : List.length (setMax ds i v) = List.length ds.
Proof. unfold setMax. destruct (nth_error ds i); [apply lset_length|reflexivity]. Qed.
Lemma reset_len ds i : List.length (reset ds i) = List.length ds.
Proof. unfold reset. destruct (nth_error ds i); [apply lset_length|reflexivity]. Qed.

(** the descriptor of the whole code or data that goes with [j] *)
Definition segOf (e : env) (isData : bool) : nat := (e_cnt e + if isData then 1 else 0)%nat.
Definition within (ds : list descr) (seg j : nat) : Prop := startOf ds seg <= startOf ds j /\ stopOf ds j <= stopOf ds seg.

Lemma placeSect_span e j isData f o k s p p' q : okState e p -> wfSect s -> isData = negb (has SHF_EXECINSTR (sh_flags s)) ->
  List.length (p_ds p) = (e_cnt e + 3)%nat -> (j < e_cnt e)%nat -> within (p_ds p) (segOf e isData) j ->
  placeSect e false j isData f o k s p = Ok p' -> p_out p' = q :: p_out p ->
  within (p_ds p') (segOf e isData) j /\ List.length (p_ds p') = (e_cnt e + 3)%nat /\
  forall i, startOf (p_ds p') i = (if Nat.eqb i j || Nat.eqb i (segOf e isData) then Z.min (pl_addr q) (startOf (p_ds p) i) else startOf (p_ds p) i) /\
    stopOf (p_ds p') i = (if Nat.eqb i j || Nat.eqb i (segOf e isData) then Z.max (pl_addr q + sh_size s) (stopOf (p_ds p) i) else stopOf (p_ds p) i).
Proof.
  intros OK W ID LN J WI H OQ.
  destruct (placeSect_inv _ _ _ _ _ _ _ _ _ _ OK W ID H) as (q' & Q1 & Q2 & Q3 & Q4 & Q5 & Q6 & Q7 & Q8 & Q9 & Q10 & Q11).
  assert (q' = q) by congruence. subst q'.
  unfold placeSect in H. destruct (alignOf (e_fmt e) isData s) as [al| |] eqn:EA; try discriminate. cbn [rbind] in H.
  apply alignOf_ok in EA as [-> RA]; [|apply W|auto]. rewrite <- Q6 in H.
  destruct (pl_addr q <? p_ofs p) eqn:E1; [discriminate|]. destruct (u32 (pl_addr q + sh_size s) <? pl_addr q) eqn:E2; [discriminate|].
  destruct (is16 (e_fmt e) && _) eqn:E3; [discriminate|]. cbn [rbind] in H. fold (segOf e isData) in H.
  assert (U : u32 (pl_addr q + sh_size s) = pl_addr q + sh_size s).
  { pose proof (f_equal (fun x => match x with Ok y => p_ofs y | _ => 0 end) H) as HO. cbn [p_ofs] in HO. congruence. }
  rewrite U in H. assert (PD := f_equal (fun x => match x with Ok y => p_ds y | _ => [] end) H). cbn [p_ds] in PD. clear H.
  set (seg := segOf e isData) in *. assert (SG : (seg < e_cnt e + 3)%nat) by (unfold seg, segOf; destruct isData; lia).
  assert (NE : Nat.eqb seg j = false /\ Nat.eqb j seg = false) by (unfold seg, segOf; split; apply Nat.eqb_neq; destruct isData; lia).
  destruct NE as [NE NE']. clearbody seg. destruct WI as [WI1 WI2].
  assert (ALL : forall i, startOf (p_ds p') i = (if Nat.eqb i j || Nat.eqb i seg then Z.min (pl_addr q) (startOf (p_ds p) i) else startOf (p_ds p) i) /\
    stopOf (p_ds p') i = (if Nat.eqb i j || Nat.eqb i seg then Z.max (pl_addr q + sh_size s) (stopOf (p_ds p) i) else stopOf (p_ds p) i)).
  { intros i. rewrite <- PD. rewrite !startOf_setMax. rewrite !stopOf_setMax by (rewrite ?setMax_len, ?setMin_len; lia).
    rewrite !stopOf_setMin. rewrite !startOf_setMin by (rewrite ?setMin_len; lia).
    rewrite !Nat.eqb_refl, ?NE, ?NE'.
    destruct (Nat.eqb i seg) eqn:I1, (Nat.eqb i j) eqn:I2; cbn [orb].
    - apply Nat.eqb_eq in I1, I2. subst. rewrite Nat.eqb_refl in NE. discriminate.
    - apply Nat.eqb_eq in I1. subst. lia.
    - apply Nat.eqb_eq in I2. subst. lia.
    - auto. }
  split; [|split; [|exact ALL]].
  - unfold within. destruct (ALL seg) as [A1 A2], (ALL j) as [A3 A4]. rewrite A1, A4, A2, A3. rewrite !Nat.eqb_refl, orb_true_r. cbn [orb]. lia.
  - rewrite <- PD. rewrite !setMax_len, !setMin_len. auto.
Qed.

Lemma foldP_span e j isData its : forall p p',
  okState e p -> Forall (fun it => wfSect (isect it) /\ isData = negb (has SHF_EXECINSTR (sh_flags (isect it)))) its ->
  List.length (p_ds p) = (e_cnt e + 3)%nat -> (j < e_cnt e)%nat -> within (p_ds p) (segOf e isData) j ->
  foldP e false j isData its p = Ok p' ->
  exists g, placesFor its g /\ run (e_fmt e) (p_ofs p) g (p_ofs p') /\
    p_out p' = rev (map snd g) ++ p_out p /\ Forall (fun sq => pl_off (snd sq) = offOf e p (snd sq)) g /\
    p_startOfs p' = p_startOfs p /\ p_written p' = p_written p /\ okState e p' /\
    List.length (p_ds p') = (e_cnt e + 3)%nat /\
    forall i, startOf (p_ds p') i = (if Nat.eqb i j || Nat.eqb i (segOf e isData) then Z.min (minA g) (startOf (p_ds p) i) else startOf (p_ds p) i) /\
      stopOf (p_ds p') i = (if Nat.eqb i j || Nat.eqb i (segOf e isData) then Z.max (maxE g) (stopOf (p_ds p) i) else stopOf (p_ds p) i) \/ g = [] /\ p_ds p' = p_ds p.
Proof.
  induction its as [|[[[f o] k] s] its IH]; intros p p' OK W LN J WI H; cbn [foldP] in H.
  { injection H as <-. exists []. repeat split; auto; try constructor; try apply OK. }
  inversion_clear W as [|? ? [W1 W2] W3]. cbn [isect] in W1, W2.
  destruct (placeSect e false j isData f o k s p) as [p1| |] eqn:E; try discriminate. cbn [rbind] in H.
  destruct (placeSect_inv _ _ _ _ _ _ _ _ _ _ OK W1 W2 E) as (q & Q1 & Q2 & Q3 & Q4 & Q5 & _ & Q6 & Q7 & Q8 & Q9 & Q10).
  destruct (placeSect_span _ _ _ _ _ _ _ _ _ _ OK W1 W2 LN J WI E Q9) as (SP1 & SP2 & SP3).
  destruct (IH p1 p' Q10 W3 SP2 J SP1 H) as (g & G1 & G2 & G3 & G4 & G5 & G6 & G7 & G8 & G9).
  exists ((s, q) :: g). split; [constructor; [cbn; auto|auto]|]. split; [constructor; auto; rewrite <- Q6; auto|].
  split; [rewrite G3, Q9; cbn [map rev]; rewrite <- app_assoc; reflexivity|].
  split; [constructor; [exact Q3|]|].
  - revert G4. apply Forall_impl. intros sq Hsq. rewrite Hsq. unfold offOf. rewrite Q7, Q8. reflexivity.
  - split; [congruence|]. split; [congruence|]. split; [auto|]. split; [auto|]. intros i. left.
    assert (MM : minA ((s, q) :: g) = Z.min (pl_addr q) (minA g) /\ maxE ((s, q) :: g) = Z.max (pl_addr q + sh_size s) (maxE g)) by (split; reflexivity).
    destruct MM as [MM1 MM2]. rewrite MM1, MM2. destruct (SP3 i) as [X1 X2].
    destruct (G9 i) as [[Y1 Y2]|[-> Y]].
    + rewrite Y1, Y2, X1, X2. destruct (Nat.eqb i j || Nat.eqb i (segOf e isData)); lia.
    + rewrite Y, X1, X2. destruct (Nat.eqb i j || Nat.eqb i (segOf e isData)); [|auto].
      change (minA []) with (2 ^ 32 - 1). change (maxE []) with 0. pose proof (limit_u32 (e_fmt e)). unfold okState in *. destruct W1, Q4 as [Q4 _]. lia.
Qed.

Definition isCode (d : descr) : bool := has SHF_EXECINSTR (d_attrs d).
(** the placements of all code (data) names *)
Fixpoint partOf (code : bool) (l : list descr) (gs : list (list (sect * placed))) : list (sect * placed) :=
  match l, gs with
  | d :: l, g :: gs => (if Bool.eqb (isCode d) code then g else []) ++ partOf code l gs
  | _, _ => []
  end.
Definition segsOk (e : env) (ds : list descr) : Prop :=
  startOf ds (e_cnt e) <= 2 ^ 32 - 1 /\ 0 <= stopOf ds (e_cnt e) /\ startOf ds (S (e_cnt e)) <= 2 ^ 32 - 1 /\ 0 <= stopOf ds (S (e_cnt e)).

Lemma passLoop_span e l : forall j p p', okState e p -> e_relod e = 0 -> goodNames e l -> e_fmt e <> FormatDosExeSmall ->
  List.length (p_ds p) = (e_cnt e + 3)%nat -> (j + List.length l <= e_cnt e)%nat -> segsOk e (p_ds p) ->
  passLoop e false j l p = Ok p' ->
  exists gs, groupsFor e l gs /\ chain e (p_ofs p) l gs (p_ofs p') /\
    p_out p' = rev (map snd (List.concat gs)) ++ p_out p /\ Forall (Forall (fun sq => pl_off (snd sq) = offOf e p (snd sq))) gs /\
    p_startOfs p' = p_startOfs p /\ p_written p' = p_written p /\ okState e p' /\
    (forall i g, nth_error gs i = Some g -> startOf (p_ds p') (j + i) = minA g /\ stopOf (p_ds p') (j + i) = maxE g) /\
    (forall i, (i < j \/ e_cnt e + 1 < i)%nat -> startOf (p_ds p') i = startOf (p_ds p) i /\ stopOf (p_ds p') i = stopOf (p_ds p) i) /\
    startOf (p_ds p') (e_cnt e) = Z.min (minA (partOf true l gs)) (startOf (p_ds p) (e_cnt e)) /\
    stopOf (p_ds p') (e_cnt e) = Z.max (maxE (partOf true l gs)) (stopOf (p_ds p) (e_cnt e)) /\
    startOf (p_ds p') (S (e_cnt e)) = Z.min (minA (partOf false l gs)) (startOf (p_ds p) (S (e_cnt e))) /\
    stopOf (p_ds p') (S (e_cnt e)) = Z.max (maxE (partOf false l gs)) (stopOf (p_ds p) (S (e_cnt e))).
Proof.
  induction l as [|d rest IH]; intros j p p' OK R0 GN NS LN J SO H.
  { injection H as <-. exists []. split; [constructor|]. split; [constructor|]. split; [reflexivity|]. split; [constructor|]. split; [auto|]. split; [auto|]. split; [auto|].
    split; [intros [|i] g C; discriminate|]. split; [auto|]. cbn [partOf]. change (minA []) with (2 ^ 32 - 1). change (maxE []) with 0. destruct SO as (A1 & A2 & A3 & A4). lia. }
  inversion_clear GN as [|? ? GN1 GN2]. rewrite passLoop_cons in H. cbv zeta in H. rewrite R0 in H. change (negb (0 =? 0)) with false in H. cbn [andb] in H.
  rewrite placeObjs_fold in H. cbn [List.length] in J.
  destruct (foldP _ _ _ _ _ _) as [p1| |] eqn:E1; try discriminate. cbn [rbind] in H.
  destruct (padAfter e false d (hd_error rest) p1) as [p2| |] eqn:E2; try discriminate. cbn [rbind] in H.
  set (isData := negb (has SHF_EXECINSTR (d_attrs d))) in *.
  assert (LR : List.length (p_ds (resetP false j p)) = (e_cnt e + 3)%nat) by (cbn [resetP p_ds]; rewrite reset_len; auto).
  assert (RG : forall k, startOf (p_ds (resetP false j p)) k = (if Nat.eqb k j then 2 ^ 32 - 1 else startOf (p_ds p) k) /\
    stopOf (p_ds (resetP false j p)) k = (if Nat.eqb k j then 0 else stopOf (p_ds p) k)).
  { intros k. cbn [resetP p_ds]. apply reset_get. lia. }
  assert (SG : segOf e isData = e_cnt e /\ isData = false \/ segOf e isData = S (e_cnt e) /\ isData = true) by (unfold segOf; destruct isData; [right|left]; split; auto; lia).
  assert (WI : within (p_ds (resetP false j p)) (segOf e isData) j).
  { unfold within. destruct (RG (segOf e isData)) as [A1 A2], (RG j) as [A3 A4]. rewrite A1, A2, A3, A4, Nat.eqb_refl.
    replace (Nat.eqb (segOf e isData) j) with false by (symmetry; apply Nat.eqb_neq; lia).
    destruct SO as (B1 & B2 & B3 & B4). destruct SG as [[-> _]|[-> _]]; lia. }
  destruct (foldP_span e j isData (items (d_name d) 0 (e_objs e)) (resetP false j p) p1) as (g & G1 & G2 & G3 & G4 & G5 & G6 & G7 & G8 & G9); auto; [|lia|].
  { revert GN1. apply Forall_impl. intros it [W1 W2]. split; [auto|]. unfold isData. rewrite W2. reflexivity. }
  cbn [resetP p_ofs p_out p_startOfs p_written] in G2, G3, G5, G6.
  pose proof (padAfter_exact e false d (hd_error rest) p1 p2 G7 NS E2) as PX.
  destruct (padAfter_inv e false d (hd_error rest) p1 p2 G7) as (P1 & P2 & P3 & P4 & P5); [intros; contradiction|auto|].
  pose proof (padAfter_ds _ _ _ _ _ _ E2) as PD.
  (* after this name *)
  assert (D1 : forall k, startOf (p_ds p2) k = (if Nat.eqb k j then minA g else if Nat.eqb k (segOf e isData) then Z.min (minA g) (startOf (p_ds p) k) else startOf (p_ds p) k) /\
    stopOf (p_ds p2) k = (if Nat.eqb k j then maxE g else if Nat.eqb k (segOf e isData) then Z.max (maxE g) (stopOf (p_ds p) k) else stopOf (p_ds p) k)).
  { intros k. rewrite PD. destruct (RG k) as [A1 A2]. pose proof (minA_le g) as ML. pose proof (maxE_ge g) as MG.
    destruct (G9 k) as [[B1 B2]|[-> B]].
    - rewrite B1, B2, A1, A2. destruct (Nat.eqb k j); cbn [orb]; [lia|]. destruct (Nat.eqb k (segOf e isData)); lia.
    - rewrite B, A1, A2. change (minA []) with (2 ^ 32 - 1). change (maxE []) with 0. destruct (Nat.eqb k j); [lia|].
      destruct (Nat.eqb k (segOf e isData)) eqn:K; [|auto]. apply Nat.eqb_eq in K. destruct SO as (B1 & B2 & B3 & B4).
      destruct SG as [[SG _]|[SG _]]; rewrite SG in K; subst k; lia. }
  assert (SO2 : segsOk e (p_ds p2)).
  { unfold segsOk. destruct (D1 (e_cnt e)) as [A1 A2], (D1 (S (e_cnt e))) as [A3 A4]. rewrite A1, A2, A3, A4.
    destruct SO as (B1 & B2 & B3 & B4). pose proof (minA_le g) as ML. pose proof (maxE_ge g) as MG.
    destruct (Nat.eqb (e_cnt e) j), (Nat.eqb (e_cnt e) (segOf e isData)), (Nat.eqb (S (e_cnt e)) j), (Nat.eqb (S (e_cnt e)) (segOf e isData)); lia. }
  destruct (IH (S j) p2 p' P5 R0 GN2 NS) as (gs & H1 & H2 & H3 & H4 & H5 & H6 & H7 & H8 & H9 & H10 & H11 & H12 & H13); auto; [rewrite PD; auto|lia|].
  exists (g :: gs). split; [constructor; auto|]. split; [econstructor; eauto|].
  split; [rewrite H3, P4, G3; cbn [List.concat]; rewrite map_app, rev_app_distr, <- app_assoc; reflexivity|].
  split.
  { constructor; [exact G4|]. revert H4. apply Forall_impl. intros g'. apply Forall_impl. intros sq Hsq. rewrite Hsq. unfold offOf. rewrite P2, P3, G5, G6. reflexivity. }
  split; [congruence|]. split; [congruence|]. split; [auto|]. split.
  { intros [|i] g' NG.
    - injection NG as <-. rewrite Nat.add_0_r. destruct (H9 j ltac:(lia)) as [A1 A2]. rewrite A1, A2. destruct (D1 j) as [B1 B2]. rewrite Nat.eqb_refl in B1, B2. auto.
    - cbn [nth_error] in NG. destruct (H8 i g' NG). replace (j + S i)%nat with (S j + i)%nat by lia. auto. }
  split.
  { intros i I. destruct (H9 i ltac:(lia)) as [A1 A2]. rewrite A1, A2. destruct (D1 i) as [B1 B2]. rewrite B1, B2.
    replace (Nat.eqb i j) with false by (symmetry; apply Nat.eqb_neq; lia).
    replace (Nat.eqb i (segOf e isData)) with false by (symmetry; apply Nat.eqb_neq; lia). auto. }
  cbn [partOf]. unfold isCode. destruct (D1 (e_cnt e)) as [A1 A2], (D1 (S (e_cnt e))) as [A3 A4].
  replace (Nat.eqb (e_cnt e) j) with false in A1, A2 by (symmetry; apply Nat.eqb_neq; lia).
  replace (Nat.eqb (S (e_cnt e)) j) with false in A3, A4 by (symmetry; apply Nat.eqb_neq; lia).
  rewrite H10, H11, H12, H13, A1, A2, A3, A4, !minA_app, !maxE_app.
  replace (has SHF_EXECINSTR (d_attrs d)) with (negb isData) by (unfold isData; apply negb_involutive).
  pose proof (minA_le (partOf true rest gs)) as M1. pose proof (minA_le (partOf false rest gs)) as M2. pose proof (maxE_ge (partOf true rest gs)) as M3. pose proof (maxE_ge (partOf false rest gs)) as M4.
  change (minA []) with (2 ^ 32 - 1). change (maxE []) with 0.
  destruct SG as [[-> ->]|[-> ->]]; cbn [negb Bool.eqb].
  - rewrite Nat.eqb_refl. replace (Nat.eqb (S (e_cnt e)) (e_cnt e)) with false by (symmetry; apply Nat.eqb_neq; lia).
    change (minA []) with (2 ^ 32 - 1). change (maxE []) with 0. clear - M1 M2 M3 M4. repeat split; lia.
  - rewrite Nat.eqb_refl. replace (Nat.eqb (e_cnt e) (S (e_cnt e))) with false by (symmetry; apply Nat.eqb_neq; lia).
    change (minA []) with (2 ^ 32 - 1). change (maxE []) with 0. clear - M1 M2 M3 M4. repeat split; lia.
Qed.

Lemma chain_runs e a l gs c : chain e a l gs c -> runs (e_fmt e) a gs c.
Proof.
  intros C. induction C as [a|a d l g gs b b' c H1 H2 C IH]; [constructor|]. eapply runs_cons; [apply Z.le_refl|exact H1|].
  eapply runs_le; [|exact IH]. destruct (padsB e d (hd_error l)); [apply H2|lia].
Qed.
