(** The layout of the image (C40). *)
From Verif Require Import Base BaseLemmas LexModel LexSpec LexProof LinkModel LinkSpec LinkResolve.
From Coq Require Import String.
Close Scope string_scope.

(** ** one name *)
Definition item := (nat * obj * nat * sect)%type.
Fixpoint itemsO (name : list Z) (f : nat) (o : obj) (k : nat) (ss : list sect) : list item :=
  match ss with
  | [] => []
  | s :: ss => (if eqs name (sh_name s) then [(f, o, k, s)] else []) ++ itemsO name f o (S k) ss
  end.
Fixpoint items (name : list Z) (f : nat) (objs : list (obj * bool)) : list item :=
  match objs with
  | [] => []
  | (o, nd) :: objs => (if nd : bool then itemsO name f o 0 o else []) ++ items name (S f) objs
  end.
Fixpoint foldP (e : env) (pass : bool) (j : nat) (isData : bool) (its : list item) (p : pst) : res pst :=
  match its with
  | [] => Ok p
  | (f, o, k, s) :: its => let! p := placeSect e pass j isData f o k s p in foldP e pass j isData its p
  end.

Lemma foldP_app e pass j isData a b p : foldP e pass j isData (a ++ b) p = let! p := foldP e pass j isData a p in foldP e pass j isData b p.
Proof.
  revert p; induction a as [|[[[f o] k] s] a IH]; intros p; cbn [app foldP]; [reflexivity|].
  destruct (placeSect e pass j isData f o k s p); cbn [rbind]; auto.
Qed.
Lemma placeObj_fold e pass j isData name f o ss : forall k p,
  placeObj e pass j isData name f o k ss p = foldP e pass j isData (itemsO name f o k ss) p.
Proof.
  induction ss as [|s ss IH]; intros k p; cbn [placeObj itemsO]; [reflexivity|].
  rewrite foldP_app. destruct (eqs name (sh_name s)); cbn [foldP].
  - destruct (placeSect e pass j isData f o k s p); cbn [rbind]; auto.
  - cbn [rbind]. apply IH.
Qed.
Lemma placeObjs_fold e pass j isData name objs : forall f p,
  placeObjs e pass j isData name f objs p = foldP e pass j isData (items name f objs) p.
Proof.
  induction objs as [|[o nd] objs IH]; intros f p; cbn [placeObjs items]; [reflexivity|].
  rewrite foldP_app. destruct nd.
  - rewrite placeObj_fold. destruct (foldP e pass j isData (itemsO name f o 0 o) p); cbn [rbind]; auto.
  - cbn [rbind foldP]. apply IH.
Qed.

(** ** alignment *)
Lemma alignTo_ok ofs al : 0 <= ofs < 2 ^ 32 -> 1 < al < 2 ^ 32 -> ofs <= alignTo ofs al -> roundup ofs al (alignTo ofs al) /\ alignTo ofs al < 2 ^ 32.
Proof.
  intros R A. unfold alignTo. replace (u32 (u32 (ofs + al) - 1)) with (u32 (ofs + al - 1)) by (unfold u32; rewrite wrap_sub_l; reflexivity).
  destruct (Z_lt_ge_dec (ofs + al - 1) (2 ^ 32)) as [L|L].
  - rewrite (u32_small (ofs + al - 1)) by lia.
    assert (D : al * ((ofs + al - 1) / al) <= ofs + al - 1) by (apply Z.mul_div_le; lia).
    assert (D' : ofs + al - 1 < al * Z.succ ((ofs + al - 1) / al)) by (apply Z.mul_succ_div_gt; lia).
    assert (0 <= (ofs + al - 1) / al) by (apply Z.div_pos; lia).
    rewrite u32_small by nia. intros H1. unfold roundup. split; [|nia].
    split; [lia|]. split; [left; nia|]. right. apply Z.divide_factor_r.
  - assert (E : u32 (ofs + al - 1) = ofs + al - 1 - 2 ^ 32).
    { unfold u32, wrap. symmetry. apply Z.mod_unique with (q := 1); lia. }
    rewrite E. rewrite Z.div_small by lia. cbn. change (u32 0) with 0. lia.
Qed.

Definition wfSect (s : sect) : Prop := 0 <= sh_size s < 2 ^ 32 /\ 0 <= sh_align s < 2 ^ 32.

Lemma alignOf_ok fmt isData s al : 0 <= sh_align s < 2 ^ 32 -> isData = negb (has SHF_EXECINSTR (sh_flags s)) ->
  alignOf fmt isData s = Ok al -> al = alignment fmt s /\ 0 <= al < 2 ^ 32.
Proof.
  intros W ID. unfold alignOf, alignment, is16. subst isData. rewrite negb_involutive.
  destruct (has (sh_align s) (u32 (sh_align s - 1))); [discriminate|].
  destruct ((fmt =? FormatDosComTiny) || (fmt =? FormatFlat16) || (fmt =? FormatDosExeSmall)).
  - intros H. injection H as <-. destruct (has SHF_EXECINSTR (sh_flags s)); cbn [andb]; [|lia].
    destruct (4 <? sh_align s) eqn:E; lia.
  - destruct (fmt =? FormatDosExeHuge).
    + unfold RELOD. destruct (eqs (sh_name s) (str ".relot") || eqs (sh_name s) (str ".relod")).
      * change (16 <? 4) with false. intros H. injection H as <-. lia.
      * destruct (16 <? sh_align s); [discriminate|]. intros H. injection H as <-. lia.
    + destruct (isPaged fmt); [destruct (4096 <? sh_align s); [discriminate|]|]; intros H; injection H as <-; lia.
Qed.

Definition okState (e : env) (p : pst) : Prop := 0 <= p_ofs p <= limit (e_fmt e).

Lemma limit_u32 fmt : 0 < limit fmt < 2 ^ 32.
Proof. unfold limit. destruct (_ || _); lia. Qed.

(** what placing one section does, in both passes *)
Lemma placeSect_inv e pass j isData f o k s p p' :
  okState e p -> wfSect s -> isData = negb (has SHF_EXECINSTR (sh_flags s)) ->
  placeSect e pass j isData f o k s p = Ok p' ->
  exists q, pl_obj q = f /\ pl_sect q = k /\
    pl_off q = u32 (e_hdrsz e + p_written p + (pl_addr q - p_startOfs p)) /\
    roundup (p_ofs p) (alignment (e_fmt e) s) (pl_addr q) /\ pl_addr q + sh_size s <= limit (e_fmt e) /\
    pl_addr q = (if 1 <? alignment (e_fmt e) s then alignTo (p_ofs p) (alignment (e_fmt e) s) else p_ofs p) /\
    p_ofs p' = pl_addr q + sh_size s /\ p_startOfs p' = p_startOfs p /\ p_written p' = p_written p /\
    p_out p' = q :: p_out p /\ okState e p'.
Proof.
  intros OK [W1 W2] ID H. unfold placeSect in H.
  destruct (alignOf (e_fmt e) isData s) as [al| |] eqn:EA; try discriminate. cbn [rbind] in H.
  apply alignOf_ok in EA as [-> RA]; auto. set (al := alignment (e_fmt e) s) in *. clearbody al.
  unfold okState in *. pose proof (limit_u32 (e_fmt e)) as LU.
  set (a := if 1 <? al then alignTo (p_ofs p) al else p_ofs p) in *.
  destruct (a <? p_ofs p) eqn:E1; [discriminate|].
  assert (RU : roundup (p_ofs p) al a /\ 0 <= a < 2 ^ 32).
  { unfold a in *. destruct (1 <? al) eqn:E.
    - destruct (alignTo_ok (p_ofs p) al); try lia. split; [auto|]. lia.
    - split; [|lia]. unfold roundup. lia. }
  destruct RU as [RU Ra].
  destruct (u32 (a + sh_size s) <? a) eqn:E2; [discriminate|].
  assert (NW : u32 (a + sh_size s) = a + sh_size s).
  { destruct (Z_lt_ge_dec (a + sh_size s) (2 ^ 32)); [apply u32_small; lia|].
    assert (u32 (a + sh_size s) = a + sh_size s - 2 ^ 32) by (unfold u32, wrap; symmetry; apply Z.mod_unique with (q := 1); lia). lia. }
  rewrite NW in *. pose proof (u32_range (a + sh_size s)) as UR. rewrite NW in UR.
  destruct (is16 (e_fmt e) && (65536 <? a + sh_size s)) eqn:E3; [discriminate|].
  assert (LI : a + sh_size s <= limit (e_fmt e)).
  { unfold limit, is16 in *. destruct ((e_fmt e =? FormatDosComTiny) || (e_fmt e =? FormatFlat16) || (e_fmt e =? FormatDosExeSmall)); cbn [andb] in E3; lia. }
  match type of H with rbind ?x _ = _ => destruct x as [[buf file]| |] eqn:EB; try discriminate end.
  cbn [rbind] in H. injection H as <-.
  exists (mkPl f k a (u32 (e_hdrsz e + p_written p + (a - p_startOfs p)))). cbn [pl_obj pl_sect pl_off pl_addr p_ofs p_startOfs p_written p_out].
  repeat split; auto; try lia; apply RU.
Qed.

Definition iobj (it : item) : nat := let '(f, o, k, s) := it in f.
Definition isec (it : item) : nat := let '(f, o, k, s) := it in k.
Definition isect (it : item) : sect := let '(f, o, k, s) := it in s.
(** the placements of a list of sections *)
Definition placesFor (its : list item) (g : list (sect * placed)) : Prop :=
  Forall2 (fun it sq => fst sq = isect it /\ pl_obj (snd sq) = iobj it /\ pl_sect (snd sq) = isec it) its g.

Definition offOf (e : env) (p : pst) (q : placed) : Z := u32 (e_hdrsz e + p_written p + (pl_addr q - p_startOfs p)).

Lemma foldP_inv e pass j isData its : forall p p',
  okState e p -> Forall (fun it => wfSect (isect it) /\ isData = negb (has SHF_EXECINSTR (sh_flags (isect it)))) its ->
  foldP e pass j isData its p = Ok p' ->
  exists g, placesFor its g /\ run (e_fmt e) (p_ofs p) g (p_ofs p') /\
    p_out p' = rev (map snd g) ++ p_out p /\ Forall (fun sq => pl_off (snd sq) = offOf e p (snd sq)) g /\
    p_startOfs p' = p_startOfs p /\ p_written p' = p_written p /\ okState e p'.
Proof.
  induction its as [|[[[f o] k] s] its IH]; intros p p' OK W H; cbn [foldP] in H.
  { injection H as <-. exists []. repeat split; auto; try constructor; apply OK. }
  inversion_clear W as [|? ? [W1 W2] W3]. cbn [isect] in W1, W2.
  destruct (placeSect e pass j isData f o k s p) as [p1| |] eqn:E; try discriminate. cbn [rbind] in H.
  destruct (placeSect_inv _ _ _ _ _ _ _ _ _ _ OK W1 W2 E) as (q & Q1 & Q2 & Q3 & Q4 & Q5 & _ & Q6 & Q7 & Q8 & Q9 & Q10).
  destruct (IH p1 p' Q10 W3 H) as (g & G1 & G2 & G3 & G4 & G5 & G6 & G7).
  exists ((s, q) :: g). split; [constructor; [cbn; auto|auto]|]. split; [constructor; auto; rewrite <- Q6; auto|].
  split; [rewrite G3, Q9; cbn [map rev]; rewrite <- app_assoc; reflexivity|].
  split; [constructor; [exact Q3|]|].
  - revert G4. apply Forall_impl. intros sq Hsq. rewrite Hsq. unfold offOf. rewrite Q7, Q8. reflexivity.
  - split; [congruence|]. split; [congruence|auto].
Qed.

Lemma run_le fmt a g b : Forall (fun sq => wfSect (fst sq)) g -> run fmt a g b -> a <= b.
Proof.
  intros F R. induction R as [a|a s q l b R1 R2 R3 IH]; [lia|]. inversion_clear F as [|? ? F1 F2]. specialize (IH F2).
  cbn [fst] in F1. destruct F1, R1. lia.
Qed.
Lemma placesFor_wf its g : Forall (fun it => wfSect (isect it)) its -> placesFor its g -> Forall (fun sq => wfSect (fst sq)) g.
Proof. intros F P. revert F. induction P as [|it sq its g (P1 & _) P IH]; intros F; inversion_clear F; constructor; auto. rewrite P1. auto. Qed.

(** ** all names *)
Lemma runs_le fmt a a' l c : a <= a' -> runs fmt a' l c -> runs fmt a l c.
Proof.
  intros L R. revert a L. induction R as [a'|a' a2 g b l c H1 H2 H3 IH|a' gs b c R IH H]; intros a L.
  - eapply runs_pad; [apply runs_nil|lia].
  - eapply runs_cons; [|eauto|eauto]. lia.
  - eapply runs_pad; [apply IH; auto|auto].
Qed.

Lemma placeRelod_inv e pass j isData p p' : okState e p -> 0 <= e_relod e < 2 ^ 32 -> limit (e_fmt e) = 2 ^ 32 - 1 ->
  placeRelod e pass j isData p = Ok p' ->
  p_ofs p <= p_ofs p' /\ p_startOfs p' = p_startOfs p /\ p_written p' = p_written p /\ p_out p' = p_out p /\ okState e p' /\
  p_ofs p' = (p_ofs p + 3) / 4 * 4 + e_relod e.
Proof.
  unfold okState, placeRelod. intros OK RR L H. rewrite L in *.
  destruct (Z_lt_ge_dec (p_ofs p + 3) (2 ^ 32)) as [LT|GE].
  - rewrite (u32_small (p_ofs p + 3)) in H by lia. rewrite (u32_small ((p_ofs p + 3) / 4 * 4)) in H by lia.
    set (a := (p_ofs p + 3) / 4 * 4) in *. assert (p_ofs p <= a <= p_ofs p + 3) by (unfold a; lia).
    destruct (a <? p_ofs p) eqn:E1; [discriminate|].
    assert (NW : u32 (a + e_relod e) <? a = false -> u32 (a + e_relod e) = a + e_relod e /\ a + e_relod e < 2 ^ 32).
    { intros E. destruct (Z_lt_ge_dec (a + e_relod e) (2 ^ 32)); [split; [apply u32_small; lia|lia]|].
      assert (u32 (a + e_relod e) = a + e_relod e - 2 ^ 32) by (unfold u32, wrap; symmetry; apply Z.mod_unique with (q := 1); lia). lia. }
    destruct (u32 (a + e_relod e) <? a) eqn:E2; [discriminate|]. destruct (NW eq_refl) as [N1 N2]. rewrite N1 in H.
    destruct pass.
    + destruct (negb _); [discriminate|]. injection H as <-. cbn. repeat split; auto; lia.
    + injection H as <-. cbn. repeat split; auto; lia.
  - assert (E : u32 (p_ofs p + 3) = p_ofs p + 3 - 2 ^ 32) by (unfold u32, wrap; symmetry; apply Z.mod_unique with (q := 1); lia).
    rewrite E in H. assert ((p_ofs p + 3 - 2 ^ 32) / 4 = 0) by (apply Z.div_small; lia). rewrite H0 in H.
    cbn [Z.mul] in H. change (u32 0) with 0 in H. destruct (0 <? p_ofs p) eqn:E1; [discriminate|]. lia.
Qed.

Definition lastCodeB (d : descr) (nxt : option descr) : bool := has SHF_EXECINSTR (d_attrs d) && negb (nextHas SHF_EXECINSTR nxt).

Lemma padAfter_inv e pass d nxt p p' : okState e p ->
  (e_fmt e = FormatDosExeSmall -> lastCodeB d nxt = false) ->
  padAfter e pass d nxt p = Ok p' ->
  p_ofs p <= p_ofs p' /\ p_startOfs p' = p_startOfs p /\ p_written p' = p_written p /\ p_out p' = p_out p /\ okState e p'.
Proof.
  intros OK NS H. unfold padAfter in H. rewrite negb_involutive in H. fold (lastCodeB d nxt) in H.
  destruct (e_fmt e =? FormatDosExeSmall) eqn:EF.
  - rewrite NS in H by lia. injection H as <-. repeat split; auto; try lia; apply OK.
  - destruct (isPaged (e_fmt e) || (e_fmt e =? FormatAout)) eqn:EP.
    2:{ injection H as <-. repeat split; auto; try lia; apply OK. }
    match type of H with (if ?c then _ else _) = _ => destruct c end.
    2:{ injection H as <-. repeat split; auto; try lia; apply OK. }
    assert (L : limit (e_fmt e) = 2 ^ 32 - 1).
    { unfold limit, isPaged, FormatDosComTiny, FormatFlat16, FormatDosExeSmall, FormatWinPe32, FormatElf32, FormatMach32, FormatAout in *.
      destruct ((e_fmt e =? 1) || (e_fmt e =? 5) || (e_fmt e =? 2)) eqn:E; [lia|reflexivity]. }
    unfold okState in *. destruct (alignTo (p_ofs p) 4096 <? p_ofs p) eqn:E1; [discriminate|].
    injection H as <-. cbn. destruct (alignTo_ok (p_ofs p) 4096); try lia.
    repeat split; auto; try lia.
Qed.

Definition goodNames (e : env) (ds : list descr) : Prop :=
  Forall (fun d => Forall (fun it => wfSect (isect it) /\ has SHF_EXECINSTR (d_attrs d) = has SHF_EXECINSTR (sh_flags (isect it)))
    (items (d_name d) 0 (e_objs e))) ds.
Definition goodRelod (e : env) : Prop := 0 <= e_relod e < 2 ^ 32 /\ (e_relod e <> 0 -> limit (e_fmt e) = 2 ^ 32 - 1).

Definition resetP (pass : bool) (j : nat) (p : pst) : pst :=
  if pass then p else mkPst (p_ofs p) (p_startOfs p) (p_written p) (reset (p_ds p) j) (p_out p) (p_buf p) (p_file p).

(** one name, without the padding after it *)
Lemma name_inv e pass j d p p' : okState e p -> goodRelod e ->
  Forall (fun it => wfSect (isect it) /\ has SHF_EXECINSTR (d_attrs d) = has SHF_EXECINSTR (sh_flags (isect it))) (items (d_name d) 0 (e_objs e)) ->
  (let isData := negb (has SHF_EXECINSTR (d_attrs d)) in
   let! p := placeObjs e pass j isData (d_name d) 0 (e_objs e) (resetP pass j p) in
   if negb (e_relod e =? 0) && eqs (d_name d) RELOD then placeRelod e pass j isData p else Ok p) = Ok p' ->
  exists g b, placesFor (items (d_name d) 0 (e_objs e)) g /\ run (e_fmt e) (p_ofs p) g b /\ b <= p_ofs p' /\
    p_out p' = rev (map snd g) ++ p_out p /\ Forall (fun sq => pl_off (snd sq) = offOf e p (snd sq)) g /\
    p_startOfs p' = p_startOfs p /\ p_written p' = p_written p /\ okState e p'.
Proof.
  intros OK GR W H. cbv zeta in H. rewrite placeObjs_fold in H.
  destruct (foldP _ _ _ _ _ _) as [p1| |] eqn:E; try discriminate. cbn [rbind] in H.
  destruct (foldP_inv e pass j (negb (has SHF_EXECINSTR (d_attrs d))) (items (d_name d) 0 (e_objs e)) (resetP pass j p) p1) as (g & G1 & G2 & G3 & G4 & G5 & G6 & G7); auto.
  { unfold resetP. destruct pass; exact OK. }
  { revert W. apply Forall_impl. intros it [W1 W2]. split; [auto|]. rewrite W2. reflexivity. }
  assert (RP : p_ofs (resetP pass j p) = p_ofs p /\ p_out (resetP pass j p) = p_out p /\ p_startOfs (resetP pass j p) = p_startOfs p /\ p_written (resetP pass j p) = p_written p)
    by (unfold resetP; destruct pass; repeat split; reflexivity).
  destruct RP as (RP1 & RP2 & RP3 & RP4). rewrite RP1 in G2. rewrite RP2 in G3. rewrite RP3 in G5. rewrite RP4 in G6.
  assert (G4' : Forall (fun sq => pl_off (snd sq) = offOf e p (snd sq)) g).
  { revert G4. apply Forall_impl. intros sq Hsq. rewrite Hsq. unfold offOf. rewrite RP3, RP4. reflexivity. }
  destruct (negb (e_relod e =? 0) && eqs (d_name d) RELOD) eqn:ER.
  - apply andb_true_iff in ER as [ER _]. destruct GR as [GR1 GR2].
    destruct (placeRelod_inv e pass j _ p1 p' G7 GR1 (GR2 ltac:(lia)) H) as (R1 & R2 & R3 & R4 & R5 & _).
    exists g, (p_ofs p1). repeat split; auto; try congruence; apply R5.
  - injection H as <-. exists g, (p_ofs p1). repeat split; auto; try lia; try congruence; apply G7.
Qed.

Definition groupsFor (e : env) (ds : list descr) (gs : list (list (sect * placed))) : Prop :=
  Forall2 (fun d g => placesFor (items (d_name d) 0 (e_objs e)) g) ds gs.

Lemma passLoop_cons e pass j d rest p : passLoop e pass j (d :: rest) p =
  let! p := (let isData := negb (has SHF_EXECINSTR (d_attrs d)) in
     let! p := placeObjs e pass j isData (d_name d) 0 (e_objs e) (resetP pass j p) in
     if negb (e_relod e =? 0) && eqs (d_name d) RELOD then placeRelod e pass j isData p else Ok p) in
  let! p := padAfter e pass d (hd_error rest) p in passLoop e pass (S j) rest p.
Proof.
  cbn [passLoop]. cbv zeta. unfold resetP. destruct (placeObjs e pass j _ (d_name d) 0 (e_objs e) _) as [p1| |]; cbn [rbind]; auto.
Qed.

(** no segment change: another format than small, or data only *)
Lemma passLoop_run e pass ds : forall j p p', okState e p -> goodRelod e -> goodNames e ds ->
  (e_fmt e = FormatDosExeSmall -> Forall (fun d => has SHF_EXECINSTR (d_attrs d) = false) ds) ->
  passLoop e pass j ds p = Ok p' ->
  exists gs, groupsFor e ds gs /\ runs (e_fmt e) (p_ofs p) gs (p_ofs p') /\
    p_out p' = rev (map snd (List.concat gs)) ++ p_out p /\ Forall (Forall (fun sq => pl_off (snd sq) = offOf e p (snd sq))) gs /\
    p_startOfs p' = p_startOfs p /\ p_written p' = p_written p /\ okState e p'.
Proof.
  induction ds as [|d rest IH]; intros j p p' OK GR GN NS H.
  { injection H as <-. exists []. repeat split; auto; try constructor; apply OK. }
  inversion_clear GN as [|? ? GN1 GN2]. rewrite passLoop_cons in H.
  match type of H with rbind ?x _ = _ => destruct x as [p1| |] eqn:E; try discriminate end. cbn [rbind] in H.
  destruct (name_inv e pass j d p p1 OK GR GN1 E) as (g & b & G1 & G2 & G3 & G4 & G5 & G6 & G7 & G8).
  destruct (padAfter e pass d (hd_error rest) p1) as [p2| |] eqn:E2; try discriminate. cbn [rbind] in H.
  destruct (padAfter_inv e pass d (hd_error rest) p1 p2 G8) as (P1 & P2 & P3 & P4 & P5); auto.
  { intros EF. specialize (NS EF). inversion_clear NS as [|? ? N1 N2]. unfold lastCodeB. rewrite N1. reflexivity. }
  destruct (IH (S j) p2 p' P5 GR GN2) as (gs & H1 & H2 & H3 & H4 & H5 & H6 & H7); auto.
  { intros EF. specialize (NS EF). inversion_clear NS; auto. }
  exists (g :: gs). split; [constructor; auto|]. split.
  { eapply runs_cons; [|exact G2|]; [lia|]. eapply runs_le; [|exact H2]. lia. }
  split. { rewrite H3, P4, G4. cbn [List.concat]. rewrite map_app, rev_app_distr, <- app_assoc. reflexivity. }
  split.
  { constructor; auto. revert H4. apply Forall_impl. intros g'. apply Forall_impl. intros sq Hsq. rewrite Hsq. unfold offOf.
    rewrite P2, P3, G6, G7. reflexivity. }
  split; [congruence|]. split; [congruence|auto].
Qed.

(** small programs: code, then data in a segment of their own *)
Lemma passLoop_small e pass data : forall code j p p', okState e p -> goodRelod e -> goodNames e (code ++ data) ->
  e_fmt e = FormatDosExeSmall -> code <> [] ->
  Forall (fun d => has SHF_EXECINSTR (d_attrs d) = true) code -> Forall (fun d => has SHF_EXECINSTR (d_attrs d) = false) data ->
  p_written p = 0 -> 0 <= p_startOfs p <= p_ofs p ->
  passLoop e pass j (code ++ data) p = Ok p' ->
  exists gc gd c p1, groupsFor e code gc /\ groupsFor e data gd /\ runs (e_fmt e) (p_ofs p) gc c /\
    roundup c 16 (p_startOfs p + p_written p1) /\ p_startOfs p1 = 0 /\ runs (e_fmt e) 4 gd (if data then 4 else p_ofs p') /\
    p_out p' = rev (map snd (List.concat (gc ++ gd))) ++ p_out p /\
    Forall (Forall (fun sq => pl_off (snd sq) = offOf e p (snd sq))) gc /\
    Forall (Forall (fun sq => pl_off (snd sq) = offOf e p1 (snd sq))) gd.
Proof.
  induction code as [|d code IH]; intros j p p' OK GR GN EF NE FC FD W0 S0 H; [congruence|].
  inversion_clear FC as [|? ? F1 F2]. cbn [app] in GN, H. inversion_clear GN as [|? ? GN1 GN2]. rewrite passLoop_cons in H.
  match type of H with rbind ?x _ = _ => destruct x as [p1| |] eqn:E; try discriminate end. cbn [rbind] in H.
  destruct (name_inv e pass j d p p1 OK GR GN1 E) as (g & b & G1 & G2 & G3 & G4 & G5 & G6 & G7 & G8).
  assert (PB : p_ofs p <= b) by (eapply run_le; [eapply placesFor_wf; [|exact G1]|exact G2]; revert GN1; apply Forall_impl; tauto).
  destruct code as [|d2 code].
  - cbn [app] in *. destruct (padAfter e pass d (hd_error data) p1) as [p2| |] eqn:E2; try discriminate. cbn [rbind] in H.
    assert (LC : lastCodeB d (hd_error data) = true).
    { unfold lastCodeB. rewrite F1. cbn [andb]. destruct data as [|dd data]; [reflexivity|]. cbn. inversion_clear FD as [|? ? D1 D2]. rewrite D1. reflexivity. }
    assert (LM : limit (e_fmt e) = 65536) by (rewrite EF; reflexivity).
    assert (AL : p_ofs p1 <= alignTo (p_ofs p1) 16).
    { unfold okState in G8. rewrite LM in G8. unfold alignTo. rewrite (u32_small (p_ofs p1 + 16)) by lia. rewrite (u32_small (p_ofs p1 + 16 - 1)) by lia. rewrite u32_small by lia. lia. }
    destruct (alignTo_ok (p_ofs p1) 16) as [AL2 AL3]; auto; [unfold okState in G8; lia|lia|].
    assert (AB : alignTo (p_ofs p1) 16 <= 65536).
    { unfold okState in G8. rewrite LM in G8. unfold alignTo. rewrite (u32_small (p_ofs p1 + 16)) by lia. rewrite (u32_small (p_ofs p1 + 16 - 1)) by lia. rewrite u32_small by lia. lia. }
    assert (P2 : p_ofs p2 = (if data then 0 else 4) /\ p_startOfs p2 = 0 /\ p_written p2 = alignTo (p_ofs p1) 16 - p_startOfs p /\ p_out p2 = p_out p1).
    { unfold padAfter in E2. rewrite EF in E2. change (FormatDosExeSmall =? FormatDosExeSmall) with true in E2. rewrite negb_involutive in E2.
      fold (lastCodeB d (hd_error data)) in E2. rewrite LC in E2.
      assert (UW : u32 (p_written p1 + (alignTo (p_ofs p1) 16 - p_startOfs p1)) = alignTo (p_ofs p1) 16 - p_startOfs p).
      { rewrite G6, G7, W0. apply u32_small. lia. }
      destruct data as [|dd data]; cbn [hd_error] in E2; injection E2 as <-; cbn; auto. }
    destruct P2 as (P21 & P22 & P23 & P24).
    assert (OK2 : okState e p2) by (unfold okState; rewrite P21, LM; destruct data; lia).
    destruct (passLoop_run e pass data (S j) p2 p' OK2 GR GN2 (fun _ => FD) H) as (gd & H1 & H2 & H3 & H4 & H5 & H6 & H7).
    exists [g], gd, (p_ofs p1), p2. split; [constructor; auto; constructor|]. split; [auto|]. split.
    { eapply runs_cons; [apply Z.le_refl|exact G2|]. eapply runs_pad; [apply runs_nil|lia]. }
    split; [rewrite P23; replace (p_startOfs p + (alignTo (p_ofs p1) 16 - p_startOfs p)) with (alignTo (p_ofs p1) 16) by lia; exact AL2|].
    split; [auto|]. split.
    { destruct data; [|rewrite P21 in H2; exact H2]. inversion H1. subst. constructor. }
    split. { rewrite H3, P24, G4. cbn [app List.concat]. rewrite map_app, rev_app_distr, <- app_assoc. reflexivity. }
    split; [constructor; auto|auto].
  - cbn [app] in *. destruct (padAfter e pass d (hd_error (d2 :: code ++ data)) p1) as [p2| |] eqn:E2; try discriminate. cbn [rbind] in H.
    assert (LC : lastCodeB d (Some d2) = false).
    { unfold lastCodeB. inversion_clear F2 as [|? ? F3 F4]. cbn [nextHas]. rewrite F3. apply andb_false_r. }
    destruct (padAfter_inv e pass d (Some d2) p1 p2 G8 (fun _ => LC) E2) as (P1 & P2 & P3 & P4 & P5).
    destruct (IH (S j) p2 p' P5 GR GN2 EF ltac:(discriminate) F2 FD) as (gc & gd & c & q & H1 & H2 & H3 & H4 & H5 & H6 & H7 & H8 & H9); auto; try congruence.
    { rewrite P2, G6. lia. }
    exists (g :: gc), gd, c, q. split; [constructor; auto|]. split; [auto|]. split.
    { eapply runs_cons; [apply Z.le_refl|exact G2|]. eapply runs_le; [|exact H3]. lia. }
    split; [rewrite P2, G6 in H4; exact H4|]. split; [auto|]. split; [auto|]. split.
    { rewrite H7, P4, G4. cbn [app List.concat]. rewrite !map_app, rev_app_distr, <- app_assoc. reflexivity. }
    split; [|auto]. constructor; auto. revert H8. apply Forall_impl. intros g'. apply Forall_impl. intros sq Hsq. rewrite Hsq. unfold offOf.
    rewrite P2, P3, G6, G7. reflexivity.
Qed.
