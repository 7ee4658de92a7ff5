(** Whole declarations: from an empty table to the offsets used in expressions. *)
From Verif Require Import Base BaseLemmas DeclSpec FoldModel DeclModel DeclProof DeclMain.

Section P.
Variable W : Z.
Hypothesis HW : W = 2 \/ W = 4.
Variable cs : bool.
Notation M := (2 ^ (8 * W)).
Notation size := (size W). Notation align := (align W). Notation msa := (msa W).
Notation enc := (enc W). Notation encS := (encS W). Notation wfty := (wfty W).
Notation encE := (encE W). Notation known := (known W). Notation fits := (fits W). Notation toobig := (toobig W).
Notation wfd := (wfd W (bal 0)). Notation wfb := (wfb W (bal 0)).

(** ** parts of objects *)
Lemma memb_nth name : forall ms os o t, memb name ms os = Some (o, t) ->
  exists k m, nth_error ms k = Some m /\ nth_error os k = Some o /\ fst (snd m) = name /\ snd (snd m) = t.
Proof.
  induction ms as [|[p [n t']] ms IH]; intros os o t H; [discriminate H|]. destruct os as [|o' os]; [discriminate H|].
  cbn [memb] in H. destruct (n =? name) eqn:E.
  - injection H as -> ->. exists 0%nat, (p, (n, t)). repeat split. cbn. lia.
  - destruct (IH os o t H) as (k & m & A & B & C & D). exists (S k), m. repeat split; assumption.
Qed.
Lemma endof_member l : forall o m, (forall x, In x l -> 1 <= fst x /\ DeclProof.okal W (snd x)) -> 0 <= o -> In m l -> o + fst m <= endof o l.
Proof.
  induction l as [|[s a] l IH]; intros o m OK Ho I; [destruct I|]. cbn [endof].
  assert (1 <= s /\ DeclProof.okal W a) as [S A] by (apply (OK (s, a)); left; reflexivity).
  pose proof (up_ge o a ltac:(destruct A as [[-> | [-> | ->]] _]; lia)) as U.
  assert (OK' : forall x, In x l -> 1 <= fst x /\ DeclProof.okal W (snd x)) by (intros x X; apply OK; right; exact X).
  destruct I as [<-|I].
  - cbn [fst]. pose proof (okm_endof W l (up o a + s) OK' ltac:(lia)). pose proof (zlen_nonneg l). lia.
  - pose proof (IH (up o a + s) m OK' ltac:(lia) I). lia.
Qed.
Lemma okm_wf u ms : wfty (TyAgg u ms) -> forall x, In x (map msa ms) -> 1 <= fst x /\ DeclProof.okal W (snd x).
Proof.
  intros H x I. apply in_map_iff in I. destruct I as (m & <- & I). apply wfty_agg in H. destruct H as [_ H].
  destruct (H m I) as [P Q]. destruct (sizes W HW _ Q) as [S A]. split; [exact S|]. apply okal_min; assumption.
Qed.
Lemma member_le u ms m : wfty (TyAgg u ms) -> In m ms -> size (snd (snd m)) <= size (TyAgg u ms).
Proof.
  intros WT I. pose proof (okm_wf u ms WT) as OK. unfold DeclSpec.size at 2. rewrite sa_agg. cbn [fst].
  pose proof (okm_maxalign W HW _ OK) as OA. assert (0 < maxalign (map msa ms)) by (destruct OA as [[-> | [-> | ->]] _]; lia).
  pose proof (in_map msa _ _ I) as I2. set (l := map msa ms) in *.
  pose proof (up_ge (if u then maxsize l else endof 0 l) (maxalign l) H) as U.
  destruct u.
  - pose proof (okm_maxsize l _ I2) as X. cbn [fst DeclSpec.msa] in X. lia.
  - pose proof (endof_member l 0 _ OK ltac:(lia) I2) as X. cbn [fst DeclSpec.msa] in X. lia.
Qed.
Lemma getSize_enc st q t : enc st q t -> wfty t -> size t < M -> 0 <= q -> getDeclSize W cs st q false = Ok (s32 (size t)).
Proof.
  intros E WT F Q. unfold getDeclSize. replace (q <? 0) with false by lia. pose proof (enc_steps W _ _ _ E).
  rewrite (gds_enc W HW cs st _ _ 1 false _ E WT); [|destruct (M_val W HW) as [-> | ->]; lia|unfold zlen in *; lia].
  rewrite Z.mul_1_l. replace (size t <? M) with true by lia. reflexivity.
Qed.
Lemma getAlign_enc st q t : enc st q t -> wfty t -> 0 <= q -> getDeclAlignment W st q = Ok (align t).
Proof.
  intros E WT Q. unfold getDeclAlignment. replace (q <? 0) with false by lia. pose proof (enc_steps W _ _ _ E).
  apply (gda_enc W HW); [exact E|exact WT|unfold zlen in *; lia].
Qed.
Lemma enc_nonneg st q t : enc st q t -> 0 <= q.
Proof.
  assert (G : forall (x : kind * Z), zget st q = Some x -> 0 <= q).
  { intros x H. unfold zget in H. destruct (q <? 0) eqn:E; [discriminate H|lia]. }
  intros E. inversion E; subst; eapply G; eassumption.
Qed.
Lemma walk_ok st p : forall q t o t', enc st q t -> wfty t -> size t < M -> sel W t p = Some (o, t') ->
  exists q', walk W cs st q p = Some (o, q') /\ enc st q' t' /\ wfty t' /\ size t' < M.
Proof.
  pose proof (M_le W HW) as ML.
  induction p as [|[name|i] p IH]; intros q t o t' E WT F S; cbn [sel walk] in *.
  - injection S as <- <-. exists q. repeat split; assumption.
  - destruct t as [s| |n t|u ms]; try discriminate S. inversion E as [| | |i0 j u0 ms0 H1 H3]; subst. rewrite H1.
    destruct (memb name ms (moffsets W u ms)) as [[o1 t1]|] eqn:MB; [|discriminate S].
    destruct (sel W t1 p) as [[o2 t2]|] eqn:S2; [|discriminate S]. injection S as <- <-.
    destruct (memb_nth _ _ _ _ _ MB) as (k & m & A & B & C & D). subst name t1.
    inversion H3 as [j0 u0 ms0 prs v tg G1 G2 G3 G4 G5 H8]; subst. destruct (H8 k m o1 A B) as (q1 & Q1 & Q2). rewrite Q1.
    pose proof (nth_error_In _ _ A) as I. pose proof (member_le u ms m WT I) as SL. apply wfty_agg in WT. destruct WT as [_ WT].
    destruct (IH q1 _ o2 t2 Q2 (proj2 (WT m I)) ltac:(lia) S2) as (q' & X1 & X2). rewrite X1. exists q'. split; [reflexivity|exact X2].
  - destruct t as [s| |n t|u ms]; try discriminate S. inversion E as [| |i0 n0 t0 a b H1 H2 H3 H5|]; subst. rewrite H1.
    destruct (sel W t p) as [[o2 t2]|] eqn:S2; [|discriminate S]. injection S as <- <-.
    destruct WT as [WN WT]. destruct (sizes W HW _ WT) as [S1 _]. destruct (sa_arr W n t) as [SZ _]. rewrite SZ in F.
    assert (F' : size t < M) by nia.
    rewrite (getSize_enc st (q + 3) t H5 WT F' (enc_nonneg _ _ _ H5)). rewrite u32_s32 by lia.
    destruct (IH (q + 3) t o2 t2 H5 WT F' S2) as (q' & X1 & X2). rewrite X1. exists q'. split; [reflexivity|exact X2].
Qed.

(** ** programs *)
(** how the declaration of an object is in the table: its name, then its type, of which the base
    type is completely in front of it *)
Definition declAt (st : stk) (q : Z) (t : cty) : Prop :=
  exists st1 post t1 d e, st = st1 ++ (KIdent, d_name d) :: dtokens d e ++ post /\ q = zlen st1 + 1 /\ wfd t1 d /\ t = dclty t1 d /\ (d_ptr d = None -> encE st1 e t1).
Lemma declAt_app st r q t : declAt st q t -> declAt (st ++ r) q t.
Proof.
  intros (st1 & post & t1 & d & e & E & H). exists st1, (post ++ r), t1, d, e. split; [|exact H].
  rewrite E, <- app_assoc. cbn [app]. rewrite <- app_assoc. reflexivity.
Qed.
Lemma declAt_enc st q t : declAt st q t -> enc st q t.
Proof.
  intros (st1 & post & t1 & d & e & E & Q & WD & T & EB). subst t q st.
  pose proof (dcl_enc W HW st1 [(KIdent, d_name d)] e t1 d WD EB) as X. apply (enc_app _ _ post) in X.
  rewrite <- app_assoc in X. exact X.
Qed.
Lemma vars_ok e t ds : forall st, Forall (wfd t) ds -> (wfty t -> encE st e t) ->
  match vars W cs st e ds with
  | Ok (st', qs) => (exists r, st' = st ++ r) /\ Forall2 (fun q d => declAt st' q (dclty t d)) qs ds /\ Forall (fun d => fits (dclty t d)) ds
  | TooBig => Exists (fun d => toobig (dclty t d)) ds
  | Full => True
  | _ => False
  end.
Proof.
  induction ds as [|d ds IH]; intros st F EB; cbn [vars].
  - split; [exists []; symmetry; apply app_nil_r|]. split; constructor.
  - apply Forall_cons_iff in F. destruct F as [WD F].
    assert (EB1 : d_ptr d = None -> encE st e t).
    { intros N. apply EB. destruct WD as (_ & _ & WD). now rewrite N in WD. }
    pose proof (declarator_ok W HW cs st e t d WD EB1) as DK.
    destruct (declarator W cs st e d) as [[st1 sz]| | | |]; cbn [rbind]; try exact I; try contradiction; [|left; exact DK].
    destruct DK as (E1 & _ & SM & EN & _).
    specialize (IH st1 F ltac:(intros X; rewrite E1; apply encE_app, EB; exact X)).
    destruct (vars W cs st1 e ds) as [[st2 qs]| | | |]; cbn [rbind]; try exact I; try contradiction; [|right; exact IH].
    destruct IH as ([r R] & F2 & FF). split; [exists ((KIdent, d_name d) :: dtokens d e ++ r); rewrite R, E1, <- app_assoc; reflexivity|].
    split; [|constructor; assumption]. constructor; [|exact F2]. rewrite R. apply declAt_app. exists st, [], t, d, e. rewrite E1, app_nil_r. repeat (split; [reflexivity|]). split; [exact WD|]. split; [reflexivity|exact EB1].
Qed.

Definition okref (env : Z -> cty) pl ts i : Prop :=
  match envof ts i with
  | TyAgg _ _ => env (resolveref pl i) = envof ts i
  | TySc SVoid => resolveref pl i = -1
  | _ => True
  end.
Lemma tyb_resolve pl (ts : list cty) env b : wfb (envof ts) b ->
  env (-1) = TySc SVoid -> (forall i, okref env pl ts i) ->
  tyb env (resolve pl b) = tyb (envof ts) b /\ declared env (resolve pl b) = declared (envof ts) b /\ wfb env (resolve pl b).
Proof.
  intros Wb EN R. induction b as [s|i|u tag ms IH] using base_ind'.
  - repeat split. exact Wb.
  - cbn [resolve tyb declared DeclSpec.wfb] in *. specialize (R i). unfold okref in R. destruct (envof ts i) as [[]| | |] eqn:E; try contradiction; rewrite R, ?EN; repeat split.
  - apply (wfb_def W HW) in Wb. destruct Wb as (NE & ND & F).
    set (ms' := map (fun bd => (resolve pl (fst bd), snd bd)) ms).
    assert (FE : Forall (fun bd => tyb env (resolve pl (fst bd)) = tyb (envof ts) (fst bd) /\
                   declared env (resolve pl (fst bd)) = declared (envof ts) (fst bd) /\ wfb env (resolve pl (fst bd))) ms).
    { rewrite Forall_forall in *. intros bd I. apply IH; [exact I|]. apply F. exact I. }
    assert (AM : allmems env ms' = allmems (envof ts) ms).
    { unfold ms', allmems. clear -FE. induction FE as [|bd ms (X & _) FE I]; [reflexivity|]. cbn [map flat_map fst snd]. rewrite X, I. reflexivity. }
    assert (TY : tyb env (BDef u tag ms') = tyb (envof ts) (BDef u tag ms)).
    { change (TyAgg u (allmems env ms') = TyAgg u (allmems (envof ts) ms)). now rewrite AM. }
    split; [exact TY|]. split.
    + change (tyb env (BDef u tag ms') :: inner env ms' = tyb (envof ts) (BDef u tag ms) :: inner (envof ts) ms). rewrite TY. f_equal.
      unfold ms', inner. clear -FE. induction FE as [|bd ms (X & Y & _) FE I]; [reflexivity|]. cbn [map flat_map fst snd]. rewrite X, Y, I. reflexivity.
    + change (wfb env (BDef u tag ms')). apply (wfb_def W HW). rewrite AM. split; [exact NE|]. split; [exact ND|].
      unfold ms'. rewrite Forall_map. rewrite Forall_forall in *. intros bd I. cbn [fst snd]. destruct (FE bd I) as (X & Y & Z). split; [exact Z|].
      rewrite X. apply F. exact I.
Qed.

Definition Inv (st : stk) (pl : list Z) (ts : list cty) : Prop :=
  length pl = length ts /\ exists env, known env st /\ (forall j, env j <> TySc SVoid -> 0 <= j < zlen st) /\
    forall i, okref env pl ts i.
Lemma Inv_app st r pl ts : Inv st pl ts -> Inv (st ++ r) pl ts.
Proof.
  intros (L & env & K & D & C). split; [exact L|]. exists env. split; [apply known_app; assumption|]. split; [|exact C].
  intros j N. specialize (D j N). pose proof (zlen_nonneg r). rewrite zlen_app. lia.
Qed.

Lemma prog_ok p : forall st pl ts, Inv st pl ts -> wfprog W (bal 0) ts p ->
  match parseProg W cs st pl p with
  | Ok (st', qs) => (exists r, st' = st ++ r) /\ Forall2 (fun q t => declAt st' q t /\ wfty t) qs (objects ts p) /\ Forall fits (mentioned ts p)
  | TooBig => Exists toobig (mentioned ts p)
  | Full => True
  | _ => False
  end.
Proof.
  induction p as [|[b ds] p IH]; intros st pl ts IV WP; cbn [parseProg objects mentioned].
  - split; [exists []; symmetry; apply app_nil_r|]. split; constructor.
  - destruct WP as (Wb & Wd & WP). cbv zeta. set (t := tyb (envof ts) b) in *.
    destruct IV as (L & env & K & D & C). 
    assert (ENEG : env (-1) = TySc SVoid).
    { destruct (K (-1)) as [E|(u & ms & E & _)]; [exact E|]. exfalso.
      assert (X : env (-1) <> TySc SVoid) by (rewrite E; discriminate). specialize (D _ X). lia. }
    destruct (tyb_resolve pl ts env b Wb ENEG C) as (TY & DE & Wb').
    pose proof (parse_ok W HW cs env (resolve pl b) st K Wb') as G. rewrite DE, TY in G. fold t in G.
    destruct (parseBase W cs st (resolve pl b)) as [[st1 e]| | | |] eqn:E1; cbn [rbind]; try exact I; try contradiction.
    2: { apply Exists_app. left. exact G. }
    destruct G as ((ext & X1 & _) & PE & EE & FD).
    pose proof (vars_ok e t ds st1 Wd EE) as VO.
    destruct (vars W cs st1 e ds) as [[st2 qs]| | | |] eqn:E2; cbn [rbind]; try exact I; try contradiction.
    2: { apply Exists_app. right. apply Exists_app. left. apply Exists_exists in VO. destruct VO as (d & D1 & D2).
         apply Exists_exists. exists (dclty t d). split; [apply in_map; exact D1|exact D2]. }
    destruct VO as ([r R] & F2 & FF).
    set (j := if kind_eqb (fst e) KStructPtr then snd e else -1).
    assert (IV : Inv st2 (pl ++ [j]) (ts ++ [t])).
    { rewrite R. apply Inv_app. split; [rewrite !app_length, L; reflexivity|].
      assert (K1 : known env st1) by (rewrite X1; apply known_app; exact K).
      assert (D1 : forall j, env j <> TySc SVoid -> 0 <= j < zlen st1).
      { intros j' N. specialize (D j' N). rewrite X1, zlen_app. pose proof (zlen_nonneg ext). lia. }
      assert (KEY : exists env', known env' st1 /\ (forall j, env' j <> TySc SVoid -> 0 <= j < zlen st1) /\
                 (forall j, 0 <= j < zlen st -> env' j = env j) /\ (env' (-1) = TySc SVoid) /\
                 match t with TyAgg _ _ => env' j = t | TySc SVoid => j = -1 | _ => True end).
      { destruct b as [s|i|u tag ms].
        - exists env. split; [exact K1|]. split; [exact D1|]. split; [reflexivity|]. split; [exact ENEG|].
          unfold t. cbn [tyb]. destruct s; try exact I. cbn [resolve DeclModel.parseBase] in E1. injection E1 as <- <-. reflexivity.
        - exists env. split; [exact K1|]. split; [exact D1|]. split; [reflexivity|]. split; [exact ENEG|].
          unfold t. cbn [tyb]. cbn [resolve DeclModel.parseBase] in E1. injection E1 as <- <-. cbn [fst snd kind_eqb] in *. unfold j. cbn [kind_eqb]. apply C.
        - assert (WT : wfty t).
          { pose proof (wfb_ty W HW (envof ts) (BDef u tag ms) Wb) as X. exact X. }
          specialize (EE WT).
          assert (TA : t = TyAgg u (allmems (envof ts) ms)) by reflexivity. rewrite TA in EE. destruct EE as (j0 & EJ & ES).
          assert (J0 : j0 = zlen st).
          { change (resolve pl (BDef u tag ms)) with (BDef u tag (map (fun bd => (resolve pl (fst bd), snd bd)) ms)) in E1.
            rewrite parseBase_def in E1. cbv zeta in E1.
            destruct (push st _) as [x| | | |]; cbn [rbind] in E1; try discriminate E1.
            destruct (pgo _ _ _ _ _ _) as [[x1 [[x2 x3] x4]]| | | |]; cbn [rbind] in E1; try discriminate E1.
            destruct (map _ ms); [discriminate E1|]. destruct (push x1 _); cbn [rbind] in E1; try discriminate E1.
            destruct (_ || _); [discriminate E1|]. injection E1 as _ E1. rewrite EJ in E1. now injection E1. }
          assert (J : j = zlen st) by (unfold j; rewrite EJ; exact J0).
          assert (LT : zlen st < zlen st1).
          { inversion ES; subst j1 u0 ms0. match goal with G : zget st1 j0 = _ |- _ => rename G into G1 end.
            unfold zget in G1. destruct (j0 <? 0) eqn:Q; [discriminate G1|].
            assert (X : nth_error st1 (Z.to_nat j0) <> None) by congruence. apply nth_error_Some in X. unfold zlen in *. lia. }
          exists (fun x => if x =? zlen st then t else env x). pose proof (zlen_nonneg st).
          split; [|split; [|split; [|split]]].
          + intros x. destruct (x =? zlen st) eqn:Q; [|apply K1]. right. exists u, (allmems (envof ts) ms).
            split; [exact TA|]. split; [exact WT|]. replace x with j0 by lia. exact ES.
          + intros x. destruct (x =? zlen st) eqn:Q; [lia|apply D1].
          + intros x X. replace (x =? zlen st) with false by lia. reflexivity.
          + replace (-1 =? zlen st) with false by lia. exact ENEG.
          + assert (Y : (if j =? zlen st then t else env j) = t) by (rewrite J, Z.eqb_refl; reflexivity). exact Y. }
      destruct KEY as (env' & K2 & D2 & S2 & N2 & T2). exists env'. split; [exact K2|]. split; [exact D2|].
      intros i. unfold okref, envof, resolveref.
      assert (ZL : zlen pl = zlen ts) by (unfold zlen; lia).
      destruct (Z_lt_dec i (zlen ts)) as [LT|GE].
      - specialize (C i). unfold okref, envof, resolveref in C.
        assert (SAME : zget (ts ++ [t]) i = zget ts i /\ zget (pl ++ [j]) i = zget pl i).
        { destruct (Z_lt_dec i 0); [unfold zget; replace (i <? 0) with true by lia; split; reflexivity|].
          split; apply zget_app_l; lia. }
        destruct SAME as [-> ->]. destruct (zget ts i) as [ti|] eqn:Ti; [|exact C].
        destruct ti as [s| | |u ms]; try exact I; [destruct s; try exact I; exact C|].
        rewrite S2; [exact C|]. apply D. rewrite C. discriminate.
      - pose proof (zlen_nonneg ts).
        rewrite !zget_app_r by lia. rewrite ZL. destruct (Z.eq_dec i (zlen ts)) as [->|NE].
        + rewrite Z.sub_diag. exact T2.
        + unfold zget. replace (i - zlen ts <? 0) with false by lia.
          assert (X : exists n, Z.to_nat (i - zlen ts) = S n) by (exists (Z.to_nat (i - zlen ts - 1)); lia). destruct X as [n ->].
          cbn [nth_error]. destruct n; reflexivity. }
    specialize (IH st2 (pl ++ [j]) (ts ++ [t]) IV WP). fold j.
    destruct (parseProg W cs st2 (pl ++ [j]) p) as [[st3 qs']| | | |] eqn:E3; cbn [rbind]; try exact I; try contradiction.
    2: { apply Exists_app. right. apply Exists_app. right. exact IH. }
    destruct IH as ([r3 R3] & F3 & FF3). split; [exists (ext ++ r ++ r3); rewrite R3, R, X1, <- !app_assoc; reflexivity|]. split.
    + apply Forall2_app; [|exact F3]. clear -F2 Wd R3 HW. induction F2 as [|q d qs ds E F2 I]; [constructor|]. apply Forall_cons_iff in Wd. destruct Wd as [W1 W2].
      constructor; [|apply I; exact W2]. split; [rewrite R3; apply declAt_app; exact E|]. eapply wfd_ty; eassumption.
    + apply Forall_app. split; [exact FD|]. apply Forall_app. split; [rewrite Forall_map; exact FF|exact FF3].
Qed.
End P.
