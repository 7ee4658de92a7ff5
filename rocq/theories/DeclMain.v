(** Struct/union definitions leave the right layout in the declaration table. *)
From Verif Require NumProof.
From Verif Require Import Base BaseLemmas DeclSpec FoldModel DeclModel DeclProof.

(** what may follow the first star of a declarator: matched parentheses, no members, no braces *)
Fixpoint bal (d : Z) (l : stk) : bool :=
  match l with
  | [] => d =? 0
  | (k, _) :: l =>
      match k with
      | KLp => bal (d + 1) l
      | KRp => (0 <? d) && bal (d - 1) l
      | KMember | KLc | KRc => false
      | _ => bal d l
      end
  end.

Section P.
Variable W : Z.
Hypothesis HW : W = 2 \/ W = 4.
Variable cs : bool.
Notation M := (2 ^ (8 * W)).
Notation size := (size W). Notation align := (align W). Notation msa := (msa W).
Notation enc := (enc W). Notation encS := (encS W). Notation wfty := (wfty W). Notation okal := (okal W). Notation okm := (okm W).
Notation member := (member W cs). Notation members := (members W cs). Notation parseBase := (parseBase W cs).

Definition skips (c0 : Z -> Prop) (nm : Z -> Prop) (l : stk) : Prop :=
  forall c name rest pos, c0 c -> nm name -> lookup (l ++ rest) pos c name = lookup rest (pos + zlen l) c name.
Lemma skips_app c0 nm l1 l2 : skips c0 nm l1 -> skips c0 nm l2 -> skips c0 nm (l1 ++ l2).
Proof.
  intros H1 H2 c name rest pos C N. rewrite <- app_assoc, H1, H2 by assumption. f_equal. zl. lia.
Qed.
Lemma skips_nil c0 nm : skips c0 nm [].
Proof. intros c name rest pos _ _. cbn [app]. f_equal. change (zlen (@nil (kind * Z))) with 0. lia. Qed.
Lemma skip1 k v l pos c name : 1 <= c -> match k with KMember | KLp | KRp | KLc | KRc => False | _ => True end ->
  lookup ((k, v) :: l) pos c name = lookup l (pos + 1) c name.
Proof.
  intros C K. rewrite lookup_cons. cbv zeta. unfold hit. destruct k; try contradiction;
  cbn [kind_eqb]; rewrite ?andb_false_r; rewrite ?Z.add_0_r; replace (c =? 0) with false by lia; reflexivity.
Qed.
Lemma bal_skips l : forall d rest pos c name, bal d l = true -> 1 <= c -> 0 <= d ->
  lookup (l ++ rest) pos (c + d) name = lookup rest (pos + zlen l) c name.
Proof.
  induction l as [|[k v] l IH]; intros d rest pos c name B C D.
  - cbn [bal] in B. cbn [app]. change (zlen (@nil (kind * Z))) with 0. f_equal; lia.
  - rewrite zlen_cons. cbn [app]. replace (pos + (1 + zlen l)) with (pos + 1 + zlen l) by lia.
    cbn [bal] in B. destruct k; try discriminate B;
    try (rewrite skip1 by (trivial || lia); apply IH; assumption).
    + rewrite lookup_cons. cbv zeta. unfold hit. cbn [kind_eqb]. rewrite andb_false_r. cbn [andb].
      replace (c + d + 1 =? 0) with false by lia. rewrite <- Z.add_assoc. apply IH; [exact B|lia|lia].
    + apply andb_prop in B. destruct B as [B1 B2]. rewrite lookup_cons. cbv zeta. unfold hit. cbn [kind_eqb]. rewrite andb_false_r. cbn [andb].
      replace (c + d + -1 =? 0) with false by lia. replace (c + d + -1) with (c + (d - 1)) by lia. apply IH; [exact B2|lia|lia].
Qed.

(** the same for the search of the next member *)
Definition mskips (c0 : Z) (l : stk) : Prop :=
  forall c rest pos, c0 <= c -> scanM (l ++ rest) pos c = scanM rest (pos + zlen l) c.
Lemma mskips_app c0 l1 l2 : mskips c0 l1 -> mskips c0 l2 -> mskips c0 (l1 ++ l2).
Proof.
  intros H1 H2 c rest pos C. rewrite <- app_assoc, H1, H2 by assumption. f_equal. zl. lia.
Qed.
Lemma mskips_nil c0 : mskips c0 [].
Proof. intros c rest pos _. cbn [app]. f_equal. change (zlen (@nil (kind * Z))) with 0. lia. Qed.
Lemma mskip1 k v l pos c : 1 <= c -> match k with KMember | KLp | KRp | KLc | KRc => False | _ => True end ->
  scanM ((k, v) :: l) pos c = scanM l (pos + 1) c.
Proof.
  intros C K. rewrite scanM_cons. cbv zeta. destruct k; try contradiction;
  cbn [kind_eqb]; rewrite ?andb_false_r; rewrite ?Z.add_0_r; replace (c =? 0) with false by lia; reflexivity.
Qed.
Lemma bal_mskips l : forall d rest pos c, bal d l = true -> 1 <= c -> 0 <= d ->
  scanM (l ++ rest) pos (c + d) = scanM rest (pos + zlen l) c.
Proof.
  induction l as [|[k v] l IH]; intros d rest pos c B C D.
  - cbn [bal] in B. cbn [app]. change (zlen (@nil (kind * Z))) with 0. f_equal; lia.
  - rewrite zlen_cons. cbn [app]. replace (pos + (1 + zlen l)) with (pos + 1 + zlen l) by lia.
    cbn [bal] in B. destruct k; try discriminate B;
    try (rewrite mskip1 by (trivial || lia); apply IH; assumption).
    + rewrite scanM_cons. cbv zeta. cbn [kind_eqb]. rewrite andb_false_r.
      replace (c + d + 1 =? 0) with false by lia. rewrite <- Z.add_assoc. apply IH; [exact B|lia|lia].
    + apply andb_prop in B. destruct B as [B1 B2]. rewrite scanM_cons. cbv zeta. cbn [kind_eqb]. rewrite andb_false_r.
      replace (c + d + -1 =? 0) with false by lia. replace (c + d + -1) with (c + (d - 1)) by lia. apply IH; [exact B2|lia|lia].
Qed.

(** the base token *)
Definition encE (st : stk) (e : kind * Z) (t : cty) : Prop :=
  match t with
  | TySc s => fst e = scalTok W s
  | TyAgg u ms => exists j, e = (KStructPtr, j) /\ encS st j u ms
  | _ => False
  end.
Definition plainE (e : kind * Z) : Prop :=
  match fst e with KMember | KLp | KRp | KLc | KRc => False | _ => True end.
Lemma encE_enc st pre e t : encE st e t -> enc ((st ++ pre) ++ [e]) (zlen st + zlen pre) t.
Proof.
  intros H. assert (Z0 : zget ((st ++ pre) ++ [e]) (zlen st + zlen pre) = Some e).
  { rewrite zget_app_r by (zl; lia). replace (zlen st + zlen pre - zlen (st ++ pre)) with 0 by (zl; lia). reflexivity. }
  destruct t as [s| | |u ms]; cbn [encE] in H; try contradiction.
  - destruct e as [k v]. cbn [fst] in H. subst k. econstructor. exact Z0.
  - destruct H as (j & -> & H). econstructor; [exact Z0|]. rewrite <- app_assoc. apply encS_app; assumption.
Qed.

Definition dimtoks (dims : list Z) : stk := flat_map (fun n => [(KLb, 0); (KNum, u32 n); (KRb, 0)]) dims.
Lemma dims_enc dims : forall st i post t, Forall (fun n => 1 <= n < M) dims -> i = zlen st ->
  enc (st ++ dimtoks dims ++ post) (i + zlen (dimtoks dims)) t ->
  enc (st ++ dimtoks dims ++ post) i (arrays dims t).
Proof.
  pose proof (M_le W HW) as ML.
  induction dims as [|n dims IH]; intros st i post t F Hi E.
  - cbn [dimtoks flat_map] in E. change (zlen (@nil (kind * Z))) with 0 in E. rewrite Z.add_0_r in E. exact E.
  - apply Forall_cons_iff in F. destruct F as [N F]. cbn [arrays fold_right].
    change (dimtoks (n :: dims)) with ([(KLb, 0); (KNum, u32 n); (KRb, 0)] ++ dimtoks dims) in *.
    rewrite u32_small in * by lia.
    set (h := [(KLb, 0); (KNum, n); (KRb, 0)]) in *.
    assert (HD : forall k, 0 <= k < 3 -> zget (st ++ (h ++ dimtoks dims) ++ post) (i + k) = zget h k).
    { intros k K. rewrite zget_app_r by lia. replace (i + k - zlen st) with k by lia.
      rewrite <- app_assoc. apply zget_app_l. change (zlen h) with 3. lia. }
    econstructor.
    + rewrite <- (Z.add_0_r i). rewrite HD by lia. reflexivity.
    + rewrite HD by lia. reflexivity.
    + rewrite HD by lia. reflexivity.
    + replace (st ++ (h ++ dimtoks dims) ++ post) with ((st ++ h) ++ dimtoks dims ++ post) in * by (rewrite <- !app_assoc; reflexivity).
      apply IH; [exact F|rewrite zlen_app; change (zlen h) with 3; lia|].
      rewrite zlen_app in E. change (zlen h) with 3 in E. rewrite Z.add_assoc in E. exact E.
Qed.

Notation wfd := (wfd W (bal 0)).
Lemma dcl_enc st pre e t d : wfd t d -> (d_ptr d = None -> encE st e t) ->
  enc (st ++ pre ++ dtokens d e) (zlen st + zlen pre) (dclty t d).
Proof.
  intros (D1 & D2 & D3) E. unfold dclty, dtokens. fold (dimtoks (d_dims d)). rewrite app_assoc.
  apply dims_enc; [exact D1|zl; lia|].
  destruct (d_ptr d) as [l|] eqn:P.
  - pose proof (zlen_nonneg (dimtoks (d_dims d))). econstructor. rewrite zget_app_r by (zl; lia).
    replace (zlen st + zlen pre + zlen (dimtoks (d_dims d)) - zlen (st ++ pre)) with (zlen (dimtoks (d_dims d))) by (zl; lia).
    rewrite zget_app_r by (zl; lia). rewrite Z.sub_diag. reflexivity.
  - specialize (E eq_refl). pose proof (encE_enc st (pre ++ dimtoks (d_dims d)) e t E) as X.
    rewrite zlen_app, Z.add_assoc in X. cbn [app]. rewrite <- !app_assoc in *. exact X.
Qed.
Lemma wf_arrays dims t : Forall (fun n => 1 <= n < M) dims -> wfty t -> wfty (arrays dims t).
Proof. induction 1; intros H1; [exact H1|]. cbn [arrays fold_right DeclSpec.wfty]. split; [assumption|]. apply IHForall. exact H1. Qed.
Lemma wfd_ty t d : wfd t d -> wfty (dclty t d).
Proof.
  intros (D1 & D2 & D3). apply wf_arrays; [exact D1|]. destruct (d_ptr d); [exact I|exact D3].
Qed.
Lemma dtok_skips d e t : wfd t d -> plainE e -> skips (fun c => 1 <= c) (fun _ => True) (dtokens d e).
Proof.
  intros (D1 & D2 & D3) PE. unfold dtokens. fold (dimtoks (d_dims d)).
  apply skips_app; [|apply skips_app].
  - clear. induction (d_dims d) as [|n l IH]; [apply skips_nil|]. cbn [dimtoks flat_map]. apply skips_app; [|exact IH].
    intros c name rest pos C _. cbn [app]. rewrite !skip1 by (trivial || lia). f_equal. change (zlen _) with 3. lia.
  - destruct (d_ptr d) as [l|]; [|apply skips_nil]. intros c name rest pos C _. cbn [app].
    rewrite skip1 by (trivial || lia). rewrite <- (Z.add_0_r c) at 1. rewrite (bal_skips l 0) by (assumption || lia).
    f_equal. rewrite zlen_cons. lia.
  - intros c name rest pos C _. cbn [app]. destruct e as [k v]. rewrite skip1 by (assumption || lia).
    f_equal.
Qed.

(** running totals *)
Definition step1 (u : bool) (i : Z * Z * Z) (m : Z * Z) : Z * Z * Z :=
  let '(al, o, mx) := i in
  (Z.max al (snd m), (if u then o else up o (snd m) + fst m), if u then Z.max mx (fst m) else mx).
Definition okinfo (u : bool) (i : Z * Z * Z) : Prop :=
  let '(al, o, mx) := i in okal al /\ 0 <= o < M /\ 0 <= mx < M /\ (if u then o = 0 else mx = 0).
Definition moff (u : bool) (o : Z) (ms : list (Z * (Z * cty))) : list Z :=
  if u then map (fun _ => 0) ms else offsets o (map msa ms).
Definition mname (m : Z * (Z * cty)) : Z := fst (snd m).
Definition mty (m : Z * (Z * cty)) : cty := snd (snd m).

Definition Body (u : bool) (st : stk) (info : Z * Z * Z) ms (st' : stk) (info' : Z * Z * Z) : Prop :=
  exists body, st' = st ++ body /\
    skips (fun c => 2 <= c) (fun _ => True) body /\
    skips (fun c => c = 1) (fun n => ~ In n (map mname ms)) body /\
    info' = fold_left (step1 u) (map msa ms) info /\
    (forall k m o, nth_error ms k = Some m -> nth_error (moff u (snd (fst info)) ms) k = Some o ->
       exists q, (forall rest, lookup (body ++ rest) (zlen st) 1 (mname m) = Some (o, q)) /\ enc st' q (mty m)) /\
    mskips 2 body /\
    exists prs, map fst prs = moff u (snd (fst info)) ms /\
      (forall k m x, nth_error ms k = Some m -> nth_error prs k = Some x -> enc st' (snd x) (mty m)) /\
      forall rest r, chain (st' ++ rest) (zlen st') r -> chain (st' ++ rest) (zlen st) (prs ++ r).

Lemma offsets_len l : forall o, length (offsets o l) = length l.
Proof. induction l as [|[s a] l IH]; intros o; [reflexivity|]. cbn [offsets length]. now rewrite IH. Qed.
Lemma moff_len u o ms : length (moff u o ms) = length ms.
Proof. unfold moff. destruct u; [apply map_length|]. now rewrite offsets_len, map_length. Qed.
Lemma fold_o u l : forall i, snd (fst (fold_left (step1 u) l i)) = if u then snd (fst i) else endof (snd (fst i)) l.
Proof.
  induction l as [|[s a] l IH]; intros [[al o] mx]; cbn [fold_left]; [destruct u; reflexivity|].
  rewrite IH. cbn [step1 fst snd]. destruct u; reflexivity.
Qed.
Lemma offsets_app l1 : forall o l2, offsets o (l1 ++ l2) = offsets o l1 ++ offsets (endof o l1) l2.
Proof. induction l1 as [|[s a] l1 IH]; intros o l2; [reflexivity|]. cbn [app offsets endof]. now rewrite IH. Qed.
Lemma endof_app l1 : forall o l2, endof o (l1 ++ l2) = endof (endof o l1) l2.
Proof. induction l1 as [|[s a] l1 IH]; intros o l2; [reflexivity|]. cbn [app endof]. now rewrite IH. Qed.

Lemma NoDup_app_disj {A} (l1 l2 : list A) x : NoDup (l1 ++ l2) -> In x l1 -> In x l2 -> False.
Proof.
  induction l1 as [|y l1 IH]; intros N H1 H2; [destruct H1|]. inversion N; subst. destruct H1 as [->|H1].
  - apply H3, in_or_app. right. exact H2.
  - exact (IH H4 H1 H2).
Qed.
Lemma NoDup_app_both {A} (l1 l2 : list A) : NoDup (l1 ++ l2) -> NoDup l1 /\ NoDup l2.
Proof.
  induction l1 as [|y l1 IH]; intros N; [split; [constructor|exact N]|]. inversion N; subst. destruct (IH H2) as [I1 I2].
  split; [constructor; [|exact I1]|exact I2]. intros X. apply H1, in_or_app. left. exact X.
Qed.
Lemma skipn_zapp {A} (l r : list A) : skipn (Z.to_nat (zlen l)) (l ++ r) = r.
Proof. unfold zlen. rewrite Nat2Z.id. rewrite skipn_app, skipn_all, Nat.sub_diag. reflexivity. Qed.
Lemma Body_app u st i ms1 st1 i1 ms2 st2 i2 : Body u st i ms1 st1 i1 -> Body u st1 i1 ms2 st2 i2 ->
  NoDup (map mname (ms1 ++ ms2)) -> Body u st i (ms1 ++ ms2) st2 i2.
Proof.
  intros (b1 & E1 & A1 & B1 & I1 & M1 & S1 & prs1 & P1 & Q1 & C1) (b2 & E2 & A2 & B2 & I2 & M2 & S2 & prs2 & P2 & Q2 & C2) ND. exists (b1 ++ b2).
  rewrite map_app in *.
  assert (MO : moff u (snd (fst i)) (ms1 ++ ms2) = moff u (snd (fst i)) ms1 ++ moff u (snd (fst i1)) ms2).
  { unfold moff. destruct u; [apply map_app|]. rewrite map_app, offsets_app. do 2 f_equal. subst i1. now rewrite fold_o. }
  assert (L1 : length prs1 = length ms1) by (rewrite <- (map_length fst), P1; apply moff_len).
  split; [subst; now rewrite <- app_assoc|]. split; [apply skips_app; assumption|]. split.
  { apply skips_app; intros c name rest pos C N; [apply B1|apply B2]; try assumption;
    intros X; apply N, in_or_app; [left|right]; exact X. }
  split; [rewrite map_app, fold_left_app; now subst|].
  split; [|split; [apply mskips_app; assumption|]].
  2: { exists (prs1 ++ prs2). split; [rewrite map_app, MO, P1, P2; reflexivity|]. split.
       - intros k m x N1 N2. destruct (Nat.ltb k (length ms1)) eqn:L.
         + apply Nat.ltb_lt in L. rewrite nth_error_app1 in N1 by exact L. rewrite nth_error_app1 in N2 by lia.
           subst st2. apply enc_app. eauto.
         + apply Nat.ltb_ge in L. rewrite nth_error_app2 in N1 by exact L. rewrite nth_error_app2 in N2 by lia.
           rewrite L1 in N2. eauto.
       - intros rest r H. apply C2 in H. rewrite <- app_assoc. rewrite E2 in H |- *. rewrite <- app_assoc in H |- *. apply C1. exact H. }
  intros k m o N1 N2. clear Q1 Q2.
  rewrite MO in N2. destruct (Nat.ltb k (length ms1)) eqn:L.
  - apply Nat.ltb_lt in L. rewrite nth_error_app1 in N1 by exact L. rewrite nth_error_app1 in N2 by (rewrite moff_len; exact L).
    destruct (M1 k m o N1 N2) as (q & Q1 & Q2). exists q. split.
    + intros rest. rewrite <- app_assoc. apply Q1.
    + subst st2. apply enc_app. exact Q2.
  - apply Nat.ltb_ge in L. rewrite nth_error_app2 in N1 by exact L. rewrite nth_error_app2 in N2 by (rewrite moff_len; exact L).
    rewrite moff_len in N2. destruct (M2 _ m o N1 N2) as (q & Q1 & Q2). exists q. split; [|exact Q2].
    intros rest. rewrite <- app_assoc. rewrite B1; [|reflexivity|].
    + replace (zlen st + zlen b1) with (zlen st1) by (subst st1; apply zlen_app). apply Q1.
    + intros X. apply nth_error_In in N1. eapply (NoDup_app_disj (map mname ms1)); [exact ND|exact X|]. apply in_map. exact N1.
Qed.

Lemma add_ok x s : 0 <= x < M -> 0 <= s < M ->
  (if (u32 (x + s) <? x) || negb (u32 (x + s) =? truncUint W (u32 (x + s))) then false else true) = (x + s <? M) /\
  (x + s < M -> u32 (x + s) = x + s).
Proof.
  intros X S. pose proof (M_le W HW) as ML. rewrite (trunc_id W HW) by apply u32_range.
  destruct (Z_lt_dec (x + s) (2 ^ 32)) as [L|L].
  - rewrite u32_small by lia. split; [|auto]. replace (x + s <? x) with false by lia. cbn [orb].
    destruct (x + s <? M); reflexivity.
  - assert (M < 2 ^ 32 -> False). { intros C. destruct (M_val W HW) as [E|E]; rewrite E in *; lia. }
    assert (E : M = 2 ^ 32) by lia. rewrite E in *.
    assert (U : u32 (x + s) = x + s - 2 ^ 32). { unfold u32. symmetry. apply (Z.mod_unique _ _ 1); lia. }
    rewrite U. split; [|intros; lia]. replace (x + s - 2 ^ 32 <? x) with true by lia. cbn [orb].
    symmetry. apply Z.ltb_ge. lia.
Qed.

Lemma dtok_mskips d e t : wfd t d -> plainE e -> mskips 1 (dtokens d e).
Proof.
  intros (D1 & D2 & D3) PE. unfold dtokens. fold (dimtoks (d_dims d)).
  apply mskips_app; [|apply mskips_app].
  - clear. induction (d_dims d) as [|n l IH]; [apply mskips_nil|]. cbn [dimtoks flat_map]. apply mskips_app; [|exact IH].
    intros c rest pos C. cbn [app]. rewrite !mskip1 by (trivial || lia). f_equal. change (zlen _) with 3. lia.
  - destruct (d_ptr d) as [l|]; [|apply mskips_nil]. intros c rest pos C. cbn [app].
    rewrite mskip1 by (trivial || lia). rewrite <- (Z.add_0_r c) at 1. rewrite (bal_mskips l 0) by (assumption || lia).
    f_equal. rewrite zlen_cons. lia.
  - intros c rest pos C. cbn [app]. destruct e as [k v]. rewrite mskip1 by (assumption || lia).
    f_equal.
Qed.
Definition mem1 (t : cty) (d : dcl stk) : Z * (Z * cty) := (d_pack d, (d_name d, dclty t d)).
Lemma u32_s32 s : 0 <= s < 2 ^ 32 -> u32 (s32 s) = s.
Proof. apply NumProof.s32_u32. Qed.
Lemma s32_nz s : 1 <= s < 2 ^ 32 -> (s32 s =? 0) = false.
Proof.
  intros H. apply Z.eqb_neq. intros E. assert (X : u32 (s32 s) = s) by (apply u32_s32; lia).
  rewrite E in X. change (u32 0) with 0 in X. lia.
Qed.

Lemma declarator_ok st e t d : wfd t d -> (d_ptr d = None -> encE st e t) ->
  match declarator W cs st e d with
  | Ok (st', sz) => st' = st ++ (KIdent, d_name d) :: dtokens d e /\ sz = s32 (size (dclty t d)) /\
      size (dclty t d) < M /\ enc st' (zlen st + 1) (dclty t d) /\
      getDeclAlignment W st' (zlen st) = Ok (align (dclty t d))
  | TooBig => M <= size (dclty t d)
  | Full => True
  | _ => False
  end.
Proof.
  intros WD EB.
  pose proof (M_le W HW) as ML. pose proof (wfd_ty t d WD) as WT. destruct (sizes W HW _ WT) as [S1 SA].
  unfold declarator. cbv zeta. unfold push at 1. destruct (symax <? _); [exact I|]. cbn [rbind].
  set (ts := dtokens d e). set (st1 := st ++ (KIdent, d_name d) :: ts).
  assert (NV : match d_ptr d, fst e with None, KVoid => False | _, _ => True end).
  { destruct WD as (_ & _ & WD). destruct (d_ptr d); [exact I|]. specialize (EB eq_refl).
    destruct t as [s| | |u' ms]; cbn [encE] in EB; try contradiction.
    - cbn [DeclSpec.wfty] in WD. destruct WD as [WD _]. rewrite EB. destruct s; cbn [scalTok]; try exact I; try (destruct (W =? 2); exact I). now apply WD.
    - destruct EB as (j & -> & _). exact I. }
  assert (E1 : enc st1 (zlen st + 1) (dclty t d)).
  { unfold st1. pose proof (dcl_enc st [(KIdent, d_name d)] e t d WD EB) as X. exact X. }
  assert (G0 : zget st1 (zlen st) = Some (KIdent, d_name d)).
  { unfold st1. rewrite zget_app_r by lia. rewrite Z.sub_diag. reflexivity. }
  pose proof (enc_steps W st1 _ _ E1) as ST.
  assert (GS : getDeclSize W cs st1 (zlen st) false = if size (dclty t d) <? M then Ok (s32 (size (dclty t d))) else TooBig).
  { unfold getDeclSize. pose proof (zlen_nonneg st). replace (zlen st <? 0) with false by lia.
    cbn [gds]. rewrite G0. rewrite (gds_enc W HW cs st1 _ _ 1 false (length st1) E1 WT); [rewrite Z.mul_1_l; reflexivity|destruct (M_val W HW) as [-> | ->]; lia|unfold zlen in *; lia]. }
  assert (GA : getDeclAlignment W st1 (zlen st) = Ok (align (dclty t d))).
  { unfold getDeclAlignment. pose proof (zlen_nonneg st). replace (zlen st <? 0) with false by lia.
    cbn [gda]. rewrite G0. apply (gda_enc W HW); [exact E1|exact WT|unfold zlen in *; lia]. }
  rewrite GS.
  replace (match d_ptr d, fst e with None, KVoid => @Bad unit | _, _ => Ok tt end) with (@Ok unit tt)
    by (destruct (d_ptr d); [reflexivity|]; destruct (fst e); try reflexivity; contradiction).
  cbn [rbind]. destruct (size (dclty t d) <? M) eqn:SM; cbn [rbind].
  2: { lia. }
  apply Z.ltb_lt in SM. rewrite s32_nz by lia. cbn [rbind].
  match goal with |- context [rbind (if ?c then rbind ?a ?f else Ok tt) _] =>
    replace (if c then rbind a f else Ok tt) with (@Ok unit tt) end.
  2: { destruct (d_dims d) as [|n l] eqn:DD; [reflexivity|]. unfold dclty in *. rewrite DD in *. cbn [arrays fold_right] in *.
       fold (arrays l (match d_ptr d with Some _ => TyPtr | None => t end)) in *. set (t' := arrays l _) in *.
       inversion E1; subst. cbn [DeclSpec.wfty] in WT. destruct WT as [WN WT]. destruct (sizes W HW _ WT) as [S1' _].
       destruct (sa_arr W n t') as [SZ _]. rewrite SZ in *. rewrite <- Z.add_assoc in H5. change (1 + 3) with 4 in H5.
       pose proof (zlen_nonneg st). unfold getDeclSize. replace (zlen st + 4 <? 0) with false by lia.
       pose proof (enc_steps W st1 _ _ H5).
       rewrite (gds_enc W HW cs st1 _ _ 1 false _ H5 WT); [rewrite Z.mul_1_l|destruct (M_val W HW) as [-> | ->]; lia|unfold zlen in *; lia].
       assert (size t' < M) by nia. replace (size t' <? M) with true by lia. cbn [rbind]. rewrite s32_nz by lia. reflexivity. }
  cbn [rbind]. repeat split; trivial.
Qed.

Lemma member_ok u st info e t d : okinfo u info -> wfd t d -> plainE e ->
  (d_ptr d = None -> encE st e t) ->
  match member u st info e d with
  | Ok (st', info') => size (dclty t d) < M /\ Body u st info [mem1 t d] st' info' /\ okinfo u info'
  | TooBig => M <= size (dclty t d) \/ u = false /\ M <= endof (snd (fst info)) [msa (mem1 t d)]
  | Full => True
  | _ => False
  end.
Proof.
  intros OI WD PE EB. destruct info as [[al o] mx]. destruct OI as (OA & OO & OM & OU).
  pose proof (M_le W HW) as ML. pose proof (wfd_ty t d WD) as WT. destruct (sizes W HW _ WT) as [S1 SA].
  unfold DeclModel.member. pose proof (declarator_ok st e t d WD EB) as DK.
  destruct (declarator W cs st e d) as [[st1 sz]| | | |]; cbn [rbind]; try exact I; try contradiction.
  2: { left. exact DK. }
  destruct DK as (-> & -> & SM & E1 & GA). rewrite GA. set (ts := dtokens d e) in *. cbv zeta.
  cbn [rbind]. set (na := if d_pack d <? align (dclty t d) then _ else _).
  assert (NA : na = Z.min (d_pack d) (align (dclty t d))) by (unfold na; destruct (_ <? _) eqn:?; lia).
  clearbody na. assert (NO : okal na) by (subst na; apply okal_min; [apply WD|exact SA]).
  destruct (roundUp_ok W HW o na ltac:(apply NO) ltac:(lia)) as [R1 R2].
  assert (MS : msa (mem1 t d) = (size (dclty t d), na)) by (subst na; reflexivity).
  assert (NP : 0 < na) by (destruct NO as [[-> | [-> | ->]] _]; lia).
  pose proof (up_ge o na NP) as UG.
  assert (AL : (if al <? na then na else al) = Z.max al na) by (destruct (al <? na) eqn:?; lia).
  rewrite AL. clear AL.
  match goal with |- context [if ?c then TooBig else Ok tt] => destruct c eqn:C1 end; cbn [rbind].
  { right. assert (up o na <? M = false) by congruence. cbn [endof fst snd]. rewrite MS. destruct u; [|split; [reflexivity|lia]].
    exfalso. subst o. rewrite up_id in H by (lia || apply Z.mod_0_l; lia). lia. }
  assert (UM : up o na < M) by (assert (up o na <? M = true) by congruence; lia). rewrite R2 by lia. clear R1 R2 C1.
  unfold push. destruct (symax <? _); [exact I|]. cbn [rbind]. rewrite u32_s32 by lia.
  assert (BD : Body u st (al, o, mx) [mem1 t d] (st ++ (KMember, d_name d) :: (KOfs, up o na) :: ts)
     (step1 u (al, o, mx) (size (dclty t d), na))).
  { exists ((KMember, d_name d) :: (KOfs, up o na) :: ts). split; [reflexivity|].
    assert (SK : skips (fun c => 1 <= c) (fun _ => True) ts) by (apply (dtok_skips d e t); assumption).
    assert (SKP : forall c name rest pos, 1 <= c -> ~ (c = 1 /\ name = d_name d) ->
      lookup (((KMember, d_name d) :: (KOfs, up o na) :: ts) ++ rest) pos c name = lookup rest (pos + zlen ((KMember, d_name d) :: (KOfs, up o na) :: ts)) c name).
    { intros c name rest pos C N. cbn [app]. rewrite lookup_cons. cbv zeta. unfold hit. cbn [kind_eqb hd_ofs]. rewrite Z.add_0_r.
      replace ((c =? 1) && true && (d_name d =? name)) with false by lia. replace (c =? 0) with false by lia.
      rewrite skip1 by (trivial || lia). rewrite SK by (trivial || lia). f_equal. zl. lia. }
    split; [intros c name rest pos C _; apply SKP; lia|]. split.
    { intros c name rest pos C N. apply SKP; [lia|]. intros [_ ->]. apply N. left. reflexivity. }
    split; [cbn [map fold_left]; rewrite MS; reflexivity|].
    assert (MSK : mskips 1 ts) by (apply (dtok_mskips d e t); assumption).
    assert (MOF : moff u o [mem1 t d] = [up o na]).
    { unfold moff. destruct u; cbn [map offsets].
      - subst o. rewrite up_id by (lia || apply Z.mod_0_l; lia). reflexivity.
      - rewrite MS. reflexivity. }
    assert (ENC : enc (st ++ (KMember, d_name d) :: (KOfs, up o na) :: ts) (zlen st + 2) (dclty t d))
      by apply (dcl_enc st [(KMember, d_name d); (KOfs, up o na)] e t d WD EB).
    split; [|split].
    2: { intros c rest pos C. cbn [app]. rewrite scanM_cons. cbv zeta. rewrite Z.add_0_r.
         replace (c =? 1) with false by lia. cbn [andb]. replace (c =? 0) with false by lia.
         rewrite mskip1 by (trivial || lia). rewrite MSK by lia. f_equal. zl. lia. }
    2: { exists [(up o na, zlen st + 2)]. split; [symmetry; exact MOF|]. split.
         - intros k m x N1 N2. destruct k as [|k]; [|destruct k; discriminate N1]. injection N1 as <-. injection N2 as <-. exact ENC.
         - intros rest r H. pose proof (zlen_nonneg st) as ZN. pose proof (zlen_nonneg ts) as ZT. cbn [app]. econstructor; [lia| |].
           + rewrite <- app_assoc, skipn_zapp. cbn [app]. rewrite scanM_cons. cbv zeta. cbn [kind_eqb hd_ofs]. rewrite Z.add_0_r. reflexivity.
           + set (st' := st ++ (KMember, d_name d) :: (KOfs, up o na) :: ts) in *.
             assert (ZL : zlen st' = zlen st + 2 + zlen ts) by (unfold st'; zl; lia).
             assert (EQ : scanM (skipn (Z.to_nat (zlen st + 2)) (st' ++ rest)) (zlen st + 2) 1 = scanM (skipn (Z.to_nat (zlen st')) (st' ++ rest)) (zlen st') 1).
             { rewrite skipn_zapp. unfold st'.
               replace ((st ++ (KMember, d_name d) :: (KOfs, up o na) :: ts) ++ rest)
                 with ((st ++ [(KMember, d_name d); (KOfs, up o na)]) ++ ts ++ rest) by (rewrite <- !app_assoc; reflexivity).
               replace (zlen st + 2) with (zlen (st ++ [(KMember, d_name d); (KOfs, up o na)])) at 1 by (rewrite zlen_app; reflexivity).
               rewrite skipn_zapp, MSK by lia. fold st'. f_equal. lia. }
             inversion H; subst; econstructor; try lia; try (rewrite EQ; assumption). assumption. }
    intros k m o' N1 N2. destruct k as [|k]; [|destruct k; discriminate N1]. injection N1 as <-.
    assert (O' : o' = up o na).
    { unfold moff in N2. cbn [fst snd] in N2. destruct u; cbn [map nth_error offsets] in N2.
      - injection N2 as <-. subst o. symmetry. apply up_id; [lia|apply Z.mod_0_l; lia].
      - rewrite MS in N2. injection N2 as <-. reflexivity. }
    subst o'. exists (zlen st + 2). split.
    - intros rest. cbn [app]. rewrite lookup_cons. cbv zeta. unfold hit. cbn [kind_eqb hd_ofs mname mem1 fst snd]. rewrite !Z.eqb_refl. reflexivity.
    - apply (dcl_enc st [(KMember, d_name d); (KOfs, up o na)] e t d WD EB). }
  destruct u.
  - subst o. rewrite up_id in * by (lia || apply Z.mod_0_l; lia). split; [exact SM|].
    assert (MX : (if mx <? size (dclty t d) then size (dclty t d) else mx) = Z.max mx (size (dclty t d))) by (destruct (mx <? _) eqn:?; lia).
    rewrite MX. split; [exact BD|]. split; [apply okal_max; assumption|]. repeat split; lia.
  - assert (SU : u32 (up o na + s32 (size (dclty t d))) = u32 (up o na + size (dclty t d))).
    { pose proof (u32_s32 (size (dclty t d)) ltac:(lia)) as X. unfold u32 in *. rewrite <- X at 2. symmetry. apply Z.add_mod_idemp_r. discriminate. }
    rewrite SU. destruct (add_ok (up o na) (size (dclty t d)) ltac:(lia) ltac:(lia)) as [A1 A2].
    match goal with |- context [if ?c then TooBig else Ok tt] => destruct c eqn:C1 end; cbn [rbind].
    + right. split; [reflexivity|]. rewrite MS. cbn [endof fst snd]. assert (up o na + size (dclty t d) <? M = false) by congruence. lia.
    + assert (UM2 : up o na + size (dclty t d) < M) by (assert (up o na + size (dclty t d) <? M = true) by congruence; lia).
      rewrite A2 by exact UM2. split; [exact SM|]. split; [exact BD|]. split; [apply okal_max; assumption|]. repeat split; lia.
Qed.

Lemma encE_app st r e t : encE st e t -> encE (st ++ r) e t.
Proof.
  destruct t; cbn [encE]; auto. intros (j & E & H). exists j. split; [exact E|]. apply encS_app; assumption.
Qed.
Lemma Body_mono u st i ms st' i' : Body u st i ms st' i' -> exists r, st' = st ++ r.
Proof. intros (b & E & _). now exists b. Qed.
Lemma Body_nil u st i r : skips (fun c => 1 <= c) (fun _ => True) r -> mskips 1 r -> Body u st i [] (st ++ r) i.
Proof.
  intros S MS. exists r. split; [reflexivity|]. split; [intros c name rest pos C _; apply S; [lia|exact I]|].
  split; [intros c name rest pos C _; apply S; [lia|exact I]|]. split; [reflexivity|].
  split; [intros k m o N; destruct k; discriminate N|]. split; [intros c rest pos C; apply MS; lia|].
  exists []. split; [unfold moff; destruct u; reflexivity|]. split; [intros k m x N; destruct k; discriminate N|].
  intros rest l H. cbn [app]. pose proof (zlen_nonneg st).
  assert (EQ : scanM (skipn (Z.to_nat (zlen st)) ((st ++ r) ++ rest)) (zlen st) 1 = scanM (skipn (Z.to_nat (zlen (st ++ r))) ((st ++ r) ++ rest)) (zlen (st ++ r)) 1).
  { rewrite skipn_zapp. rewrite <- app_assoc. rewrite skipn_zapp, MS by lia. f_equal. zl. lia. }
  inversion H; subst; econstructor; try assumption; rewrite EQ; assumption.
Qed.
Lemma okm_mems t ds : Forall (wfd t) ds -> okm (map msa (mems t ds)).
Proof.
  intros F m H. apply in_map_iff in H. destruct H as (x & <- & H). apply in_map_iff in H. destruct H as (d & <- & H).
  rewrite Forall_forall in F. specialize (F d H). pose proof (wfd_ty t d F) as WT. destruct (sizes W HW _ WT) as [S1 SA].
  split; [exact S1|]. apply okal_min; [apply F|exact SA].
Qed.

Lemma members_ok u e t ds : forall st info, okinfo u info -> Forall (wfd t) ds -> plainE e ->
  (wfty t -> encE st e t) -> NoDup (map (fun d => d_name d) ds) ->
  match members u st info e ds with
  | Ok (st', info') => Forall (fun d => size (dclty t d) < M) ds /\ Body u st info (mems t ds) st' info' /\ okinfo u info'
  | TooBig => Exists (fun d => M <= size (dclty t d)) ds \/ u = false /\ M <= endof (snd (fst info)) (map msa (mems t ds))
  | Full => True
  | _ => False
  end.
Proof.
  induction ds as [|d ds IH]; intros st info OI F PE EB ND.
  - cbn [DeclModel.members]. split; [constructor|]. split; [|exact OI]. rewrite <- (app_nil_r st) at 2. apply Body_nil; [apply skips_nil|apply mskips_nil].
  - cbn [DeclModel.members]. apply Forall_cons_iff in F. destruct F as [WD F].
    assert (EB1 : d_ptr d = None -> encE st e t).
    { intros N. apply EB. destruct WD as (_ & _ & WD). now rewrite N in WD. }
    pose proof (member_ok u st info e t d OI WD PE EB1) as M1.
    change (mems t (d :: ds)) with ([mem1 t d] ++ mems t ds).
    pose proof (okm_mems t (d :: ds) ltac:(constructor; assumption)) as OK.
    destruct (member u st info e d) as [[st1 info1]| | | |] eqn:E; cbn [rbind]; try exact I; try contradiction.
    + destruct M1 as (S1 & B1 & O1). inversion ND as [|? ? N1 N2]; subst.
      destruct (Body_mono _ _ _ _ _ _ B1) as [r R].
      specialize (IH st1 info1 O1 F PE ltac:(intros X; subst st1; apply encE_app, EB; exact X) N2).
      destruct (members u st1 info1 e ds) as [[st2 info2]| | | |] eqn:E2; try exact I; try contradiction.
      * destruct IH as (S2 & B2 & O2). split; [constructor; assumption|]. split; [|exact O2].
        apply (Body_app u st info [mem1 t d] st1 info1 (mems t ds) st2 info2 B1 B2).
        cbn [app map]. unfold mems. rewrite map_map. exact ND.
      * destruct IH as [IH|[U IH]]; [left; right; exact IH|]. right. split; [exact U|].
        rewrite map_app, endof_app. destruct B1 as (b & _ & _ & _ & I1 & _).
        replace (snd (fst info1)) with (endof (snd (fst info)) (map msa [mem1 t d])) in IH; [exact IH|].
        subst info1. rewrite fold_o. subst u. reflexivity.
    + destruct M1 as [M1|[U M1]]; [left; left; exact M1|]. right. split; [exact U|]. rewrite map_app, endof_app.
      cbn [map] in *. pose proof (M_le W HW).
      assert (0 <= endof (snd (fst info)) [msa (mem1 t d)]) by lia.
      pose proof (okm_endof W (map msa (mems t ds)) (endof (snd (fst info)) [msa (mem1 t d)]) ltac:(apply okm_mems; exact F) H0).
      pose proof (zlen_nonneg (map msa (mems t ds))). lia.
Qed.

Lemma base_ind' (P : base stk -> Prop) :
  (forall s, P (BSc s)) -> (forall j, P (BRef j)) ->
  (forall u tag ms, Forall (fun bd => P (fst bd)) ms -> P (BDef u tag ms)) -> forall b, P b.
Proof.
  intros H1 H2 H3. fix IH 1. intros [s|j|u tag ms]; [apply H1|apply H2|]. apply H3.
  induction ms as [|[b ds] ms IHm]; constructor; [exact (IH b)|exact IHm].
Qed.

Variable env : Z -> cty.
Notation allmems := (allmems env). Notation wfb := (wfb W (bal 0) env).
Lemma wfb_def u tag ms : wfb (BDef u tag ms) <->
  allmems ms <> [] /\ NoDup (map mname (allmems ms)) /\
  Forall (fun bd => wfb (fst bd) /\ Forall (wfd (tyb env (fst bd))) (snd bd)) ms.
Proof.
  cbn [DeclSpec.wfb]. enough (E : forall ms, (fix go ms := match ms with
                    | [] => True
                    | (b, ds) :: ms => wfb b /\ Forall (wfd (tyb env b)) ds /\ go ms
                    end) ms <-> Forall (fun bd => wfb (fst bd) /\ Forall (wfd (tyb env (fst bd))) (snd bd)) ms) by (rewrite E; reflexivity).
  intros l. induction l as [|[b ds] l IH]; [split; constructor|]. rewrite Forall_cons_iff, IH. cbn [fst snd]. tauto.
Qed.
(** what the compiler knows *)
Definition known (st : stk) : Prop :=
  forall j, env j = TySc SVoid \/ exists u ms, env j = TyAgg u ms /\ wfty (TyAgg u ms) /\ encS st j u ms.
Lemma known_app st r : known st -> known (st ++ r).
Proof.
  intros K j. destruct (K j) as [E|(u & ms & E & F & H)]; [left; exact E|right]. exists u, ms. split; [exact E|]. split; [exact F|]. apply encS_app; assumption.
Qed.

(** the loop over the member declarations *)
Definition pgo u := fix go (ms : list (base stk * list (dcl stk))) (st : stk) (info : Z * Z * Z) : res (stk * (Z * Z * Z)) :=
  match ms with
  | [] => Ok (st, info)
  | (b, ds) :: ms =>
      let! (st, e) := parseBase st b in
      let! (st, info) := members u st info e ds in
      go ms st info
  end.
Lemma parseBase_def u tag ms st : parseBase st (BDef u tag ms) =
  (let tp := zlen st in
   let! st := push st (hdr u tag 0 1) in
   let! (st, info) := pgo u ms st (1, 0, 0) in
   match ms with
   | [] => Bad
   | _ =>
          let! st := push st [(KRc, 0)] in
          let '(al, o, mx) := info in
          let st := set st (tp + 3) (KSize, al) in
          let sz := u32 (o + mx) in
          let sz' := roundUp sz al in
          if (sz' <? sz) || negb (sz' =? truncUint W sz') then TooBig
          else Ok (set st (tp + 2) (KSize, sz'), (KStructPtr, tp))
   end).
Proof. reflexivity. Qed.

Lemma fold_info u l : forall al o mx, 1 <= al -> 0 <= mx -> fold_left (step1 u) l (al, o, mx) =
  (Z.max al (maxalign l), if u then o else endof o l, if u then Z.max mx (maxsize l) else mx).
Proof.
  induction l as [|[s a] l IH]; intros al o mx A X.
  - cbn [fold_left maxalign maxsize fold_right endof]. destruct u; (apply f_equal2; [apply f_equal2|]); lia.
  - cbn [fold_left step1 fst snd]. rewrite IH by (destruct u; lia). cbn [maxalign maxsize fold_right endof fst snd].
    fold (maxalign l). fold (maxsize l). destruct u; (apply f_equal2; [apply f_equal2|]); lia.
Qed.
Lemma set_app {A} (l r : list A) n x : lset (l ++ r) (length l + n) x = l ++ lset r n x.
Proof. induction l as [|y l IH]; [reflexivity|]. cbn [app length Nat.add lset]. now rewrite IH. Qed.
Lemma set_hdr (st body : stk) u tag al sz :
  set (set (st ++ hdr u tag 0 1 ++ body) (zlen st + 3) (KSize, al)) (zlen st + 2) (KSize, sz) = st ++ hdr u tag sz al ++ body.
Proof.
  unfold set. replace (Z.to_nat (zlen st + 3)) with (length st + 3)%nat by (unfold zlen; lia).
  replace (Z.to_nat (zlen st + 2)) with (length st + 2)%nat by (unfold zlen; lia).
  rewrite set_app. rewrite set_app. reflexivity.
Qed.

Definition fits (t : cty) : Prop := size t < M.
Definition toobig (t : cty) : Prop := M <= size t.
Definition good (b : base stk) : Prop := forall st, known st -> wfb b ->
  match parseBase st b with
  | Ok (st', e) => (exists ext, st' = st ++ ext /\ skips (fun c => 1 <= c) (fun _ => True) ext /\ mskips 1 ext) /\ plainE e /\
      (wfty (tyb env b) -> encE st' e (tyb env b)) /\ Forall fits (declared env b)
  | TooBig => Exists toobig (declared env b)
  | Full => True
  | _ => False
  end.
Definition inner (ms : list (base stk * list (dcl stk))) : list cty :=
  flat_map (fun bd => declared env (fst bd) ++ map (dclty (tyb env (fst bd))) (snd bd)) ms.

Lemma okm_all ms : Forall (fun bd => wfb (fst bd) /\ Forall (wfd (tyb env (fst bd))) (snd bd)) ms -> okm (map msa (allmems ms)).
Proof.
  induction 1 as [|[b ds] ms [_ X] F IH]; [intros m []|]. change (allmems ((b, ds) :: ms)) with (mems (tyb env b) ds ++ allmems ms). rewrite map_app.
  intros m H. apply in_app_or in H. destruct H as [H|H]; [|exact (IH m H)]. exact (okm_mems _ _ X m H).
Qed.

Lemma pgo_ok u ms : forall st info, okinfo u info -> known st ->
  Forall (fun bd => wfb (fst bd) /\ Forall (wfd (tyb env (fst bd))) (snd bd)) ms ->
  Forall (fun bd => good (fst bd)) ms -> NoDup (map mname (allmems ms)) ->
  match pgo u ms st info with
  | Ok (st', info') => Forall fits (inner ms) /\ Body u st info (allmems ms) st' info' /\ okinfo u info'
  | TooBig => Exists toobig (inner ms) \/ u = false /\ M <= endof (snd (fst info)) (map msa (allmems ms))
  | Full => True
  | _ => False
  end.
Proof.
  induction ms as [|[b ds] ms IH]; intros st info OI K F G ND.
  - cbn [pgo]. split; [constructor|]. split; [|exact OI]. rewrite <- (app_nil_r st) at 2. apply Body_nil; [apply skips_nil|apply mskips_nil].
  - apply Forall_cons_iff in F. destruct F as [[Wb Wd] F]. apply Forall_cons_iff in G. destruct G as [Gb G]. cbn [fst snd] in *.
    change (pgo u ((b, ds) :: ms) st info) with (let! (st, e) := parseBase st b in let! (st, info) := members u st info e ds in pgo u ms st info). specialize (Gb st K Wb).
    change (allmems ((b, ds) :: ms)) with (mems (tyb env b) ds ++ allmems ms) in *.
    change (inner ((b, ds) :: ms)) with ((declared env b ++ map (dclty (tyb env b)) ds) ++ inner ms).
    rewrite map_app in ND.
    assert (ND1 : NoDup (map mname (mems (tyb env b) ds)) /\ NoDup (map mname (allmems ms))).
    { exact (NoDup_app_both _ _ ND). }
    destruct ND1 as [ND1 ND2].
    destruct (parseBase st b) as [[st1 e]| | | |] eqn:E1; cbn [rbind]; try exact I; try contradiction.
    2: { left. apply Exists_app. left. apply Exists_app. left. exact Gb. }
    destruct Gb as ((ext & X1 & X2 & X3) & PE & EE & FF).
    assert (ND1' : NoDup (map (fun d : dcl stk => d_name d) ds)) by (unfold mems in ND1; rewrite map_map in ND1; exact ND1).
    pose proof (members_ok u e (tyb env b) ds st1 info OI Wd PE EE ND1') as MO.
    destruct (members u st1 info e ds) as [[st2 info2]| | | |] eqn:E2; cbn [rbind]; try exact I; try contradiction.
    2: { destruct MO as [MO|[U MO]].
         - left. apply Exists_app. left. apply Exists_app. right. apply Exists_exists in MO. destruct MO as (d & D1 & D2).
           apply Exists_exists. exists (dclty (tyb env b) d). split; [apply in_map; exact D1|exact D2].
         - right. split; [exact U|]. rewrite map_app, endof_app. pose proof (M_le W HW) as ML.
           pose proof (okm_endof W (map msa (allmems ms)) _ (okm_all ms F) (Z.le_trans _ _ _ (Z.lt_le_incl _ _ (proj1 ML)) MO)).
           pose proof (zlen_nonneg (map msa (allmems ms))). lia. }
    destruct MO as (S2 & B2 & O2).
    assert (B12 : Body u st info (mems (tyb env b) ds) st2 info2).
    { apply (Body_app u st info [] st1 info); [subst st1; apply Body_nil; [exact X2|exact X3]|exact B2|exact ND1]. }
    destruct (Body_mono _ _ _ _ _ _ B12) as [r R].
    specialize (IH st2 info2 O2 ltac:(rewrite R; apply known_app; exact K) F G ND2).
    destruct (pgo u ms st2 info2) as [[st3 info3]| | | |] eqn:E3; try exact I; try contradiction.
    + destruct IH as (S3 & B3 & O3). split; [|split; [|exact O3]].
      * apply Forall_app. split; [|exact S3]. apply Forall_app. split; [exact FF|]. rewrite Forall_map. exact S2.
      * eapply Body_app; [exact B12|exact B3|]. rewrite map_app. exact ND.
    + destruct IH as [IH|[U IH]]; [left; apply Exists_app; right; exact IH|]. right. split; [exact U|].
      rewrite map_app, endof_app. destruct B2 as (bb & _ & _ & _ & I2 & _).
      replace (snd (fst info2)) with (endof (snd (fst info)) (map msa (mems (tyb env b) ds))) in IH; [exact IH|].
      subst info2. rewrite fold_o. subst u. reflexivity.
Qed.

Lemma wfb_ty b : wfb b -> match b with BDef _ _ _ => wfty (tyb env b) | _ => True end.
Proof.
  destruct b as [s|j|u tag ms]; intros H; try exact I. apply wfb_def in H. destruct H as (N & _ & F).
  cbn [tyb]. apply wfty_agg. split; [exact N|]. intros m H. apply in_flat_map in H. destruct H as ([b ds] & H1 & H2).
  rewrite Forall_forall in F. destruct (F _ H1) as [_ X]. cbn [fst snd] in *. unfold mems in H2. apply in_map_iff in H2.
  destruct H2 as (d & <- & H2). rewrite Forall_forall in X. specialize (X d H2). split; [apply X|]. apply wfd_ty. exact X.
Qed.

Theorem parse_ok b : good b.
Proof.
  induction b as [s|j|u tag ms IH] using base_ind'; intros st K Wb.
  - cbn [DeclModel.parseBase tyb declared]. split; [exists []; split; [symmetry; apply app_nil_r|split; [apply skips_nil|apply mskips_nil]]|].
    split; [unfold plainE; cbn [fst]; destruct s; cbn [scalTok]; try exact I; destruct (W =? 2); exact I|].
    split; [reflexivity|constructor].
  - cbn [DeclModel.parseBase tyb declared]. split; [exists []; split; [symmetry; apply app_nil_r|split; [apply skips_nil|apply mskips_nil]]|].
    split; [exact I|]. split; [|constructor]. intros WT. destruct (K j) as [E|(u & ms & E & F & H)]; rewrite E in *.
    + destruct WT as [WT _]. now contradiction WT.
    + exists j. split; [reflexivity|exact H].
  - pose proof (wfb_ty _ Wb) as WT. apply wfb_def in Wb. destruct Wb as (NE & ND & F).
    rewrite parseBase_def. cbv zeta. unfold push at 1. destruct (symax <? _); [exact I|]. cbn [rbind].
    pose proof (M_le W HW) as ML.
    assert (MM : forall (A : Type) (x y : A), match ms with [] => x | _ :: _ => y end = y)
      by (intros; clear -NE; destruct ms; [now contradiction NE|reflexivity]).
    assert (OI : okinfo u (1, 0, 0)) by (split; [apply okal_1; exact HW|]; destruct u; repeat split; lia).
    pose proof (pgo_ok u ms (st ++ hdr u tag 0 1) (1, 0, 0) OI (known_app _ _ K) F IH ND) as PG.
    assert (DE : declared env (BDef u tag ms) = tyb env (BDef u tag ms) :: inner ms) by reflexivity.
    assert (TE : tyb env (BDef u tag ms) = TyAgg u (allmems ms)) by reflexivity.
    pose proof (okm_all ms F) as OK. set (l := map msa (allmems ms)) in *.
    assert (SZ : size (TyAgg u (allmems ms)) = up (if u then maxsize l else endof 0 l) (maxalign l) /\ align (TyAgg u (allmems ms)) = maxalign l).
    { unfold DeclSpec.size, DeclSpec.align. rewrite sa_agg. fold l. split; reflexivity. }
    destruct SZ as [SZ AZ]. pose proof (okm_maxalign W HW l OK) as OA.
    assert (AP : 0 < maxalign l) by (destruct OA as [[-> | [-> | ->]] _]; lia).
    rewrite DE. destruct (pgo u ms (st ++ hdr u tag 0 1) (1, 0, 0)) as [[st2 info2]| | | |] eqn:E; cbn [rbind]; try exact I; try contradiction.
    2: { destruct PG as [PG|[U PG]]; [right; exact PG|]. left. unfold toobig. rewrite TE, SZ. subst u. cbn [snd fst] in PG.
         pose proof (up_ge (endof 0 l) (maxalign l) AP). lia. }
    rewrite MM.
    destruct PG as (S2 & B2 & O2). unfold push. destruct (symax <? _); [exact I|]. cbn [rbind].
    destruct B2 as (body & B1 & SK2 & SK1 & I2 & ML2 & MK2 & prs & PR1 & PR2 & PR3). fold l in I2. rewrite fold_info in I2 by lia.
    assert (1 <= maxalign l) by lia. rewrite Z.max_r in I2 by lia. rewrite (Z.max_r 0) in I2 by apply maxsize_nonneg.
    subst info2. set (tot := if u then maxsize l else endof 0 l) in *.
    assert (ET : (if u then 0 else endof 0 l) + (if u then maxsize l else 0) = tot) by (unfold tot; destruct u; lia).
    rewrite ET. destruct O2 as (_ & O2 & O3 & _). assert (TR : 0 <= tot < M) by (unfold tot; destruct u; lia).
    rewrite u32_small by lia. destruct (roundUp_ok W HW tot (maxalign l) ltac:(apply OA) ltac:(lia)) as [R1 R2].
    match goal with |- context [if ?c then TooBig else _] => destruct c eqn:C1 end.
    + left. unfold toobig. rewrite TE, SZ. fold tot. assert (up tot (maxalign l) <? M = false) by congruence. lia.
    + assert (UM : up tot (maxalign l) < M) by (assert (up tot (maxalign l) <? M = true) by congruence; lia). rewrite R2 by lia. clear R1 R2 C1.
      assert (E2 : st2 ++ [(KRc, 0)] = st ++ hdr u tag 0 1 ++ body ++ [(KRc, 0)]) by (rewrite B1, <- !app_assoc; reflexivity).
      rewrite E2, set_hdr. split; [|split; [exact I|split]].
      * exists (hdr u tag (up tot (maxalign l)) (maxalign l) ++ body ++ [(KRc, 0)]). split; [reflexivity|]. split.
        2: { intros c rest pos C. unfold hdr. cbn [app].
             rewrite !mskip1 by (lia || (destruct u; exact I) || exact I).
             rewrite scanM_cons. cbv zeta. cbn [kind_eqb]. rewrite andb_false_r.
             replace (c + 1 =? 0) with false by lia. rewrite <- app_assoc, MK2 by lia. cbn [app].
             rewrite scanM_cons. cbv zeta. cbn [kind_eqb]. rewrite andb_false_r.
             replace (c + 1 + -1 =? 0) with false by lia. replace (c + 1 + -1) with c by lia. f_equal. zl. lia. }
        intros c name rest pos C _. unfold hdr. cbn [app].
        rewrite !skip1 by (lia || (destruct u; exact I) || exact I).
        rewrite lookup_cons. cbv zeta. unfold hit. cbn [kind_eqb]. rewrite andb_false_r. cbn [andb].
        replace (c + 1 =? 0) with false by lia. rewrite <- app_assoc, SK2 by (exact I || lia). cbn [app].
        rewrite lookup_cons. cbv zeta. unfold hit. cbn [kind_eqb]. rewrite andb_false_r. cbn [andb].
        replace (c + 1 + -1 =? 0) with false by lia. replace (c + 1 + -1) with c by lia. f_equal. zl. lia.
      * intros _. rewrite TE. exists (zlen st). split; [reflexivity|].
        econstructor.
        -- rewrite <- (Z.add_0_r (zlen st)). rewrite zget_hdr. reflexivity.
        -- rewrite zget_hdr. reflexivity.
        -- rewrite zget_hdr. rewrite SZ. reflexivity.
        -- rewrite zget_hdr. rewrite AZ. reflexivity.
        -- rewrite SZ. exact UM.
        -- intros k m o N1 N2. destruct (ML2 k m o N1) as (q & Q1 & Q2).
           { exact N2. }
           exists q. split.
           ++ unfold findMember. replace (skipn (Z.to_nat (zlen st + 5)) (st ++ hdr u tag (up tot (maxalign l)) (maxalign l) ++ body ++ [(KRc, 0)]))
                with (body ++ [(KRc, 0)]).
              ** rewrite zlen_app in Q1. apply Q1.
              ** replace (Z.to_nat (zlen st + 5)) with (length st + 5)%nat by (unfold zlen; lia).
                 rewrite skipn_app. rewrite skipn_all2 by lia. replace (length st + 5 - length st)%nat with 5%nat by lia. reflexivity.
           ++ apply patch; [exact HW| |].
              ** rewrite TE in WT. apply wfty_agg in WT. apply WT. eapply nth_error_In. exact N1.
              ** rewrite <- E2. apply enc_app. exact Q2.
        -- intros k m x N1 N2. apply patch; [exact HW| |].
           ++ rewrite TE in WT. apply wfty_agg in WT. apply WT. eapply nth_error_In. exact N1.
           ++ rewrite <- E2. apply enc_app. eapply PR2; eassumption.
        -- apply (chain_same (st ++ hdr u tag 0 1 ++ body ++ [(KRc, 0)])); [apply same_hdr|]. rewrite <- E2.
           replace (zlen st + 5) with (zlen (st ++ hdr u tag 0 1)) by (rewrite zlen_app; reflexivity).
           rewrite <- (app_nil_r prs). apply PR3. constructor; [apply zlen_nonneg|]. rewrite skipn_zapp. reflexivity.
        -- exact PR1.
      * constructor; [|exact S2]. unfold fits. rewrite TE, SZ. exact UM.
Qed.
End P.
