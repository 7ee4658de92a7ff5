(** Lemmas on sizes, alignments and the declaration table. *)
From Verif Require Import Base BaseLemmas DeclSpec FoldModel FoldProof DeclModel.

Section P.
Variable W : Z.
Hypothesis HW : W = 2 \/ W = 4.
Variable cs : bool.
Notation M := (2 ^ (8 * W)).
Notation truncUint := (truncUint W).
Notation sa := (sa W). Notation size := (size W). Notation align := (align W). Notation msa := (msa W).

Lemma M_val : M = 2 ^ 16 \/ M = 2 ^ 32.
Proof. destruct HW; subst W; [left|right]; reflexivity. Qed.
Lemma trunc_id x : 0 <= x < 2 ^ 32 -> (x =? truncUint x) = (x <? M).
Proof.
  intros H. rewrite (tU W HW). unfold ExprSpec.word, wrap. pose proof M_val as MV.
  apply eq_true_iff_eq. rewrite Z.eqb_eq, Z.ltb_lt.
  assert (0 < M) by (destruct MV as [-> | ->]; reflexivity).
  split; intros E.
  - rewrite E. apply Z.mod_pos_bound. lia.
  - symmetry. apply Z.mod_small. lia.
Qed.
Lemma M_le : 0 < M <= 2 ^ 32.
Proof. destruct M_val as [-> | ->]; split; reflexivity || discriminate. Qed.

Lemma mulSize_ok s n : 0 <= s < 2 ^ 32 -> 0 <= n < 2 ^ 32 ->
  mulSize W s n = if s * n <? M then Ok (s * n) else TooBig.
Proof.
  intros Hs Hn. unfold mulSize. cbv zeta. pose proof M_le as ML.
  destruct (n =? 0) eqn:N0.
  - assert (n = 0) by lia. subst n. rewrite Z.mul_0_r. cbn [negb andb].
    change (u32 0) with 0. rewrite trunc_id by lia. replace (0 <? M) with true by lia. reflexivity.
  - cbn [negb andb]. destruct (Z_lt_dec (s * n) (2 ^ 32)) as [L|L].
    + assert (0 <= s * n) by nia. rewrite u32_small by (split; assumption). rewrite Z.div_mul by lia. rewrite Z.eqb_refl. cbn [negb].
      rewrite trunc_id by lia. destruct (s * n <? M); reflexivity.
    + replace (s * n <? M) with false by lia.
      replace (u32 (s * n) / n =? s) with false; [reflexivity|].
      symmetry. apply Z.eqb_neq. intros E. pose proof (u32_range (s * n)) as R.
      pose proof (Z.mul_div_le (u32 (s * n)) n). rewrite E in H. nia.
Qed.

(** alignments *)
Lemma up_ge x a : 0 < a -> x <= up x a < x + a.
Proof.
  intros H. unfold up. pose proof (Z.mod_pos_bound (x + a - 1) a H). pose proof (Z.div_mod (x + a - 1) a). lia.
Qed.
Lemma up_mod x a : 0 < a -> up x a mod a = 0.
Proof. intros H. unfold up. apply Z.mod_mul. lia. Qed.
Lemma up_min x a y : 0 < a -> x <= y -> y mod a = 0 -> up x a <= y.
Proof.
  intros H L D. unfold up. assert (E : y = a * (y / a)) by (pose proof (Z.div_mod y a); lia).
  rewrite E. rewrite (Z.mul_comm a). apply Z.mul_le_mono_nonneg_r; [lia|].
  rewrite E in L. apply Z.lt_succ_r. apply Z.div_lt_upper_bound; [lia|]. nia.
Qed.
Lemma up_id x a : 0 < a -> x mod a = 0 -> up x a = x.
Proof. intros H E. pose proof (up_ge x a H). pose proof (up_min x a x H (Z.le_refl _) E). lia. Qed.

Lemma land_lnot_pow x a : p2 a -> 0 <= x < 2 ^ 32 -> Z.land x (u32 (Z.lnot (a - 1))) = x / a * a.
Proof.
  intros A R.
  assert (exists k, 0 <= k <= 2 /\ a = 2 ^ k) as (k & K & ->).
  { destruct A as [-> | [-> | ->]]; [exists 0|exists 1|exists 2]; lia. }
  assert (E : u32 (Z.lnot (2 ^ k - 1)) = Z.land (Z.lnot (Z.ones k)) (Z.ones 32)).
  { unfold u32, wrap. rewrite <- Z.land_ones by lia. rewrite (Z.ones_equiv k), <- Z.sub_1_r. reflexivity. }
  rewrite E. rewrite (Z.land_comm (Z.lnot _)), Z.land_assoc.
  replace (Z.land x (Z.ones 32)) with x.
  2: { rewrite Z.land_ones by lia. symmetry. apply Z.mod_small. lia. }
  rewrite <- Z.ldiff_land, Z.ldiff_ones_r by lia. rewrite Z.shiftr_div_pow2, Z.shiftl_mul_pow2 by lia. reflexivity.
Qed.
Lemma roundUp_ok x a : p2 a -> 0 <= x < 2 ^ 32 ->
  (if (roundUp x a <? x) || negb (roundUp x a =? truncUint (roundUp x a)) then false else true) = (up x a <? M) /\
  (up x a < 2 ^ 32 -> roundUp x a = up x a).
Proof.
  intros A R. unfold roundUp. pose proof (u32_range (x + a - 1)) as R1. pose proof M_le as ML.
  rewrite land_lnot_pow by (assumption || lia).
  assert (A0 : 0 < a <= 4) by (destruct A as [-> | [-> | ->]]; lia).
  destruct (Z_lt_dec (x + a - 1) (2 ^ 32)) as [L|L].
  - rewrite u32_small by lia. change ((x + a - 1) / a * a) with (up x a).
    pose proof (up_ge x a ltac:(lia)) as U. assert (U2 : up x a < 2 ^ 32).
    { unfold up in *. pose proof (Z.mul_div_le (x + a - 1) a). lia. }
    rewrite trunc_id by lia. split; [|reflexivity].
    replace (up x a <? x) with false by lia. cbn [orb]. destruct (up x a <? M); reflexivity.
  - assert (E : u32 (x + a - 1) = x + a - 1 - 2 ^ 32).
    { unfold u32, wrap. rewrite <- (Z_mod_plus_full _ (-1)). apply Z.mod_small. lia. }
    assert (U : up x a = 2 ^ 32).
    { unfold up. assert (D : 2 ^ 32 mod a = 0) by (destruct A as [-> | [-> | ->]]; reflexivity).
      assert (D2 : 2 ^ 32 = a * (2 ^ 32 / a)) by (pose proof (Z.div_mod (2 ^ 32) a); lia).
      set (q := 2 ^ 32 / a) in *. clearbody q.
      replace ((x + a - 1) / a) with q; [rewrite Z.mul_comm; symmetry; exact D2|].
      apply Z.div_unique with (r := x + a - 1 - 2 ^ 32); [left; lia|]. rewrite <- D2. lia. }
    rewrite E. rewrite Z.div_small by lia. cbn [Z.mul].
    replace (0 <? x) with true by lia. cbn [orb]. split; [|lia]. symmetry. apply Z.ltb_ge. rewrite U. exact (proj2 ML).
Qed.

(** induction on types *)
Lemma cty_ind' (P : cty -> Prop) :
  (forall s, P (TySc s)) -> P TyPtr -> (forall n t, P t -> P (TyArr n t)) ->
  (forall u ms, (forall m, In m ms -> P (snd (snd m))) -> P (TyAgg u ms)) -> forall t, P t.
Proof.
  intros H1 H2 H3 H4. fix IH 1. intros [s| |n t|u ms]; [apply H1|apply H2|apply H3, IH|]. apply H4.
  induction ms as [|m ms IHm]; [contradiction|]. intros m' [<-|I]; [apply IH|exact (IHm _ I)].
Qed.

Notation oksc := (oksc W). Notation okpack := (okpack W). Notation wfty := (wfty W).
Lemma wfty_agg u ms : wfty (TyAgg u ms) <-> ms <> [] /\ (forall m, In m ms -> okpack (fst m) /\ wfty (snd (snd m))).
Proof.
  cbn [DeclSpec.wfty]. apply and_iff_compat_l. induction ms as [|m ms IH]; [split; [intros _ m []|trivial]|]. rewrite IH. split.
  - intros (A & B & C) m' [<-|I]; [split; assumption|exact (C _ I)].
  - intros H. split; [apply (H m); left; reflexivity|]. split; [apply (H m); left; reflexivity|].
    intros m' I. apply H. right. exact I.
Qed.

Lemma sa_agg u ms : sa (TyAgg u ms) =
  (up (if u then maxsize (map msa ms) else endof 0 (map msa ms)) (maxalign (map msa ms)), maxalign (map msa ms)).
Proof.
  cbn [DeclSpec.sa].
  replace (map (fun m => let '(s, a) := sa (snd (snd m)) in (s, Z.min (fst m) a)) ms) with (map msa ms); [reflexivity|].
  apply map_ext. intros m. unfold DeclSpec.msa, DeclSpec.size, DeclSpec.align. destruct (sa (snd (snd m))). reflexivity.
Qed.
Lemma sa_arr n t : size (TyArr n t) = n * size t /\ align (TyArr n t) = align t.
Proof. unfold DeclSpec.size, DeclSpec.align. cbn [DeclSpec.sa]. destruct (sa t). split; reflexivity. Qed.

Definition okal (a : Z) : Prop := p2 a /\ a <= W.
Lemma okal_min p a : okpack p -> okal a -> okal (Z.min p a).
Proof. intros [P1 P2] [A1 A2]. split; [|lia]. unfold p2 in *. destruct P1 as [-> | [-> | ->]], A1 as [-> | [-> | ->]]; cbn; auto. Qed.
Lemma okal_max a b : okal a -> okal b -> okal (Z.max a b).
Proof. intros [P1 P2] [A1 A2]. split; [|lia]. unfold p2 in *. destruct P1 as [-> | [-> | ->]], A1 as [-> | [-> | ->]]; cbn; auto. Qed.
Lemma okal_1 : okal 1. Proof. split; [left; reflexivity|destruct HW; lia]. Qed.
Lemma okal_W : okal W. Proof. split; [destruct HW; unfold p2; lia|lia]. Qed.

Definition okm (l : list (Z * Z)) : Prop := forall m, In m l -> 1 <= fst m /\ okal (snd m).
Lemma okm_maxalign l : okm l -> okal (maxalign l).
Proof.
  induction l as [|m l IH]; intros H; [apply okal_1|]. cbn [maxalign fold_right].
  apply okal_max; [apply H; left; reflexivity|apply IH; intros x I; apply H; right; exact I].
Qed.
Lemma okm_endof l : forall o, okm l -> 0 <= o -> o + zlen l <= endof o l.
Proof.
  induction l as [|[s a] l IH]; intros o H Ho; cbn [endof].
  - change (zlen (@nil (Z * Z))) with 0. lia.
  - rewrite zlen_cons. assert (1 <= s /\ okal a) as [S A] by (apply (H (s, a)); left; reflexivity).
    pose proof (up_ge o a ltac:(destruct A as [[-> | [-> | ->]] _]; lia)).
    pose proof (IH (up o a + s)) as I. specialize (I ltac:(intros x X; apply H; right; exact X) ltac:(lia)). lia.
Qed.
Lemma okm_maxsize l m : In m l -> fst m <= maxsize l.
Proof.
  induction l as [|x l IH]; [intros []|]. intros [-> |I]; cbn [maxsize fold_right]; [lia|]. specialize (IH I). unfold maxsize in IH. lia.
Qed.
Lemma maxsize_nonneg l : 0 <= maxsize l.
Proof. induction l as [|x l IH]; cbn [maxsize fold_right]; [lia|unfold maxsize in IH; lia]. Qed.

Lemma sizes t : wfty t -> 1 <= size t /\ okal (align t).
Proof.
  induction t as [s| |n t IH|u ms IH] using cty_ind'; intros H.
  - destruct H as [H1 H2]. unfold DeclSpec.size, DeclSpec.align. cbn [DeclSpec.sa fst snd].
    assert (1 <= ssize W s <= W /\ p2 (ssize W s)).
    { unfold p2. destruct HW as [E|E]; rewrite E in *; destruct s; cbn in *; try congruence; try lia. }
    split; [lia|]. replace (Z.max 1 (ssize W s)) with (ssize W s) by lia. split; [tauto|lia].
  - split; [destruct HW; unfold DeclSpec.size; cbn; lia|apply okal_W].
  - destruct H as [N H]. destruct (IH H) as [A B]. destruct (sa_arr n t) as [-> ->]. split; [nia|exact B].
  - apply wfty_agg in H. destruct H as [NE H].
    assert (OM : okm (map msa ms)).
    { intros x X. apply in_map_iff in X. destruct X as (m & <- & I). destruct (H m I) as [P T].
      destruct (IH m I T) as [S A]. unfold DeclSpec.msa. cbn [fst snd]. split; [exact S|]. apply okal_min; assumption. }
    unfold DeclSpec.size, DeclSpec.align. rewrite sa_agg. cbn [fst snd].
    pose proof (okm_maxalign _ OM) as OA. split; [|exact OA].
    pose proof (up_ge (if u then maxsize (map msa ms) else endof 0 (map msa ms)) (maxalign (map msa ms))
                 ltac:(destruct OA as [[-> | [-> | ->]] _]; lia)) as U.
    destruct ms as [|m ms]; [congruence|].
    destruct u.
    + pose proof (okm_maxsize (map msa (m :: ms)) (msa m) ltac:(left; reflexivity)).
      pose proof (OM (msa m) ltac:(left; reflexivity)). cbv iota in U. cbv iota. lia.
    + pose proof (okm_endof _ 0 OM ltac:(lia)) as E. cbn [map] in E. rewrite zlen_cons in E.
      pose proof (zlen_nonneg (map msa ms)). cbv iota in U. cbv iota. cbn [map] in U |- *. lia.
Qed.

(** the members of a structure in the table, in order, from place [p] on *)
Inductive chain (st : stk) : Z -> list (Z * Z) -> Prop :=
| ch_nil (p : Z) : 0 <= p -> scanM (skipn (Z.to_nat p) st) p 1 = Some None -> chain st p []
| ch_cons (p o q : Z) r : 0 <= p -> scanM (skipn (Z.to_nat p) st) p 1 = Some (Some (o, q)) -> chain st q r ->
    chain st p ((o, q) :: r).

(** the table holds a type *)
Inductive enc (st : stk) : Z -> cty -> Prop :=
| e_sc (i : Z) s (v : Z) : zget st i = Some (scalTok W s, v) -> enc st i (TySc s)
| e_ptr (i v : Z) : zget st i = Some (KStar, v) -> enc st i TyPtr
| e_arr (i n : Z) t (a b : Z) : zget st i = Some (KLb, a) -> zget st (i + 1) = Some (KNum, n) ->
    zget st (i + 2) = Some (KRb, b) -> enc st (i + 3) t -> enc st i (TyArr n t)
| e_agg (i j : Z) u ms : zget st i = Some (KStructPtr, j) -> encS st j u ms -> enc st i (TyAgg u ms)
with encS (st : stk) : Z -> bool -> list (Z * (Z * cty)) -> Prop :=
| e_str (j : Z) (u : bool) ms prs (v tg : Z) :
    zget st j = Some (if u then KUnion else KStruct, v) ->
    zget st (j + 1) = Some (KTag, tg) ->
    zget st (j + 2) = Some (KSize, size (TyAgg u ms)) ->
    zget st (j + 3) = Some (KSize, align (TyAgg u ms)) ->
    size (TyAgg u ms) < M ->
    (forall k m o, nth_error ms k = Some m -> nth_error (moffsets W u ms) k = Some o ->
       exists q, findMember st j (fst (snd m)) = Some (o, q) /\ enc st q (snd (snd m))) ->
    (forall k m x, nth_error ms k = Some m -> nth_error prs k = Some x -> enc st (snd x) (snd (snd m))) ->
    chain st (j + 5) prs -> map fst prs = moffsets W u ms ->
    encS st j u ms.

Fixpoint steps (t : cty) : nat := match t with TyArr _ t => S (steps t) | TyAgg _ _ => 2%nat | _ => 1%nat end.
Lemma enc_steps st t : forall i, enc st i t -> Z.of_nat (steps t) + i <= zlen st + 1.
Proof.
  induction t as [s| |n t IH|u ms _] using cty_ind'; intros i H; inversion H; subst; cbn [steps];
  repeat match goal with G : zget _ _ = Some _ |- _ => apply zget_Some_range in G end; try lia.
  match goal with G : enc _ _ _ |- _ => apply IH in G end. lia.
Qed.

Lemma fits_mono s t : wfty t -> 0 <= s -> s <= s * size t.
Proof. intros H S. pose proof (sizes t H). nia. Qed.

Lemma gds_enc st t : forall i s arr fuel, enc st i t -> wfty t -> 1 <= s < M ->
  (steps t <= fuel)%nat ->
  gds W cs fuel st i s arr false = if s * size t <? M then Ok (s32 (s * size t)) else TooBig.
Proof.
  pose proof M_le as ML.
  induction t as [sc| |n t IH|u ms _] using cty_ind'; intros i s arr fuel E Wt S F; inversion E; subst; cbn [steps] in F;
  (destruct fuel as [|fuel]; [lia|]); cbn [gds].
  - match goal with G : zget st i = _ |- _ => rewrite G end. destruct Wt as [W1 W2].
    unfold DeclSpec.size in *. cbn [DeclSpec.sa fst] in *.
    assert (MS : forall n, 1 <= n < 2 ^ 32 -> rbind (mulSize W s n) (fun x => Ok (s32 x)) =
      if s * n <? M then Ok (s32 (s * n)) else TooBig).
    { intros n N. rewrite mulSize_ok by lia. destruct (s * n <? M); reflexivity. }
    destruct HW as [EW|EW]; rewrite EW in *;
    destruct sc; try congruence; cbn [scalTok ssize Z.eqb Pos.eqb kind_eqb] in *; rewrite ?andb_false_r;
    rewrite ?MS by lia; try reflexivity.
    all: try (exfalso; specialize (W2 eq_refl); lia).
    all: rewrite Z.mul_1_r; change (2 ^ (8 * 2)) with 65536 in *; change (2 ^ (8 * 4)) with 4294967296 in *;
      replace (s <? _) with true by lia; reflexivity.
  - match goal with G : zget st i = _ |- _ => rewrite G end. change (size TyPtr) with W.
    rewrite mulSize_ok by (destruct HW; lia). destruct (s * W <? M); reflexivity.
  - match goal with G : zget st i = _ |- _ => rewrite G end.
    match goal with G : zget st (i + 1) = _ |- _ => rewrite G end.
    destruct Wt as [N Wt]. destruct (sa_arr n t) as [-> _].
    rewrite u32_small by lia. rewrite mulSize_ok by lia.
    pose proof (sizes t Wt) as [S1 _].
    destruct (s * n <? M) eqn:L; cbn [rbind].
    + rewrite IH; [|assumption|assumption|nia|lia]. rewrite Z.mul_assoc. reflexivity.
    + replace (s * (n * size t) <? M) with false; [reflexivity|]. symmetry. apply Z.ltb_ge. apply Z.ltb_ge in L. nia.
  - match goal with G : zget st i = _ |- _ => rewrite G end.
    destruct fuel as [|fuel]; [lia|]. cbn [gds].
    match goal with G : encS _ _ _ _ |- _ => inversion G; subst end.
    repeat match goal with G : zget st _ = _ |- _ => rewrite G end.
    replace (match (if u then KUnion else KStruct) with
             | KIdent | KOfs => gds W cs fuel st (j + 1) s arr false
             | _ => _ end) with (rbind (mulSize W s (u32 (size (TyAgg u ms)))) (fun x => Ok (s32 x))) by (destruct u; reflexivity).
    pose proof (sizes (TyAgg u ms) Wt) as [S1 _].
    rewrite u32_small by lia. rewrite mulSize_ok by lia.
    destruct (s * size (TyAgg u ms) <? M); reflexivity.
Qed.

Lemma gda_enc st t : forall i fuel, enc st i t -> wfty t -> (steps t <= fuel)%nat -> gda W fuel st i = Ok (align t).
Proof.
  induction t as [sc| |n t IH|u ms _] using cty_ind'; intros i fuel E Wt F; inversion E; subst; cbn [steps] in F;
  (destruct fuel as [|fuel]; [lia|]); cbn [gda];
  match goal with G : zget st i = _ |- _ => rewrite G end.
  - destruct Wt as [W1 W2]. unfold DeclSpec.align. cbn [DeclSpec.sa snd].
    destruct HW as [EW|EW]; rewrite EW in *; destruct sc; try congruence; try reflexivity;
    exfalso; specialize (W2 eq_refl); cbn in W2; lia.
  - reflexivity.
  - match goal with G : zget st (i + 1) = _ |- _ => rewrite G end. destruct Wt as [N Wt]. destruct (sa_arr n t) as [_ ->].
    apply IH; [assumption|assumption|lia].
  - destruct fuel as [|fuel]; [lia|]. cbn [gda].
    match goal with G : encS _ _ _ _ |- _ => inversion G; subst end.
    repeat match goal with G : zget st _ = _ |- _ => rewrite G end. destruct u; reflexivity.
Qed.

(** lookups *)
Definition hd_ofs (l : stk) : option Z := match l with (KOfs, o) :: _ => Some o | _ => None end.
Definition hit (c : Z) (k : kind) (v name : Z) (l : stk) : option Z :=
  if (c =? 1) && kind_eqb k KMember && (v =? name) then hd_ofs l else None.
Lemma lookup_cons k v l pos c name :
  lookup ((k, v) :: l) pos c name =
  let c := c + match k with KLp | KLc => 1 | KRp | KRc => -1 | _ => 0 end in
  match hit c k v name l with
  | Some o => Some (o, pos + 2)
  | None => if c =? 0 then None else lookup l (pos + 1) c name
  end.
Proof.
  cbn [lookup]. cbv zeta. unfold hit, hd_ofs. destruct l as [|[k' v'] l]; [destruct (_ && _ && _); reflexivity|].
  destruct (_ && _ && _); destruct k'; reflexivity.
Qed.
Lemma lookup_app (l r : stk) : forall pos c name x, lookup l pos c name = Some x -> lookup (l ++ r) pos c name = Some x.
Proof.
  induction l as [|[k v] l IH]; intros pos c name x H; [discriminate|].
  cbn [app]. rewrite lookup_cons in *. cbv zeta in *.
  destruct (hit _ k v name l) as [o|] eqn:T.
  - replace (hit _ k v name (l ++ r)) with (Some o); [exact H|]. rewrite <- T. unfold hit in *.
    destruct (_ && _ && _); [|discriminate]. destruct l as [|[k' v'] l]; [discriminate|]. reflexivity.
  - destruct (_ =? 0) eqn:C0; [discriminate|].
    replace (hit _ k v name (l ++ r)) with (@None Z); [apply IH, H|]. rewrite <- T. unfold hit in *.
    destruct (_ && _ && _); [|reflexivity]. destruct l as [|[k' v'] l]; [discriminate H|]. reflexivity.
Qed.
Lemma findMember_app (st r : stk) j name x : findMember st j name = Some x -> findMember (st ++ r) j name = Some x.
Proof.
  unfold findMember. intros H. rewrite skipn_app.
  apply lookup_app, H.
Qed.
Lemma scanM_app (l r : stk) : forall pos c x, scanM l pos c = Some x -> scanM (l ++ r) pos c = Some x.
Proof.
  induction l as [|[k v] l IH]; intros pos c x H; [discriminate|]. cbn [app scanM] in *. cbv zeta in *.
  destruct (_ && _).
  - destruct l as [|[k' v'] l]; [discriminate H|]. destruct k'; exact H.
  - destruct (_ =? 0); [exact H|]. apply IH, H.
Qed.
Lemma chain_app (st r : stk) p l : chain st p l -> chain (st ++ r) p l.
Proof.
  induction 1; econstructor; try eassumption; rewrite skipn_app; apply scanM_app; eassumption.
Qed.
Lemma zget_app_some {A} (l r : list A) i x : zget l i = Some x -> zget (l ++ r) i = Some x.
Proof. intros H. rewrite zget_app_l; [exact H|]. apply zget_Some_range in H. lia. Qed.

Lemma enc_app (st r : stk) t : forall i, enc st i t -> enc (st ++ r) i t.
Proof.
  induction t as [sc| |n t IH|u ms IH] using cty_ind'; intros i E; inversion E; subst.
  - econstructor. apply zget_app_some. eassumption.
  - econstructor. apply zget_app_some. eassumption.
  - econstructor; try (apply zget_app_some; eassumption). apply IH. assumption.
  - econstructor; [apply zget_app_some; eassumption|].
    match goal with G : encS _ _ _ _ |- _ => inversion G; subst end.
    econstructor; try (apply zget_app_some; eassumption); [assumption| | |apply chain_app; eassumption|assumption].
    + intros k m o N1 N2. match goal with G : forall k m o, _ -> nth_error (moffsets _ _ _) _ = _ -> _ |- _ => destruct (G k m o N1 N2) as (q & Q1 & Q2) end.
      exists q. split; [apply findMember_app; exact Q1|]. apply IH; [|exact Q2]. eapply nth_error_In. exact N1.
    + intros k m x N1 N2. apply IH; [eapply nth_error_In; exact N1|]. eauto.
Qed.
Lemma encS_app (st r : stk) j u ms : encS st j u ms -> encS (st ++ r) j u ms.
Proof.
  intros H. inversion H; subst. econstructor; try (apply zget_app_some; eassumption); [assumption| | |apply chain_app; eassumption|assumption].
  - intros k m o N1 N2. match goal with G : forall k m o, _ -> nth_error (moffsets _ _ _) _ = _ -> _ |- _ => destruct (G k m o N1 N2) as (q & Q1 & Q2) end.
    exists q. split; [apply findMember_app; exact Q1|]. apply enc_app. exact Q2.
  - intros k m x N1 N2. apply enc_app. eauto.
Qed.

(** completing the definition at [tp] changes no other type *)
Definition same (a b : kind * Z) : Prop := fst a = fst b /\ (fst a <> KSize -> snd a = snd b).
Lemma lookup_same l l' : Forall2 same l l' -> forall pos c name, lookup l pos c name = lookup l' pos c name.
Proof.
  induction 1 as [|[k v] [k' v'] l l' [E1 E2] F IH]; intros pos c name; [reflexivity|]. cbn [fst snd] in *. subst k'.
  rewrite !lookup_cons. cbv zeta. rewrite IH.
  unfold hit. replace (hd_ofs l') with (hd_ofs l).
  2: { unfold hd_ofs. destruct F as [|[k1 v1] [k2 v2] l1 l2 [G1 G2] F]; [reflexivity|]. cbn [fst snd] in *. subst k2.
       destruct k1; try reflexivity. rewrite G2 by discriminate. reflexivity. }
  destruct (kind_eqb k KMember) eqn:K; [|rewrite !andb_false_r; reflexivity].
  destruct k; try discriminate K. rewrite E2 by discriminate. reflexivity.
Qed.
Lemma hd_ofs_same l l' : Forall2 same l l' -> hd_ofs l = hd_ofs l'.
Proof.
  destruct 1 as [|[k1 v1] [k2 v2] l1 l2 [G1 G2] F]; [reflexivity|]. cbn [fst snd hd_ofs] in *. subst k2.
  destruct k1; try reflexivity. rewrite G2 by discriminate. reflexivity.
Qed.
Lemma scanM_cons k v l pos c :
  scanM ((k, v) :: l) pos c =
  let c := c + match k with KLp | KLc => 1 | KRp | KRc => -1 | _ => 0 end in
  if (c =? 1) && kind_eqb k KMember then match hd_ofs l with Some o => Some (Some (o, pos + 2)) | None => None end
  else if c =? 0 then Some None else scanM l (pos + 1) c.
Proof.
  cbn [scanM]. cbv zeta. unfold hd_ofs. destruct (_ && _); [|reflexivity]. destruct l as [|[k' v'] l]; [reflexivity|]. destruct k'; reflexivity.
Qed.
Lemma scanM_same l l' : Forall2 same l l' -> forall pos c, scanM l pos c = scanM l' pos c.
Proof.
  induction 1 as [|[k v] [k' v'] l l' [E1 E2] F IH]; intros pos c; [reflexivity|]. cbn [fst snd] in *. subst k'.
  rewrite !scanM_cons. cbv zeta. rewrite IH, (hd_ofs_same l l' F). reflexivity.
Qed.
Lemma same_skipn l l' n : Forall2 same l l' -> Forall2 same (skipn n l) (skipn n l').
Proof. intros F. revert n. induction F; intros [|n]; cbn [skipn]; auto using Forall2. Qed.
Lemma chain_same l l' p x : Forall2 same l l' -> chain l p x -> chain l' p x.
Proof.
  intros F. induction 1 as [p P H|p o q r P H C IH]; econstructor; try assumption;
  rewrite <- H; symmetry; apply scanM_same, same_skipn, F.
Qed.
Lemma same_refl l : Forall2 same l l.
Proof. induction l; constructor; [split; reflexivity|assumption]. Qed.
Lemma same_zget l l' i k v : Forall2 same l l' -> zget l i = Some (k, v) -> k <> KSize -> zget l' i = Some (k, v).
Proof.
  intros F. unfold zget. destruct (i <? 0); [discriminate|]. generalize (Z.to_nat i) as n.
  induction F as [|[k1 v1] [k2 v2] l l' [E1 E2] F IH]; intros [|n]; cbn [nth_error]; try discriminate.
  - intros E N. apply some_inj in E. apply pair_inj in E. destruct E; subst. cbn [fst snd] in *. subst. rewrite E2 by assumption. reflexivity.
  - apply IH.
Qed.

Definition hdr (u : bool) (tag s a : Z) : stk :=
  [(if u then KUnion else KStruct, 0); (KTag, tag); (KSize, s); (KSize, a); (KLc, 0)].
Lemma same_hdr (st : stk) u tag s a (body : stk) : Forall2 same (st ++ hdr u tag 0 1 ++ body) (st ++ hdr u tag s a ++ body).
Proof.
  apply Forall2_app; [apply same_refl|]. apply Forall2_app; [|apply same_refl].
  unfold hdr. repeat constructor; cbn; congruence.
Qed.
Lemma zget_hdr (st : stk) u tag s a (body : stk) i :
  zget (st ++ hdr u tag s a ++ body) (zlen st + i) =
  if (i <? 0) then zget st (zlen st + i) else
  if i =? 0 then Some (if u then KUnion else KStruct, 0) else
  if i =? 1 then Some (KTag, tag) else if i =? 2 then Some (KSize, s) else if i =? 3 then Some (KSize, a) else
  if i =? 4 then Some (KLc, 0) else zget body (i - 5).
Proof.
  destruct (i <? 0) eqn:I; [apply zget_app_l; lia|].
  rewrite zget_app_r by lia. replace (zlen st + i - zlen st) with i by lia.
  destruct (i =? 0) eqn:I0; [replace i with 0 by lia; reflexivity|].
  destruct (i =? 1) eqn:I1; [replace i with 1 by lia; reflexivity|].
  destruct (i =? 2) eqn:I2; [replace i with 2 by lia; reflexivity|].
  destruct (i =? 3) eqn:I3; [replace i with 3 by lia; reflexivity|].
  destruct (i =? 4) eqn:I4; [replace i with 4 by lia; reflexivity|].
  rewrite zget_app_r; [reflexivity|]. change (zlen (hdr u tag s a)) with 5. lia.
Qed.
Lemma patch (st : stk) u tag s a (body : stk) t : wfty t -> forall i,
  enc (st ++ hdr u tag 0 1 ++ body) i t -> enc (st ++ hdr u tag s a ++ body) i t.
Proof.
  pose proof (same_hdr st u tag s a body) as SM.
  induction t as [sc| |n t IH|u' ms IH] using cty_ind'; intros Wt i E; inversion E; subst.
  - econstructor. eapply same_zget; [exact SM|eassumption|]. unfold scalTok. destruct sc; try destruct (W =? 2); discriminate.
  - econstructor. eapply same_zget; [exact SM|eassumption|discriminate].
  - destruct Wt as [_ Wt]. econstructor; try (eapply same_zget; [exact SM|eassumption|discriminate]). apply IH; assumption.
  - econstructor; [eapply same_zget; [exact SM|eassumption|discriminate]|].
    match goal with G : encS _ _ _ _ |- _ => inversion G; subst end.
    pose proof (sizes _ Wt) as [S1 _]. apply wfty_agg in Wt. destruct Wt as [_ Wt].
    assert (NJ : j <> zlen st /\ j + 1 <> zlen st).
    { split; [intros -> |intros EQ].
      - match goal with G : zget _ (zlen st + 2) = _ |- _ =>
          pose proof (eq_trans (eq_sym (zget_hdr st u tag 0 1 body 2 : _ = Some (KSize, 0))) G) as X end.
        apply some_inj in X; apply pair_inj in X; destruct X as [_ X]; lia.
      - match goal with G : zget _ (j + 2) = _ |- _ => replace (j + 2) with (zlen st + 1) in G by lia;
          pose proof (eq_trans (eq_sym (zget_hdr st u tag 0 1 body 1 : _ = Some (KTag, tag))) G) as X end.
        discriminate X. }
    assert (NK : j <> zlen st + 1).
    { intros ->. match goal with G : zget _ (zlen st + 1) = Some (if u' then _ else _, _) |- _ =>
          pose proof (eq_trans (eq_sym (zget_hdr st u tag 0 1 body 1 : _ = Some (KTag, tag))) G) as X end.
      destruct u'; discriminate. }
    assert (KEEP : forall i v, zget (st ++ hdr u tag 0 1 ++ body) i = Some v -> i <> zlen st + 2 -> i <> zlen st + 3 ->
              zget (st ++ hdr u tag s a ++ body) i = Some v).
    { intros i0 v0 G N2 N3. replace i0 with (zlen st + (i0 - zlen st)) in * by lia. rewrite zget_hdr in *.
      replace (i0 - zlen st =? 2) with false in * by lia. replace (i0 - zlen st =? 3) with false in * by lia. exact G. }
    econstructor.
    + eapply same_zget; [exact SM|eassumption|destruct u'; discriminate].
    + eapply same_zget; [exact SM|eassumption|discriminate].
    + apply KEEP; [assumption| |]; lia.
    + apply KEEP; [assumption| |]; lia.
    + assumption.
    + intros k m o N1 N2. match goal with G : forall k m o, _ -> nth_error (moffsets _ _ _) _ = _ -> _ |- _ => destruct (G k m o N1 N2) as (q & Q1 & Q2) end.
      exists q. split.
      * rewrite <- Q1. unfold findMember. symmetry. apply lookup_same, same_skipn, SM.
      * pose proof (nth_error_In _ _ N1) as I. apply IH; [exact I|apply Wt, I|exact Q2].
    + intros k m x N1 N2. pose proof (nth_error_In _ _ N1) as I. apply IH; [exact I|apply Wt, I|]. eauto.
    + eapply chain_same; eassumption.
    + assumption.
Qed.
End P.
