(** The layers of a declarator; completing a declarator with its base type. *)
From Coq Require Import NArith.
From Verif Require Import Base BaseLemmas DeclSpec DeclModel DtorSpec DtorModel DtorRep DtorProof.
Ltac Zify.zify_post_hook ::= idtac.

Notation fpars := (option (list (option N * ty) * bool)).
Inductive layer := LPtr | LArr (n : option Z) | LFun (q : fpars).

Scheme dcr_mut := Induction for dcr Sort Prop
  with core_mut := Induction for core Sort Prop
  with sufs_mut := Induction for sufs Sort Prop
  with pars_mut := Induction for pars Sort Prop.
Combined Scheme dtor_mut from dcr_mut, core_mut, sufs_mut, pars_mut.

(** unfolding equations *)
Section Eq.
Variable W : Z.
Variable tenv : N -> option ty.
Lemma cost_d_eq s c ss : cost_d W tenv (Dc s c ss) = Z.of_nat s + cost_c W tenv c + cost_s W tenv ss.
Proof. reflexivity. Qed.
Lemma cost_c_name n : cost_c W tenv (CName n) = 1.
Proof. reflexivity. Qed.
Lemma cost_c_paren d : cost_c W tenv (CParen d) = cost_d W tenv d.
Proof. reflexivity. Qed.
Lemma cost_s_nil : cost_s W tenv SNil = 0.
Proof. reflexivity. Qed.
Lemma cost_s_arr n ss : cost_s W tenv (SArr n ss) = 4 + cost_s W tenv ss.
Proof. reflexivity. Qed.
Lemma cost_s_fun ps ss : cost_s W tenv (SFun ps ss) = 2 + cost_p W tenv ps + cost_s W tenv ss.
Proof. reflexivity. Qed.
Lemma cost_p_nil : cost_p W tenv PNil = 0.
Proof. reflexivity. Qed.
Lemma cost_p_last b d : cost_p W tenv (PLast b d) = 1 + cost_b W tenv b + cost_d W tenv d.
Proof. reflexivity. Qed.
Lemma cost_p_ell b d tr : cost_p W tenv (PEll b d tr) = 3 + cost_b W tenv b + cost_d W tenv d.
Proof. reflexivity. Qed.
Lemma cost_p_cons b d ps : cost_p W tenv (PCons b d ps) = 1 + cost_b W tenv b + cost_d W tenv d + cost_p W tenv ps.
Proof. reflexivity. Qed.
Lemma pr_d_eq s c ss : pr_d (Dc s c ss) = repeat TStar s ++ pr_c c ++ pr_s ss.
Proof. reflexivity. Qed.
Lemma pr_c_paren d : pr_c (CParen d) = TLp :: pr_d d ++ [TRp].
Proof. reflexivity. Qed.
Lemma pr_s_arr n ss : pr_s (SArr n ss) = TLb :: pr_dim n ++ TRb :: pr_s ss.
Proof. reflexivity. Qed.
Lemma pr_s_fun ps ss : pr_s (SFun ps ss) = TLp :: pr_p ps ++ TRp :: pr_s ss.
Proof. reflexivity. Qed.
Lemma pr_p_last b d : pr_p (PLast b d) = pr_base b ++ pr_d d.
Proof. reflexivity. Qed.
Lemma pr_p_ell b d tr : pr_p (PEll b d tr) = pr_base b ++ pr_d d ++ TComma :: TEll :: (if tr then [TComma] else []).
Proof. reflexivity. Qed.
Lemma pr_p_cons b d ps : pr_p (PCons b d ps) = pr_base b ++ pr_d d ++ TComma :: pr_p ps.
Proof. reflexivity. Qed.
Variable s : bool.
Lemma wf_d_eq n c ss : wf_d W tenv s (Dc n c ss) = wf_c W tenv s c && wf_s W tenv s ss.
Proof. reflexivity. Qed.
Lemma wf_c_paren d : wf_c W tenv s (CParen d) = wf_d W tenv s d && inner_ok W tenv (pr_d d).
Proof. reflexivity. Qed.
Lemma wf_s_arr n ss : wf_s W tenv s (SArr n ss) = wf_s W tenv s ss.
Proof. reflexivity. Qed.
Lemma wf_s_fun ps ss : wf_s W tenv s (SFun ps ss) = wf_p W tenv s ps && wf_s W tenv s ss.
Proof. reflexivity. Qed.
Lemma wf_p_last b d : wf_p W tenv s (PLast b d) = wf_b W tenv b && wf_d W tenv s d.
Proof. reflexivity. Qed.
Lemma wf_p_ell b d tr : wf_p W tenv s (PEll b d tr) = wf_b W tenv b && wf_d W tenv s d && (if s then negb tr else true).
Proof. reflexivity. Qed.
Lemma wf_p_cons b d ps : wf_p W tenv s (PCons b d ps) =
  wf_b W tenv b && wf_d W tenv s d && wf_p W tenv s ps && (if s then match ps with PNil => false | _ => true end else true).
Proof. reflexivity. Qed.
Lemma mean_p_last b d : mean_p W tenv s (PLast b d) =
  match base_ty W tenv b with
  | Some t => match mean_d W tenv s d t with Some p => Some ([p], false) | None => None end
  | None => None
  end.
Proof. reflexivity. Qed.
Lemma mean_p_ell b d tr : mean_p W tenv s (PEll b d tr) =
  match base_ty W tenv b with
  | Some t => match mean_d W tenv s d t with Some p => Some ([p], true) | None => None end
  | None => None
  end.
Proof. reflexivity. Qed.
Lemma mean_p_cons b d ps : mean_p W tenv s (PCons b d ps) =
  match base_ty W tenv b with
  | Some t => match mean_d W tenv s d t, mean_p W tenv s ps with Some p, Some (l, e) => Some (p :: l, e) | _, _ => None end
  | None => None
  end.
Proof. reflexivity. Qed.
End Eq.
Ltac ce := rewrite ?cost_d_eq, ?cost_c_name, ?cost_c_paren, ?cost_s_nil, ?cost_s_arr, ?cost_s_fun,
  ?cost_p_nil, ?cost_p_last, ?cost_p_ell, ?cost_p_cons in *.

(** induction on types *)
Lemma ty_ind2 (P : ty -> Prop) :
  (forall s, P (YSc s)) -> (forall j, P (YStr j)) -> (forall t, P t -> P (YPtr t)) ->
  (forall n t, P t -> P (YArr n t)) ->
  (forall t, P t -> P (YFun None t)) ->
  (forall l e t, Forall (fun p => P (snd p)) l -> P t -> P (YFun (Some (l, e)) t)) ->
  forall t, P t.
Proof.
  intros H1 H2 H3 H4 H5 H6.
  fix F 1. intros [s|j|t|n t|[[l e]|] t].
  - apply H1.
  - apply H2.
  - apply H3, F.
  - apply H4, F.
  - apply H6; [|apply F].
    induction l as [|p l IH]; constructor; [apply F|apply IH].
  - apply H5, F.
Qed.

Section L.
Variable W : Z.
Variable tenv : N -> option ty.

Definition app1 (l : layer) (t : ty) : ty :=
  match l with LPtr => YPtr t | LArr n => YArr n t | LFun q => YFun q t end.
Definition apps (L : list layer) (t : ty) : ty := fold_right app1 t L.
Definition elem1 (t : ty) : bool := match t with YFun _ _ | YSc SVoid => false | _ => true end.
Definition ok1 (l : layer) (t : ty) : bool :=
  match l with LPtr => true | LArr _ => elem1 t | LFun _ => ret_ok t end.
Fixpoint chk (L : list layer) (t : ty) : bool :=
  match L with [] => true | l :: L => ok1 l (apps L t) && chk L t end.
Definition tint := YSc SInt.
Definition lastok (L : list layer) (t : ty) : bool :=
  match rev L with [] => true | l :: _ => ok1 l t end.

Lemma apps_app L1 L2 t : apps (L1 ++ L2) t = apps L1 (apps L2 t).
Proof. unfold apps. apply fold_right_app. Qed.
Lemma chk_app L1 L2 t : chk (L1 ++ L2) t = chk L1 (apps L2 t) && chk L2 t.
Proof.
  induction L1 as [|l L1 IH]; cbn [app chk]; [reflexivity|]. rewrite IH, apps_app. apply andb_assoc.
Qed.
Lemma apps_stars n t : apps (repeat LPtr n) t = Nat.iter n YPtr t.
Proof. induction n; [reflexivity|]. change (YPtr (apps (repeat LPtr n) t) = YPtr (Nat.iter n YPtr t)). now rewrite IHn. Qed.
Lemma chk_stars n t : chk (repeat LPtr n) t = true.
Proof. induction n; cbn; auto. Qed.
Lemma lastok_snoc L l t : lastok (L ++ [l]) t = ok1 l t.
Proof. unfold lastok. now rewrite rev_app_distr. Qed.
Lemma ok1_head l l' t t' : ok1 l (app1 l' t) = ok1 l (app1 l' t').
Proof. destruct l, l'; reflexivity. Qed.
Lemma chk_last L t : chk L t = chk L tint && lastok L t.
Proof.
  induction L as [|l L IH] using rev_ind; [reflexivity|].
  rewrite !chk_app, lastok_snoc. cbn [chk apps fold_right]. rewrite !andb_true_r.
  assert (E : chk L (app1 l t) = chk L (app1 l tint)).
  { clear. induction L as [|l' L IH]; [reflexivity|]. cbn [chk]. rewrite IH. f_equal.
    destruct L as [|l'' L]; cbn [apps fold_right]; apply ok1_head. }
  cbn [app1] in E. rewrite E.
  assert (X : ok1 l tint = true) by (destruct l; reflexivity). rewrite X, andb_true_r. reflexivity.
Qed.

(** layers of the parts of a declarator; the parameters of functions are those of C *)
Fixpoint lay_s (ss : sufs) : option (list layer) :=
  match ss with
  | SNil => Some []
  | SArr n ss' =>
      if dim_ok n && negb (open_first ss') then
        match lay_s ss' with Some L => Some (LArr n :: L) | None => None end
      else None
  | SFun ps ss' =>
      match mean_p W tenv false ps with
      | Some (l, e) =>
          match fun_params ps l e, lay_s ss' with
          | Some q, Some L => Some (LFun q :: L)
          | _, _ => None
          end
      | None => None
      end
  end.
Fixpoint lay_d (d : dcr) : option (option N * list layer) :=
  match d with
  | Dc s c ss =>
      match lay_c c, lay_s ss with
      | Some (n, L0), Some L1 =>
          let L := L0 ++ L1 ++ repeat LPtr s in
          if chk L tint then Some (n, L) else None
      | _, _ => None
      end
  end
with lay_c (c : core) : option (option N * list layer) :=
  match c with CName n => Some (n, []) | CParen d => lay_d d end.

Lemma lay_d_eq s c ss : lay_d (Dc s c ss) =
  match lay_c c, lay_s ss with
  | Some (n, L0), Some L1 =>
      if chk (L0 ++ L1 ++ repeat LPtr s) tint then Some (n, L0 ++ L1 ++ repeat LPtr s) else None
  | _, _ => None
  end.
Proof. reflexivity. Qed.
Lemma lay_c_paren d : lay_c (CParen d) = lay_d d.
Proof. reflexivity. Qed.
Lemma mean_s_fun b ps ss t : mean_s W tenv b (SFun ps ss) t =
  match mean_s W tenv b ss t, mean_p W tenv b ps with
  | Some t', Some (l, e) =>
      match fun_params ps l e with Some q => if ret_ok t' then Some (YFun q t') else None | None => None end
  | _, _ => None
  end.
Proof. reflexivity. Qed.
Lemma mean_s_arr b n ss t : mean_s W tenv b (SArr n ss) t =
  match mean_s W tenv b ss t with
  | Some t' => if dim_ok n && elem_ok b (open_first ss) t' then Some (YArr n t') else None
  | None => None
  end.
Proof. reflexivity. Qed.
Lemma mean_d_eq b s c ss t : mean_d W tenv b (Dc s c ss) t =
  match mean_s W tenv b ss (Nat.iter s YPtr t) with Some t' => mean_c W tenv b c t' | None => None end.
Proof. reflexivity. Qed.
Lemma mean_c_paren b d t : mean_c W tenv b (CParen d) t = mean_d W tenv b d t.
Proof. reflexivity. Qed.
Lemma lay_s_mean ss : forall t,
  mean_s W tenv false ss t =
  match lay_s ss with Some L => if chk L t then Some (apps L t) else None | None => None end.
Proof.
  induction ss as [|n ss IH|ps ss IH]; intros t; [reflexivity| |]; cbn [lay_s].
  - rewrite mean_s_arr, IH. destruct (lay_s ss) as [L|] eqn:EL.
    + destruct (chk L t) eqn:EC.
      * destruct (dim_ok n); cbn [andb]; [|reflexivity].
        destruct (open_first ss) eqn:EO; cbn [negb].
        -- destruct ss as [|[m|] ss|]; try discriminate. cbn [lay_s] in EL.
           destruct (dim_ok None && negb (open_first ss)); [|discriminate].
           destruct (lay_s ss); [|discriminate]. injection EL as <-. reflexivity.
        -- cbn [chk ok1]. rewrite EC, andb_true_r. cbn [apps fold_right app1].
           change (fold_right app1 t L) with (apps L t).
           assert (X : elem_ok false false (apps L t) = elem1 (apps L t)) by (destruct (apps L t) as [[]| |[]| |]; try reflexivity; destruct n0; reflexivity).
           rewrite X. reflexivity.
      * destruct (dim_ok n && negb (open_first ss)); [|reflexivity]. cbn [chk]. now rewrite EC, andb_false_r.
    + destruct (dim_ok n && negb (open_first ss)); reflexivity.
  - rewrite mean_s_fun, IH. destruct (mean_p W tenv false ps) as [[l e]|].
    + destruct (fun_params ps l e) as [q|]; destruct (lay_s ss) as [L|]; try reflexivity.
      * cbn [chk ok1]. destruct (chk L t); [|now rewrite andb_false_r]. rewrite andb_true_r. reflexivity.
      * destruct (chk L t); reflexivity.
    + destruct (lay_s ss) as [L|]; [destruct (chk L t)|]; reflexivity.
Qed.

Lemma lay_mean :
  (forall d t, mean_d W tenv false d t =
     match lay_d d with Some (n, L) => if chk L t then Some (n, apps L t) else None | None => None end) /\
  (forall c t, mean_c W tenv false c t =
     match lay_c c with Some (n, L) => if chk L t then Some (n, apps L t) else None | None => None end) /\
  (forall ss : sufs, True) /\ (forall ps : pars, True).
Proof.
  apply dtor_mut; try (intros; exact I).
  - intros s c IH ss _ t. cbn [lay_d]. rewrite mean_d_eq, lay_s_mean, <- apps_stars.
    destruct (lay_s ss) as [L1|].
    + destruct (chk L1 (apps (repeat LPtr s) t)) eqn:E1.
      * rewrite IH. destruct (lay_c c) as [[n L0]|]; [|reflexivity].
        cbv zeta.
        destruct (chk (L0 ++ L1 ++ repeat LPtr s) tint) eqn:E2.
        -- rewrite (chk_app L0 (L1 ++ _) t), (chk_app L1 _ t), E1, chk_stars, !apps_app, !andb_true_r. reflexivity.
        -- assert (X : chk (L0 ++ L1 ++ repeat LPtr s) t = false) by (rewrite chk_last, E2; reflexivity).
           rewrite chk_app, (chk_app L1), E1, chk_stars, apps_app, !andb_true_r in X. rewrite X. reflexivity.
      * destruct (lay_c c) as [[n L0]|]; [|reflexivity]. cbv zeta.
        destruct (chk (L0 ++ L1 ++ repeat LPtr s) tint); [|reflexivity].
        now rewrite (chk_app L0 (L1 ++ _) t), (chk_app L1 _ t), E1, andb_false_r.
    + destruct (lay_c c) as [[n L0]|]; reflexivity.
  - intros n t. reflexivity.
  - intros d IH t. cbn [lay_c]. rewrite mean_c_paren. apply IH.
Qed.
Lemma lay_d_chk d n L : lay_d d = Some (n, L) -> chk L tint = true.
Proof.
  destruct d as [s c ss]. cbn [lay_d]. destruct (lay_c c) as [[m L0]|]; [|discriminate].
  destruct (lay_s ss); [|discriminate]. cbv zeta. destruct (chk _ tint) eqn:E; [|discriminate]. congruence.
Qed.
Lemma lay_d_mean d t : mean_d W tenv false d t =
  match lay_d d with Some (n, L) => if lastok L t then Some (n, apps L t) else None | None => None end.
Proof.
  rewrite (proj1 lay_mean). destruct (lay_d d) as [[n L]|] eqn:E; [|reflexivity].
  rewrite chk_last, (lay_d_chk _ _ _ E). reflexivity.
Qed.

(* ---------------------------------------------------------------- their representation *)
Definition encq (q : fpars) : stk :=
  match q with
  | None => []
  | Some ([], false) => [(KIdent, -1); (KVoid, 0)]
  | Some (l, e) =>
      flat_map (fun p => (KIdent, nm (fst p)) :: enc W (snd p)) l ++
      (if e then [(KIdent, -1); (KEllipsis, 0)] else [])
  end.
Definition enc1 (l : layer) : stk :=
  match l with
  | LPtr => [(KStar, 0)]
  | LArr n => [(KLb, 0); (KNum, match n with Some n => n | None => 0 end); (KRb, 0)]
  | LFun q => (KLp, 0) :: encq q ++ [(KRp, 0)]
  end.
Definition encL (L : list layer) : stk := flat_map enc1 L.
Lemma encL_app L1 L2 : encL (L1 ++ L2) = encL L1 ++ encL L2.
Proof. apply flat_map_app. Qed.
Lemma enc_fun q t : enc W (YFun q t) = (KLp, 0) :: encq q ++ (KRp, 0) :: enc W t.
Proof. destruct q as [[[|p l] []]|]; reflexivity. Qed.
Lemma enc_app1 l t : enc W (app1 l t) = enc1 l ++ enc W t.
Proof. destruct l; [reflexivity|reflexivity|]. cbn [app1]. rewrite enc_fun. cbn [enc1 app]. now rewrite <- app_assoc. Qed.
Lemma enc_apps L t : enc W (apps L t) = encL L ++ enc W t.
Proof.
  induction L as [|l L IH]; [reflexivity|]. cbn [apps fold_right]. rewrite enc_app1.
  change (fold_right app1 t L) with (apps L t). rewrite IH. cbn [encL flat_map]. now rewrite app_assoc.
Qed.

(** the last kind pushed *)
Definition kindL (L : list layer) : kind :=
  match rev L with [] => KIdent | LPtr :: _ => KStar | LArr _ :: _ => KRb | LFun _ :: _ => KRp end.
Lemma topk_snoc st k v : topk (st ++ [(k, v)]) = Some k.
Proof.
  unfold topk. rewrite zlen_app, zlen_cons, zlen_nil.
  rewrite zget_app_r by lia. replace (zlen st + (1 + 0) - 1 - zlen st) with 0 by lia. reflexivity.
Qed.
Lemma topk_L st n L : topk (st ++ (KIdent, n) :: encL L) = Some (kindL L).
Proof.
  destruct L as [|l L] using rev_ind.
  - apply topk_snoc.
  - unfold kindL. rewrite rev_app_distr. cbn [rev app]. rewrite encL_app. cbn [encL flat_map]. rewrite app_nil_r.
    destruct l; cbn [enc1].
    + change ((KIdent, n) :: encL L ++ [(KStar, 0)]) with (((KIdent, n) :: encL L) ++ [(KStar, 0)]).
      rewrite app_assoc. apply topk_snoc.
    + replace (st ++ (KIdent, n) :: encL L ++ [(KLb, 0); (KNum, match n0 with Some n1 => n1 | None => 0 end); (KRb, 0)])
        with ((st ++ (KIdent, n) :: encL L ++ [(KLb, 0); (KNum, match n0 with Some n1 => n1 | None => 0 end)]) ++ [(KRb, 0)])
        by (rewrite <- !app_assoc; cbn; rewrite <- !app_assoc; reflexivity).
      apply topk_snoc.
    + replace (st ++ (KIdent, n) :: encL L ++ (KLp, 0) :: encq q ++ [(KRp, 0)])
        with ((st ++ (KIdent, n) :: encL L ++ (KLp, 0) :: encq q) ++ [(KRp, 0)])
        by (rewrite <- !app_assoc; cbn; rewrite <- !app_assoc; reflexivity).
      apply topk_snoc.
Qed.

(** the first kind of a type, and the last *)
Definition headk (t : ty) : kind :=
  match t with YSc s => scalTok W s | YStr _ => KStructPtr | YPtr _ => KStar | YArr _ _ => KLb | YFun _ _ => KLp end.
Lemma enc_head t : exists v r, enc W t = (headk t, v) :: r.
Proof. destruct t; cbn [headk]; [| | | |rewrite enc_fun]; cbn; eauto. Qed.
Lemma scalTok_scalar s : isScalar (scalTok W s) = true /\ level (scalTok W s) = 0 /\ (scalTok W s = KVoid <-> s = SVoid)
  /\ scalTok W s <> KLp /\ scalTok W s <> KLb.
Proof. destruct s; cbn; try destruct (W =? 2); repeat split; intros; congruence || reflexivity. Qed.
Fixpoint basek (t : ty) : kind :=
  match t with YSc s => scalTok W s | YStr _ => KStructPtr | YPtr t | YArr _ t | YFun _ t => basek t end.
Lemma enc_last t : (exists v, enc W t = [(basek t, v)] /\ headk t = basek t) \/
  (exists l k v w, enc W t = l ++ [(k, w); (basek t, v)] /\ (k = KStar \/ k = KRb \/ k = KRp)).
Proof.
  induction t as [s|j|t IH|n t IH|t IH|l e t _ IH] using ty_ind2.
  - left. cbn. eauto.
  - left. cbn. eauto.
  - right. cbn [enc basek]. destruct IH as [(v & E & _)|(l & k & v & w & E & K)]; rewrite E.
    + exists [], KStar, v, 0. split; [reflexivity|auto].
    + exists ((KStar, 0) :: l), k, v, w. split; [reflexivity|auto].
  - right. cbn [enc basek]. destruct IH as [(v & E & _)|(l & k & v & w & E & K)]; rewrite E.
    + exists [(KLb, 0); (KNum, match n with Some n => n | None => 0 end)], KRb, v, 0. split; [reflexivity|auto].
    + exists ([(KLb, 0); (KNum, match n with Some n => n | None => 0 end); (KRb, 0)] ++ l), k, v, w. split; [reflexivity|auto].
  - right. cbn [enc basek]. destruct IH as [(v & E & _)|(l & k & v & w & E & K)]; rewrite E.
    + exists [(KLp, 0)], KRp, v, 0. split; [reflexivity|auto].
    + exists ((KLp, 0) :: (KRp, 0) :: l), k, v, w. split; [reflexivity|auto].
  - right. rewrite enc_fun. cbn [basek]. destruct IH as [(v & E & _)|(l' & k & v & w & E & K)]; rewrite E.
    + exists ((KLp, 0) :: encq (Some (l, e))), KRp, v, 0. split; [reflexivity|auto].
    + exists ((KLp, 0) :: encq (Some (l, e)) ++ (KRp, 0) :: l'), k, v, w. split; [|auto].
      cbn. now rewrite <- app_assoc.
Qed.
Lemma topk_enc st t : topk (st ++ enc W t) = Some (basek t).
Proof.
  destruct (enc_last t) as [(v & E & _)|(l & k & v & w & E & _)]; rewrite E.
  - apply topk_snoc.
  - replace (st ++ l ++ [(k, w); (basek t, v)]) with ((st ++ l ++ [(k, w)]) ++ [(basek t, v)])
      by (rewrite <- !app_assoc; reflexivity).
    apply topk_snoc.
Qed.
Lemma basek_scalar t : isScalar (basek t) = true.
Proof. induction t using ty_ind2; cbn; auto. apply scalTok_scalar. Qed.
Lemma zget_snoc2 {A} (st : list A) x y : zget (st ++ [x; y]) (zlen (st ++ [x; y]) - 2) = Some x.
Proof.
  rewrite zlen_app, !zlen_cons, zlen_nil, zget_app_r by lia.
  replace (zlen st + (1 + (1 + 0)) - 2 - zlen st) with 0 by lia. reflexivity.
Qed.
(** is the last parameter void? *)
Lemma void_enc st n t cnt lst : voidParam (st ++ (KIdent, n) :: enc W t) cnt lst =
  is_void t && negb ((n =? -1) && (cnt =? 1) && lst).
Proof.
  unfold voidParam.
  change (st ++ (KIdent, n) :: enc W t) with (st ++ [(KIdent, n)] ++ enc W t).
  rewrite app_assoc, topk_enc.
  destruct (enc_last t) as [(v & E & EH)|(l & k & v & w & E & K)].
  - rewrite E. rewrite <- app_assoc. cbn [app]. rewrite zget_snoc2.
    destruct t as [s|j|t|m t|q t]; cbn [basek is_void] in *.
    + destruct s; cbn; try destruct (W =? 2); reflexivity.
    + reflexivity.
    + cbn [headk] in EH. pose proof (basek_scalar t) as X. rewrite <- EH in X. discriminate.
    + cbn [headk] in EH. pose proof (basek_scalar t) as X. rewrite <- EH in X. discriminate.
    + cbn [headk] in EH. pose proof (basek_scalar t) as X. rewrite <- EH in X. discriminate.
  - assert (V : is_void t = false).
    { destruct t as [[]| | | |]; try reflexivity. cbn in E. apply (f_equal (@length _)) in E. rewrite app_length in E. cbn in E. lia. }
    rewrite V, E.
    replace ((st ++ [(KIdent, n)]) ++ l ++ [(k, w); (basek t, v)]) with ((st ++ [(KIdent, n)] ++ l) ++ [(k, w); (basek t, v)])
      by (rewrite <- !app_assoc; reflexivity).
    rewrite zget_snoc2. destruct (basek t); try reflexivity. destruct K as [->|[->| ->]]; reflexivity.
Qed.
End L.
