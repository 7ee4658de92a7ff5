(** The code of a whole expression. *)
From Verif Require Import Base BaseLemmas X86 ExprSpec CgModel CgTree CgFuse MipsModel MipsSpec MipsCode MipsPrep MipsEmit MipsEmit2.
Ltac Zify.zify_post_hook ::= idtac.

(** *** Nesting of calls *)
Lemma mcd_app a b d mx : max_call_depth (a ++ b) d mx =
  max_call_depth b (d + zlen (filter (fun t => match t with MT (TLParen _) => true | _ => false end) a)
                      - zlen (filter (fun t => match t with MT (TRParen _) => true | _ => false end) a)) (max_call_depth a d mx).
Proof.
  revert d mx. induction a as [|t a IH]; intros d mx; [cbn [app filter max_call_depth]; change (zlen []) with 0; f_equal; lia|].
  destruct t as [[]| | | |]; cbn [app filter max_call_depth]; rewrite IH; rewrite ?zlen_cons; f_equal; lia.
Qed.

Definition mc (ts : list mtok) (k : Z) : Prop :=
  forall rest d mx, 0 <= d <= mx -> max_call_depth (ts ++ rest) d mx = max_call_depth rest d (Z.max mx (d + k)).
Lemma mc_nil : mc [] 0.
Proof. intros rest d mx H. cbn [app]. f_equal. lia. Qed.
Lemma mc_app a b j k : 0 <= j -> mc a j -> mc b k -> mc (a ++ b) (Z.max j k).
Proof. intros Hj Ha Hb rest d mx H. rewrite <- app_assoc, Ha by assumption. rewrite Hb by lia. f_equal. lia. Qed.
Lemma mc_tok t : match t with MT (TLParen _) | MT (TRParen _) => False | _ => True end -> mc [t] 0.
Proof. intros Ht rest d mx H. replace (Z.max mx (d + 0)) with mx by lia. destruct t as [[]| | | |]; try contradiction; reflexivity. Qed.
Lemma mc_snoc a t j : 0 <= j -> mc a j -> match t with MT (TLParen _) | MT (TRParen _) => False | _ => True end -> mc (a ++ [t]) j.
Proof. intros Hj Ha Ht. replace j with (Z.max j 0) by lia. apply mc_app; auto. now apply mc_tok. Qed.
Lemma mc_cons b t j : 0 <= j -> mc b j -> match t with MT (TLParen _) | MT (TRParen _) => False | _ => True end -> mc (t :: b) j.
Proof. intros Hj Hb Ht. replace j with (Z.max 0 j) by lia. change (t :: b) with ([t] ++ b). apply mc_app; [lia|now apply mc_tok|auto]. Qed.
Lemma mc_paren v w b j : 0 <= j -> mc b j -> mc (MT (TLParen v) :: b ++ [MT (TRParen w)]) (1 + j).
Proof.
  intros Hj Hb rest d mx H. cbn [app max_call_depth]. rewrite <- app_assoc, Hb by lia. cbn [app max_call_depth].
  replace (d + 1 - 1) with d by lia. f_equal. lia.
Qed.

Lemma mc_P e : wf 4 e -> mc (P e) (cdepth e).
Proof.
  assert (Hb : forall t a b, wf 4 a -> wf 4 b -> mc (P a) (cdepth a) -> mc (P b) (cdepth b) -> match t with TArith _ _ | TCmp _ _ => True | _ => False end ->
    mc (match bconst t a b with Some (sw, k, t') => (if sw then P b else P a) ++ [MT (TNum k); MT t'] | None => P a ++ P b ++ [MT t] end) (Z.max (cdepth a) (cdepth b))).
  { intros t a b Ha Hb Ma Mb Ht. pose proof (cdepth_nonneg a). pose proof (cdepth_nonneg b).
    destruct (bconst t a b) as [[[sw k] t']|] eqn:E.
    - destruct (bconst_kind _ _ _ _ _ _ Ht E) as [Ht' Hx]. change [MT (TNum k); MT t'] with ([MT (TNum k)] ++ [MT t']). rewrite app_assoc.
      apply mc_snoc; [lia| |destruct t'; auto; contradiction]. apply mc_snoc; [lia| |exact Logic.I].
      destruct sw; destruct Hx as (u & j & ->); cbn [cdepth]; [rewrite Z.max_r by lia|rewrite Z.max_l by lia]; assumption.
    - rewrite app_assoc. apply mc_snoc; [lia|now apply mc_app|destruct t; auto; contradiction]. }
  assert (Hp : forall e p, pl e = Some p -> cdepth e = 0) by (intros e0 p; destruct e0; try discriminate; reflexivity).
  assert (Ht : forall e p, pl e = Some p -> match rev_tok p with MT (TLParen _) | MT (TRParen _) => False | _ => True end) by (intros e0 p _; destruct p; exact Logic.I).
  induction e using ex_ind2; cbn [wf P cdepth]; intros Hw; try contradiction;
    try (apply mc_tok; exact Logic.I).
  - destruct Hw as [_ Hw]. apply mc_snoc; auto using cdepth_nonneg.
  - destruct Hw as [_ Hw]. apply mc_snoc; auto using cdepth_nonneg. now destruct i.
  - destruct Hw as [_ Hw]. apply mc_snoc; auto using cdepth_nonneg. now destruct i.
  - destruct Hw as [_ Hw]. change [MT (TNum n); MT (if i then TPostAdd sz else TPostSub sz)] with ([MT (TNum n)] ++ [MT (if i then TPostAdd sz else TPostSub sz)]).
    rewrite app_assoc. apply mc_snoc; [apply cdepth_nonneg|apply mc_snoc; auto using cdepth_nonneg|now destruct i].
  - destruct Hw as [_ Hw]. apply mc_snoc; auto using cdepth_nonneg.
  - destruct Hw as [Hw1 Hw2]. apply Hb; auto.
  - destruct Hw as [Hw1 Hw2]. apply Hb; auto.
  - destruct Hw as (_ & Hw1 & Hw2). pose proof (cdepth_nonneg e1). pose proof (cdepth_nonneg e2). destruct (pl e1) as [p|] eqn:Ep.
    + rewrite (Hp _ _ Ep). rewrite Z.max_r by lia. change [rev_tok p; MT (TAssign sz)] with ([rev_tok p] ++ [MT (TAssign sz)]).
      rewrite app_assoc. apply mc_snoc; [lia|apply mc_snoc; auto; exact (Ht _ _ Ep)|exact Logic.I].
    + rewrite app_assoc. apply mc_snoc; [lia|apply mc_app; auto|exact Logic.I].
  - destruct Hw as (_ & Hw1 & Hw2). pose proof (cdepth_nonneg e1). pose proof (cdepth_nonneg e2). cbv zeta.
    assert (Mr : mc (match anum (tok_arith o) e2 with Some k => [MT (TNum k)] | None => P e2 end) (cdepth e2)).
    { destruct (anum (tok_arith o) e2) eqn:Ea; [|auto]. destruct e2; try discriminate Ea. apply mc_tok. exact Logic.I. }
    destruct (pl e1) as [p|] eqn:Ep.
    + rewrite (Hp _ _ Ep). rewrite Z.max_r by lia. set (t := MT (TAssignOp _ _)). change [rev_tok p; t] with ([rev_tok p] ++ [t]).
      rewrite app_assoc. apply mc_snoc; [lia|apply mc_snoc; auto; exact (Ht _ _ Ep)|exact Logic.I].
    + rewrite app_assoc. apply mc_snoc; [lia|apply mc_app; auto|exact Logic.I].
  - destruct Hw as (Hw1 & Hw2). pose proof (cdepth_nonneg e1). pose proof (cdepth_nonneg e2). rewrite app_assoc. apply mc_snoc; [lia|apply mc_app; auto|exact Logic.I].
  - destruct Hw as (_ & _ & _ & Hw1 & Hw2). pose proof (cdepth_nonneg e1). pose proof (cdepth_nonneg e2).
    apply mc_app; auto. apply mc_cons; auto. apply mc_snoc; auto.
  - destruct Hw as (_ & _ & _ & Hw1 & Hw2). pose proof (cdepth_nonneg e1). pose proof (cdepth_nonneg e2).
    apply mc_app; auto. apply mc_cons; auto. apply mc_snoc; auto.
  - destruct Hw as (_ & Hw1 & Hw2 & Hw3). pose proof (cdepth_nonneg e1). pose proof (cdepth_nonneg e2). pose proof (cdepth_nonneg e3).
    rewrite (Z.max_comm (cdepth e2)).
    apply mc_app; auto. apply mc_cons; [lia| |exact Logic.I]. apply mc_app; auto. apply mc_cons; auto. apply mc_cons; auto. apply mc_snoc; auto.
  - destruct Hw as [Hw1 Hw2]. fold (P_args args). fold (cdepth_args args).
    change ((fix go (l : list ex) : list mtok := match l with [] => [] | a :: l0 => go l0 ++ P a ++ [MT TArgSep] end) args) with (P_args args).
    change ((fix go (l : list ex) : Z := match l with [] => 0 | a :: l0 => Z.max (go l0) (cdepth a) end) args) with (cdepth_args args).
    assert (Q : mc (P_args args) (cdepth_args args) /\ 0 <= cdepth_args args).
    { clear IHe Hw1. induction args as [|a l IH]; [split; [apply mc_nil|cbn; lia]|].
      inversion H; subst. destruct Hw2 as [Hwa Hwl]. destruct (IH H3 Hwl) as [IH1 IH2]. rewrite P_args_cons.
      change (cdepth_args (a :: l)) with (Z.max (cdepth_args l) (cdepth a)). pose proof (cdepth_nonneg a). split; [|lia].
      apply mc_app; auto. apply mc_snoc; auto. }
    destruct Q as [Q1 Q2]. pose proof (cdepth_nonneg e). rewrite app_assoc. apply mc_paren; [lia|].
    rewrite Z.max_comm. apply mc_app; auto.
Qed.

(** *** The loop *)
Lemma em_loop mcd pre mid post g c g' fuel :
  em mcd pre mid post g c g' -> (length mid <= fuel)%nat ->
  gen_loop mcd fuel (pre ++ mid ++ post) (zlen pre) g =
  let? r := gen_loop mcd (fuel - length mid) (pre ++ mid ++ post) (zlen pre + zlen mid) g' in Some (c ++ r).
Proof.
  intros H. revert fuel. induction H as [pre post g|pre t mid post g c g1 c' g2 Hs H IH]; intros fuel Hf.
  - cbn [app length]. change (zlen []) with 0. rewrite Z.add_0_r, Nat.sub_0_r. destruct (gen_loop _ _ _ _ _); reflexivity.
  - cbn [length] in Hf. destruct fuel; [lia|]. cbn [gen_loop].
    replace (zlen pre >=? zlen (pre ++ (t :: mid) ++ post)) with false
      by (symmetry; rewrite !zlen_app, zlen_cons; pose proof (zlen_nonneg mid); pose proof (zlen_nonneg post); lia).
    cbn [app]. rewrite Hs. cbn [obind]. replace (pre ++ t :: mid ++ post) with ((pre ++ [t]) ++ mid ++ post) by now las.
    replace (zlen pre + 1) with (zlen (pre ++ [t])) by (zl; lia). rewrite IH by lia.
    replace (zlen (pre ++ [t]) + zlen mid) with (zlen pre + zlen (t :: mid)) by (zl; lia). cbn [Nat.sub length].
    destruct (gen_loop mcd (fuel - length mid) ((pre ++ [t]) ++ mid ++ post) (zlen pre + zlen (t :: mid)) g2); cbn [obind]; [now rewrite app_assoc|reflexivity].
Qed.
Lemma em_whole mcd s g c g' : em mcd [] s [] g c g' -> wr g' = rV0 -> gen_loop mcd (length s) s 0 g = Some c.
Proof.
  intros H Hw. pose proof (em_loop mcd [] s [] g c g' (length s) H (le_n _)) as E. cbn [app] in E. rewrite app_nil_r in E.
  change (zlen []) with 0 in E. rewrite E. rewrite Nat.sub_diag. cbn [gen_loop].
  replace (0 + zlen s >=? zlen s) with true by lia. rewrite Hw. cbn [Z.eqb rV0 Pos.eqb obind]. now rewrite app_nil_r.
Qed.

(** *** Conditions *)
Definition br_code (c : cond) (constness k w L R : Z) (yes : bool) (lab : Z) : list mins :=
  let '(op, uns) := cmp_op c in
  let special := (op <? 4) && (constness =? 0) && uns in
  let op := if special && (op =? 2) then 5 else op in
  let constness := if special && negb (op =? 5) then 1 else constness in
  concat (map (fun b => gen_blk b (if uns then Msltu else Mslt) yes k w L R lab) (cmp_blocks op true constness)).
Definition jmp (yes : bool) (lab : Z) : list mins := [Mbr (negb yes) rV0 0 lab].
Definition Cbin (mcd : Z) (t : tok) (l r : ex) (yes : bool) (lab : Z) : list mins :=
  match bconst t l r with
  | Some (sw, k, t) =>
      (if sw then C mcd r rV0 0 else C mcd l rV0 0) ++
      match t with
      | TCmp c _ => br_code c (if k =? 0 then 0 else 1) (if k =? 0 then 0 else tri k) rV0 0 0 yes lab
      | _ => const_code mcd t k rV0 0 ++ jmp yes lab
      end
  | None => two mcd rV0 0 (C mcd l rV0 0) (C mcd r (wpush mcd rV0 0) 1) ++
      match t with
      | TCmp c _ => br_code c 2 0 rV0 (lreg mcd rV0 0) (rreg mcd rV0 0) yes lab
      | _ => bin_code t rV0 (lreg mcd rV0 0) (rreg mcd rV0 0) ++ jmp yes lab
      end
  end.
Definition Cif (e : ex) (yes : bool) (lab : Z) : list mins :=
  match e with
  | ECmp c l r => Cbin (cdepth e) (TCmp (tok_cmp c) 0) l r yes lab
  | _ => C (cdepth e) e rV0 0 ++ jmp yes lab
  end.

Notation g0 := (mkg false rV0 0 0).
Lemma gok0 mcd : gok mcd g0 0 rV0.
Proof. split; [reflexivity|]. intros _. cbn. repeat split; lia. Qed.
Lemma depth0 e : depthok (cdepth e) (cdepth e) rV0.
Proof. unfold depthok. pose proof (cdepth_nonneg e). destruct (Z.eq_dec (cdepth e) 0); [left; assumption|right]. repeat split; auto; lia. Qed.

Lemma emit_top e pre post : wf 4 e -> typed e -> nextok e (hd_error post) ->
  exists g', em (cdepth e) pre (P e) post g0 (C (cdepth e) e rV0 0) g' /\ wr g' = rV0 /\ gu g' = guf e.
Proof.
  intros Hw Ht Hn. destruct (emits_all (cdepth e) (cdepth_nonneg e) e pre post g0 0 rV0 Hw Ht (gok0 _)) as (g' & E & U & [G _] & _).
  - apply depth0.
  - exact Hn.
  - exists g'. auto.
Qed.

Lemma T_app e tail : map MT (rpn 4 e ++ tail) = map MT (rpn 4 e) ++ map MT tail.
Proof. apply map_app. Qed.
Lemma T_len e : wf 4 e -> exists t u, map MT (rpn 4 e) = u ++ [MT t] /\ (match t with TIf _ | TIfNot _ | TReturn => False | _ => True end).
Proof.
  intros Hw.
  assert (H : exists u t, rpn 4 e = u ++ [t] /\ (match t with TIf _ | TIfNot _ | TReturn => False | _ => True end)).
  { destruct e; cbn [wf rpn] in *; try contradiction;
      try (eexists [], _; split; [reflexivity|try destruct uns; exact Logic.I]);
      try (eexists _, _; split; [reflexivity|try destruct inc; exact Logic.I]);
      try (eexists (_ ++ _), _; split; [rewrite <- app_assoc; reflexivity|exact Logic.I]).
    - eexists (rpn 4 e ++ [TNum n]), _. split; [rewrite <- app_assoc; reflexivity|]. destruct add; exact Logic.I.
    - eexists (rpn 4 e1 ++ TShortCirc lab :: rpn 4 e2), _. split; [now las|exact Logic.I].
    - eexists (rpn 4 e1 ++ TShortCirc (- lab) :: rpn 4 e2), _. split; [now las|exact Logic.I].
    - eexists (rpn 4 e1 ++ TShortCirc (- lab) :: rpn 4 e3 ++ TGoto (lab + 1) :: TLogAnd lab :: rpn 4 e2), _. split; [now las|exact Logic.I].
    - eexists (TLParen (4 * zlen args) :: rpn_args 4 args ++ rpn 4 e), _. split; [cbn [app]; f_equal; rewrite <- app_assoc; reflexivity|exact Logic.I]. }
  destruct H as (u & t & E & H). exists t, (map MT u). rewrite E, map_app. auto.
Qed.

(** The stack after preparation. *)
Lemma prep_tail e t : wf 4 e -> match t with TIf _ | TIfNot _ | TReturn => True | _ => False end ->
  gen_expr (rpn 4 e ++ [t]) = gen_loop (cdepth e) (length (P e ++ [MT t])) (P e ++ [MT t]) 0 g0.
Proof.
  intros Hw Ht. unfold gen_expr. rewrite map_app. cbn [map].
  rewrite (zget_at _ (map MT (rpn 4 e)) (MT t) []) by (reflexivity || (zl; lia)). cbn [obind].
  replace (match MT t with MT (TIf _ | TIfNot _ | TReturn) => zlen (map MT (rpn 4 e) ++ [MT t]) - 2 | _ => zlen (map MT (rpn 4 e) ++ [MT t]) - 1 end)
    with (zlen (@nil mtok) + zlen (map MT (rpn 4 e)) - 1) by (change (zlen (@nil mtok)) with 0; destruct t; try contradiction; zl; lia).
  destruct (pk e (prep_ok e) Hw) as [Hp Hl]. specialize (Hp [] [MT t] (2 * length (map MT (rpn 4 e) ++ [MT t]) + 2)%nat). cbn [app] in Hp. rewrite Hp.
  - cbn [obind]. f_equal. pose proof (mc_P e Hw [MT t] 0 0 ltac:(lia)) as E. rewrite E. pose proof (cdepth_nonneg e).
    replace (Z.max 0 (0 + cdepth e)) with (cdepth e) by lia. destruct t; try contradiction; reflexivity.
  - right. discriminate.
  - rewrite app_length. lia.
Qed.
Lemma prep_whole e : wf 4 e -> gen_expr (rpn 4 e) = gen_loop (cdepth e) (length (Ptop e)) (Ptop e) 0 g0.
Proof.
  intros Hw. unfold gen_expr. destruct (T_len e Hw) as (t & u & E & Ht).
  assert (G : zget (map MT (rpn 4 e)) (zlen (map MT (rpn 4 e)) - 1) = Some (MT t)) by (rewrite E; apply zget_at with (a := u) (b := []); [reflexivity|zl; lia]).
  rewrite G. cbn [obind].
  replace (match MT t with MT (TIf _ | TIfNot _ | TReturn) => zlen (map MT (rpn 4 e)) - 2 | _ => zlen (map MT (rpn 4 e)) - 1 end)
    with (zlen (map MT (rpn 4 e)) - 1) by (destruct t; try contradiction; reflexivity).
  pose proof (prep_top e (2 * length (map MT (rpn 4 e)) + 2) Hw ltac:(lia)) as Hp. cbv beta in Hp. rewrite Hp. cbn [obind]. f_equal.
  assert (M : mc (Ptop e) (cdepth e)).
  { unfold Ptop. destruct (is_assign0 e) as [[sz l]|] eqn:Ea; [|now apply mc_P].
    destruct e as [| | | | | | | | | | |sz' l' r| | | | | |]; try discriminate Ea. cbn [is_assign0] in Ea. destruct r; try discriminate Ea.
    destruct (tru n =? 0) eqn:Ez; [|discriminate]. injection Ea as -> ->. destruct Hw as (_ & Hw & _). cbn [cdepth]. pose proof (cdepth_nonneg l).
    rewrite Z.max_l by lia. destruct (pl l) as [p|] eqn:Ep.
    - replace (cdepth l) with 0 by (destruct l; try discriminate Ep; reflexivity).
      apply mc_cons; [lia| |exact Logic.I]. apply mc_cons; [lia| |destruct p; exact Logic.I]. apply mc_tok. exact Logic.I.
    - change [Num0; Assign0 sz] with ([Num0] ++ [Assign0 sz]). rewrite app_assoc. apply mc_snoc; auto. apply mc_snoc; auto. now apply mc_P. }
  specialize (M [] 0 0 ltac:(lia)). rewrite app_nil_r in M. rewrite M. cbn [max_call_depth]. pose proof (cdepth_nonneg e). lia.
Qed.

Theorem gen_stmt e : wf 4 e -> typed e -> gen_expr (rpn 4 e) = Some (Ctop (cdepth e) e).
Proof.
  intros Hw Ht. rewrite prep_whole by assumption. unfold Ptop, Ctop. destruct (is_assign0 e) as [[sz l]|] eqn:Ea.
  - destruct e as [| | | | | | | | | | |sz' l' r| | | | | |]; try discriminate Ea. cbn [is_assign0] in Ea. destruct r; try discriminate Ea.
    destruct (tru n =? 0) eqn:Ez; [|discriminate]. injection Ea as -> ->. destruct Hw as (_ & Hw & _). destruct Ht as [[V _] [Ht _]].
    assert (D : cdepth (EAssign sz l (ENum uns n)) = cdepth l) by (cbn [cdepth]; pose proof (cdepth_nonneg l); lia). rewrite D.
    destruct (pl l) as [p|] eqn:Ep.
    + apply em_whole with (g' := g0); [|reflexivity]. rewrite <- (app_nil_l (gwrite p 0 sz)). eapply em_cons; [reflexivity|].
      rewrite <- (app_nil_l (gwrite p 0 sz)). eapply em_cons.
      * unfold MipsModel.gen_step. rewrite g_cur. cbn [obind]. destruct l; try discriminate Ep; injection Ep as <-; reflexivity.
      * apply em_one. unfold MipsModel.gen_step. rewrite g_cur, g_prev. cbn [obind]. rewrite olast_snoc. destruct l; try discriminate Ep; injection Ep as <-; reflexivity.
    + destruct (emit_top l [] ([Num0; Assign0 sz] ++ []) Hw Ht) as (g' & E & W & _); [apply plain_ok; repeat split|].
      apply em_whole with (g' := g'); [|exact W]. eapply em_eq; [eapply em_app with (1 := E); eapply em_cons; [|apply em_one]|reflexivity|].
      * unfold MipsModel.gen_step. rewrite g_cur. reflexivity.
      * unfold MipsModel.gen_step. rewrite g_cur, g_prev. cbn [obind]. rewrite olast_snoc. reflexivity.
      * rewrite W. reflexivity.
  - destruct (emit_top e [] [] Hw Ht) as (g' & E & W & _); [apply plain_ok; repeat split|]. exact (em_whole _ _ _ _ _ E W).
Qed.
Theorem gen_value e : wf 4 e -> typed e -> gen_expr (rpn 4 e ++ [TReturn]) = Some (C (cdepth e) e rV0 0).
Proof.
  intros Hw Ht. rewrite prep_tail by (assumption || exact Logic.I).
  destruct (emit_top e [] ([MT TReturn] ++ []) Hw Ht) as (g' & E & W & _); [apply plain_ok; repeat split|].
  apply em_whole with (g' := g'); [|exact W]. eapply em_eq; [eapply em_app with (1 := E); apply em_one|reflexivity|].
  - unfold MipsModel.gen_step. rewrite g_cur. reflexivity.
  - now rewrite app_nil_r.
Qed.

(** The last step, which skips the branch. *)
Lemma em_skip mcd s t1 t2 g c g' c' g2 : em mcd [] s [t1; t2] g c g' ->
  MipsModel.gen_step mcd (s ++ [t1; t2]) (zlen s) g' = Some (c', zlen s + 2, g2) -> wr g2 = rV0 ->
  gen_loop mcd (length (s ++ [t1; t2])) (s ++ [t1; t2]) 0 g = Some (c ++ c').
Proof.
  intros H Hs Hw. pose proof (em_loop mcd [] s [t1; t2] g c g' (length (s ++ [t1; t2])) H ltac:(rewrite app_length; lia)) as E. cbn [app] in E.
  change (zlen []) with 0 in E. rewrite E. replace (length (s ++ [t1; t2]) - length s)%nat with 2%nat by (rewrite app_length; cbn; lia).
  replace (gen_loop mcd 2 (s ++ [t1; t2]) (0 + zlen s) g') with (Some c'); [reflexivity|].
  rewrite Z.add_0_l. cbn [gen_loop]. replace (zlen s >=? zlen (s ++ [t1; t2])) with false by (symmetry; zl; cbn; lia).
  rewrite Hs. cbn [obind]. replace (zlen s + 2 >=? zlen (s ++ [t1; t2])) with true by (symmetry; zl; cbn; lia).
  rewrite Hw. cbn [Z.eqb rV0 Pos.eqb obind]. now rewrite app_nil_r.
Qed.

Definition tif (yes : bool) (lab : Z) : tok := if yes then TIf lab else TIfNot lab.

Lemma bin_stepA mcd a v s i g c L R g' :
  zget s i = Some (MT (TArith a v)) -> isimm (TArith a v) = false \/ isnumo (zget s (i - 1)) = false ->
  pop_reg mcd g = (c, L, R, g') -> MipsModel.gen_step mcd s i g = Some (c ++ bin_code (TArith a v) (wr g') L R, i + 1, g').
Proof.
  intros Hs Hp Hpop. unfold MipsModel.gen_step. rewrite Hs. cbn [obind]. cbv zeta. rewrite Hpop. cbn [isimm] in Hp.
  destruct Hp as [Hp|Hp].
  - destruct a; try discriminate Hp; reflexivity.
  - destruct a; cbn [is_div]; try reflexivity; apply num_match; assumption.
Qed.
Lemma if_step mcd s i g yes lab : zget s i = Some (MT (tif yes lab)) -> wr g = rV0 ->
  MipsModel.gen_step mcd s i g = Some (jmp yes lab, i + 1, g).
Proof. intros H W. unfold MipsModel.gen_step. rewrite H. cbn [obind]. rewrite W. destruct yes; reflexivity. Qed.
Lemma cmp_stepN mcd c v s i g yes lab co L R g' : zget s i = Some (MT (TCmp c v)) -> isnumo (zget s (i - 1)) = false ->
  zget s (i + 1) = Some (MT (tif yes lab)) -> pop_reg mcd g = (co, L, R, g') ->
  MipsModel.gen_step mcd s i g = Some (co ++ br_code c 2 0 (wr g') L R yes lab, i + 2, g').
Proof.
  intros Hs Hp Hn Hpop. unfold MipsModel.gen_step. rewrite Hs, Hn. cbn [obind]. unfold gen_cmp, br_code.
  destruct (cmp_op c) as [op uns]. rewrite !(num_match _ _ _ Hp).
  replace (match Some (MT (tif yes lab)) with Some (MT (TIf l)) => (true, true, l) | Some (MT (TIfNot l)) => (true, false, l) | _ => (false, false, 0) end)
    with (true, yes, lab) by (destruct yes; reflexivity).
  cbn [Z.eqb Pos.eqb]. rewrite Hpop. cbn [andb]. reflexivity.
Qed.
Lemma cmp_stepI mcd c v s i g yes lab k : zget s i = Some (MT (TCmp c v)) -> zget s (i - 1) = Some (MT (TNum k)) ->
  zget s (i + 1) = Some (MT (tif yes lab)) ->
  MipsModel.gen_step mcd s i g = Some (br_code c (if k =? 0 then 0 else 1) (if k =? 0 then 0 else tri k) (wr g) 0 0 yes lab, i + 2, g).
Proof.
  intros Hs Hp Hn. unfold MipsModel.gen_step. rewrite Hs, Hn, Hp. cbn [obind]. unfold gen_cmp, br_code.
  destruct (cmp_op c) as [op uns].
  replace (match Some (MT (tif yes lab)) with Some (MT (TIf l)) => (true, true, l) | Some (MT (TIfNot l)) => (true, false, l) | _ => (false, false, 0) end)
    with (true, yes, lab) by (destruct yes; reflexivity).
  destruct (k =? 0); cbn [Z.eqb Pos.eqb andb]; reflexivity.
Qed.

Lemma tok_bin t : match t with TArith _ _ | TCmp _ _ => True | _ => False end -> (exists a v, t = TArith a v) \/ (exists c v, t = TCmp c v).
Proof. destruct t; try contradiction; eauto. Qed.
Lemma bin_if mcd t l r yes lab : 0 <= mcd -> match t with TArith _ _ | TCmp _ _ => True | _ => False end ->
  wf 4 l -> wf 4 r -> typed l -> typed r -> isvoid l = false -> isvoid r = false -> mcd = Z.max (cdepth l) (cdepth r) ->
  let s := match bconst t l r with
      | Some (sw, k, t') => (if sw then P r else P l) ++ [MT (TNum k); MT t']
      | None => P l ++ P r ++ [MT t] end in
  gen_loop mcd (length (s ++ [MT (tif yes lab)])) (s ++ [MT (tif yes lab)]) 0 g0 = Some (Cbin mcd t l r yes lab).
Proof.
  intros Hmcd Ht Hl Hr Tl Tr Vl Vr Hm. cbv zeta. unfold Cbin.
  pose proof (cdepth_nonneg l). pose proof (cdepth_nonneg r).
  assert (Hd : depthok mcd mcd rV0) by (unfold depthok; destruct (Z.eq_dec mcd 0); [left; assumption|right; repeat split; auto; lia]).
  destruct (bconst t l r) as [[[sw k] t']|] eqn:Eb.
  - destruct (bconst_kind _ _ _ _ _ _ Ht Eb) as [Ht' Hx].
    set (x := if sw then r else l).
    replace (if sw then P r else P l) with (P x) by (unfold x; destruct sw; reflexivity).
    replace (if sw then C mcd r rV0 0 else C mcd l rV0 0) with (C mcd x rV0 0) by (unfold x; destruct sw; reflexivity).
    assert (Hx' : wf 4 x /\ typed x /\ isvoid x = false /\ cdepth x = mcd).
    { unfold x. destruct sw; destruct Hx as (u & j & ->); cbn [cdepth] in *; repeat split; auto; lia. }
    destruct Hx' as (Hwx & Tx & Vx & Dx). clear Hx.
    pose proof (emits_all mcd Hmcd x) as IHx.
    destruct (tok_bin t' Ht') as [(a & v & ->)|(c & v & ->)].
    + destruct (isimm (TArith a v)) eqn:Ei; unfold const_code; rewrite Ei.
      * destruct (IHx [] (MT (TNum k) :: MT (TArith a v) :: [MT (tif yes lab)]) g0 0 rV0 Hwx Tx (gok0 _)) as (g1 & E1 & U1 & G1 & P1).
        { now rewrite Dx. } { apply plain_ok. repeat split. }
        apply em_whole with (g' := set_gu true g1); [|apply G1].
        replace ((P x ++ [MT (TNum k); MT (TArith a v)]) ++ [MT (tif yes lab)]) with (P x ++ [MT (TNum k)] ++ [MT (TArith a v)] ++ [MT (tif yes lab)]) by now las.
        eapply em_eq; [eapply em_app with (b := [MT (TNum k); MT (TArith a v); MT (tif yes lab)]) (1 := E1); eapply em_cons; [|eapply em_cons; [|apply em_one]]|reflexivity|].
        -- unfold MipsModel.gen_step. rewrite g_cur, g_next. cbn [obind hd_error app]. replace (imm_next (Some (MT (TArith a v)))) with true by (destruct a; try discriminate Ei; reflexivity). reflexivity.
        -- unfold MipsModel.gen_step. rewrite g_cur, g_prev. cbn [obind]. rewrite olast_snoc. destruct a; try discriminate Ei; reflexivity.
        -- apply if_step; [apply g_cur|apply G1].
        -- cbn [wr set_gu]. destruct G1 as [-> _]. cbn [app imm_code]. unfold pc, w1, n1. cbn [gu app]. now rewrite <- ?app_assoc.
      * destruct (emits_two mcd Hmcd x (ENum false k) (MT (TArith a v)) (bin_code (TArith a v)) [] [MT (tif yes lab)] g0 0 rV0 IHx (emits_num mcd Hmcd false k) Hwx Logic.I Tx Logic.I Vx eq_refl (gok0 _)) as (g' & E & U & G & Po).
        -- cbn [cdepth]. rewrite Z.max_l by lia. now rewrite Dx.
        -- cbn [nextok]. destruct a; try discriminate Ei; reflexivity.
        -- intros s i g1 c L R g' H1 H2 H3 H4. apply bin_stepA; auto.
        -- replace ((P x ++ [MT (TNum k); MT (TArith a v)]) ++ [MT (tif yes lab)]) with ((P x ++ P (ENum false k) ++ [MT (TArith a v)]) ++ [MT (tif yes lab)]) by now las.
           apply em_whole with (g' := g'); [|apply G].
           eapply em_eq; [eapply em_app with (b := [MT (tif yes lab)]) (1 := E); apply em_one; apply if_step; [apply g_cur|apply G]|reflexivity|].
           unfold pc, w1, n1, two. cbn [gu app MipsCode.C]. now las.
    + destruct (IHx [] (MT (TNum k) :: MT (TCmp c v) :: [MT (tif yes lab)]) g0 0 rV0 Hwx Tx (gok0 _)) as (g1 & E1 & U1 & G1 & P1).
      { now rewrite Dx. } { apply plain_ok. repeat split. }
      replace ((P x ++ [MT (TNum k); MT (TCmp c v)]) ++ [MT (tif yes lab)]) with ((P x ++ [MT (TNum k)]) ++ [MT (TCmp c v); MT (tif yes lab)]) by now las.
      assert (E2 : em mcd [] (P x ++ [MT (TNum k)]) [MT (TCmp c v); MT (tif yes lab)] g0 (C mcd x rV0 0) (set_gu true g1)).
      { eapply em_eq; [eapply em_app with (b := [MT (TNum k)]) (1 := E1); apply em_one|reflexivity|].
        - unfold MipsModel.gen_step. rewrite g_cur, g_next. reflexivity.
        - unfold pc, w1, n1. cbn [gu app]. now rewrite app_nil_r. }
      eapply em_skip with (g2 := set_gu true g1); [exact E2| |apply G1].
      replace rV0 with (wr (set_gu true g1)) by apply G1. apply (cmp_stepI mcd c v).
      * apply zget_at with (a := P x ++ [MT (TNum k)]) (b := [MT (tif yes lab)]); reflexivity.
      * apply zget_at with (a := P x) (b := [MT (TCmp c v); MT (tif yes lab)]); [now las|zl; lia].
      * apply zget_at with (a := P x ++ [MT (TNum k); MT (TCmp c v)]) (b := []); [now las|zl; cbn; lia].
  - pose proof (bconst_none _ _ _ Eb) as Er.
    pose proof (last_notnum r (P l) Hr Er) as Hlast.
    pose proof (emits_all mcd Hmcd l) as IHl. pose proof (emits_all mcd Hmcd r) as IHr.
    destruct (tok_bin t Ht) as [(a & v & ->)|(c & v & ->)].
    + destruct (emits_two mcd Hmcd l r (MT (TArith a v)) (bin_code (TArith a v)) [] [MT (tif yes lab)] g0 0 rV0 IHl IHr Hl Hr Tl Tr Vl Vr (gok0 _)) as (g' & E & U & G & Po).
      * now rewrite <- Hm.
      * destruct r; try discriminate Er; cbn [nextok]; auto; repeat split.
      * intros s i g1 c L R g' H1 H2 H3 H4. apply bin_stepA; auto. right. now rewrite H3.
      * rewrite <- !app_assoc. rewrite (app_assoc (P l)), (app_assoc (P l ++ P r)). rewrite <- (app_assoc (P l)).
        apply em_whole with (g' := g'); [|apply G].
        eapply em_eq; [eapply em_app with (b := [MT (tif yes lab)]) (1 := E); apply em_one; apply if_step; [apply g_cur|apply G]|reflexivity|].
        unfold pc, w1, n1. cbn [gu app]. now las.
    + destruct (two_emits mcd Hmcd l r [] [MT (TCmp c v); MT (tif yes lab)] g0 0 rV0 IHl IHr Hl Hr Tl Tr Vl Vr (gok0 _)) as (g1 & E1 & g2 & E2 & U2 & G2 & P2).
      * now rewrite <- Hm.
      * destruct r; try discriminate Er; cbn [nextok]; auto; repeat split.
      * replace ((P l ++ P r ++ [MT (TCmp c v)]) ++ [MT (tif yes lab)]) with ((P l ++ P r) ++ [MT (TCmp c v); MT (tif yes lab)]) by now las.
        erewrite em_skip; [|exact E1| |apply G2].
        2:{ apply (cmp_stepN mcd c v) with (yes := yes) (lab := lab) (4 := E2).
            - apply zget_at with (a := P l ++ P r) (b := [MT (tif yes lab)]); reflexivity.
            - destruct (P_end r Hr) as (y' & v' & Ey & _). rewrite Ey in *. rewrite app_assoc, olast_snoc in Hlast.
              erewrite zget_at with (a := P l ++ y') (b := [MT (TCmp c v); MT (tif yes lab)]); [exact Hlast|now las|zl; lia].
            - apply zget_at with (a := P l ++ P r ++ [MT (TCmp c v)]) (b := []); [now las|zl; cbn; lia]. }
        destruct G2 as [-> _]. unfold pc, w1, n1, two. cbn [gu app]. f_equal. now las.
Qed.

Lemma bconst_arith o l r : match bconst (TArith (tok_arith o) 0) l r with Some (_, _, t) => exists a v, t = TArith a v | None => True end.
Proof.
  assert (S0 : forall a v k, exists a' v', snd (special_const (TArith a v) k) = TArith a' v').
  { intros a v k. destruct a; unfold special_const; cbn [snd]; eauto. destruct (pow2 (tru k)); cbn [snd]; eauto. }
  assert (R0 : forall a v k, exists a' v', snd (rconst (TArith a v) k) = TArith a' v').
  { intros a v k. destruct a; unfold rconst; cbn [iscomm]; try apply S0; cbn [snd]; eauto; destruct (pow2 (tru k)); cbn [snd]; eauto. }
  rewrite bconst_eq. destruct (onum_ex r) as [j|].
  - specialize (R0 (tok_arith o) 0 j). destruct (rconst _ j). exact R0.
  - destruct (onum_ex l) as [j|]; [|exact Logic.I]. destruct (iscomm _); [|exact Logic.I]. cbn [flip].
    specialize (S0 (tok_arith o) 0 j). destruct (special_const _ j). exact S0.
Qed.

Theorem gen_cond e yes lab : wf 4 e -> typed e -> isvoid e = false ->
  gen_expr (rpn 4 e ++ [tif yes lab]) = Some (Cif e yes lab).
Proof.
  intros Hw Ht Hv. rewrite prep_tail by (assumption || (destruct yes; exact Logic.I)).
  destruct (match e with ECmp _ _ _ | EArith _ _ _ => true | _ => false end) eqn:Ec.
  - destruct e; try discriminate Ec; destruct Ht as ([V1 V2] & T1 & T2); destruct Hw as [W1 W2].
    + change (P (EArith o e1 e2)) with (match bconst (TArith (tok_arith o) 0) e1 e2 with
       | Some (sw, k, t) => (if sw then P e2 else P e1) ++ [MT (TNum k); MT t]
       | None => P e1 ++ P e2 ++ [MT (TArith (tok_arith o) 0)] end).
      rewrite (bin_if (cdepth (EArith o e1 e2)) (TArith (tok_arith o) 0)); auto using cdepth_nonneg.
      f_equal. unfold Cif, Cbin. cbn [C]. pose proof (bconst_arith o e1 e2) as Hk.
      destruct (bconst (TArith (tok_arith o) 0) e1 e2) as [[[sw k] t']|]; [|now rewrite <- app_assoc].
      destruct Hk as (a & v & ->). now rewrite <- app_assoc.
    + change (P (ECmp c e1 e2)) with (match bconst (TCmp (tok_cmp c) 0) e1 e2 with
       | Some (sw, k, t) => (if sw then P e2 else P e1) ++ [MT (TNum k); MT t]
       | None => P e1 ++ P e2 ++ [MT (TCmp (tok_cmp c) 0)] end).
      rewrite (bin_if (cdepth (ECmp c e1 e2)) (TCmp (tok_cmp c) 0)); auto using cdepth_nonneg.
  - destruct (emit_top e [] ([MT (tif yes lab)] ++ []) Hw Ht) as (g' & E & W & _).
    { destruct e; try discriminate Ec; cbn [nextok]; auto; destruct yes; repeat split. }
    replace (Cif e yes lab) with (C (cdepth e) e rV0 0 ++ jmp yes lab) by (destruct e; try discriminate Ec; reflexivity).
    apply em_whole with (g' := g'); [|exact W]. eapply em_eq; [eapply em_app with (1 := E); apply em_one|reflexivity|reflexivity].
    apply if_step; [apply g_cur|exact W].
Qed.
