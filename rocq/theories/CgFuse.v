(** GenFuse computes the fused form of every expression. *)
From Verif Require Import Base BaseLemmas X86 CgModel ExprSpec CgTree.

Section Ind.
Variable P : ex -> Prop.
Hypothesis HVal : forall v, P (EVal v).
Hypothesis HNum : forall u n, P (ENum u n).
Hypothesis HIdent : forall n, P (EIdent n).
Hypothesis HLocal : forall n, P (ELocal n).
Hypothesis HDeref : forall sz a, P a -> P (EDeref sz a).
Hypothesis HPre : forall i sz a, P a -> P (EPre i sz a).
Hypothesis HPost : forall i sz a, P a -> P (EPost i sz a).
Hypothesis HPostBy : forall i sz n a, P a -> P (EPostBy i sz n a).
Hypothesis HUn : forall u x, P x -> P (EUn u x).
Hypothesis HArith : forall o l r, P l -> P r -> P (EArith o l r).
Hypothesis HCmp : forall o l r, P l -> P r -> P (ECmp o l r).
Hypothesis HAssign : forall sz l r, P l -> P r -> P (EAssign sz l r).
Hypothesis HAssignOp : forall o sz l r, P l -> P r -> P (EAssignOp o sz l r).
Hypothesis HComma : forall l r, P l -> P r -> P (EComma l r).
Hypothesis HAnd : forall k l r, P l -> P r -> P (EAnd2 k l r).
Hypothesis HOr : forall k l r, P l -> P r -> P (EOr2 k l r).
Hypothesis HCond : forall k c t f, P c -> P t -> P f -> P (ECond k c t f).
Hypothesis HCall : forall f args, P f -> Forall P args -> P (ECall f args).
Fixpoint ex_ind2 (e : ex) : P e :=
  match e with
  | EVal v => HVal v
  | ENum u n => HNum u n
  | EIdent n => HIdent n
  | ELocal n => HLocal n
  | EDeref sz a => HDeref sz a (ex_ind2 a)
  | EPre i sz a => HPre i sz a (ex_ind2 a)
  | EPost i sz a => HPost i sz a (ex_ind2 a)
  | EPostBy i sz n a => HPostBy i sz n a (ex_ind2 a)
  | EUn u x => HUn u x (ex_ind2 x)
  | EArith o l r => HArith o l r (ex_ind2 l) (ex_ind2 r)
  | ECmp o l r => HCmp o l r (ex_ind2 l) (ex_ind2 r)
  | EAssign sz l r => HAssign sz l r (ex_ind2 l) (ex_ind2 r)
  | EAssignOp o sz l r => HAssignOp o sz l r (ex_ind2 l) (ex_ind2 r)
  | EComma l r => HComma l r (ex_ind2 l) (ex_ind2 r)
  | EAnd2 k l r => HAnd k l r (ex_ind2 l) (ex_ind2 r)
  | EOr2 k l r => HOr k l r (ex_ind2 l) (ex_ind2 r)
  | ECond k c t f => HCond k c t f (ex_ind2 c) (ex_ind2 t) (ex_ind2 f)
  | ECall f args =>
      HCall f args (ex_ind2 f)
        ((fix go l : Forall P l :=
            match l with [] => Forall_nil P | a :: l => Forall_cons a (ex_ind2 a) (go l) end) args)
  end.
End Ind.

(** Array operations on concatenations. *)
Lemma zget_at {A} (s a : list A) x b i : s = a ++ x :: b -> i = zlen a -> zget s i = Some x.
Proof.
  intros -> ->. rewrite zget_app_r by lia. rewrite Z.sub_diag. reflexivity.
Qed.
Lemma zset_at {A} (s a : list A) x b i v :
  s = a ++ x :: b -> i = zlen a -> zset s i v = Some (a ++ v :: b).
Proof.
  intros -> ->. rewrite zset_Some.
  - f_equal. unfold zlen. rewrite Nat2Z.id. apply lset_app.
  - zl. pose proof (zlen_nonneg a). pose proof (zlen_nonneg b). lia.
Qed.
Lemma ins_at s a b i t :
  s = a ++ b -> i = zlen a ->
  ins s i t = if zlen s >=? 129 then None else Some (a ++ t :: b).
Proof.
  intros -> ->. unfold ins, STACK_SIZE. destruct (zlen (a ++ b) >=? 129); auto.
  zl. pose proof (zlen_nonneg a). pose proof (zlen_nonneg b).
  replace ((0 <=? zlen a) && (zlen a <=? zlen a + zlen b)) with true by lia.
  unfold zlen. rewrite Nat2Z.id.
  rewrite firstn_app, firstn_all, Nat.sub_diag, skipn_app, skipn_all, Nat.sub_diag.
  cbn [firstn skipn]. rewrite app_nil_r. reflexivity.
Qed.
Lemma del_at s a b c i n :
  s = a ++ b ++ c -> i = zlen a -> n = zlen b -> del s i n = Some (a ++ c).
Proof.
  intros -> -> ->. unfold del. zl.
  pose proof (zlen_nonneg a). pose proof (zlen_nonneg b). pose proof (zlen_nonneg c).
  match goal with |- (if ?x then _ else _) = _ => replace x with true by lia end.
  unfold zlen. rewrite <- Nat2Z.inj_add, !Nat2Z.id.
  rewrite firstn_app, firstn_all, Nat.sub_diag. cbn [firstn]. rewrite app_nil_r.
  rewrite app_assoc, <- app_length, skipn_app, skipn_all, Nat.sub_diag. reflexivity.
Qed.

Ltac las := repeat (rewrite <- app_assoc || (progress cbn [app])); try rewrite !app_nil_r.
Ltac ln := unfold stack in *; zl; repeat match goal with |- context [@zlen ?T ?l] => is_var l; pose proof (@zlen_nonneg T l); generalize dependent (@zlen T l) end; intros; lia.

Section W.
Variable W : Z.
Hypothesis HW : W = 2 \/ W = 4.
Notation rpn := (rpn W). Notation rpn_args := (rpn_args W).
Notation F := (F W). Notation B := (B W). Notation F_args := (F_args W). Notation ksize := (ksize W).

Lemma F_core e : F e = F (core e).
Proof.
  induction e using ex_ind2; try reflexivity.
  destruct u; try reflexivity. exact IHe.
Qed.
Lemma B_core e : B e = B (core e).
Proof.
  induction e using ex_ind2; try reflexivity.
  destruct u; try reflexivity. exact IHe.
Qed.
Lemma core_core e : core (core e) = core e.
Proof.
  induction e using ex_ind2; try reflexivity. destruct u; try reflexivity. exact IHe.
Qed.
Lemma core_notplus e : forall x, core e <> EUn EPlus x.
Proof.
  induction e using ex_ind2; try discriminate. destruct u; try discriminate. exact IHe.
Qed.
Lemma wf_core e : wf W e -> wf W (core e).
Proof.
  induction e using ex_ind2; auto. destruct u; auto. cbn [wf]. intros [_ H]. apply IHe, H.
Qed.

(** Shape of the fused form: the last tokens, and what an operand looks like. *)
Definition acc_core (e : ex) : bool :=
  match e with ENum _ _ | EIdent _ | ELocal _ | EDeref _ _ | EVal _ => false | _ => true end.

Lemma fused_kind e : is_fused_op (kind e) = true.
Proof.
  unfold kind. destruct (core e); try reflexivity; try (destruct uns; reflexivity).
  destruct (core e0); reflexivity.
Qed.
Lemma fused_indk e : is_fused_op (indk e) = true.
Proof. unfold indk. destruct (core e); reflexivity. Qed.

Definition shape (s : stack) (p : tok -> Prop) : Prop :=
  exists u t ops, s = u ++ t :: ops /\ p t /\ is_fused_op t = false /\
                  forallb is_fused_op ops = true.

Lemma shape_end s (p : tok -> Prop) t ops u :
  s = u ++ t :: ops -> p t -> is_fused_op t = false -> forallb is_fused_op ops = true -> shape s p.
Proof. intros. exists u, t, ops. auto. Qed.

Definition notstar (t : tok) : Prop :=
  match t with TStar _ | TNum _ | TNumU _ | TIdent _ | TLocal _ => False | _ => True end.

Lemma fbin_shape bl l szl br r szr t :
  notstar t -> is_fused_op t = false -> is_fused_op (set_tval t (szv szl szr)) = false ->
  notstar (set_tval t (szv szl szr)) -> (exists e, l = kind e \/ l = indk e) -> is_fused_op r = true ->
  shape (fbin bl l szl br r szr t) notstar.
Proof.
  intros N1 F1 F2 N2 Hl Hr. unfold fbin.
  destruct (is_fused_op (stk l r)) eqn:E.
  - eapply shape_end with (u := bl ++ (if is_acc l && is_acc r then [TPushAcc] else []) ++ br)
      (ops := [stk l r; r]).
    + now las.
    + exact N2.
    + exact F2.
    + cbn [forallb]. now rewrite E, Hr.
  - eapply shape_end with
      (u := bl ++ (if is_acc l && is_acc r then [TPushAcc] else []) ++ br ++ [set_tval t (szv szl szr)])
      (t := stk l r) (ops := [r]).
    + now las.
    + unfold stk in *. destruct (is_acc r).
      * assert (is_fused_op l = true) by (destruct Hl as [e [-> | ->]]; auto using fused_kind, fused_indk).
        destruct l; try discriminate; exact I.
      * assert (is_fused_op l = true) by (destruct Hl as [e [-> | ->]]; auto using fused_kind, fused_indk).
        congruence.
    + exact E.
    + cbn [forallb]. now rewrite Hr.
Qed.

Lemma shape_snoc u t : notstar t -> is_fused_op t = false -> shape (u ++ [t]) notstar.
Proof. intros. eapply shape_end with (ops := []); eauto. Qed.
Lemma shape_snoc1 u t o :
  notstar t -> is_fused_op t = false -> is_fused_op o = true -> shape (u ++ [t; o]) notstar.
Proof. intros. eapply shape_end with (ops := [o]); eauto. cbn. now rewrite H1. Qed.
Lemma shape_snoc2 u t o p :
  notstar t -> is_fused_op t = false -> is_fused_op o = true -> is_fused_op p = true ->
  shape (u ++ [t; o; p]) notstar.
Proof. intros. eapply shape_end with (ops := [o; p]); eauto. cbn. now rewrite H1, H2. Qed.

Lemma F_shape_acc e : wf W e -> (forall x, e <> EUn EPlus x) -> acc_core e = true -> shape (F e) notstar.
Proof.
  intros Hw Hp Ha. destruct e; try discriminate; try contradiction;
    try (exfalso; eapply Hp; reflexivity).
  - apply shape_snoc1; auto using fused_indk; destruct inc; try reflexivity; exact I.
  - apply shape_snoc1; auto using fused_indk; destruct inc; try reflexivity; exact I.
  - apply shape_snoc2; auto using fused_indk; destruct add; try reflexivity; exact I.
  - destruct u; try (exfalso; eapply Hp; reflexivity); apply shape_snoc; try reflexivity; exact I.
  - apply fbin_shape; eauto using fused_kind; try reflexivity; exact I.
  - apply fbin_shape; eauto using fused_kind; try reflexivity; exact I.
  - apply fbin_shape; eauto using fused_kind; try reflexivity; exact I.
  - apply fbin_shape; eauto using fused_kind; try reflexivity; exact I.
  - change (F (EComma e1 e2)) with (F e1 ++ F e2 ++ [TComma]). rewrite app_assoc.
    apply shape_snoc; try reflexivity; exact I.
  - change (F (EAnd2 lab e1 e2)) with (F e1 ++ (TShortCirc lab :: F e2) ++ [TLogAnd lab]). rewrite app_assoc.
    apply shape_snoc; try reflexivity; exact I.
  - change (F (EOr2 lab e1 e2)) with (F e1 ++ (TShortCirc (- lab) :: F e2) ++ [TLogOr lab]). rewrite app_assoc.
    apply shape_snoc; try reflexivity; exact I.
  - replace (F (ECond lab e1 e2 e3)) with
      ((F e1 ++ (TShortCirc (- lab) :: F e3 ++ (TGoto (lab + 1) :: TLogAnd lab :: F e2))) ++ [TLogAnd (lab + 1)])
      by (las; reflexivity).
    apply shape_snoc; try reflexivity; exact I.
  - replace (F (ECall e args)) with
      ((TLParen (W * zlen args) :: F_args args ++ F e) ++ [TRParen (W * zlen args)])
      by (las; reflexivity).
    apply shape_snoc; try reflexivity; exact I.
Qed.

Lemma skip_ops_at ops : forall s fuel u t post i,
  s = u ++ t :: ops ++ post -> forallb is_fused_op ops = true -> is_fused_op t = false ->
  i = zlen u + zlen ops -> (length ops < fuel)%nat ->
  skip_ops fuel s i = Some (zlen u).
Proof.
  induction ops as [|o ops IH] using rev_ind; intros s fuel u t post i Es Ho Ht Ei Hf.
  - destruct fuel; [cbn in Hf; lia|]. cbn [skip_ops].
    rewrite (zget_at s u t post); [|exact Es|zl; lia]. cbn [obind]. rewrite Ht.
    f_equal. zl. lia.
  - destruct fuel; [lia|]. cbn [skip_ops].
    rewrite (zget_at s (u ++ t :: ops) o post); [|subst s; now las|zl; lia].
    cbn [obind]. rewrite forallb_app in Ho. apply andb_prop in Ho as [Ho Ho1].
    cbn [forallb] in Ho1. rewrite andb_true_r in Ho1. rewrite Ho1.
    eapply IH with (post := o :: post); eauto.
    + subst s. now las.
    + subst i. zl. lia.
    + rewrite app_length in Hf. cbn [length] in Hf. lia.
Qed.

(** GetOperandInfo on a fused operand. *)
Definition delref (e : ex) : bool := match core e with EDeref _ _ => true | _ => false end.


Lemma last_app {A} (u v a : list A) x b : u ++ x :: v = a ++ [b] -> In b (x :: v).
Proof.
  intros E. apply (f_equal (fun l => nth_error (rev l) 0)) in E.
  rewrite !rev_app_distr in E. cbn [rev app] in E.
  destruct (rev v ++ [x]) as [|y l] eqn:R.
  - destruct (rev v); discriminate.
  - cbn in E. injection E as <-. assert (In y (rev v ++ [x])) by (rewrite R; left; auto).
    apply in_app_or in H as [H|[H|[]]].
    + right. now apply in_rev.
    + now left.
Qed.

Lemma shape_last fe a b : shape fe notstar -> fe = a ++ [b] -> notstar b.
Proof.
  intros (u & t & ops & E & Hn & Hf & Ho) Eab. rewrite E in Eab. apply last_app in Eab as [<-|Hi]; auto.
  rewrite forallb_forall in Ho. apply Ho in Hi. destruct b; try discriminate; exact I.
Qed.

Lemma opinfo_acc s pre fe post i lv :
  shape fe notstar -> s = pre ++ fe ++ post -> i = zlen pre + zlen fe - 1 ->
  operand_info W s i lv =
    Some (if lv =? 0 then (OpAcc, W, false) else (OpIndAcc, lv, false)).
Proof.
  intros Hsh Es Ei. pose proof Hsh as (u & t & ops & E & Hn & Hf & Ho). unfold operand_info.
  rewrite (skip_ops_at ops s _ (pre ++ u) t post); auto.
  2: subst; now las. 2: subst; zl; lia.
  2: { subst. rewrite !app_length. cbn [length]. lia. }
  cbn [obind]. rewrite (zget_at s (pre ++ u) t (ops ++ post)); [|subst; now las|reflexivity].
  cbn [obind].
  assert (exists a b, fe = a ++ [b]) as (a & b & Eab).
  { destruct fe as [|x fe'] using rev_ind; eauto.
    exfalso. destruct u; discriminate. }
  pose proof (shape_last _ _ _ Hsh Eab) as Hl.
  rewrite (zget_at s (pre ++ a) b post); [|subst s; rewrite Eab; now las|subst i; rewrite Eab; zl; lia].
  cbn [obind].
  destruct t; try discriminate; try contradiction;
    destruct (lv =? 0); cbn [negb]; destruct b; try contradiction; reflexivity.
Qed.

Lemma is_var_kind e : match is_var e with
  | Some k => (exists n, core e = EIdent n /\ k = OpIdent n /\ indk e = OpIndIdent n) \/
              (exists n, core e = ELocal n /\ k = OpLocal n /\ indk e = OpIndLocal n)
  | None => (forall n, core e <> EIdent n) /\ (forall n, core e <> ELocal n) /\ indk e = OpIndAcc
  end.
Proof.
  unfold is_var, indk. destruct (core e); eauto 6; repeat split; discriminate.
Qed.

Lemma opinfo_star s pre u sz o k post i lv :
  s = pre ++ (u ++ [TStar sz; o]) ++ post -> i = zlen pre + zlen (u ++ [TStar sz; o]) - 1 ->
  is_fused_op o = true -> add_ind o = Some k ->
  operand_info W s i lv = Some (if lv =? 0 then (k, sz, true) else (OpIndAcc, lv, false)).
Proof.
  intros Es Ei Ho Hk. unfold operand_info.
  rewrite (skip_ops_at [o] s _ (pre ++ u) (TStar sz) post);
    [|subst; now las|cbn; now rewrite Ho|reflexivity|subst; zl; lia
     |subst; rewrite !app_length; cbn [length]; lia].
  cbn [obind]. rewrite (zget_at s (pre ++ u) (TStar sz) (o :: post)); [|subst; now las|reflexivity].
  cbn [obind]. destruct (lv =? 0); cbn [negb]; auto.
  rewrite (zget_at s (pre ++ u ++ [TStar sz]) o post); [|subst; now las|zl; lia].
  cbn [obind]. now rewrite Hk.
Qed.

Lemma opinfo_leaf s pre t post i lv :
  s = pre ++ t :: post -> i = zlen pre -> is_fused_op t = false -> (forall sz, t <> TStar sz) ->
  operand_info W s i lv =
    Some (if lv =? 0 then
            match t with
            | TNum n => (OpNum n, W, false)
            | TNumU n => (OpNumU n, W, false)
            | TIdent n => (OpIdent n, W, false)
            | TLocal n => (OpLocal n, W, false)
            | _ => (OpAcc, W, false)
            end
          else match t with
            | TIdent n => (OpIndIdent n, lv, false)
            | TLocal n => (OpIndLocal n, lv, false)
            | _ => (OpIndAcc, lv, false)
            end).
Proof.
  intros Es Ei Hf Hs. unfold operand_info.
  rewrite (skip_ops_at [] s _ pre t post); [|exact Es|reflexivity|exact Hf|subst; zl; lia|cbn; lia].
  cbn [obind]. rewrite (zget_at s pre t post); auto. cbn [obind].
  rewrite (zget_at s pre t post); auto. cbn [obind].
  destruct t; try (exfalso; eapply Hs; reflexivity); destruct (lv =? 0); reflexivity.
Qed.

(** Rvalue operands. *)
Lemma opinfo_r e s pre post i :
  wf W e -> s = pre ++ F e ++ post -> i = zlen pre + zlen (F e) - 1 ->
  operand_info W s i 0 = Some (kind e, ksize e, delref e).
Proof.
  intros Hw Es Ei. rewrite F_core in Es, Ei. unfold kind, CgTree.ksize, delref.
  apply wf_core in Hw. pose proof (core_notplus e) as Hp.
  destruct (core e) eqn:Ec; try contradiction.
  all: try (rewrite (opinfo_acc s pre _ post i 0 (F_shape_acc _ Hw Hp eq_refl) Es Ei); reflexivity).
  - rewrite (opinfo_leaf s pre (if uns then TNumU n else TNum n) post); auto.
    + destruct uns; reflexivity.
    + subst i. unfold CgTree.F. cbn [FB fst]. zl. lia.
    + destruct uns; reflexivity.
    + destruct uns; discriminate.
  - rewrite (opinfo_leaf s pre (TIdent id) post); auto; try discriminate.
    subst i. unfold CgTree.F. cbn [FB fst]. zl. lia.
  - rewrite (opinfo_leaf s pre (TLocal ofs) post); auto; try discriminate.
    subst i. unfold CgTree.F. cbn [FB fst]. zl. lia.
  - unfold CgTree.F in Es, Ei. cbn [FB] in Es, Ei.
    pose proof (is_var_kind e0) as Hv. destruct (is_var e0) as [k|].
    + cbn [fst] in Es, Ei.
      destruct Hv as [(n & -> & -> & _)|(n & -> & -> & _)].
      * rewrite (opinfo_star s pre [] sz (OpIdent n) (OpIndIdent n) post i 0); auto.
      * rewrite (opinfo_star s pre [] sz (OpLocal n) (OpIndLocal n) post i 0); auto.
    + cbn [fst] in Es, Ei. rewrite (opinfo_star s pre _ sz OpAcc OpIndAcc post i 0 Es Ei); auto.
      destruct Hv as (H1 & H2 & _). destruct (core e0); try reflexivity.
      * exfalso. eapply H1. reflexivity.
      * exfalso. eapply H2. reflexivity.
Qed.

(** Lvalue operands. *)
Lemma opinfo_l e s pre post i lv :
  wf W e -> lv <> 0 -> s = pre ++ F e ++ post -> i = zlen pre + zlen (F e) - 1 ->
  operand_info W s i lv = Some (indk e, lv, false).
Proof.
  intros Hw Hlv Es Ei. rewrite F_core in Es, Ei. unfold indk.
  apply wf_core in Hw. pose proof (core_notplus e) as Hp.
  destruct (lv =? 0) eqn:E0; [lia|].
  destruct (core e) eqn:Ec; try contradiction.
  all: try (rewrite (opinfo_acc s pre _ post i lv (F_shape_acc _ Hw Hp eq_refl) Es Ei), E0; reflexivity).
  - rewrite (opinfo_leaf s pre (if uns then TNumU n else TNum n) post); auto.
    + rewrite E0. destruct uns; reflexivity.
    + subst i. unfold CgTree.F. cbn [FB fst]. zl. lia.
    + destruct uns; reflexivity.
    + destruct uns; discriminate.
  - rewrite (opinfo_leaf s pre (TIdent id) post); auto; try discriminate.
    + now rewrite E0. + subst i. unfold CgTree.F. cbn [FB fst]. zl. lia.
  - rewrite (opinfo_leaf s pre (TLocal ofs) post); auto; try discriminate.
    + now rewrite E0. + subst i. unfold CgTree.F. cbn [FB fst]. zl. lia.
  - unfold CgTree.F in Es, Ei. cbn [FB] in Es, Ei.
    pose proof (is_var_kind e0) as Hv. destruct (is_var e0) as [k|].
    + cbn [fst] in Es, Ei.
      destruct Hv as [(n & _ & -> & _)|(n & _ & -> & _)].
      * rewrite (opinfo_star s pre [] sz (OpIdent n) (OpIndIdent n) post i lv), E0; auto.
      * rewrite (opinfo_star s pre [] sz (OpLocal n) (OpIndLocal n) post i lv), E0; auto.
    + cbn [fst] in Es, Ei. rewrite (opinfo_star s pre _ sz OpAcc OpIndAcc post i lv Es Ei), E0; auto.
Qed.

(** Fusing the operands of a binary operator. *)
Definition oper (k : tok) (d : bool) (f b : stack) : Prop :=
  if is_acc k then (if d then exists z w, f = b ++ [z; w] else f = b) else b = [].

Lemma fuse_operands_ok s pre fl fr t post idx ol orr kl szl dl kr szr dr bl br :
  s = pre ++ fl ++ fr ++ t :: post ->
  idx = zlen pre - 1 -> ol = zlen pre + zlen fl - 1 -> orr = zlen pre + zlen fl + zlen fr - 1 ->
  oper kl dl fl bl -> oper kr dr fr br -> is_fused_op kl = true ->
  fuse_operands s idx ol orr kl szl dl kr szr dr =
    Some (pre ++ fbin bl kl szl br kr szr t ++ post) \/
  (fuse_operands s idx ol orr kl szl dl kr szr dr = None /\ 129 <= zlen s + 2).
Proof.
  intros Es Eidx Eol Eorr Hl Hr Hfk.
  pose proof (zlen_nonneg pre). pose proof (zlen_nonneg fl). pose proof (zlen_nonneg fr).
  pose proof (zlen_nonneg post).
  unfold fuse_operands.
  set (ph := if is_acc kl && is_acc kr then [TPushAcc] else []).
  match goal with |- obind ?x _ = _ \/ _ => set (first := x) end.
  assert (P1 : first = Some (pre ++ bl ++ ph ++ fr ++ t :: post, zlen pre + zlen bl + zlen ph - 1,
                      zlen pre + zlen bl + zlen ph + zlen fr - 1, stk kl kr) \/
               first = None /\ 129 <= zlen s).
  { subst first ph. unfold oper in Hl. unfold stk. destruct (is_acc kl) eqn:Ekl; cbn [negb andb].
    - destruct (is_acc kr) eqn:Ekr.
      + rewrite (ins_at s (pre ++ fl) (fr ++ t :: post)); [|subst s; now las|subst; zl; lia].
        destruct (zlen s >=? 129) eqn:Ov; [right; split; [reflexivity|lia]|].
        left. cbn [obind]. destruct dl.
        * destruct Hl as (z & w & ->).
          rewrite (del_at _ (pre ++ bl) [z; w] (TPushAcc :: fr ++ t :: post));
            [|now las|subst; zl; lia|reflexivity].
          cbn [obind]. destruct kl; try discriminate; feq; try (now las); subst; zl; lia.
        * subst fl. cbn [obind].
          destruct kl; try discriminate; feq; try (now las); subst; zl; lia.
      + left. destruct dl.
        * destruct Hl as (z & w & ->).
          rewrite (del_at _ (pre ++ bl) [z; w] (fr ++ t :: post));
            [|subst; now las|subst; zl; lia|reflexivity].
          cbn [obind]. feq; try (now las); subst; zl; lia.
        * subst fl. feq; try (subst; now las); subst; zl; lia.
    - left. subst bl.
      rewrite (del_at _ pre fl (fr ++ t :: post)); [|subst; now las|subst; zl; lia|subst; zl; lia].
      cbn [obind]. feq; try (now las); try (subst; zl; lia).
      destruct kl; try discriminate; destruct (is_acc kr); reflexivity. }
  destruct P1 as [-> | [-> Hov]]; [|right; split; [reflexivity|lia]]. cbn [obind].
  assert (Hbl : zlen bl + zlen ph <= zlen fl + 1).
  { unfold oper in Hl. subst ph. destruct (is_acc kl); cbn [andb].
    - destruct dl; [destruct Hl as (z & w & ->)|subst fl]; destruct (is_acc kr); zl; lia.
    - subst bl. zl. lia. }
  assert (Hbr : zlen br <= zlen fr).
  { unfold oper in Hr. destruct (is_acc kr).
    - destruct dr; [destruct Hr as (z & w & ->)|subst fr]; zl; lia.
    - subst br. zl. lia. }
  match goal with |- obind ?x _ = _ \/ _ => set (second := x) end.
  assert (P2 : second = Some (pre ++ bl ++ ph ++ br ++ t :: post,
                              zlen pre + zlen bl + zlen ph + zlen br - 1)).
  { subst second. unfold oper in Hr. destruct (is_acc kr) eqn:Ekr; cbn [negb].
    - destruct dr.
      + destruct Hr as (z & w & ->).
        rewrite (del_at _ (pre ++ bl ++ ph ++ br) [z; w] (t :: post));
          [|now las|zl; lia|reflexivity].
        cbn [obind]. feq; [now las|zl; lia].
      + subst br. feq.
    - subst br.
      rewrite (del_at _ (pre ++ bl ++ ph) fr (t :: post)); [|now las|zl; lia|zl; lia].
      cbn [obind]. feq; [now las|zl; lia]. }
  rewrite P2. cbn [obind].
  rewrite (zget_at _ (pre ++ bl ++ ph ++ br) t post); [|now las|zl; lia]. cbn [obind].
  erewrite (zset_at _ (pre ++ bl ++ ph ++ br) t post); [|now las|zl; lia]. cbn [obind].
  rewrite (ins_at _ (pre ++ bl ++ ph ++ br ++ [set_tval t (szv szl szr)]) post); [|now las|zl; lia].
  match goal with |- context [zlen ?x >=? 129] => destruct (zlen x >=? 129) eqn:Ov end.
  { right. split; [reflexivity|]. subst s. zl. lia. }
  cbn [obind].
  rewrite (ins_at _ (pre ++ bl ++ ph ++ br ++ [set_tval t (szv szl szr)]) (kr :: post)); [|now las|zl; lia].
  match goal with |- context [zlen ?x >=? 129] => destruct (zlen x >=? 129) eqn:Ov2 end.
  { right. split; [reflexivity|]. subst s. zl. lia. }
  left. f_equal. unfold fbin. fold ph. now las.
Qed.

Lemma oper_r e : wf W e -> oper (kind e) (delref e) (F e) (B e).
Proof.
  intros Hw. apply wf_core in Hw. pose proof (core_notplus e) as Hp.
  rewrite F_core, B_core. unfold oper, kind, delref.
  destruct (core e) eqn:Ec; try contradiction; try reflexivity;
    try (exfalso; eapply Hp; reflexivity).
  - destruct uns; reflexivity.
  - unfold CgTree.F, CgTree.B. cbn [FB]. pose proof (is_var_kind e0) as Hv. destruct (is_var e0) as [k|].
    + destruct Hv as [(n & -> & _)|(n & -> & _)]; reflexivity.
    + destruct Hv as (H1 & H2 & _). cbn [fst snd].
      destruct (core e0); cbn [is_acc]; eauto.
      * exfalso; eapply H1; reflexivity. * exfalso; eapply H2; reflexivity.
  - destruct u; try reflexivity. exfalso; eapply Hp; reflexivity.
Qed.
Lemma oper_l e : oper (indk e) false (F e) (BL W e).
Proof.
  unfold oper, BL. pose proof (is_var_kind e) as Hv. destruct (is_var e) as [k|].
  - destruct Hv as [(n & _ & _ & ->)|(n & _ & _ & ->)]; reflexivity.
  - destruct Hv as (_ & _ & ->). reflexivity.
Qed.

Lemma zlen_BL e : zlen (BL W e) <= zlen (F e).
Proof. unfold BL. destruct (is_var e); [zl|lia]. apply zlen_nonneg. Qed.
Lemma zlen_fbin bl kl szl br kr szr t :
  zlen (fbin bl kl szl br kr szr t) <= zlen bl + zlen br + 4.
Proof. unfold fbin. zl. destruct (is_acc kl && is_acc kr); zl; lia. Qed.

Lemma lengths e : wf W e -> 1 <= zlen (rpn e) /\ zlen (F e) <= 3 * zlen (rpn e) - 2 /\ zlen (B e) <= zlen (F e).
Proof.
  induction e using ex_ind2; intros Hw; cbn [wf] in Hw; try contradiction.
  - repeat split; cbn; lia.
  - repeat split; cbn; lia.
  - repeat split; cbn; lia.
  - specialize (IHe (proj2 Hw)). unfold CgTree.F, CgTree.B in *. cbn [FB CgTree.rpn].
    pose proof (zlen_nonneg (fst (FB W e))).
    destruct (is_var e); cbn [fst snd]; zl; lia.
  - specialize (IHe (proj2 Hw)). unfold CgTree.F, CgTree.B in *. cbn [FB CgTree.rpn fst snd].
    destruct (is_var e); zl; lia.
  - specialize (IHe (proj2 Hw)). unfold CgTree.F, CgTree.B in *. cbn [FB CgTree.rpn fst snd].
    destruct (is_var e); zl; lia.
  - specialize (IHe (proj2 Hw)). unfold CgTree.F, CgTree.B in *. cbn [FB CgTree.rpn fst snd].
    destruct (is_var e); zl; lia.
  - specialize (IHe (proj2 Hw)).
    destruct u; unfold CgTree.F, CgTree.B in *; cbn [FB CgTree.rpn fst snd]; zl; lia.
  - specialize (IHe1 (proj1 Hw)). specialize (IHe2 (proj2 Hw)).
    pose proof (zlen_fbin (B e1) (kind e1) (ksize e1) (B e2) (kind e2) (ksize e2) (TArith (tok_arith o) 0)).
    unfold CgTree.F, CgTree.B in *; cbn [FB CgTree.rpn fst snd]; zl; lia.
  - specialize (IHe1 (proj1 Hw)). specialize (IHe2 (proj2 Hw)).
    pose proof (zlen_fbin (B e1) (kind e1) (ksize e1) (B e2) (kind e2) (ksize e2) (TCmp (tok_cmp o) 0)).
    unfold CgTree.F, CgTree.B in *; cbn [FB CgTree.rpn fst snd]; zl; lia.
  - destruct Hw as (_ & Hw). specialize (IHe1 (proj1 Hw)). specialize (IHe2 (proj2 Hw)).
    pose proof (zlen_fbin (BL W e1) (indk e1) sz (B e2) (kind e2) (ksize e2) (TAssign sz)).
    pose proof (zlen_BL e1).
    change (F (EAssign sz e1 e2)) with (fbin (BL W e1) (indk e1) sz (B e2) (kind e2) (ksize e2) (TAssign sz)).
    change (B (EAssign sz e1 e2)) with (fbin (BL W e1) (indk e1) sz (B e2) (kind e2) (ksize e2) (TAssign sz)).
    cbn [CgTree.rpn]. zl. lia.
  - destruct Hw as (_ & Hw). specialize (IHe1 (proj1 Hw)). specialize (IHe2 (proj2 Hw)).
    pose proof (zlen_fbin (BL W e1) (indk e1) sz (B e2) (kind e2) (ksize e2) (TAssignOp (tok_arith o) sz)).
    pose proof (zlen_BL e1).
    change (F (EAssignOp o sz e1 e2)) with (fbin (BL W e1) (indk e1) sz (B e2) (kind e2) (ksize e2) (TAssignOp (tok_arith o) sz)).
    change (B (EAssignOp o sz e1 e2)) with (fbin (BL W e1) (indk e1) sz (B e2) (kind e2) (ksize e2) (TAssignOp (tok_arith o) sz)).
    cbn [CgTree.rpn]. zl. lia.
  - specialize (IHe1 (proj1 Hw)). specialize (IHe2 (proj2 Hw)).
    unfold CgTree.F, CgTree.B in *; cbn [FB CgTree.rpn fst snd]; zl; lia.
  - destruct Hw as (_ & _ & _ & Hw). specialize (IHe1 (proj1 Hw)). specialize (IHe2 (proj2 Hw)).
    unfold CgTree.F, CgTree.B in *; cbn [FB CgTree.rpn fst snd]; zl; lia.
  - destruct Hw as (_ & _ & _ & Hw). specialize (IHe1 (proj1 Hw)). specialize (IHe2 (proj2 Hw)).
    unfold CgTree.F, CgTree.B in *; cbn [FB CgTree.rpn fst snd]; zl; lia.
  - destruct Hw as (_ & H1 & H2 & H3). specialize (IHe1 H1). specialize (IHe2 H2). specialize (IHe3 H3).
    unfold CgTree.F, CgTree.B in *; cbn [FB CgTree.rpn fst snd]; zl; lia.
  - destruct Hw as (Hf & Ha). specialize (IHe Hf).
    change (rpn (ECall e args)) with (TLParen (W * zlen args) :: rpn_args args ++ rpn e ++ [TRParen (W * zlen args)]).
    change (F (ECall e args)) with (TLParen (W * zlen args) :: F_args args ++ F e ++ [TRParen (W * zlen args)]).
    change (B (ECall e args)) with (TLParen (W * zlen args) :: F_args args ++ F e ++ [TRParen (W * zlen args)]).
    assert (0 <= zlen (rpn_args args) /\ zlen (F_args args) <= 3 * zlen (rpn_args args)).
    { clear - Ha H. induction H as [|a l Hh Ht IH]; [cbn; lia|].
      destruct Ha as [Ha Hl]. specialize (Hh Ha). specialize (IH Hl).
      cbn [CgTree.rpn_args CgTree.F_args]. zl. lia. }
    zl. lia.
Qed.

Lemma rpn_last e : wf W e -> exists a b, rpn e = a ++ [b] /\ b <> TArgSep /\ forall v, b <> TLParen v.
Proof.
  destruct e; cbn [wf CgTree.rpn]; intros Hw; try contradiction;
    try (eexists [], _; split; [reflexivity|split; [|intros]; (destruct uns || idtac); discriminate]);
    try (eexists _, _; split; [reflexivity|split; [|intros]; (destruct inc || destruct add || idtac); discriminate]).
  - exists (rpn e ++ [TNum n]), (if add then TPostAdd sz else TPostSub sz).
    split; [now las|split; [|intros]; destruct add; discriminate].
  - eexists (rpn e1 ++ rpn e2), _. split; [now las|split; [|intros]; discriminate].
  - eexists (rpn e1 ++ rpn e2), _. split; [now las|split; [|intros]; discriminate].
  - eexists (rpn e1 ++ rpn e2), _. split; [now las|split; [|intros]; discriminate].
  - eexists (rpn e1 ++ rpn e2), _. split; [now las|split; [|intros]; discriminate].
  - eexists (rpn e1 ++ rpn e2), _. split; [now las|split; [|intros]; discriminate].
  - eexists (rpn e1 ++ _ :: rpn e2), _. split; [now las|split; [|intros]; discriminate].
  - eexists (rpn e1 ++ _ :: rpn e2), _. split; [now las|split; [|intros]; discriminate].
  - eexists (rpn e1 ++ _ :: rpn e3 ++ _ :: _ :: rpn e2), _. split; [now las|split; [|intros]; discriminate].
  - eexists (_ :: rpn_args args ++ rpn e), _. split; [now las|split; [|intros]; discriminate].
Qed.

Definition fused (e : ex) : Prop := forall s pre post idx fuel,
  s = pre ++ rpn e ++ post -> idx = zlen pre + zlen (rpn e) - 1 -> (2 * length (rpn e) <= fuel)%nat ->
  gen_fuse W fuel s idx = Some (pre ++ F e ++ post, zlen pre - 1) \/
  (gen_fuse W fuel s idx = None /\ 129 < zlen pre + 3 * zlen (rpn e) - 2 + zlen post).

Ltac nn := repeat match goal with |- context [@zlen ?A ?l] => lazymatch goal with
  | _ : 0 <= zlen l |- _ => fail | _ => pose proof (zlen_nonneg l) end end.

(** The last token of a fused operand is a variable only if the operand is one. *)
Lemma F_last e : wf W e -> exists a b, F e = a ++ [b] /\
  match is_var e with
  | Some (OpIdent n) => a = [] /\ b = TIdent n
  | Some (OpLocal n) => a = [] /\ b = TLocal n
  | _ => (forall n, b <> TIdent n) /\ (forall n, b <> TLocal n)
  end.
Proof.
  intros Hw. apply wf_core in Hw. pose proof (core_notplus e) as Hp. rewrite F_core. unfold is_var.
  destruct (core e) eqn:Ec; try contradiction.
  all: try (pose proof (F_shape_acc _ Hw Hp eq_refl) as Hs;
    match type of Hs with shape ?f _ =>
      destruct f as [|x l] eqn:El using rev_ind;
        [destruct Hs as (u1 & t1 & ops1 & E1 & _); destruct u1; discriminate|];
      exists l, x; split; [reflexivity|]; pose proof (shape_last _ _ _ Hs eq_refl) as Hn;
      split; intros n0 ->; exact Hn end).
  - exists [], (if uns then TNumU n else TNum n). split; [reflexivity|]. destruct uns; split; discriminate.
  - eexists [], _. split; reflexivity || auto.
  - eexists [], _. split; reflexivity || auto.
  - unfold CgTree.F. cbn [FB]. pose proof (is_var_kind e0) as Hv. destruct (is_var e0) as [k|].
    + eexists [_], k. split; [reflexivity|].
      destruct Hv as [(n & _ & -> & _)|(n & _ & -> & _)]; split; discriminate.
    + exists (fst (FB W e0) ++ [TStar sz]), OpAcc. cbn [fst]. split; [now las|]. split; discriminate.
Qed.

Lemma gen_fuse_S fuel s idx tk :
  zget s idx = Some tk ->
  gen_fuse W (S fuel) s idx =
  (let idx := idx - 1 in
      let oldsp := zlen s in
      match tk with
      | TNum _ | TNumU _ | TIdent _ | TLocal _ => Some (s, idx)
      | TShortCirc _ | TGoto _ => gen_fuse W fuel s idx
      | TStar sz =>
          let? (s, idx') := gen_fuse W fuel s idx in
          let orr := idx - (oldsp - zlen s) in
          let? t := zget s orr in
          match t with
          | TIdent n =>
              let? s := zset s (orr + 1) (OpIdent n) in
              let? s := zset s orr tk in Some (s, idx')
          | TLocal n =>
              let? s := zset s (orr + 1) (OpLocal n) in
              let? s := zset s orr tk in Some (s, idx')
          | _ => let? s := ins s (orr + 2) OpAcc in Some (s, idx')
          end
      | TInc _ | TDec _ | TPostInc _ | TPostDec _ =>
          let? (s, idx') := gen_fuse W fuel s idx in
          let orr := idx - (oldsp - zlen s) in
          let? t := zget s orr in
          match t with
          | TIdent n =>
              let? s := zset s (orr + 1) (OpIndIdent n) in
              let? s := zset s orr tk in Some (s, idx')
          | TLocal n =>
              let? s := zset s (orr + 1) (OpIndLocal n) in
              let? s := zset s orr tk in Some (s, idx')
          | _ => let? s := ins s (orr + 2) OpIndAcc in Some (s, idx')
          end
      | TUn u =>
          let? (s, idx') := gen_fuse W fuel s idx in
          let orr := idx - (oldsp - zlen s) in
          match u with
          | UPlus => let? s := del s (orr + 1) 1 in Some (s, idx')
          | _ => Some (s, idx')
          end
      | TPostAdd _ | TPostSub _ =>
          let? t := zget s idx in
          let num := tval t in
          let idx := idx - 1 in
          let? (s, idx') := gen_fuse W fuel s idx in
          let orr := idx - (oldsp - zlen s) in
          let? t := zget s orr in
          match t with
          | TIdent n =>
              let? s := zset s (orr + 2) (OpNum num) in
              let? s := zset s (orr + 1) (OpIndIdent n) in
              let? s := zset s orr tk in Some (s, idx')
          | TLocal n =>
              let? s := zset s (orr + 2) (OpNum num) in
              let? s := zset s (orr + 1) (OpIndLocal n) in
              let? s := zset s orr tk in Some (s, idx')
          | _ =>
              let? s := zset s (orr + 1) tk in
              let? s := zset s (orr + 2) OpIndAcc in
              let? s := ins s (orr + 3) (OpNum num) in Some (s, idx')
          end
      | TAssign _ | TAssignOp _ _ | TArith _ _ | TCmp _ _ | TLogAnd _ | TLogOr _ | TComma =>
          let lvalSize := match tk with TAssign v | TAssignOp _ v => v | _ => 0 end in
          let? (s, idx1) := gen_fuse W fuel s idx in
          let orr := idx - (oldsp - zlen s) in
          let? (kr, szr, dr) := operand_info W s orr 0 in
          let ol := idx1 in
          let oldspl := zlen s in
          let? (s, idx2) := gen_fuse W fuel s idx1 in
          let ol := ol - (oldspl - zlen s) in
          let orr := orr - (oldspl - zlen s) in
          let? (kl, szl, dl) := operand_info W s ol lvalSize in
          match tk with
          | TLogAnd _ | TLogOr _ | TComma => Some (s, idx2)
          | _ =>
              let? s := fuse_operands s idx2 ol orr kl szl dl kr szr dr in
              Some (s, idx2)
          end
      | TRParen _ => fuse_args W fuel s idx
      | _ => None
      end).
Proof. intros H. cbn [gen_fuse]. rewrite H. reflexivity. Qed.

Ltac child IH pre' post' fuel' :=
  match goal with |- context [gen_fuse W ?fuel ?s ?i] =>
    destruct (IH s pre' post' i fuel') as [-> | [-> ?]];
      [now las|zl; lia| |cbn [obind]|right; split; [reflexivity|zl; lia]] end.

Lemma len2 (l : stack) (n : nat) : (2 * length l <= n)%nat <-> 2 * zlen l <= Z.of_nat n.
Proof. unfold zlen. lia. Qed.

Ltac fuel_tac := unfold zlen in *; repeat (rewrite app_length in * || (progress cbn [length CgTree.rpn] in * )); lia.

Lemma fused_inc e a tk :
  rpn e = rpn a ++ [tk] -> F e = BL W a ++ [tk; indk a] -> wf W a -> fused a ->
  match tk with TInc _ | TDec _ | TPostInc _ | TPostDec _ => True | _ => False end -> fused e.
Proof.
  intros Er Ef Hw IH Ht s pre post idx fuel Es Ei Hf.
  destruct (lengths a Hw) as (L1 & L2 & _).
  rewrite Er in *. destruct fuel as [|fuel]; [exfalso; fuel_tac|].
  rewrite (gen_fuse_S _ _ _ tk) by (eapply zget_at with (a := pre ++ rpn a); [subst s; now las|subst; zl; lia]).
  cbv zeta.
  destruct (IH s pre (tk :: post) (idx - 1) fuel) as [E | [E Hov]];
    [subst; now las|subst; zl; lia|fuel_tac| |].
  2: { right. rewrite E. split; [destruct tk; try contradiction; reflexivity|zl; lia]. }
  destruct (F_last a Hw) as (u & b & Eu & Hb).
  assert (Hz : zget (pre ++ F a ++ tk :: post) (idx - 1 - (zlen s - zlen (pre ++ F a ++ tk :: post))) = Some b).
  { eapply zget_at with (a := pre ++ u); [rewrite Eu; now las|]. rewrite Eu. subst. zl. lia. }
  rewrite Ef. unfold BL. pose proof (is_var_kind a) as Hv.
  pose proof (zlen_nonneg pre). pose proof (zlen_nonneg post).
  assert (G : forall ind n, is_var a = Some ind -> u = [] ->
    (b = TIdent n /\ indk a = OpIndIdent n \/ b = TLocal n /\ indk a = OpIndLocal n) ->
    (let? s := zset (pre ++ F a ++ tk :: post) (idx - 1 - (zlen s - zlen (pre ++ F a ++ tk :: post)) + 1) (indk a) in
     let? s := zset s (idx - 1 - (zlen (pre ++ (rpn a ++ [tk]) ++ post) - zlen (pre ++ F a ++ tk :: post))) tk in Some (s, zlen pre - 1)) =
    Some (pre ++ [tk; indk a] ++ post, zlen pre - 1)).
  { intros ind n _ -> _. rewrite Eu. 
    erewrite (zset_at _ (pre ++ [b]) tk post); [|now las|rewrite ?Eu; subst; zl; lia].
    cbn [obind].
    erewrite (zset_at _ pre b (indk a :: post)); [|now las|rewrite ?Eu; subst; zl; lia].
    cbn [obind]. feq. }
  destruct tk; try contradiction; rewrite E; cbn [obind]; rewrite Hz; cbn [obind]; clear Ht;
  (destruct (is_var a) as [k|];
   [destruct Hv as [(n & _ & -> & Hi)|(n & _ & -> & Hi)]; destruct Hb as [Hu ->]; left; rewrite <- Hi;
      subst s; eapply G; eauto
   |destruct Hb as [Hb1 Hb2]; destruct Hv as (_ & _ & Hi);
    assert (Hins : forall t', ins (pre ++ F a ++ t' :: post) (idx - 1 - (zlen s - zlen (pre ++ F a ++ t' :: post)) + 2) OpIndAcc = None /\ 129 <= zlen (pre ++ F a ++ t' :: post) \/
       ins (pre ++ F a ++ t' :: post) (idx - 1 - (zlen s - zlen (pre ++ F a ++ t' :: post)) + 2) OpIndAcc = Some (pre ++ (F a ++ [t'; OpIndAcc]) ++ post))
     by (intros t'; rewrite (ins_at _ (pre ++ F a ++ [t']) post); [|now las|subst; zl; lia];
         destruct (zlen (pre ++ F a ++ t' :: post) >=? 129) eqn:Ov;
           [left; split; [reflexivity|lia]|right; f_equal; now las]);
    match goal with |- context [?t' :: post] => destruct (Hins t') as [[Hn Hov]|Hs'] end;
    [right; split; [destruct b; try (exfalso; eapply Hb1; reflexivity); try (exfalso; eapply Hb2; reflexivity); rewrite Hn; reflexivity|zl; lia]
    |left; rewrite Hi; destruct b; try (exfalso; eapply Hb1; reflexivity); try (exfalso; eapply Hb2; reflexivity); rewrite Hs'; reflexivity]]).
Qed.

Lemma fused_bin e l r tk kl szl dl bl :
  rpn e = rpn l ++ rpn r ++ [tk] -> F e = fbin bl kl szl (B r) (kind r) (ksize r) tk ->
  wf W l -> wf W r -> fused l -> fused r ->
  (forall s pre post i, s = pre ++ F l ++ post -> i = zlen pre + zlen (F l) - 1 ->
     operand_info W s i (match tk with TAssign v | TAssignOp _ v => v | _ => 0 end) = Some (kl, szl, dl)) ->
  oper kl dl (F l) bl -> is_fused_op kl = true ->
  match tk with TAssign _ | TAssignOp _ _ | TArith _ _ | TCmp _ _ => True | _ => False end -> fused e.
Proof.
  intros Er Ef Hwl Hwr IHl IHr Hinfo Hop Hfk Ht s pre post idx fuel Es Ei Hf.
  destruct (lengths l Hwl) as (L1 & L2 & _). destruct (lengths r Hwr) as (R1 & R2 & _).
  pose proof (zlen_nonneg pre). pose proof (zlen_nonneg post).
  rewrite Er in *. destruct fuel as [|fuel]; [exfalso; fuel_tac|].
  rewrite (gen_fuse_S _ _ _ tk)
    by (eapply zget_at with (a := pre ++ rpn l ++ rpn r); [subst s; now las|subst; zl; lia]).
  cbv zeta.
  destruct (IHr s (pre ++ rpn l) (tk :: post) (idx - 1) fuel) as [E | [E Hov]];
    [subst; now las|subst; zl; lia|fuel_tac| |].
  2: { right. rewrite E. split; [destruct tk; try contradiction; reflexivity|zl; lia]. }
  set (s1 := (pre ++ rpn l) ++ F r ++ tk :: post) in *.
  assert (Er1 : operand_info W s1 (idx - 1 - (zlen s - zlen s1)) 0 = Some (kind r, ksize r, delref r)).
  { eapply opinfo_r with (pre := pre ++ rpn l) (post := tk :: post); auto.
    subst s s1 idx. zl. lia. }
  destruct (IHl s1 pre (F r ++ tk :: post) (zlen (pre ++ rpn l) - 1) fuel) as [E1 | [E1 Hov]];
    [subst s1; now las|subst; zl; lia|fuel_tac| |].
  2: { right. split; [|zl; lia].
       destruct tk; try contradiction; rewrite E; cbn [obind]; rewrite Er1; cbn [obind]; rewrite E1; reflexivity. }
  set (s2 := pre ++ F l ++ F r ++ tk :: post) in *.
  pose proof (Hinfo s2 pre (F r ++ tk :: post) (zlen (pre ++ rpn l) - 1 - (zlen s1 - zlen s2)) eq_refl
                ltac:(subst s1 s2; zl; lia)) as El1.
  destruct (fuse_operands_ok s2 pre (F l) (F r) tk post (zlen pre - 1)
    (zlen (pre ++ rpn l) - 1 - (zlen s1 - zlen s2))
    (idx - 1 - (zlen s - zlen s1) - (zlen s1 - zlen s2)) kl szl dl (kind r) (ksize r) (delref r) bl (B r))
    as [Ef2|[Ef2 Hov]]; auto using oper_r.
  { subst s1 s2; zl; lia. } { subst s s1 s2 idx; zl; lia. }
  - left. rewrite Ef.
    destruct tk; try contradiction; rewrite E; cbn [obind]; rewrite Er1; cbn [obind]; rewrite E1;
      cbn [obind]; rewrite El1; cbn [obind]; rewrite Ef2; reflexivity.
  - right. split; [|subst s2; zl; lia].
    destruct tk; try contradiction; rewrite E; cbn [obind]; rewrite Er1; cbn [obind]; rewrite E1;
      cbn [obind]; rewrite El1; cbn [obind]; rewrite Ef2; reflexivity.
Qed.

Lemma fused_deref sz a : wf W a -> fused a -> fused (EDeref sz a).
Proof.
  intros Hw IH s pre post idx fuel Es Ei Hf. cbn [CgTree.rpn] in *.
  destruct (lengths a Hw) as (L1 & L2 & _).
  destruct fuel as [|fuel]; [exfalso; fuel_tac|].
  rewrite (gen_fuse_S _ _ _ (TStar sz)) by (eapply zget_at with (a := pre ++ rpn a); [subst s; now las|subst; zl; lia]).
  cbv zeta.
  destruct (IH s pre (TStar sz :: post) (idx - 1) fuel) as [E | [E Hov]];
    [subst; now las|subst; zl; lia|fuel_tac| |].
  2: { right. rewrite E. split; [reflexivity|zl; lia]. }
  destruct (F_last a Hw) as (u & b & Eu & Hb).
  set (s1 := pre ++ F a ++ TStar sz :: post) in *.
  assert (Hz : zget s1 (idx - 1 - (zlen s - zlen s1)) = Some b).
  { eapply zget_at with (a := pre ++ u); [subst s1; rewrite Eu; now las|]. subst s s1 idx. rewrite Eu. zl. lia. }
  rewrite E. cbn [obind]. rewrite Hz. cbn [obind].
  pose proof (is_var_kind a) as Hv. pose proof (zlen_nonneg pre). pose proof (zlen_nonneg post).
  unfold CgTree.F at 1. cbn [FB].
  destruct (is_var a) as [k|].
  - destruct Hv as [(n & _ & -> & Hi)|(n & _ & -> & Hi)]; destruct Hb as [-> ->]; left;
    (erewrite (zset_at _ (pre ++ [_]) (TStar sz) post); [|subst s1; rewrite Eu; now las|subst s s1 idx; rewrite Eu; zl; lia];
    cbn [obind];
    erewrite (zset_at _ pre _ (_ :: post)); [|now las|subst s s1 idx; rewrite ?Eu; zl; lia];
    cbn [obind]; feq).
  - destruct Hb as [Hb1 Hb2]. cbn [fst]. change (fst (FB W a)) with (F a).
    replace (match b with
     | TIdent n => let? s0 := zset s1 (idx - 1 - (zlen s - zlen s1) + 1) (OpIdent n) in
         let? s2 := zset s0 (idx - 1 - (zlen s - zlen s1)) (TStar sz) in Some (s2, zlen pre - 1)
     | TLocal n => let? s0 := zset s1 (idx - 1 - (zlen s - zlen s1) + 1) (OpLocal n) in
         let? s2 := zset s0 (idx - 1 - (zlen s - zlen s1)) (TStar sz) in Some (s2, zlen pre - 1)
     | _ => let? s0 := ins s1 (idx - 1 - (zlen s - zlen s1) + 2) OpAcc in Some (s0, zlen pre - 1)
     end) with (let? s0 := ins s1 (idx - 1 - (zlen s - zlen s1) + 2) OpAcc in Some (s0, zlen pre - 1))
    by (destruct b; auto; exfalso; [eapply Hb1|eapply Hb2]; reflexivity).
    rewrite (ins_at _ (pre ++ F a ++ [TStar sz]) post); [|subst s1; now las|subst s s1 idx; zl; lia].
    destruct (zlen s1 >=? 129) eqn:Ov; [right|left].
    + split; [reflexivity|]. subst s1. zl. lia.
    + cbn [obind]. feq. now las.
Qed.

Lemma fused_postby add sz n a : wf W a -> fused a -> fused (EPostBy add sz n a).
Proof.
  intros Hw IH s pre post idx fuel Es Ei Hf. cbn [CgTree.rpn] in *.
  set (tk := if add then TPostAdd sz else TPostSub sz) in *.
  destruct (lengths a Hw) as (L1 & L2 & _).
  destruct fuel as [|fuel]; [exfalso; fuel_tac|].
  rewrite (gen_fuse_S _ _ _ tk) by (eapply zget_at with (a := pre ++ rpn a ++ [TNum n]); [subst s; now las|subst; zl; lia]).
  cbv zeta.
  assert (Hn : zget s (idx - 1) = Some (TNum n)).
  { eapply zget_at with (a := pre ++ rpn a); [subst s; now las|subst; zl; lia]. }
  destruct (IH s pre (TNum n :: tk :: post) (idx - 1 - 1) fuel) as [E | [E Hov]];
    [subst; now las|subst; zl; lia|fuel_tac| |].
  2: { right. split; [destruct add; unfold tk; rewrite Hn; cbn [obind]; rewrite E; reflexivity|zl; lia]. }
  destruct (F_last a Hw) as (u & b & Eu & Hb).
  set (s1 := pre ++ F a ++ TNum n :: tk :: post) in *.
  assert (Hz : zget s1 (idx - 1 - 1 - (zlen s - zlen s1)) = Some b).
  { eapply zget_at with (a := pre ++ u); [subst s1; rewrite Eu; now las|]. subst s s1 idx. rewrite Eu. zl. lia. }
  pose proof (is_var_kind a) as Hv. pose proof (zlen_nonneg pre). pose proof (zlen_nonneg post).
  change (F (EPostBy add sz n a)) with (BL W a ++ [tk; indk a; OpNum n]). unfold BL.
  set (orr := idx - 1 - 1 - (zlen s - zlen s1)) in *.
  match goal with |- ?x = _ \/ _ => assert (G : x =
    match is_var a with
    | Some _ => Some (pre ++ ([] ++ [tk; indk a; OpNum n]) ++ post, zlen pre - 1)
    | None => if zlen s1 >=? 129 then None else Some (pre ++ (F a ++ [tk; indk a; OpNum n]) ++ post, zlen pre - 1)
    end) end.
  { replace (match tk with
     | TNum _ | TNumU _ | TIdent _ | TLocal _ => Some (s, idx - 1) | _ => None end) with
     (@None (stack * Z)) by (unfold tk; destruct add; reflexivity).
    unfold tk at 1. destruct add; rewrite Hn; cbn [obind]; rewrite E; cbn [obind]; fold s1 orr; rewrite Hz; cbn [obind];
    (destruct (is_var a) as [k|];
     [destruct Hv as [(n0 & _ & -> & Hi)|(n0 & _ & -> & Hi)]; destruct Hb as [-> ->]; rewrite Hi;
      (erewrite (zset_at _ (pre ++ [b] ++ [_]) _ post) || erewrite (zset_at _ (pre ++ [_; _]) _ post);
        [|subst s1; rewrite Eu; now las|subst orr s s1 idx; rewrite ?Eu; zl; lia];
      cbn [obind];
      erewrite (zset_at _ (pre ++ [_]) _ (_ :: post)); [|now las|subst orr s s1 idx; rewrite ?Eu; zl; lia];
      cbn [obind];
      erewrite (zset_at _ pre _ (_ :: _ :: post)); [|now las|subst orr s s1 idx; rewrite ?Eu; zl; lia];
      cbn [obind]; feq)
     |destruct Hb as [Hb1 Hb2]; destruct Hv as (_ & _ & Hi); rewrite Hi;
      assert (Gb : forall (X Y : Z -> option (stack * Z)) (Z0 : option (stack * Z)),
        match b with TIdent n => X n | TLocal n => Y n | _ => Z0 end = Z0)
        by (clear - Hb1 Hb2; intros; destruct b; auto; exfalso; [eapply Hb1|eapply Hb2]; reflexivity);
      rewrite Gb;
      (erewrite (zset_at _ (pre ++ F a) _ (_ :: post)); [|subst s1; now las|subst orr s s1 idx; zl; lia];
       cbn [obind];
       erewrite (zset_at _ (pre ++ F a ++ [_]) _ post); [|now las|subst orr s s1 idx; zl; lia];
       cbn [obind];
       erewrite (ins_at _ (pre ++ F a ++ [_; _]) post); [|now las|subst orr s s1 idx; zl; lia];
       replace (zlen ((pre ++ F a ++ [_]) ++ _ :: post)) with (zlen s1) by (subst s1; zl; lia);
       destruct (zlen s1 >=? 129); [reflexivity|cbn [obind]; feq; now las])]). }
  rewrite G. destruct (is_var a); [now left|].
  destruct (zlen s1 >=? 129) eqn:Ov; [right|now left].
  split; [reflexivity|]. subst s1. zl. lia.
Qed.

Lemma fused_un u x : wf W x -> fused x -> fused (EUn u x).
Proof.
  intros Hw IH s pre post idx fuel Es Ei Hf. cbn [CgTree.rpn] in *.
  destruct (lengths x Hw) as (L1 & L2 & _).
  destruct fuel as [|fuel]; [exfalso; fuel_tac|].
  rewrite (gen_fuse_S _ _ _ (TUn (tok_un u))) by (eapply zget_at with (a := pre ++ rpn x); [subst s; now las|subst; zl; lia]).
  cbv zeta.
  destruct (IH s pre (TUn (tok_un u) :: post) (idx - 1) fuel) as [E | [E Hov]];
    [subst; now las|subst; zl; lia|fuel_tac| |].
  2: { right. rewrite E. split; [reflexivity|zl; lia]. }
  rewrite E. cbn [obind]. left.
  destruct u; cbn [tok_un];
    try (match goal with |- context [F (EUn ?u x)] => change (F (EUn u x)) with (F x ++ [TUn (tok_un u)]) end; feq; now las).
  change (F (EUn EPlus x)) with (F x).
  erewrite (del_at _ (pre ++ F x) [_] post); [|now las|subst; cbn [tok_un]; zl; lia|reflexivity].
  cbn [obind]. feq. now las.
Qed.

Lemma opinfo_some s pre t post i :
  s = pre ++ t :: post -> i = zlen pre -> is_fused_op t = false -> (forall sz, t <> TStar sz) ->
  exists r, operand_info W s i 0 = Some r.
Proof. intros. erewrite opinfo_leaf by eauto. eauto. Qed.

(** [l ++ mid] and [r ++ mid2] are the operands; the fused tokens [mid] in between stay. *)
Lemma fused_log s pre lseq rseq fl fr tk post idx fuel :
  s = pre ++ lseq ++ rseq ++ tk :: post -> idx = zlen pre + zlen lseq + zlen rseq ->
  0 <= zlen pre -> 0 <= zlen post ->
  match tk with TLogAnd _ | TLogOr _ | TComma => True | _ => False end ->
  (gen_fuse W fuel s (idx - 1) = Some ((pre ++ lseq) ++ fr ++ tk :: post, zlen pre + zlen lseq - 1) \/
   gen_fuse W fuel s (idx - 1) = None /\ 129 < zlen pre + zlen lseq + 3 * zlen rseq - 2 + 1 + zlen post) ->
  (forall s1 i, s1 = (pre ++ lseq) ++ fr ++ tk :: post -> i = zlen pre + zlen lseq + zlen fr - 1 ->
     exists r, operand_info W s1 i 0 = Some r) ->
  (forall s1 i, s1 = pre ++ lseq ++ fr ++ tk :: post -> i = zlen pre + zlen lseq - 1 ->
     gen_fuse W fuel s1 i = Some (pre ++ fl ++ fr ++ tk :: post, zlen pre - 1) \/
   gen_fuse W fuel s1 i = None /\ 129 < zlen pre + 3 * zlen lseq - 2 + zlen fr + 1 + zlen post) ->
  (forall s2 i, s2 = pre ++ fl ++ fr ++ tk :: post -> i = zlen pre + zlen fl - 1 ->
     exists r, operand_info W s2 i 0 = Some r) ->
  1 <= zlen lseq -> 1 <= zlen rseq -> zlen fr <= 3 * zlen rseq ->
  gen_fuse W (S fuel) s idx = Some (pre ++ (fl ++ fr ++ [tk]) ++ post, zlen pre - 1) \/
  gen_fuse W (S fuel) s idx = None /\ 129 < zlen pre + 3 * (zlen lseq + zlen rseq + 1) - 2 + zlen post.
Proof.
  intros Es Ei Hpre Hpost Ht HR HRi HL HLi L1 R1 R2.
  rewrite (gen_fuse_S _ _ _ tk) by (eapply zget_at with (a := pre ++ lseq ++ rseq); [subst s; now las|subst; zl; lia]).
  cbv zeta. destruct HR as [E | [E Hov]].
  2: { right. rewrite E. split; [destruct tk; try contradiction; reflexivity|lia]. }
  set (s1 := (pre ++ lseq) ++ fr ++ tk :: post) in *.
  destruct (HRi s1 (idx - 1 - (zlen s - zlen s1)) eq_refl) as [[[kr szr] dr] Er].
  { subst s s1 idx. zl. lia. }
  destruct (HL s1 (zlen pre + zlen lseq - 1)) as [E1 | [E1 Hov]]; [subst s1; now las|reflexivity| |].
  2: { right. split; [|lia].
       destruct tk; try contradiction; rewrite E; cbn [obind]; rewrite Er; cbn [obind]; rewrite E1; reflexivity. }
  set (s2 := pre ++ fl ++ fr ++ tk :: post) in *.
  destruct (HLi s2 (zlen pre + zlen lseq - 1 - (zlen s1 - zlen s2)) eq_refl) as [[[kl szl] dl] El].
  { subst s1 s2. zl. lia. }
  left.
  destruct tk; try contradiction; rewrite E; cbn [obind]; rewrite Er; cbn [obind]; rewrite E1; cbn [obind];
    rewrite El; cbn [obind]; feq; subst s2; now las.
Qed.

Lemma opinfo_r_some e s pre post i :
  wf W e -> s = pre ++ F e ++ post -> i = zlen pre + zlen (F e) - 1 ->
  exists r, operand_info W s i 0 = Some r.
Proof. intros. erewrite opinfo_r by eauto. eauto. Qed.

(** A jump token in front of an operator is skipped. *)
Lemma fuse_skip s pre x t post idx fuel :
  wf W x -> fused x -> s = pre ++ rpn x ++ t :: post -> idx = zlen pre + zlen (rpn x) ->
  match t with TShortCirc _ | TGoto _ => True | _ => False end ->
  (2 * length (rpn x) + 1 <= fuel)%nat ->
  gen_fuse W fuel s idx = Some (pre ++ F x ++ t :: post, zlen pre - 1) \/
  gen_fuse W fuel s idx = None /\ 129 < zlen pre + 3 * zlen (rpn x) - 2 + 1 + zlen post.
Proof.
  intros Hw IH Es Ei Ht Hf. destruct fuel as [|fuel]; [lia|].
  rewrite (gen_fuse_S _ _ _ t) by (eapply zget_at with (a := pre ++ rpn x); [subst s; now las|subst; zl; lia]).
  cbv zeta.
  destruct (IH s pre (t :: post) (idx - 1) fuel) as [E | [E Hov]];
    [subst; now las|subst; zl; lia|lia| |].
  - left. destruct t; try contradiction; exact E.
  - right. split; [destruct t; try contradiction; exact E|zl; lia].
Qed.

Lemma fused_comma l r : wf W l -> wf W r -> fused l -> fused r -> fused (EComma l r).
Proof.
  intros Hwl Hwr IHl IHr s pre post idx fuel Es Ei Hf. cbn [CgTree.rpn] in *.
  destruct (lengths l Hwl) as (L1 & L2 & _). destruct (lengths r Hwr) as (R1 & R2 & _).
  destruct fuel as [|fuel]; [exfalso; fuel_tac|].
  change (F (EComma l r)) with (F l ++ F r ++ [TComma]).
  replace (zlen (rpn l ++ rpn r ++ [TComma])) with (zlen (rpn l) + zlen (rpn r) + 1) by (zl; lia).
  apply fused_log; try apply zlen_nonneg; try exact I; try lia.
  - subst s. now las.
  - subst. zl. lia.
  - destruct (IHr s (pre ++ rpn l) (TComma :: post) (idx - 1) fuel) as [E | [E Hov]];
      [subst; now las|subst; zl; lia|fuel_tac|left|right; split; auto; zl; lia].
    rewrite E. feq. zl. lia.
  - intros s1 i -> ->. apply (opinfo_r_some r _ (pre ++ rpn l) (TComma :: post)); auto. zl. lia.
  - intros s1 i -> ->.
    destruct (IHl (pre ++ rpn l ++ F r ++ TComma :: post) pre (F r ++ TComma :: post) (zlen pre + zlen (rpn l) - 1) fuel) as [E | [E Hov]];
      auto; [fuel_tac|right; split; auto; zl; lia].
  - intros s2 i -> ->. apply (opinfo_r_some l _ pre (F r ++ TComma :: post)); auto.
Qed.

Lemma fused_andor e l r t1 t2 :
  rpn e = rpn l ++ t1 :: rpn r ++ [t2] -> F e = F l ++ t1 :: F r ++ [t2] ->
  match t1 with TShortCirc _ => True | _ => False end ->
  match t2 with TLogAnd _ | TLogOr _ => True | _ => False end ->
  wf W l -> wf W r -> fused l -> fused r -> fused e.
Proof.
  intros Er Ef Ht1 Ht2 Hwl Hwr IHl IHr s pre post idx fuel Es Ei Hf. rewrite Er, Ef in *.
  destruct (lengths l Hwl) as (L1 & L2 & _). destruct (lengths r Hwr) as (R1 & R2 & _).
  destruct fuel as [|fuel]; [exfalso; fuel_tac|].
  replace (F l ++ t1 :: F r ++ [t2]) with ((F l ++ [t1]) ++ F r ++ [t2]) by (now las).
  replace (zlen (rpn l ++ t1 :: rpn r ++ [t2])) with (zlen (rpn l ++ [t1]) + zlen (rpn r) + 1) by (zl; lia).
  apply fused_log; try apply zlen_nonneg; try match goal with |- _ <= _ => zl; lia end.
  - subst s. now las.
  - subst. zl. lia.
  - destruct t2; try contradiction; exact I.
  - destruct (IHr s (pre ++ rpn l ++ [t1]) (t2 :: post) (idx - 1) fuel) as [E | [E Hov]];
      [subst; now las|subst; zl; lia|fuel_tac|left|right; split; auto; zl; lia].
    rewrite E. feq. zl. lia.
  - intros s1 i -> ->. apply (opinfo_r_some r _ (pre ++ rpn l ++ [t1]) (t2 :: post)); auto. zl. lia.
  - intros s1 i Es1 ->.
    destruct (fuse_skip s1 pre l t1 (F r ++ t2 :: post) (zlen pre + zlen (rpn l ++ [t1]) - 1) fuel) as [E | [E Hov]];
      auto; [subst s1; now las|zl; lia|destruct t1; auto|fuel_tac|left|right; split; auto; zl; lia].
    rewrite E. feq. now las.
  - intros s2 i Es2 ->. eapply opinfo_some with (pre := pre ++ F l) (t := t1) (post := F r ++ t2 :: post).
    + subst s2. now las. + zl. lia.
    + destruct t1; try contradiction; reflexivity. + destruct t1; try contradiction; discriminate.
Qed.

Lemma fused_cond k c t f : wf W c -> wf W t -> wf W f -> fused c -> fused t -> fused f -> fused (ECond k c t f).
Proof.
  intros Hwc Hwt Hwf IHc IHt IHf s pre post idx fuel Es Ei Hf. cbn [CgTree.rpn] in *.
  destruct (lengths c Hwc) as (C1 & C2 & _). destruct (lengths t Hwt) as (T1 & T2 & _).
  destruct (lengths f Hwf) as (F1 & F2 & _).
  destruct fuel as [|[|fuel]]; try (exfalso; fuel_tac).
  change (F (ECond k c t f)) with
    (F c ++ TShortCirc (- k) :: F f ++ TGoto (k + 1) :: TLogAnd k :: F t ++ [TLogAnd (k + 1)]).
  set (sc := TShortCirc (- k)) in *. set (go := TGoto (k + 1)) in *. set (l1 := TLogAnd k) in *.
  set (l2 := TLogAnd (k + 1)) in *.
  replace (F c ++ sc :: F f ++ go :: l1 :: F t ++ [l2]) with
    ((F c ++ sc :: F f ++ [go; l1]) ++ F t ++ [l2]) by (now las).
  replace (zlen (rpn c ++ sc :: rpn f ++ go :: l1 :: rpn t ++ [l2])) with
    (zlen (rpn c ++ sc :: rpn f ++ [go; l1]) + zlen (rpn t) + 1) by (zl; lia).
  apply fused_log; try apply zlen_nonneg; try exact I; try match goal with |- _ <= _ => zl; lia end.
  - subst s. now las.
  - subst. zl. lia.
  - destruct (IHt s (pre ++ rpn c ++ sc :: rpn f ++ [go; l1]) (l2 :: post) (idx - 1) (S fuel)) as [E | [E Hov]];
      [subst; now las|subst; zl; lia|fuel_tac|left|right; split; auto; zl; lia].
    rewrite E. feq. zl. lia.
  - intros s1 i -> ->. apply (opinfo_r_some t _ (pre ++ rpn c ++ sc :: rpn f ++ [go; l1]) (l2 :: post)); auto. zl. lia.
  - intros s1 i Es1 ->.
    pose proof (fused_log s1 pre (rpn c ++ [sc]) (rpn f ++ [go]) (F c ++ [sc]) (F f ++ [go]) l1
      (F t ++ l2 :: post) (zlen pre + zlen (rpn c ++ sc :: rpn f ++ [go; l1]) - 1) fuel) as Q.
    destruct Q as [E | [E Hov]]; try exact I; try apply zlen_nonneg; try (zl; lia).
    + subst s1. now las.
    + destruct (fuse_skip s1 (pre ++ rpn c ++ [sc]) f go (l1 :: F t ++ l2 :: post)
        (zlen pre + zlen (rpn c ++ sc :: rpn f ++ [go; l1]) - 1 - 1) fuel) as [E | [E Hov]]; auto;
        [subst s1; now las|zl; lia|exact I|fuel_tac|left|right; split; auto; zl; lia].
      rewrite E. feq; [now las|zl; lia].
    + intros s2 i Es2 ->. eapply opinfo_some with (pre := pre ++ (rpn c ++ [sc]) ++ F f) (t := go).
      * subst s2. now las. * zl. lia. * reflexivity. * discriminate.
    + intros s2 i Es2 ->.
      destruct (fuse_skip s2 pre c sc ((F f ++ [go]) ++ l1 :: F t ++ l2 :: post)
        (zlen pre + zlen (rpn c ++ [sc]) - 1) fuel) as [E | [E Hov]]; auto;
        [subst s2; now las|zl; lia|exact I|fuel_tac|left|right; split; auto; zl; lia].
      rewrite E. feq. now las.
    + intros s2 i Es2 ->. eapply opinfo_some with (pre := pre ++ F c) (t := sc).
      * subst s2. now las. * zl. lia. * reflexivity. * discriminate.
    + left. rewrite E. feq. now las.
    + right. split; auto. zl. lia.
  - intros s2 i Es2 ->. eapply opinfo_some with (pre := pre ++ F c ++ sc :: F f ++ [go]) (t := l1).
    + subst s2. now las. + zl. lia. + reflexivity. + discriminate.
Qed.

Lemma fuse_args_S fuel s idx t :
  zget s idx = Some t ->
  fuse_args W (S fuel) s idx =
  match t with
  | TLParen _ => Some (s, idx - 1)
  | _ =>
      let? (s, idx) := gen_fuse W fuel s idx in
      let? t := zget s idx in
      fuse_args W fuel s (match t with TArgSep => idx - 1 | _ => idx end)
  end.
Proof. intros H. cbn [fuse_args]. rewrite H. reflexivity. Qed.

Definition args_idx (pre : stack) (args : list ex) : Z :=
  match args with [] => zlen pre | _ => zlen pre + zlen (rpn_args args) - 1 end.

Lemma fuse_args_ok args : Forall (fun a => fused a) args -> wf_args W args ->
  forall s pre v post idx fuel,
  s = pre ++ TLParen v :: rpn_args args ++ post -> idx = args_idx pre args ->
  (2 * length (rpn_args args) + 1 <= fuel)%nat ->
  fuse_args W fuel s idx = Some (pre ++ TLParen v :: F_args args ++ post, zlen pre - 1) \/
  (fuse_args W fuel s idx = None /\ 129 < zlen pre + 1 + 3 * zlen (rpn_args args) - 2 + zlen post).
Proof.
  induction 1 as [|a args Ha Hl IH]; intros Hw s pre v post idx fuel Es Ei Hf.
  - left. destruct fuel; [lia|].
    rewrite (fuse_args_S _ _ _ (TLParen v)) by (apply zget_at with (a := pre) (b := post); auto).
    subst s idx. feq.
  - destruct Hw as [Hwa Hwl]. destruct (lengths a Hwa) as (L1 & L2 & _).
    change (rpn_args (a :: args)) with (rpn_args args ++ rpn a ++ [TArgSep]) in *.
    change (F_args (a :: args)) with (F_args args ++ F a ++ [TArgSep]) in *.
    pose proof (zlen_nonneg pre). pose proof (zlen_nonneg post). pose proof (zlen_nonneg (rpn_args args)).
    destruct fuel as [|fuel]; [lia|].
    destruct (rpn_last a Hwa) as (u & b & Eu & Hb1 & Hb2).
    cbn [args_idx] in Ei.
    change (rpn_args (a :: args)) with (rpn_args args ++ rpn a ++ [TArgSep]) in Ei.
    rewrite (fuse_args_S _ _ _ b) by (apply zget_at with (a := pre ++ TLParen v :: rpn_args args ++ u) (b := TArgSep :: post);
      [subst s; rewrite Eu; now las|subst idx; rewrite Eu; zl; lia]).
    assert (G : forall X Y : option (stack * Z), match b with TLParen _ => X | _ => Y end = Y).
    { intros. destruct b; auto. exfalso. eapply Hb2. reflexivity. }
    rewrite G. clear G.
    destruct (Ha s (pre ++ TLParen v :: rpn_args args) (TArgSep :: post) idx fuel) as [-> | [-> Hov]];
      [subst s; now las|subst idx; zl; lia|fuel_tac| |right; split; [reflexivity|zl; lia]].
    cbn [obind]. set (post' := F a ++ TArgSep :: post).
    assert (G : exists t0, zget ((pre ++ TLParen v :: rpn_args args) ++ post')
                  (zlen (pre ++ TLParen v :: rpn_args args) - 1) = Some t0 /\
              match t0 with TArgSep => zlen (pre ++ TLParen v :: rpn_args args) - 1 - 1
                          | _ => zlen (pre ++ TLParen v :: rpn_args args) - 1 end = args_idx pre args).
    { destruct args as [|a1 args].
      - exists (TLParen v). split; [|cbn [args_idx CgTree.rpn_args]; zl; lia].
        apply zget_at with (a := pre) (b := post'); [now las|]. cbn [CgTree.rpn_args]. zl. lia.
      - exists TArgSep. cbn [args_idx].
        change (rpn_args (a1 :: args)) with (rpn_args args ++ rpn a1 ++ [TArgSep]).
        split; [|zl; lia].
        apply zget_at with (a := pre ++ TLParen v :: rpn_args args ++ rpn a1) (b := post'); [now las|zl; lia]. }
    destruct G as (t0 & G1 & G2). rewrite G1. cbn [obind]. rewrite G2.
    destruct (IH Hwl ((pre ++ TLParen v :: rpn_args args) ++ post') pre v post' (args_idx pre args) fuel)
      as [-> | [-> Hov]]; [now las|reflexivity|fuel_tac|left|right].
    + subst post'. feq. now las.
    + split; [reflexivity|]. subst post'. zl. lia.
Qed.

Lemma fused_call f args : wf W f -> wf_args W args -> fused f -> Forall fused args -> fused (ECall f args).
Proof.
  intros Hwf Hwa IHf IHa s pre post idx fuel Es Ei Hf.
  set (v := W * zlen args).
  change (rpn (ECall f args)) with (TLParen v :: rpn_args args ++ rpn f ++ [TRParen v]) in *.
  change (F (ECall f args)) with (TLParen v :: F_args args ++ F f ++ [TRParen v]).
  destruct (lengths f Hwf) as (L1 & L2 & _).
  pose proof (zlen_nonneg pre). pose proof (zlen_nonneg post). pose proof (zlen_nonneg (rpn_args args)).
  destruct fuel as [|[|fuel]]; try (exfalso; fuel_tac).
  rewrite (gen_fuse_S _ _ _ (TRParen v))
    by (eapply zget_at with (a := pre ++ TLParen v :: rpn_args args ++ rpn f); [subst s; now las|subst; zl; lia]).
  cbv zeta.
  destruct (rpn_last f Hwf) as (u & b & Eu & Hb1 & Hb2).
  rewrite (fuse_args_S _ _ _ b) by (apply zget_at with (a := pre ++ TLParen v :: rpn_args args ++ u) (b := TRParen v :: post);
    [subst s; rewrite Eu; now las|subst idx; rewrite Eu; zl; lia]).
  assert (G : forall X Y : option (stack * Z), match b with TLParen _ => X | _ => Y end = Y).
  { intros. destruct b; auto. exfalso. eapply Hb2. reflexivity. }
  rewrite G. clear G.
  destruct (IHf s (pre ++ TLParen v :: rpn_args args) (TRParen v :: post) (idx - 1) fuel) as [-> | [-> Hov]];
    [subst s; now las|subst idx; zl; lia|fuel_tac| |right; split; [reflexivity|zl; lia]].
  cbn [obind]. set (post' := F f ++ TRParen v :: post).
  assert (G : exists t0, zget ((pre ++ TLParen v :: rpn_args args) ++ post')
                (zlen (pre ++ TLParen v :: rpn_args args) - 1) = Some t0 /\
            match t0 with TArgSep => zlen (pre ++ TLParen v :: rpn_args args) - 1 - 1
                        | _ => zlen (pre ++ TLParen v :: rpn_args args) - 1 end =
            match args with [] => zlen pre | _ => zlen pre + zlen (rpn_args args) - 1 end).
  { destruct args as [|a1 args].
    - exists (TLParen v). split; [|cbn [CgTree.rpn_args]; zl; lia].
      apply zget_at with (a := pre) (b := post'); [now las|]. cbn [CgTree.rpn_args]. zl. lia.
    - exists TArgSep.
      change (rpn_args (a1 :: args)) with (rpn_args args ++ rpn a1 ++ [TArgSep]).
      split; [|zl; lia].
      apply zget_at with (a := pre ++ TLParen v :: rpn_args args ++ rpn a1) (b := post'); [now las|zl; lia]. }
  destruct G as (t0 & G1 & G2). rewrite G1. cbn [obind]. rewrite G2.
  destruct (fuse_args_ok args IHa Hwa ((pre ++ TLParen v :: rpn_args args) ++ post') pre v post'
     (args_idx pre args) fuel) as [E | [E Hov]]; [now las|reflexivity|fuel_tac|left|right];
     (change (match args with [] => zlen pre | _ => zlen pre + zlen (rpn_args args) - 1 end) with (args_idx pre args));
     rewrite E.
  - subst post'. feq. now las.
  - split; [reflexivity|]. subst post'. zl. lia.
Qed.

Theorem fuse_ok e : wf W e -> fused e.
Proof.
  induction e using ex_ind2; intros Hw; cbn [wf] in Hw; try contradiction.
  - intros s pre post idx fuel Es Ei Hf. cbn [CgTree.rpn] in *. left.
    destruct fuel; [cbn in Hf; lia|].
    rewrite (gen_fuse_S _ _ _ (if u then TNumU n else TNum n)) by (eapply zget_at with (a := pre); [subst s; now las|subst; zl; lia]).
    unfold CgTree.F. cbn [FB fst].
    subst s idx. destruct u; cbv zeta; feq; zl; lia.
  - intros s pre post idx fuel Es Ei Hf. cbn [CgTree.rpn] in *. left.
    destruct fuel; [cbn in Hf; lia|].
    rewrite (gen_fuse_S _ _ _ (TIdent n)) by (eapply zget_at with (a := pre); [subst s; now las|subst; zl; lia]).
    unfold CgTree.F. cbn [FB fst]. subst s idx. cbv zeta; feq; zl; lia.
  - intros s pre post idx fuel Es Ei Hf. cbn [CgTree.rpn] in *. left.
    destruct fuel; [cbn in Hf; lia|].
    rewrite (gen_fuse_S _ _ _ (TLocal n)) by (eapply zget_at with (a := pre); [subst s; now las|subst; zl; lia]).
    unfold CgTree.F. cbn [FB fst]. subst s idx. cbv zeta; feq; zl; lia.
  - apply fused_deref; tauto.
  - eapply fused_inc with (a := e); try reflexivity; try tauto. destruct i; exact I.
  - eapply fused_inc with (a := e); try reflexivity; try tauto. destruct i; exact I.
  - apply fused_postby; tauto.
  - apply fused_un; tauto.
  - destruct Hw as [Hwl Hwr]. eapply fused_bin with (l := e1) (r := e2) (dl := delref e1); try reflexivity; auto.
    + intros. eapply opinfo_r; eauto. + now apply oper_r. + apply fused_kind.
  - destruct Hw as [Hwl Hwr]. eapply fused_bin with (l := e1) (r := e2) (dl := delref e1); try reflexivity; auto.
    + intros. eapply opinfo_r; eauto. + now apply oper_r. + apply fused_kind.
  - destruct Hw as (Hsz & Hwl & Hwr). eapply fused_bin with (l := e1) (r := e2) (dl := false) (bl := BL W e1); try reflexivity; auto.
    + intros. eapply opinfo_l; eauto. red in Hsz. lia. + apply oper_l. + apply fused_indk.
  - destruct Hw as (Hsz & Hwl & Hwr). eapply fused_bin with (l := e1) (r := e2) (dl := false) (bl := BL W e1); try reflexivity; auto.
    + intros. eapply opinfo_l; eauto. red in Hsz. lia. + apply oper_l. + apply fused_indk.
  - apply fused_comma; tauto.
  - eapply fused_andor with (l := e1) (r := e2); try reflexivity; try exact I; tauto.
  - eapply fused_andor with (l := e1) (r := e2); try reflexivity; try exact I; tauto.
  - apply fused_cond; tauto.
  - destruct Hw as [Hwf Hwa]. apply fused_call; auto.
    clear - H Hwa. induction H as [|a l Ha Hl IH]; constructor; destruct Hwa; auto.
Qed.
End W.
