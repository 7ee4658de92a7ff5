(** Emission from a fused stack, piece by piece. *)
From Verif Require Import Base BaseLemmas X86 CgModel ExprSpec CgTree CgFuse.

Section W.
Variable W : Z.
Hypothesis HW : W = 2 \/ W = 4.
Notation F := (F W). Notation B := (B W). Notation BL := (BL W). Notation ksize := (ksize W).
Notation wf := (wf W).

(** [em pre mid post code]: with [pre ++ mid ++ post] on the stack, the loop of GenExpr1 emits
    [code] while it goes over [mid]. *)
Inductive em : stack -> stack -> stack -> list instr -> Prop :=
| em_nil pre post : em pre [] post []
| em_cons pre mid1 mid2 post c code :
    gen_step W (pre ++ mid1 ++ mid2 ++ post) (zlen pre) = Some (c, zlen pre + zlen mid1) ->
    mid1 <> [] -> em (pre ++ mid1) mid2 post code ->
    em pre (mid1 ++ mid2) post (c ++ code).

Lemma em_app pre a b post c1 c2 :
  em pre a (b ++ post) c1 -> em (pre ++ a) b post c2 -> em pre (a ++ b) post (c1 ++ c2).
Proof.
  intros H. remember (b ++ post) as q eqn:Eq. induction H; intros H2; subst.
  - rewrite app_nil_r in H2. exact H2.
  - rewrite <- !app_assoc. apply em_cons; auto.
    + rewrite <- H. repeat rewrite <- app_assoc. reflexivity.
    + apply IHem; auto. now rewrite <- app_assoc.
Qed.
Lemma em1 pre mid post c :
  mid <> [] -> gen_step W (pre ++ mid ++ post) (zlen pre) = Some (c, zlen pre + zlen mid) -> em pre mid post c.
Proof.
  intros Hn H. rewrite <- (app_nil_r mid), <- (app_nil_r c). apply em_cons; auto. constructor.
Qed.

Lemma em_loop pre mid code :
  em pre mid [] code -> forall fuel, (length mid <= fuel)%nat -> gen_loop W fuel (pre ++ mid) (zlen pre) = Some code.
Proof.
  intros H. remember [] as post eqn:Ep. induction H; intros fuel Hf; subst.
  - rewrite app_nil_r. destruct fuel; cbn [gen_loop]; rewrite Z.geb_leb, Z.leb_refl; reflexivity.
  - rewrite app_length in Hf. destruct mid1 as [|t mid1]; [congruence|].
    destruct fuel as [|fuel]; [cbn in Hf; lia|].
    cbn [gen_loop]. rewrite Z.geb_leb. rewrite app_nil_r in H.
    assert (zlen (pre ++ (t :: mid1) ++ mid2) <=? zlen pre = false) as ->.
    { apply Z.leb_gt. zl. pose proof (zlen_nonneg mid1). pose proof (zlen_nonneg mid2). lia. }
    rewrite H. cbn [obind]. specialize (IHem eq_refl fuel ltac:(cbn in Hf; lia)).
    rewrite <- app_assoc in IHem. rewrite zlen_app in IHem. rewrite IHem. reflexivity.
Qed.

(** Looking at the tokens around the current position. *)
Lemma zg (pre rest : stack) j : 0 <= j -> zget (pre ++ rest) (zlen pre + j) = zget rest j.
Proof. intros. rewrite zget_app_r by lia. f_equal. lia. Qed.
Lemma zg0 (pre rest : stack) t : zget (pre ++ t :: rest) (zlen pre) = Some t.
Proof. rewrite zget_app_r by lia. rewrite Z.sub_diag. reflexivity. Qed.
Lemma zg1 (pre rest : stack) a b : zget (pre ++ a :: b :: rest) (zlen pre + 1) = Some b.
Proof. rewrite zg by lia. reflexivity. Qed.
Lemma zg2 (pre rest : stack) a b c : zget (pre ++ a :: b :: c :: rest) (zlen pre + 2) = Some c.
Proof. rewrite zg by lia. reflexivity. Qed.
Lemma zn1 (pre rest : stack) a : zget (pre ++ a :: rest) (zlen pre + 1) = hd_error rest.
Proof. rewrite zg by lia. destruct rest; reflexivity. Qed.
Lemma zn2 (pre rest : stack) a b : zget (pre ++ a :: b :: rest) (zlen pre + 2) = hd_error rest.
Proof. rewrite zg by lia. destruct rest; reflexivity. Qed.
Lemma zn3 (pre rest : stack) a b c : zget (pre ++ a :: b :: c :: rest) (zlen pre + 3) = hd_error rest.
Proof. rewrite zg by lia. destruct rest; reflexivity. Qed.
Lemma zgm1 (pre rest : stack) a : zget ((pre ++ [a]) ++ rest) (zlen (pre ++ [a]) - 1) = Some a.
Proof. rewrite <- app_assoc. eapply zget_at; [reflexivity|zl; lia]. Qed.
Lemma zgm2 (pre rest : stack) a b : zget ((pre ++ [a; b]) ++ rest) (zlen (pre ++ [a; b]) - 2) = Some a.
Proof. rewrite <- app_assoc. eapply zget_at; [reflexivity|zl; lia]. Qed.

(** Tokens that no preceding operand looks at specially. *)
Definition plain_tok (t : tok) : bool :=
  match t with TArgSep | TRParen _ | TIf _ | TIfNot _ => false | _ => true end.
Definition plain (post : stack) : bool := match post with [] => true | t :: _ => plain_tok t end.

Lemma plain_sep post : plain post = true ->
  is_sep (hd_error post) = false /\ is_rparen (hd_error post) = false /\
  (forall l, hd_error post <> Some (TIf l)) /\ (forall l, hd_error post <> Some (TIfNot l)).
Proof. destruct post as [|[] ?]; cbn; repeat split; try discriminate; auto. Qed.

(** What may follow the fused form of [e]. *)
Definition nextok (e : ex) (post : stack) : Prop :=
  match hd_error post with
  | Some TArgSep =>
      match core e with ENum _ _ | EIdent _ => False | EDeref sz _ => sz <> W | _ => True end
  | Some (TRParen _) => match core e with EIdent _ => False | _ => True end
  | Some (TIf _) | Some (TIfNot _) => match core e with ECmp _ _ _ => False | _ => True end
  | _ => True
  end.
Lemma plain_nextok e post : plain post = true -> nextok e post.
Proof. unfold nextok. destruct post as [|[] ?]; cbn; try discriminate; auto. Qed.

Lemma F_EDeref sz a : F (EDeref sz a) = BL a ++ [TStar sz; match is_var a with Some k => k | None => OpAcc end].
Proof.
  unfold CgTree.F, CgTree.BL. cbn [FB]. destruct (is_var a); reflexivity.
Qed.
Lemma B_EDeref sz a : B (EDeref sz a) = BL a.
Proof. unfold CgTree.B, CgTree.BL. cbn [FB]. destruct (is_var a); reflexivity. Qed.

Lemma plain_app a b : plain a = true -> plain b = true -> plain (a ++ b) = true.
Proof. destruct a; auto. Qed.
Lemma plain_cons t b : plain_tok t = true -> plain (t :: b) = true.
Proof. auto. Qed.

Lemma plain_F e : wf e -> F e <> [] /\ forall post, plain (F e ++ post) = true.
Proof.
  revert e.
  assert (HI : forall e, wf e -> F e <> [] /\ plain (F e) = true /\ plain (B e) = true).
  { intros e. induction e using ex_ind2; intros Hw; try contradiction; cbn [CgTree.wf] in Hw.
    - destruct u; repeat split; discriminate.
    - repeat split; discriminate.
    - repeat split; discriminate.
    - destruct Hw as [_ Hw]. destruct (IHe Hw) as (H1 & H2 & H3). rewrite F_EDeref, B_EDeref.
      assert (HB : plain (BL e) = true) by (unfold CgTree.BL; destruct (is_var e); auto).
      repeat split; auto. + intros E. apply app_eq_nil in E as [_ E]. discriminate. + apply plain_app; auto.
    - destruct Hw as [_ Hw]. destruct (IHe Hw) as (H1 & H2 & H3).
      assert (HB : plain (BL e) = true) by (unfold CgTree.BL; destruct (is_var e); auto).
      change (B (EPre i sz e)) with (F (EPre i sz e)).
      assert (E : F (EPre i sz e) = BL e ++ [if i then TInc sz else TDec sz; indk e]) by reflexivity. rewrite E.
      repeat split; try (apply plain_app; auto; destruct i; reflexivity). intros E2. apply app_eq_nil in E2 as [_ E2]. discriminate.
    - destruct Hw as [_ Hw]. destruct (IHe Hw) as (H1 & H2 & H3).
      assert (HB : plain (BL e) = true) by (unfold CgTree.BL; destruct (is_var e); auto).
      change (B (EPost i sz e)) with (F (EPost i sz e)).
      assert (E : F (EPost i sz e) = BL e ++ [if i then TPostInc sz else TPostDec sz; indk e]) by reflexivity. rewrite E.
      repeat split; try (apply plain_app; auto; destruct i; reflexivity). intros E2. apply app_eq_nil in E2 as [_ E2]. discriminate.
    - destruct Hw as [_ Hw]. destruct (IHe Hw) as (H1 & H2 & H3).
      assert (HB : plain (BL e) = true) by (unfold CgTree.BL; destruct (is_var e); auto).
      change (B (EPostBy i sz n e)) with (F (EPostBy i sz n e)).
      assert (E : F (EPostBy i sz n e) = BL e ++ [if i then TPostAdd sz else TPostSub sz; indk e; OpNum n]) by reflexivity. rewrite E.
      repeat split; try (apply plain_app; auto; destruct i; reflexivity). intros E2. apply app_eq_nil in E2 as [_ E2]. discriminate.
    - destruct Hw as [_ Hw]. destruct (IHe Hw) as (H1 & H2 & H3).
      assert (G : forall t, plain_tok t = true -> F e ++ [t] <> [] /\ plain (F e ++ [t]) = true /\ plain (F e ++ [t]) = true).
      { intros t Ht. repeat split; try (apply plain_app; auto). intros E2. apply app_eq_nil in E2 as [_ E2]. discriminate. }
      destruct u; try (apply G; reflexivity). exact (conj H1 (conj H2 H3)).
    - destruct Hw as [Hw1 Hw2]. destruct (IHe1 Hw1) as (H1 & H2 & H3). destruct (IHe2 Hw2) as (H1' & H2' & H3').
      assert (G : F (EArith o e1 e2) <> [] /\ plain (F (EArith o e1 e2)) = true).
      { change (F (EArith o e1 e2)) with (fbin (B e1) (kind e1) (ksize e1) (B e2) (kind e2) (ksize e2) (TArith (tok_arith o) 0)).
        unfold fbin. split; [intros E; repeat (apply app_eq_nil in E as [_ E]); discriminate|].
        repeat (apply plain_app; auto); destruct (is_acc (kind e1) && is_acc (kind e2)); reflexivity. }
      destruct G; auto.
    - destruct Hw as [Hw1 Hw2]. destruct (IHe1 Hw1) as (H1 & H2 & H3). destruct (IHe2 Hw2) as (H1' & H2' & H3').
      assert (G : F (ECmp o e1 e2) <> [] /\ plain (F (ECmp o e1 e2)) = true).
      { change (F (ECmp o e1 e2)) with (fbin (B e1) (kind e1) (ksize e1) (B e2) (kind e2) (ksize e2) (TCmp (tok_cmp o) 0)).
        unfold fbin. split; [intros E; repeat (apply app_eq_nil in E as [_ E]); discriminate|].
        repeat (apply plain_app; auto); destruct (is_acc (kind e1) && is_acc (kind e2)); reflexivity. }
      destruct G; auto.
    - destruct Hw as (_ & Hw1 & Hw2). destruct (IHe1 Hw1) as (H1 & H2 & H3). destruct (IHe2 Hw2) as (H1' & H2' & H3').
      assert (HB : plain (BL e1) = true) by (unfold CgTree.BL; destruct (is_var e1); auto).
      assert (G : F (EAssign sz e1 e2) <> [] /\ plain (F (EAssign sz e1 e2)) = true).
      { change (F (EAssign sz e1 e2)) with (fbin (BL e1) (indk e1) sz (B e2) (kind e2) (ksize e2) (TAssign sz)).
        unfold fbin. split; [intros E; repeat (apply app_eq_nil in E as [_ E]); discriminate|].
        repeat (apply plain_app; auto); destruct (is_acc (indk e1) && is_acc (kind e2)); reflexivity. }
      destruct G; auto.
    - destruct Hw as (_ & Hw1 & Hw2). destruct (IHe1 Hw1) as (H1 & H2 & H3). destruct (IHe2 Hw2) as (H1' & H2' & H3').
      assert (HB : plain (BL e1) = true) by (unfold CgTree.BL; destruct (is_var e1); auto).
      assert (G : F (EAssignOp o sz e1 e2) <> [] /\ plain (F (EAssignOp o sz e1 e2)) = true).
      { change (F (EAssignOp o sz e1 e2)) with (fbin (BL e1) (indk e1) sz (B e2) (kind e2) (ksize e2) (TAssignOp (tok_arith o) sz)).
        unfold fbin. split; [intros E; repeat (apply app_eq_nil in E as [_ E]); discriminate|].
        repeat (apply plain_app; auto); destruct (is_acc (indk e1) && is_acc (kind e2)); reflexivity. }
      destruct G; auto.
    - destruct Hw as (Hw1 & Hw2). destruct (IHe1 Hw1) as (H1 & H2 & H3).
      assert (G : F (EComma e1 e2) <> [] /\ plain (F (EComma e1 e2)) = true).
      { change (F (EComma e1 e2)) with (F e1 ++ F e2 ++ [TComma]). destruct (F e1); [congruence|]. split; [discriminate|exact H2]. }
      destruct G; auto.
    - destruct Hw as (_ & _ & _ & Hw1 & Hw2). destruct (IHe1 Hw1) as (H1 & H2 & H3).
      assert (G : F (EAnd2 k e1 e2) <> [] /\ plain (F (EAnd2 k e1 e2)) = true).
      { change (F (EAnd2 k e1 e2)) with (F e1 ++ TShortCirc k :: F e2 ++ [TLogAnd k]). destruct (F e1); [congruence|]. split; [discriminate|exact H2]. }
      destruct G; auto.
    - destruct Hw as (_ & _ & _ & Hw1 & Hw2). destruct (IHe1 Hw1) as (H1 & H2 & H3).
      assert (G : F (EOr2 k e1 e2) <> [] /\ plain (F (EOr2 k e1 e2)) = true).
      { change (F (EOr2 k e1 e2)) with (F e1 ++ TShortCirc (- k) :: F e2 ++ [TLogOr k]). destruct (F e1); [congruence|]. split; [discriminate|exact H2]. }
      destruct G; auto.
    - destruct Hw as (_ & Hw1 & _). destruct (IHe1 Hw1) as (H1 & H2 & H3).
      assert (G : F (ECond k e1 e2 e3) <> [] /\ plain (F (ECond k e1 e2 e3)) = true).
      { change (F (ECond k e1 e2 e3)) with (F e1 ++ TShortCirc (- k) :: F e3 ++ TGoto (k + 1) :: TLogAnd k :: F e2 ++ [TLogAnd (k + 1)]).
        destruct (F e1); [congruence|]. split; [discriminate|exact H2]. }
      destruct G; auto.
    - repeat split; discriminate. }
  intros e Hw. destruct (HI e Hw) as (H1 & H2 & _). split; auto. intros post. destruct (F e); [congruence|exact H2].
Qed.
Lemma plain_B e post : wf e -> plain post = true -> plain (B e ++ post) = true.
Proof.
  intros Hw Hp. rewrite B_core. apply wf_core in Hw. pose proof (core_notplus e) as Hn.
  assert (HBL : forall a, wf a -> plain (BL a ++ post) = true).
  { intros a Ha. unfold CgTree.BL. destruct (is_var a); [exact Hp|]. now apply plain_F. }
  destruct (core e) eqn:Ec; try contradiction; try exact Hp.
  all: try (change (B ?x) with (F x); now apply plain_F).
  - rewrite B_EDeref. apply HBL. apply Hw.
  - destruct u; try (change (B ?x) with (F x); now apply plain_F). now elim (Hn e0).
Qed.
Lemma plain_BL a post : wf a -> plain post = true -> plain (BL a ++ post) = true.
Proof. intros Ha Hp. unfold CgTree.BL. destruct (is_var a); [exact Hp|]. now apply plain_F. Qed.
End W.
