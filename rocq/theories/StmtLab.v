(** No label is defined twice in the code of a function. *)
From Verif Require Import Base BaseLemmas X86 CgModel ExprSpec CgTree CgFuse MachSpec CgMach CgEmit CgSim CgCorrect StmtSpec StmtModel.
From Coq Require Import Permutation.

Lemma labels_app a b : labels (a ++ b) = labels a ++ labels b.
Proof. induction a as [|[] a IH]; cbn; congruence. Qed.

Section W.
Variable W : Z.

Ltac lz := repeat match goal with |- context [if ?b then _ else _] => destruct b end; try reflexivity.
Lemma lab2 i d x : labels (gen2 W i d x) = [].
Proof. destruct i, x; cbn [gen2]; lz. Qed.
Lemma lab1 i o : labels (gen1 i o) = []. Proof. reflexivity. Qed.
Ltac la := repeat (rewrite ?labels_app, ?lab2, ?lab1; cbn [labels app]); try reflexivity.
Lemma lab_extend sz : labels (gen_extend W sz) = [].
Proof. unfold gen_extend. repeat match goal with |- context [if ?b then _ else _] => destruct b end; la. Qed.
Lemma lab_read sz m : labels (gen_read W sz m) = [].
Proof. unfold gen_read. la. now rewrite lab_extend. Qed.
Lemma lab_read_ind sz : labels (gen_read_ind W sz) = [].
Proof. unfold gen_read_ind. la. now rewrite lab_read. Qed.
Lemma lab_readc sz m : labels (gen_readc W sz m) = [].
Proof. unfold gen_readc. repeat match goal with |- context [if ?b then _ else _] => destruct b end; la. Qed.
Lemma lab_incdec i sz m : labels (gen_incdec W i sz m) = [].
Proof. unfold gen_incdec. la. now rewrite lab_extend. Qed.
Lemma lab_postincdec i sz m : labels (gen_postincdec W i sz m) = [].
Proof. unfold gen_postincdec. la. rewrite lab_extend. la. Qed.
Lemma lab_postaddsub a sz v m : labels (gen_postaddsub W a sz v m) = [].
Proof. unfold gen_postaddsub. la. rewrite lab_extend. la. Qed.
Lemma lab_save k v : labels (gen_save_right W k v) = [].
Proof. destruct k; cbn [gen_save_right]; la. unfold gen_readc_ind. la. now rewrite lab_readc. Qed.
Lemma lab_load k sz c : gen_load W k sz = Some c -> labels c = [].
Proof.
  destruct k; cbn [gen_load]; intros H; try discriminate; injection H as <-; la;
  rewrite ?lab_read, ?lab_read_ind; la.
Qed.
Lemma lab_op2 i k sz c : gen_op2 W i k sz = Some c -> labels c = [].
Proof.
  destruct k; cbn [gen_op2]; intros H; try discriminate; injection H as <-; la;
  destruct (negb (sz =? W)); la; rewrite ?lab_readc; la.
Qed.
Lemma lab_mul k sz c : gen_mul W k sz = Some c -> labels c = [].
Proof.
  destruct k; cbn [gen_mul]; intros H; try discriminate; injection H as <-; la;
  destruct (negb (sz =? W)); la; rewrite ?lab_readc; la.
Qed.
Lemma lab_div a b k sz c : gen_div W a b k sz = Some c -> labels c = [].
Proof.
  unfold gen_div. intros H. apply obind_Some in H as (c0 & Hc & H). injection H as <-.
  assert (L : labels c0 = []).
  { destruct k; try discriminate; injection Hc as <-; la; destruct (negb (sz =? W)); la; rewrite ?lab_readc; la. }
  destruct a, b; la; rewrite ?L; try destruct (W =? 2); reflexivity.
Qed.
Lemma lab_shift i k c : gen_shift W i k = Some c -> labels c = [].
Proof. destruct k; cbn [gen_shift]; intros H; try discriminate; injection H as <-; la. Qed.
Lemma lab_arith a k sz c : gen_arith W a k sz = Some c -> labels c = [].
Proof. destruct a; cbn [gen_arith]; eauto using lab_op2, lab_mul, lab_div, lab_shift. Qed.
Lemma lab_tail c o : labels (gen_cmp_tail W c o) = [].
Proof. unfold gen_cmp_tail. destruct o as [[]|]; la; destruct (W =? 2); la. Qed.
Lemma lab_store k sz : labels (gen_store W k sz) = [].
Proof. unfold gen_store. la. rewrite lab_extend. destruct k; la. Qed.
Lemma lab_lval k p m : gen_lval W k = Some (p, m) -> labels p = [].
Proof. destruct k; cbn; intros H; try discriminate; injection H as <- <-; la. Qed.

Definition tlab (t : tok) : list Z := match t with TLogAnd l | TLogOr l => [l] | _ => [] end.
Definition tlabs (s : stack) : list Z := flat_map tlab s.
Lemma tlabs_app a b : tlabs (a ++ b) = tlabs a ++ tlabs b.
Proof. apply flat_map_app. Qed.

Ltac ob H x Hx := apply obind_Some in H as (x & Hx & H).
Lemma step_labels s i c i' : gen_step W s i = Some (c, i') ->
  i < i' /\ exists t, zget s i = Some t /\ labels c = tlab t.
Proof.
  unfold gen_step. intros H. apply obind_Some in H as (t & Ht & H). rewrite Ht.
  assert (HH : i < i' /\ labels c = tlab t); [|destruct HH as [H1 H2]; split; eauto].
  destruct t; try discriminate; cbn [tlab];
    try (injection H as <- <-; split; [lia|]; repeat match goal with |- context [if ?b then _ else _] => destruct b end; la).
  - destruct (_ && _); [injection H as <- <-; split; [lia|reflexivity]|]. ob H k Hk.
    destruct k; injection H as <- <-; split; try lia; rewrite ?lab_read, ?lab_read_ind; reflexivity.
  - ob H k Hk. ob H q Hq. destruct q as [p m]. injection H as <- <-. split; [lia|]. la. rewrite lab_incdec, (lab_lval _ _ _ Hq). reflexivity.
  - ob H k Hk. ob H q Hq. destruct q as [p m]. injection H as <- <-. split; [lia|]. la. rewrite lab_incdec, (lab_lval _ _ _ Hq). reflexivity.
  - ob H k Hk. ob H q Hq. destruct q as [p m]. injection H as <- <-. split; [lia|]. la. rewrite lab_postincdec, (lab_lval _ _ _ Hq). reflexivity.
  - ob H k Hk. ob H q Hq. destruct q as [p m]. injection H as <- <-. split; [lia|]. la. rewrite lab_postincdec, (lab_lval _ _ _ Hq). reflexivity.
  - ob H k Hk. ob H n Hn. ob H q Hq. destruct q as [p m]. injection H as <- <-. split; [lia|]. la. rewrite lab_postaddsub, (lab_lval _ _ _ Hq). reflexivity.
  - ob H k Hk. ob H n Hn. ob H q Hq. destruct q as [p m]. injection H as <- <-. split; [lia|]. la. rewrite lab_postaddsub, (lab_lval _ _ _ Hq). reflexivity.
  - destruct u; try discriminate; injection H as <- <-; split; try lia; la; destruct (W =? 2); la.
  - ob H k Hk. ob H r Hr. ob H c1 H1. injection H as <- <-. split; [lia|]. la. rewrite lab_store, (lab_load _ _ _ H1). destruct k; la.
  - ob H k Hk. ob H r Hr. ob H c1 H1. ob H c2 H2. injection H as <- <-. split; [lia|]. la.
    rewrite lab_store, (lab_load _ _ _ H1), lab_save, (lab_arith _ _ _ _ H2). reflexivity.
  - ob H k Hk. ob H r Hr. ob H c1 H1. ob H c2 H2. injection H as <- <-. split; [lia|]. la.
    rewrite (lab_load _ _ _ H1), lab_save, (lab_arith _ _ _ _ H2). reflexivity.
  - ob H k Hk. ob H r Hr. ob H c1 H1. ob H c2 H2. injection H as <- <-. split; [lia|]. la.
    rewrite lab_tail, (lab_load _ _ _ H1), lab_save, (lab_op2 _ _ _ _ H2). reflexivity.
  - ob H p Hp. destruct (zget s (i - 2)) as [[]|]; try (injection H as <- <-; split; [lia|]; destruct p; reflexivity).
    destruct (sz =? W); [|injection H as <- <-; split; [lia|]; destruct p; reflexivity].
    destruct p; injection H as <- <-; split; try lia; la.
  - ob H p Hp. injection H as <- <-. split; [lia|]. la. unfold gen_grow_stack. destruct (- v =? 0); destruct p; la.
Qed.

(** Sublists, in order. *)
Inductive sub {A} : list A -> list A -> Prop :=
| sub_nil l : sub [] l
| sub_keep x a b : sub a b -> sub (x :: a) (x :: b)
| sub_drop x a b : sub a b -> sub a (x :: b).
Lemma sub_in {A} (a b : list A) : sub a b -> forall x, In x a -> In x b.
Proof. induction 1; cbn; intros ? H'; [contradiction|destruct H'; auto|auto]. Qed.
Lemma sub_nodup {A} (a b : list A) : sub a b -> NoDup b -> NoDup a.
Proof.
  induction 1; intros Hn; [constructor| |inversion Hn; auto].
  inversion Hn; subst. constructor; auto. intros Hi. apply (sub_in _ _ H) in Hi. contradiction.
Qed.
Lemma sub_refl {A} (a : list A) : sub a a.
Proof. induction a; constructor; auto. Qed.
Lemma sub_app2 {A} (p a b : list A) : sub a b -> sub (p ++ a) (p ++ b).
Proof. induction p; cbn; auto. constructor. auto. Qed.
Lemma sub_appl {A} (p a b : list A) : sub a b -> sub a (p ++ b).
Proof. induction p; cbn; auto. constructor. auto. Qed.

Lemma skipn_add {A} n : forall m (l : list A), skipn n (skipn m l) = skipn (m + n) l.
Proof. intros m. revert n. induction m; intros n [|x l]; cbn; auto. now rewrite skipn_nil. Qed.
Lemma loop_labels fuel : forall s i c, 0 <= i -> gen_loop W fuel s i = Some c ->
  sub (labels c) (tlabs (skipn (Z.to_nat i) s)).
Proof.
  induction fuel as [|fuel IH]; intros s i c Hi H; cbn [gen_loop] in H.
  { destruct (i >=? zlen s); [|discriminate]. injection H as <-. constructor. }
  destruct (i >=? zlen s); [injection H as <-; constructor|].
  apply obind_Some in H as ([c1 i'] & H1 & H). apply obind_Some in H as (c2 & H2 & H). injection H as <-.
  apply step_labels in H1 as (Hlt & t & Ht & Hl). rewrite labels_app, Hl.
  specialize (IH s i' c2 ltac:(lia) H2).
  assert (E : skipn (Z.to_nat i) s = t :: skipn (Z.to_nat (i + 1)) s).
  { unfold zget in Ht. destruct (i <? 0); [discriminate|]. rewrite Z2Nat.inj_add by lia. change (Z.to_nat 1) with 1%nat.
    rewrite Nat.add_1_r. revert Ht. generalize (Z.to_nat i) as n. clear. induction s; intros [|n] H; cbn in H; try discriminate.
    - injection H as ->. reflexivity. - cbn [skipn]. rewrite (IHs _ H). reflexivity. }
  rewrite E. cbn [tlabs flat_map]. apply sub_app2.
  assert (E2 : exists q, skipn (Z.to_nat (i + 1)) s = q ++ skipn (Z.to_nat i') s).
  { exists (firstn (Z.to_nat i' - Z.to_nat (i + 1)) (skipn (Z.to_nat (i + 1)) s)).
    replace (skipn (Z.to_nat i') s) with (skipn (Z.to_nat i' - Z.to_nat (i + 1)) (skipn (Z.to_nat (i + 1)) s)).
    - symmetry. apply firstn_skipn.
    - rewrite skipn_add. f_equal. lia. }
  destruct E2 as [q E2]. unfold tlabs in *. rewrite E2, flat_map_app. apply sub_appl. exact IH.
Qed.

(** ** Labels of an expression *)
Fixpoint elabs (e : ex) : list Z :=
  match e with
  | EVal _ | ENum _ _ | EIdent _ | ELocal _ => []
  | EDeref _ a | EPre _ _ a | EPost _ _ a | EPostBy _ _ _ a | EUn _ a => elabs a
  | EArith _ l r | ECmp _ l r | EAssign _ l r | EAssignOp _ _ l r | EComma l r => elabs l ++ elabs r
  | EAnd2 k l r | EOr2 k l r => elabs l ++ elabs r ++ [k]
  | ECond k c t f => elabs c ++ elabs f ++ k :: elabs t ++ [k + 1]
  | ECall f args => (fix go l := match l with [] => [] | a :: l => go l ++ elabs a end) args ++ elabs f
  end.
Definition elabs_args := fix go l := match l with [] => [] | a :: l => go l ++ elabs a end.

Lemma elabs_core e : elabs (core e) = elabs e.
Proof. induction e; try reflexivity. destruct u; auto. Qed.
Lemma elabs_var e k : is_var e = Some k -> elabs e = [].
Proof. unfold is_var. rewrite <- (elabs_core e). destruct (core e); try discriminate; reflexivity. Qed.
Lemma tlab_stk a b : tlab a = [] -> tlab (stk a b) = [].
Proof. unfold stk. destruct (is_acc b); auto. destruct a; auto. Qed.
Lemma tlab_kind e : tlab (kind e) = [].
Proof. unfold kind. destruct (core e); try reflexivity; [destruct uns; reflexivity|]. destruct (core _); reflexivity. Qed.
Lemma tlab_indk e : tlab (indk e) = [].
Proof. unfold indk. destruct (core e); reflexivity. Qed.
Lemma tlabs_fbin bl kl szl br kr szr t : tlab kl = [] -> tlab kr = [] ->
  (forall v, tlab (set_tval t v) = []) -> tlabs (fbin bl kl szl br kr szr t) = tlabs bl ++ tlabs br.
Proof.
  intros Hl Hr Ht. unfold fbin. rewrite !tlabs_app.
  replace (tlabs [set_tval t (szv szl szr); stk kl kr; kr]) with (@nil Z)
    by (unfold tlabs; cbn [flat_map]; rewrite Ht, (tlab_stk _ _ Hl), Hr; reflexivity).
  rewrite app_nil_r. destruct (is_acc kl && is_acc kr); reflexivity.
Qed.

Lemma tlabs_FB e : tlabs (fst (FB W e)) = elabs e /\ tlabs (snd (FB W e)) = elabs e.
Proof.
  induction e using ex_ind2; try (split; reflexivity); cbn [FB elabs].
  - destruct u; split; reflexivity.
  - destruct (is_var e) eqn:Ev; [rewrite (elabs_var _ _ Ev); split; [|reflexivity]|].
    + unfold is_var in Ev. destruct (core e); try discriminate; injection Ev as <-; reflexivity.
    + destruct IHe as [IH _]. cbn [fst snd]. rewrite tlabs_app, IH. split; [apply app_nil_r|reflexivity].
  - destruct IHe as [IH _]. split; cbn [fst snd]; rewrite tlabs_app; cbn [tlabs flat_map]; rewrite tlab_indk; destruct i; cbn [tlab app];
      (destruct (is_var e) eqn:Ev; [rewrite (elabs_var _ _ Ev); reflexivity|rewrite IH; apply app_nil_r]).
  - destruct IHe as [IH _]. split; cbn [fst snd]; rewrite tlabs_app; cbn [tlabs flat_map]; rewrite tlab_indk; destruct i; cbn [tlab app];
      (destruct (is_var e) eqn:Ev; [rewrite (elabs_var _ _ Ev); reflexivity|rewrite IH; apply app_nil_r]).
  - destruct IHe as [IH _]. split; cbn [fst snd]; rewrite tlabs_app; cbn [tlabs flat_map]; rewrite tlab_indk; destruct i; cbn [tlab app];
      (destruct (is_var e) eqn:Ev; [rewrite (elabs_var _ _ Ev); reflexivity|rewrite IH; apply app_nil_r]).
  - destruct IHe as [IH1 IH2]. destruct u; cbn [fst snd]; try (split; assumption);
      (split; rewrite tlabs_app, IH1; apply app_nil_r).
  - destruct IHe1 as [_ IH1], IHe2 as [_ IH2]. split; cbn [fst snd]; rewrite tlabs_fbin, IH1, IH2; auto using tlab_kind.
  - destruct IHe1 as [_ IH1], IHe2 as [_ IH2]. split; cbn [fst snd]; rewrite tlabs_fbin, IH1, IH2; auto using tlab_kind.
  - destruct IHe1 as [IH1 _], IHe2 as [_ IH2]. split; cbn [fst snd]; rewrite tlabs_fbin, IH2; auto using tlab_kind, tlab_indk;
      (destruct (is_var e1) eqn:Ev; [rewrite (elabs_var _ _ Ev); reflexivity|now rewrite IH1]).
  - destruct IHe1 as [IH1 _], IHe2 as [_ IH2]. split; cbn [fst snd]; rewrite tlabs_fbin, IH2; auto using tlab_kind, tlab_indk;
      (destruct (is_var e1) eqn:Ev; [rewrite (elabs_var _ _ Ev); reflexivity|now rewrite IH1]).
  - destruct IHe1 as [IH1 _], IHe2 as [IH2 _]. split; cbn [fst snd]; rewrite !tlabs_app, IH1, IH2; cbn; now rewrite app_nil_r.
  - destruct IHe1 as [IH1 _], IHe2 as [IH2 _]. split; cbn [fst snd]; rewrite tlabs_app; cbn [tlabs flat_map tlab app]; fold (tlabs (fst (FB W e2) ++ [TLogAnd k]));
      rewrite tlabs_app, IH1, IH2; reflexivity.
  - destruct IHe1 as [IH1 _], IHe2 as [IH2 _]. split; cbn [fst snd]; rewrite tlabs_app; cbn [tlabs flat_map tlab app]; fold (tlabs (fst (FB W e2) ++ [TLogOr k]));
      rewrite tlabs_app, IH1, IH2; reflexivity.
  - destruct IHe1 as [IH1 _], IHe2 as [IH2 _], IHe3 as [IH3 _].
    assert (tlabs (fst (FB W e1) ++ TShortCirc (- k) :: fst (FB W e3) ++ TGoto (k + 1) :: TLogAnd k :: fst (FB W e2) ++ [TLogAnd (k + 1)]) =
      elabs e1 ++ elabs e3 ++ k :: elabs e2 ++ [k + 1]); [|split; assumption].
    rewrite tlabs_app, IH1. f_equal. change (TShortCirc (- k) :: ?x) with ([TShortCirc (- k)] ++ x). rewrite !tlabs_app, IH3. cbn [tlabs flat_map tlab app].
    f_equal. change (TGoto (k + 1) :: TLogAnd k :: ?x) with ([TGoto (k + 1); TLogAnd k] ++ x).
    cbn [app flat_map tlab]. f_equal. fold (tlabs (fst (FB W e2) ++ [TLogAnd (k + 1)])). rewrite tlabs_app, IH2. reflexivity.
  - destruct IHe as [IH _].
    assert (A : tlabs ((fix go l := match l with [] => [] | a :: l => go l ++ fst (FB W a) ++ [TArgSep] end) args) =
       (fix go l := match l with [] => [] | a :: l => go l ++ elabs a end) args).
    { clear IH. induction H as [|a l [Ha _] _ IHl]; [reflexivity|]. rewrite !tlabs_app, IHl, Ha. cbn. now rewrite app_nil_r. }
    split; cbn [fst snd]; cbn [tlabs flat_map tlab app]; rewrite ?flat_map_app; fold tlabs; unfold tlabs in A, IH; rewrite A, IH; cbn; now rewrite app_nil_r.
Qed.

Lemma expr_labels e tail code : W = 2 \/ W = 4 -> wf W e -> tail_ok tail -> gen_expr W (rpn W e ++ tail) = Some code ->
  sub (labels code) (elabs e).
Proof.
  intros HW Hw Ht H. destruct (gen_expr_fuse W HW e tail Hw Ht) as [E|[E _]]; rewrite E in H; [|discriminate].
  apply loop_labels in H; [|lia]. cbn [skipn Z.to_nat] in H. rewrite tlabs_app in H. unfold F in H. rewrite (proj1 (tlabs_FB e)) in H.
  replace (tlabs tail) with (@nil Z) in H; [now rewrite app_nil_r in H|].
  destruct Ht as [->|(t & -> & Ht)]; [reflexivity|]. destruct t; try discriminate; reflexivity.
Qed.
End W.

(** ** Label assignment *)
Fixpoint relabel_args (l : list ex) (n : Z) : list ex * Z :=
  match l with
  | [] => ([], n)
  | a :: l => let (a, n) := relabel a n in let (l, n) := relabel_args l n in (a :: l, n)
  end.
Lemma relabel_call f args n : relabel (ECall f args) n =
  let (f, n) := relabel f n in let (args, n) := relabel_args args n in (ECall f args, n).
Proof. reflexivity. Qed.

(** Label numbers removed. *)
Fixpoint strip (e : ex) : ex :=
  match e with
  | EVal _ | ENum _ _ | EIdent _ | ELocal _ => e
  | EDeref sz a => EDeref sz (strip a)
  | EPre i sz a => EPre i sz (strip a)
  | EPost i sz a => EPost i sz (strip a)
  | EPostBy i sz k a => EPostBy i sz k (strip a)
  | EUn u a => EUn u (strip a)
  | EArith o l r => EArith o (strip l) (strip r)
  | ECmp o l r => ECmp o (strip l) (strip r)
  | EAssign o l r => EAssign o (strip l) (strip r)
  | EAssignOp o sz l r => EAssignOp o sz (strip l) (strip r)
  | EComma l r => EComma (strip l) (strip r)
  | EAnd2 _ l r => EAnd2 0 (strip l) (strip r)
  | EOr2 _ l r => EOr2 0 (strip l) (strip r)
  | ECond _ c t f => ECond 0 (strip c) (strip t) (strip f)
  | ECall f args => ECall (strip f) (map strip args)
  end.

(** Numbers handed out: distinct, from the counter. *)
Definition fresh_in (n n' : Z) (l : list Z) : Prop := n <= n' /\ NoDup l /\ forall x, In x l -> n <= x < n'.
Lemma fresh_nil n : fresh_in n n [].
Proof. split; [lia|]. split; [constructor|]. intros x []. Qed.
Lemma NoDup_app_intro {A} (a b : list A) : NoDup a -> NoDup b -> (forall x, In x a -> ~ In x b) -> NoDup (a ++ b).
Proof.
  induction a; cbn; intros Ha Hb Hd; [exact Hb|]. inversion Ha; subst. constructor.
  - rewrite in_app_iff. intros [H|H]; [contradiction|]. eapply Hd; eauto.
  - apply IHa; auto.
Qed.
Lemma fresh_app n1 n2 n3 a b : fresh_in n1 n2 b -> fresh_in n2 n3 a -> fresh_in n1 n3 (a ++ b).
Proof.
  intros (H1 & H2 & H3) (H4 & H5 & H6). split; [lia|]. split.
  - apply NoDup_app_intro; auto. intros x Ha Hb. apply H3 in Hb. apply H6 in Ha. lia.
  - intros x Hx. apply in_app_iff in Hx as [Hx|Hx]; [apply H6 in Hx|apply H3 in Hx]; lia.
Qed.
Lemma fresh_app' n1 n2 n3 a b : fresh_in n1 n2 a -> fresh_in n2 n3 b -> fresh_in n1 n3 (a ++ b).
Proof.
  intros (H1 & H2 & H3) (H4 & H5 & H6). split; [lia|]. split.
  - apply NoDup_app_intro; auto. intros x Ha Hb. apply H3 in Ha. apply H6 in Hb. lia.
  - intros x Hx. apply in_app_iff in Hx as [Hx|Hx]; [apply H3 in Hx|apply H6 in Hx]; lia.
Qed.
Lemma fresh_one n : fresh_in n (n + 1) [n].
Proof. split; [lia|]. split; [repeat constructor; intros []|]. intros x [<-|[]]. lia. Qed.
Lemma fresh_perm n n' a b : Permutation a b -> fresh_in n n' a -> fresh_in n n' b.
Proof.
  intros P (H1 & H2 & H3). split; auto. split; [eapply Permutation_NoDup; eauto|].
  intros x Hx. apply H3. eapply Permutation_in; [symmetry; exact P|exact Hx].
Qed.

Lemma relabel_ok e : forall n, fresh_in n (snd (relabel e n)) (elabs (fst (relabel e n))) /\ strip (fst (relabel e n)) = strip e.
Proof.
  induction e using ex_ind2; intros nn; try (split; [apply fresh_nil|reflexivity]);
    try (cbn [relabel]; specialize (IHe nn); destruct (relabel e nn) as [a n1]; cbn [fst snd elabs strip] in *;
         destruct IHe as [IH1 IH2]; split; [exact IH1|now rewrite IH2]);
    try (cbn [relabel]; specialize (IHe2 nn); destruct (relabel e2 nn) as [r n1]; specialize (IHe1 n1); destruct (relabel e1 n1) as [l n2];
         cbn [fst snd elabs strip] in *; destruct IHe1 as [IH1 IH2], IHe2 as [IH3 IH4]; split; [eapply fresh_app; eauto|now rewrite IH2, IH4]).
  - cbn [relabel]. specialize (IHe2 (nn + 1)). destruct (relabel e2 (nn + 1)) as [r n1]. specialize (IHe1 n1). destruct (relabel e1 n1) as [l n2].
    cbn [fst snd elabs strip] in *. destruct IHe1 as [IH1 IH2], IHe2 as [IH3 IH4]. split; [|now rewrite IH2, IH4].
    eapply fresh_app; [|exact IH1]. eapply fresh_app; [apply fresh_one|exact IH3].
  - cbn [relabel]. specialize (IHe2 (nn + 1)). destruct (relabel e2 (nn + 1)) as [r n1]. specialize (IHe1 n1). destruct (relabel e1 n1) as [l n2].
    cbn [fst snd elabs strip] in *. destruct IHe1 as [IH1 IH2], IHe2 as [IH3 IH4]. split; [|now rewrite IH2, IH4].
    eapply fresh_app; [|exact IH1]. eapply fresh_app; [apply fresh_one|exact IH3].
  - cbn [relabel]. specialize (IHe2 (nn + 2)). destruct (relabel e2 (nn + 2)) as [t n1]. specialize (IHe3 n1). destruct (relabel e3 n1) as [f n2].
    specialize (IHe1 n2). destruct (relabel e1 n2) as [c n3].
    cbn [fst snd elabs strip] in *. destruct IHe1 as [IH1 IH2], IHe2 as [IH3 IH4], IHe3 as [IH5 IH6]. split; [|now rewrite IH2, IH4, IH6].
    eapply fresh_app; [|exact IH1].
    eapply fresh_perm with (a := (elabs f ++ elabs t ++ [nn + 1]) ++ [nn]).
    { rewrite <- app_assoc. apply Permutation_app_head. symmetry. apply Permutation_cons_append. }
    eapply fresh_app; [apply fresh_one|]. eapply fresh_app; [|exact IH5]. eapply fresh_app; [|exact IH3].
    replace (nn + 2) with (nn + 1 + 1) by lia. apply fresh_one.
  - rewrite relabel_call. specialize (IHe nn). destruct (relabel e nn) as [g n1]. cbn [fst snd] in IHe. destruct IHe as [IH1 IH2].
    assert (A : forall n, fresh_in n (snd (relabel_args args n)) (elabs_args (fst (relabel_args args n))) /\
                map strip (fst (relabel_args args n)) = map strip args).
    { clear - H.  induction H as [|a l Ha Hl IH]; intros n; [split; [apply fresh_nil|reflexivity]|]. cbn [relabel_args].
      specialize (Ha n). destruct (relabel a n) as [a' n1]. specialize (IH n1). destruct (relabel_args l n1) as [l' n2].
      cbn [fst snd map elabs_args] in *. destruct Ha as [A1 A2], IH as [B1 B2]. split; [eapply fresh_app; eauto|congruence]. }
    specialize (A n1). destruct (relabel_args args n1) as [args' n2]. cbn [fst snd strip] in *. destruct A as [A1 A2].
    split; [|now rewrite IH2, A2]. change (elabs (ECall g args')) with (elabs_args args' ++ elabs g). eapply fresh_app; eauto.
Qed.

(** ** Label numbers do not matter for evaluation *)
Section Strip.
Variables (W : Z) (addr : Z -> Z) (bp : Z) (ext : Z -> list Z -> mem -> option (Z * mem)).
Notation red := (red W addr bp ext). Notation estep := (estep W addr bp ext).
Notation esteps := (esteps W addr bp ext). Notation bad := (bad W addr bp ext). Notation safe := (safe W addr bp ext).

Definition stripF (F : frame) : frame :=
  match F with
  | FArithL o r => FArithL o (strip r) | FArithR o l => FArithR o (strip l)
  | FCmpL c r => FCmpL c (strip r) | FCmpR c l => FCmpR c (strip l)
  | FAssignL sz r => FAssignL sz (strip r) | FAssignR sz l => FAssignR sz (strip l)
  | FAssignOpL o sz r => FAssignOpL o sz (strip r) | FAssignOpR o sz l => FAssignOpR o sz (strip l)
  | FComma r => FComma (strip r) | FAnd2 k r => FAnd2 0 (strip r) | FOr2 k r => FOr2 0 (strip r)
  | FCond k t f => FCond 0 (strip t) (strip f)
  | FCallF args => FCallF (map strip args)
  | FCallA f b a => FCallA (strip f) (map strip b) (map strip a)
  | _ => F
  end.
Lemma strip_plug F e : strip (plug F e) = plug (stripF F) (strip e).
Proof. destruct F; cbn; try reflexivity. now rewrite map_app. Qed.
Lemma values_strip l vs : values l = Some vs -> values (map strip l) = Some vs.
Proof.
  revert vs. induction l as [|[] l IH]; intros vs H; cbn in *; try discriminate; auto.
  apply obind_Some in H as (w & Hw & H). rewrite (IH _ Hw). exact H.
Qed.
Definition sres (r : option (ex * mem)) : option (ex * mem) :=
  match r with Some (e, m) => Some (strip e, m) | None => None end.
Lemma red_strip e m r : red e m = Some r -> red (strip e) m = Some (sres r).
Proof.
  intros H. destruct e; cbn [ExprSpec.red strip] in *; try discriminate;
    try (apply some_inj in H; subst r; reflexivity).
  all: try (destruct e; try discriminate; cbn [strip] in *; apply some_inj in H; subst r; cbn [sres];
    repeat match goal with |- context [obind ?x _] => destruct x; cbn [obind] end; reflexivity).
  all: try (destruct e1; try discriminate; destruct e2; try discriminate; cbn [strip] in *; apply some_inj in H; subst r; cbn [sres];
    repeat match goal with |- context [obind ?x _] => destruct x; cbn [obind] end; reflexivity).
  all: try (destruct e1; try discriminate; cbn [strip] in *; try destruct (v =? 0); apply some_inj in H; subst r; reflexivity).
  destruct e; try discriminate. cbn [strip]. destruct (values args) as [vs|] eqn:Hv; [|discriminate]. rewrite (values_strip _ _ Hv).
  apply some_inj in H. subst r. destruct (ext v vs m) as [[? ?]|]; reflexivity.
Qed.
Lemma estep_strip x y : estep x y -> estep (strip (fst x), snd x) (strip (fst y), snd y).
Proof.
  induction 1 as [e m e' m' H|F e m e' m' H IH]; cbn [fst snd] in *.
  - apply red_strip in H. constructor. exact H.
  - rewrite !strip_plug. now constructor.
Qed.
Lemma esteps_strip x y : esteps x y -> esteps (strip (fst x), snd x) (strip (fst y), snd y).
Proof. induction 1; [constructor|]. econstructor; [apply estep_strip; eassumption|assumption]. Qed.
Lemma bad_strip e m : bad e m -> bad (strip e) m.
Proof.
  induction 1 as [e m H|F e m H IH]; [apply red_strip in H; now constructor|]. rewrite strip_plug. now constructor.
Qed.
Lemma safe_strip e m : safe (strip e) m -> safe e m.
Proof. intros H e' m' Hs Hb. apply esteps_strip in Hs. cbn in Hs. apply (H _ _ Hs). now apply bad_strip. Qed.

Lemma depth_strip e : depth (strip e) = depth e.
Proof.
  induction e using ex_ind2; cbn [strip depth]; try congruence.
  rewrite IHe. f_equal; [unfold zlen; now rewrite map_length|].
  clear IHe. induction H; cbn [map]; [reflexivity|]. rewrite IHForall, H. unfold zlen. now rewrite map_length.
Qed.
Lemma boolish_strip e : boolish (strip e) = boolish e.
Proof. destruct e; reflexivity. Qed.
Lemma wf_args_Forall l : wf_args W l <-> Forall (wf W) l.
Proof. induction l; cbn; [intuition constructor|]. rewrite IHl. split; [intros []; now constructor|inversion 1; auto]. Qed.
Lemma elabs_args_in a l x : In a l -> In x (elabs a) -> In x (elabs_args l).
Proof. induction l; cbn; [intros []|]. rewrite in_app_iff. intros [->|]; auto. Qed.

(** Being well-formed does not depend on the label numbers, as long as they are positive. *)
Lemma wf_relabels e1 : forall e2, wf W e1 -> strip e2 = strip e1 -> (forall x, In x (elabs e2) -> 0 < x) -> wf W e2.
Proof.
  induction e1 using ex_ind2; intros e2 Hw Hs Hp; destruct e2; try discriminate; cbn [strip] in Hs; try exact I; try contradiction;
    cbn [wf elabs] in *;
    try (injection Hs as Hs'; subst; destruct Hw; split; auto; fail);
    try (injection Hs; intros; subst; destruct Hw; split; auto; fail).
  all: try (injection Hs; intros; subst; destruct Hw as [Hw1 Hw2]; split;
            [apply IHe1_1|apply IHe1_2]; auto; intros; apply Hp; apply in_or_app; auto; fail).
  all: try (injection Hs; intros; subst; destruct Hw as (Hw0 & Hw1 & Hw2); split; [exact Hw0|split];
            [apply IHe1_1|apply IHe1_2]; auto; intros; apply Hp; apply in_or_app; auto; fail).
  - injection Hs as H1 H2. destruct Hw as (_ & B1 & B2 & Hw1 & Hw2). split; [apply Hp; rewrite !in_app_iff; cbn; auto|].
    rewrite <- (boolish_strip e2_1), <- (boolish_strip e2_2), H1, H2, !boolish_strip. split; auto. split; auto.
    split; [apply IHe1_1|apply IHe1_2]; auto; intros; apply Hp; rewrite !in_app_iff; auto.
  - injection Hs as H1 H2. destruct Hw as (_ & B1 & B2 & Hw1 & Hw2). split; [apply Hp; rewrite !in_app_iff; cbn; auto|].
    rewrite <- (boolish_strip e2_1), <- (boolish_strip e2_2), H1, H2, !boolish_strip. split; auto. split; auto.
    split; [apply IHe1_1|apply IHe1_2]; auto; intros; apply Hp; rewrite !in_app_iff; auto.
  - injection Hs as H1 H2 H3. destruct Hw as (_ & Hw1 & Hw2 & Hw3). split; [apply Hp; rewrite !in_app_iff; cbn; auto|].
    split; [apply IHe1_1|split; [apply IHe1_2|apply IHe1_3]]; auto; intros; apply Hp; repeat (rewrite !in_app_iff; cbn [In]); auto.
  - fold elabs_args in Hp. fold (wf_args W) in *. injection Hs as H1 H2. destruct Hw as [Hw1 Hw2]. split.
    { apply IHe1; auto. intros. apply Hp. apply in_or_app. auto. }
    apply wf_args_Forall. apply wf_args_Forall in Hw2.
    assert (Hp' : forall x, In x (elabs_args args0) -> 0 < x) by (intros; apply Hp; apply in_or_app; auto). clear Hp Hw1 IHe1 H1.
    revert args0 H2 Hp'. induction H as [|a l Ha Hl IH]; intros [|b l2] H2 Hp'; try discriminate; constructor.
    + injection H2 as H2 H3. inversion Hw2; subst. apply Ha; auto. intros x Hx. apply Hp'. cbn. apply in_or_app. auto.
    + injection H2 as H2 H3. inversion Hw2; subst. apply IH; auto. intros x Hx. apply Hp'. cbn. apply in_or_app. auto.
Qed.
End Strip.

(** ** Labels of statements *)
Definition und (c : cst) : list Z := map (fun g => snd (fst g)) (filter (fun g => negb (snd g)) (gotos c)).
Definition glab (c : cst) : list Z := map (fun g => snd (fst g)) (gotos c).
Definition gname (c : cst) : list Z := map (fun g => fst (fst g)) (gotos c).
Definition ginv (c : cst) : Prop := 0 < lc c /\ NoDup (gname c) /\ NoDup (glab c) /\ forall x, In x (glab c) -> 0 < x < lc c.

Definition L (c : cst) (l : list Z) (c' : cst) : Prop :=
  ginv c -> ginv c' /\ lc c <= lc c' /\ NoDup l /\ (forall x, In x l -> lc c <= x < lc c' \/ In x (und c)) /\
  (forall x, In x l -> ~ In x (und c')) /\ (forall x, In x (und c') -> In x (und c) \/ lc c <= x < lc c').

Lemma und_glab c x : In x (und c) -> In x (glab c).
Proof. unfold und, glab. rewrite !in_map_iff. intros (g & <- & H). apply filter_In in H as [H _]. eauto. Qed.

Lemma L_nil c : L c [] c.
Proof. intros H. split; auto. split; [lia|]. split; [constructor|]. split; [intros x []|]. split; [intros x []|auto]. Qed.
Lemma L_app c a c1 b c2 : L c a c1 -> L c1 b c2 -> L c (a ++ b) c2.
Proof.
  intros H1 H2 Hi. destruct (H1 Hi) as (I1 & A1 & A2 & A3 & A4 & A5). destruct (H2 I1) as (I2 & B1 & B2 & B3 & B4 & B5).
  assert (U : forall x, In x (und c) -> x < lc c) by (intros x Hx; apply und_glab in Hx; apply Hi in Hx; lia).
  split; auto. split; [lia|]. split.
  - apply NoDup_app_intro; auto. intros x Ha Hb. pose proof (A4 _ Ha). destruct (B3 _ Hb); [|contradiction].
    destruct (A3 _ Ha) as [?|Hu]; [lia|]. apply U in Hu. lia.
  - split; [|split].
    + intros x Hx. apply in_app_iff in Hx as [Hx|Hx].
      * destruct (A3 _ Hx); [left; lia|auto].
      * destruct (B3 _ Hx) as [?|Hu]; [left; lia|]. destruct (A5 _ Hu); [auto|left; lia].
    + intros x Hx Hu. apply in_app_iff in Hx as [Hx|Hx]; [|now apply (B4 x)].
      destruct (B5 _ Hu) as [Hu'|?]; [now apply (A4 x)|]. destruct (A3 _ Hx) as [?|Hu2]; [lia|]. apply U in Hu2. lia.
    + intros x Hx. destruct (B5 _ Hx) as [Hu|?]; [|right; lia]. destruct (A5 _ Hu); [auto|right; lia].
Qed.
Lemma L_perm c a b c' : Permutation a b -> L c a c' -> L c b c'.
Proof.
  intros P H Hi. destruct (H Hi) as (I1 & A1 & A2 & A3 & A4 & A5). split; auto. split; auto.
  split; [eapply Permutation_NoDup; eauto|]. split; [|split; auto]; intros x Hx; apply (Permutation_in _ (Permutation_sym P)) in Hx; auto.
Qed.
Lemma L_sub c a b c' : sub a b -> L c b c' -> L c a c'.
Proof.
  intros P H Hi. destruct (H Hi) as (I1 & A1 & A2 & A3 & A4 & A5). split; auto. split; auto.
  split; [eapply sub_nodup; eauto|]. split; [|split; auto]; intros x Hx; apply (sub_in _ _ P) in Hx; auto.
Qed.
Lemma L_fresh c l n : fresh_in (lc c) n l -> L c l (set_lc n c).
Proof.
  intros (F1 & F2 & F3) (Hp & Hn & Hl & Hg). assert (U : forall x, In x (und c) -> x < lc c) by (intros x Hx; apply und_glab in Hx; apply Hg in Hx; lia).
  split. { split; [cbn; lia|]. split; [exact Hn|]. split; [exact Hl|]. intros x Hx. apply Hg in Hx. cbn. lia. }
  cbn [lc set_lc]. split; [lia|]. split; auto. split; [auto|]. split; [|auto].
  intros x Hx Hu. apply F3 in Hx. apply U in Hu. lia.
Qed.
(** Only the counter and the goto table matter. *)
Lemma L_ext c l c' d d' : L c l c' -> lc c = lc d -> gotos c = gotos d -> lc c' = lc d' -> gotos c' = gotos d' -> L d l d'.
Proof.
  unfold L, ginv, und, glab, gname. intros H E1 E2 E3 E4. rewrite E1, E2, E3, E4 in H. exact H.
Qed.

Section Comp.
Variable W : Z.
Hypothesis HW : W = 2 \/ W = 4.

(** Source expressions: no label numbers yet; well-formed once they have been assigned. *)
Definition wfx (e : ex) : Prop := strip e = e /\ wf W (fst (relabel e 1)).
Definition owfx (e : option ex) : Prop := match e with None => True | Some e => wfx e end.
Definition cwfx (c : ctl) : Prop := match c with CConst _ => True | CExpr e => wfx e end.
Definition ocwfx (c : option ctl) : Prop := match c with None => True | Some c => cwfx c end.
Fixpoint swf (s : stmt) : Prop :=
  match s with
  | SSkip | SBreak | SContinue | SGoto _ => True
  | SExpr e => wfx e
  | SReturn e => owfx e
  | SSeq a b => swf a /\ swf b
  | SBlock b | SCase _ b | SDefault b | SLabel _ b => swf b
  | SIf c a | SWhile c a | SDo a c => cwfx c /\ swf a
  | SIfElse c a b => cwfx c /\ swf a /\ swf b
  | SFor i c x b => owfx i /\ ocwfx c /\ owfx x /\ swf b
  | SSwitch e b => wfx e /\ swf b
  end.

Lemma relabel_wf e n : 0 < n -> wfx e -> wf W (fst (relabel e n)) /\ strip (fst (relabel e n)) = e /\
  fresh_in n (snd (relabel e n)) (elabs (fst (relabel e n))).
Proof.
  intros Hn [Hs Hw]. destruct (relabel_ok e n) as [F1 F2]. destruct (relabel_ok e 1) as [F3 F4].
  split; [|split; [congruence|exact F1]]. eapply (wf_relabels W (fun z => z) (fun _ _ _ => None)); [exact Hw|congruence|].
  intros x Hx. apply F1 in Hx. lia.
Qed.

Lemma comp_expr_inv e tail c code c' : comp_expr W e tail c = Some (code, c') ->
  exists e', relabel e (lc c) = (e', lc c') /\ gen_expr W (rpn W e' ++ tail) = Some code /\ c' = set_lc (lc c') c.
Proof.
  unfold comp_expr. destruct (relabel e (lc c)) as [e' n] eqn:E. intros H. apply obind_Some in H as (cd & Hc & H).
  apply some_inj, pair_inj in H as [-> <-]. exists e'. auto.
Qed.
Lemma comp_expr_L e tail c code c' : wfx e -> tail_ok tail -> comp_expr W e tail c = Some (code, c') -> L c (labels code) c'.
Proof.
  intros Hw Ht H Hi. destruct (comp_expr_inv _ _ _ _ _ H) as (e' & E & G & Ec). revert Hi. rewrite Ec.
  intros Hi. destruct (relabel_wf e (lc c) (proj1 Hi) Hw) as (W1 & _ & W3). rewrite E in W1, W3. cbn [fst snd] in *.
  revert Hi. apply L_sub with (b := elabs e').
  - eapply expr_labels; eauto.
  - now apply L_fresh.
Qed.
Lemma tail_ok_ret : tail_ok [TReturn]. Proof. right. exists TReturn. auto. Qed.
Lemma tail_ok_nil : tail_ok []. Proof. now left. Qed.
Lemma comp_ctl_L t neg l c code c' : cwfx t -> comp_ctl W t neg l c = Some (code, c') -> L c (labels code) c'.
Proof.
  destruct t as [v|e]; cbn [comp_ctl cwfx]; intros Hw H.
  - apply some_inj, pair_inj in H as [<- <-]. destruct (Bool.eqb _ _); apply L_nil.
  - assert (A : forall code1 c', comp_expr W e [TReturn] c = Some (code1, c') ->
      L c (labels (code1 ++ (if neg then gen_jump_if_zero W l else gen_jump_if_not_zero W l))) c').
    { intros c1 c2 H1. apply comp_expr_L in H1; auto using tail_ok_ret. rewrite labels_app.
      replace (labels (if neg then gen_jump_if_zero W l else gen_jump_if_not_zero W l)) with (@nil Z) by (destruct neg; reflexivity).
      now rewrite app_nil_r. }
    destruct e; try (apply obind_Some in H as ([c1 c2] & H1 & H); apply some_inj, pair_inj in H as [<- <-]; now apply A).
    apply comp_expr_L in H; auto. right. eexists. split; [reflexivity|]. destruct neg; reflexivity.
Qed.
Lemma comp_octl_L t l c code c' : ocwfx t -> comp_octl W t l c = Some (code, c') -> L c (labels code) c'.
Proof.
  destruct t; cbn; [apply comp_ctl_L|]. intros _ H. apply some_inj, pair_inj in H as [<- <-]. apply L_nil.
Qed.

Lemma goto_find_in l t k d : goto_find l t = Some (k, d) -> In (l, k, d) t.
Proof.
  induction t as [|[[n k'] d'] t IH]; cbn; [discriminate|]. destruct (Z.eqb_spec n l) as [->|]; [|auto].
  intros H. apply some_inj, pair_inj in H as [-> ->]. auto.
Qed.
Lemma goto_find_none l t : goto_find l t = None -> ~ In l (map (fun g : Z * Z * bool => fst (fst g)) t).
Proof.
  induction t as [|[[n k'] d'] t IH]; cbn; [tauto|]. destruct (Z.eqb_spec n l) as [->|]; [discriminate|].
  intros H [E|E]; [auto|]. now apply IH.
Qed.
Lemma goto_mark_name l t : map (fun g : Z * Z * bool => fst (fst g)) (goto_mark l t) = map (fun g => fst (fst g)) t.
Proof. induction t as [|[[n k'] d'] t IH]; cbn; [auto|]. destruct (Z.eqb_spec n l); cbn; congruence. Qed.
Lemma goto_mark_lab l t : map (fun g : Z * Z * bool => snd (fst g)) (goto_mark l t) = map (fun g => snd (fst g)) t.
Proof. induction t as [|[[n k'] d'] t IH]; cbn; [auto|]. destruct (Z.eqb_spec n l); cbn; congruence. Qed.
Lemma goto_mark_und l t k d : NoDup (map (fun g : Z * Z * bool => snd (fst g)) t) -> goto_find l t = Some (k, d) ->
  forall x, In x (map (fun g : Z * Z * bool => snd (fst g)) (filter (fun g => negb (snd g)) (goto_mark l t))) ->
   x <> k /\ In x (map (fun g : Z * Z * bool => snd (fst g)) (filter (fun g => negb (snd g)) t)).
Proof.
  induction t as [|[[n k'] d'] t IH]; cbn; [discriminate|]. intros Hn H x Hx. inversion Hn; subst. destruct (Z.eqb_spec n l) as [->|].
  - apply some_inj, pair_inj in H as [-> ->]. cbn in Hx.
    assert (In x (map (fun g : Z * Z * bool => snd (fst g)) t)).
    { rewrite in_map_iff in *. destruct Hx as (g & <- & Hg). apply filter_In in Hg as [Hg _]. eauto. }
    split; [congruence|]. destruct d; cbn; auto.
  - cbn in Hx. assert (Hk : In k (map (fun g : Z * Z * bool => snd (fst g)) t)).
    { apply goto_find_in in H. apply (in_map (fun g : Z * Z * bool => snd (fst g))) in H. exact H. }
    destruct d'; cbn in *.
    + apply (IH H3 H); auto.
    + destruct Hx as [<-|Hx]; [split; [congruence|auto]|]. destruct (IH H3 H x Hx). auto.
Qed.

Lemma goto_L l def c k c' : add_goto_label l def c = Some (k, c') -> L c (if def then [k] else []) c'.
Proof.
  unfold add_goto_label. intros H Hi. pose proof Hi as (I1 & I2 & I3 & I4).
  destruct (goto_find l (gotos c)) as [[k' d]|] eqn:Hf.
  - destruct (d && def) eqn:Hd; [discriminate|]. apply some_inj, pair_inj in H as [<- <-].
    pose proof (goto_find_in _ _ _ _ Hf) as Hin.
    destruct def.
    + rewrite andb_true_r in Hd. subst d.
      pose proof (goto_mark_und l (gotos c) k' false I3 Hf) as HU.
      split. { split; [exact I1|]. unfold gname, glab. cbn [gotos lc]. rewrite goto_mark_name, goto_mark_lab. auto. }
      cbn [lc]. split; [lia|]. split; [repeat constructor; intros []|]. split; [|split].
      * intros x [<-|[]]. right. unfold und. apply in_map_iff. exists (l, k', false). split; [reflexivity|].
        apply filter_In. auto.
      * intros x [<-|[]] Hu. unfold und in Hu. cbn [gotos] in Hu. apply HU in Hu. tauto.
      * intros x Hx. unfold und in Hx. cbn [gotos] in Hx. apply HU in Hx. left. unfold und. tauto.
    + destruct c. cbn in *. exact (L_nil _ Hi).
  - destruct (zlen (gotos c) >=? MAX_GOTO_LABELS); [discriminate|]. apply some_inj, pair_inj in H as [<- <-].
    apply goto_find_none in Hf.
    assert (G : ginv (mkcst (lc c + 1) (cases c) (gotos c ++ [(l, lc c, def)]))).
    { unfold ginv, gname, glab. cbn [lc gotos]. rewrite !map_app. cbn [map fst snd]. split; [lia|]. split; [|split].
      - apply NoDup_app_intro; [exact I2|repeat constructor; intros []|]. intros x Hx [<-|[]]. contradiction.
      - apply NoDup_app_intro; [exact I3|repeat constructor; intros []|]. intros x Hx [<-|[]]. apply I4 in Hx. lia.
      - intros x Hx. apply in_app_iff in Hx as [Hx|[<-|[]]]; [apply I4 in Hx; lia|lia]. }
    split; [exact G|]. cbn [lc]. split; [lia|]. split; [destruct def; repeat constructor; intros []|].
    assert (U : forall x, In x (und (mkcst (lc c + 1) (cases c) (gotos c ++ [(l, lc c, def)]))) -> In x (und c) \/ x = lc c /\ def = false).
    { intros x Hx. unfold und in *. cbn [gotos] in Hx. rewrite filter_app, map_app, in_app_iff in Hx. destruct Hx as [|Hx]; [auto|].
      destruct def; cbn in Hx; [destruct Hx|]. destruct Hx as [<-|[]]. auto. }
    split; [|split].
    + destruct def; [|intros x []]. intros x [<-|[]]. left. lia.
    + destruct def; [|intros x []]. intros x [<-|[]] Hu. apply U in Hu as [Hu|[_ ?]]; [|discriminate].
      apply und_glab, I4 in Hu. lia.
    + intros x Hx. apply U in Hx as [|[-> _]]; [auto|right; lia].
Qed.

Lemma gen_chain_labels tbl : labels (gen_chain W tbl) = [].
Proof. induction tbl as [|[v l] t IH]; cbn; auto. Qed.
Lemma L_reserve c n l : lc c <= n -> NoDup l -> (forall x, In x l -> lc c <= x < n) -> L c l (set_lc n c).
Proof. intros. apply L_fresh. split; auto. Qed.
Lemma add_case_inv v l c c' : add_case v l c = Some c' -> c' = mkcst (lc c) (cases c ++ [(v, l)]) (gotos c).
Proof. unfold add_case. destruct (_ >=? _); [discriminate|]. congruence. Qed.
Ltac ob H x y Hx := apply obind_Some in H as ([x y] & Hx & H).
Ltac fin H := apply some_inj, pair_inj in H as [<- <-].
Lemma labels_jump l : labels (gen_jump l) = []. Proof. reflexivity. Qed.
Lemma labels_opt (b : bool) l : labels (if b then [] else gen_jump l) = []. Proof. now destruct b. Qed.

(** Labels of a piece of code that first reserves some. *)
Lemma L_reserve_then c n rs l c' : lc c <= n -> NoDup rs -> (forall x, In x rs -> lc c <= x < n) ->
  L (set_lc n c) l c' -> forall l', Permutation (rs ++ l) l' -> L c l' c'.
Proof. intros. eapply L_perm; eauto. eapply L_app; eauto. now apply L_reserve. Qed.

Ltac perm := rewrite (Permutation_count_occ Z.eq_dec); let z := fresh in intros z;
  repeat (rewrite ?count_occ_app; cbn [count_occ app]; try match goal with |- context[Z.eq_dec ?a ?b] => destruct (Z.eq_dec a b) end); lia.
Lemma comp_L s : forall x lvl last C code C', swf s -> comp W x lvl last s C = Some (code, C') -> L C (labels code) C'.
Proof.
  induction s; intros X lvl last C code C' Hw H; cbn [comp swf] in *.
  - fin H. apply L_nil.
  - eapply comp_expr_L; eauto using tail_ok_nil.
  - ob H ca c1 H1. ob H cb c2 H2. fin H. rewrite labels_app. destruct Hw. eapply L_app; eauto.
  - eauto.
  - ob H ct c1 H1. ob H ca c2 H2. fin H. destruct Hw.
    apply comp_ctl_L in H1; auto. apply IHs in H2; auto.
    apply L_reserve_then with (n := lc C + 2) (rs := [lc C]) (l := labels ct ++ labels ca); [lia|repeat constructor; intros []| |eapply L_app; eauto|].
    + intros y [<-|[]]. lia.
    + rewrite !labels_app. cbn [labels app]. rewrite app_assoc. apply Permutation_cons_append.
  - ob H ct c1 H1. ob H ca c2 H2. ob H cb c3 H3. fin H. destruct Hw as (? & ? & ?).
    apply comp_ctl_L in H1; auto. apply IHs1 in H2; auto. apply IHs2 in H3; auto.
    apply L_reserve_then with (n := lc C + 2) (rs := [lc C; lc C + 1]) (l := labels ct ++ labels ca ++ labels cb);
      [lia|repeat constructor; cbn; intuition lia| |eapply L_app; eauto; eapply L_app; eauto|].
    + cbn; intuition lia.
    + rewrite !labels_app, labels_jump. cbn [labels app]. perm.
  - ob H ct c1 H1. ob H cb c2 H2. fin H. destruct Hw.
    apply comp_ctl_L in H1; auto. apply IHs in H2; auto.
    apply L_reserve_then with (n := lc C + 2) (rs := [lc C; lc C + 1]) (l := labels ct ++ labels cb);
      [lia|repeat constructor; cbn; intuition lia| |eapply L_app; eauto|].
    + cbn; intuition lia.
    + rewrite !labels_app, labels_opt. cbn [labels app]. apply perm_skip. rewrite app_assoc. apply Permutation_cons_append.
  - ob H cb c1 H1. ob H ct c2 H2. fin H. destruct Hw.
    apply IHs in H1; auto. apply comp_ctl_L in H2; auto.
    apply L_reserve_then with (n := lc C + 3) (rs := [lc C; lc C + 1; lc C + 2]) (l := labels cb ++ labels ct);
      [lia|repeat constructor; cbn; intuition lia| |eapply L_app; eauto|].
    + cbn; intuition lia.
    + rewrite !labels_app. cbn [labels app]. perm.
  - ob H ci c1 H1. ob H ct c2 H2. destruct Hw as (Wi & Wc & Wx & Wb).
    assert (L1 : L (set_lc (lc C + 4) C) (labels ci) c1).
    { destruct i; [eapply comp_expr_L; eauto using tail_ok_nil|]. fin H1. apply L_nil. }
    apply comp_octl_L in H2; auto.
    destruct x as [e|].
    + destruct (relabel e (lc c2)) as [e' n] eqn:Er.
      assert (LX : forall cx, gen_expr W (rpn W e') = Some cx -> L c2 (labels cx) (set_lc n c2)).
      { intros cx Hx. apply (comp_expr_L e [] c2 cx (set_lc n c2) Wx tail_ok_nil).
        unfold comp_expr. rewrite Er, app_nil_r, Hx. reflexivity. }
      destruct (_ && _).
      * ob H cb c3 H3. apply obind_Some in H as (cx & H4 & H). fin H. apply LX in H4. apply IHs in H3; auto.
        apply L_reserve_then with (n := lc C + 4) (rs := [lc C; lc C + 1; lc C + 3]) (l := labels ci ++ labels ct ++ labels cx ++ labels cb);
          [lia|repeat constructor; cbn; intuition lia|cbn; intuition lia| |].
        -- eapply L_app; [exact L1|]. eapply L_app; [exact H2|]. eapply L_app; [exact H4|]. exact H3.
        -- rewrite !labels_app, labels_opt. cbn [labels app]. perm.
      * apply obind_Some in H as (cx & H4 & H). ob H cb c3 H3. fin H. apply LX in H4. apply IHs in H3; auto.
        apply L_reserve_then with (n := lc C + 4) (rs := [lc C; lc C + 1; lc C + 2; lc C + 3]) (l := labels ci ++ labels ct ++ labels cx ++ labels cb);
          [lia|repeat constructor; cbn; intuition lia|cbn; intuition lia| |].
        -- eapply L_app; [exact L1|]. eapply L_app; [exact H2|]. eapply L_app; [exact H4|]. exact H3.
        -- rewrite !labels_app, !labels_jump. cbn [labels app]. perm.
    + ob H cb c3 H3. fin H. apply IHs in H3; auto.
      apply L_reserve_then with (n := lc C + 4) (rs := [lc C; lc C + 3]) (l := labels ci ++ labels ct ++ labels cb);
        [lia|repeat constructor; cbn; intuition lia|cbn; intuition lia| |].
      * eapply L_app; [exact L1|]. eapply L_app; [exact H2|]. exact H3.
      * rewrite !labels_app, labels_opt. cbn [labels app]. perm.
  - destruct (brk X); [|discriminate]. fin H. apply L_nil.
  - destruct (cnt X =? 0); [discriminate|]. fin H. apply L_nil.
  - ob H ce c1 H1. fin H. rewrite labels_app.
    replace (labels (if _ : bool then [] else gen_jump (epi X))) with (@nil Z) by (destruct (last && (lvl =? 1) && negb (main X)); reflexivity).
    rewrite app_nil_r. destruct e; [eapply comp_expr_L; eauto using tail_ok_ret|]. fin H1. apply L_nil.
  - ob H ce c1 H1. apply obind_Some in H as (c2 & H2 & H). ob H cb c3 H3. ob H q d H4. fin H. destruct Hw.
    apply comp_expr_L in H1; auto using tail_ok_ret. apply add_case_inv in H2. apply IHs in H3; auto.
    apply L_reserve_then with (n := lc C + 2) (rs := [lc C; lc C + 1]) (l := labels ce ++ labels cb);
      [lia|repeat constructor; cbn; intuition lia|cbn; intuition lia| |].
    + eapply L_app; [exact H1|]. eapply L_ext; [exact H3|..]; subst; reflexivity.
    + rewrite !labels_app, !labels_jump, gen_chain_labels. 
      replace (labels (if (if d =? 0 then lc C else d) =? lc C then [] else gen_jump (if d =? 0 then lc C else d))) with (@nil Z)
        by (destruct (_ =? lc C); reflexivity).
      cbn [labels app]. perm.
  - destruct (cidx X =? 0); [discriminate|]. destruct (existsb _ _); [discriminate|].
    apply obind_Some in H as (c1 & H1 & H). ob H ca c2 H2. fin H. apply add_case_inv in H1. subst c1. apply IHs in H2; auto.
    cbn [labels app lc] in *. change (lc C :: labels ca) with ([lc C] ++ labels ca).
    eapply L_app; [apply (L_reserve C (lc C + 1) [lc C]); [lia|repeat constructor; intros []|intros y [<-|[]]; lia]|].
    eapply L_ext; [exact H2|..]; reflexivity.
  - destruct (cidx X =? 0); [discriminate|]. ob H v d H0. destruct (negb _); [discriminate|].
    apply obind_Some in H as (cs & H1 & H). ob H ca c2 H2. fin H. apply IHs in H2; auto.
    cbn [labels app lc] in *. change (lc C :: labels ca) with ([lc C] ++ labels ca).
    eapply L_app; [apply (L_reserve C (lc C + 1) [lc C]); [lia|repeat constructor; intros []|intros y [<-|[]]; lia]|].
    eapply L_ext; [exact H2|..]; reflexivity.
  - ob H k c1 H1. fin H. apply goto_L in H1. exact H1.
  - ob H k c1 H1. ob H ca c2 H2. fin H. apply goto_L in H1. apply IHs in H2; auto.
    change (labels ([Lab k] ++ ca)) with ([k] ++ labels ca). eapply L_app; eauto.
Qed.
End Comp.
