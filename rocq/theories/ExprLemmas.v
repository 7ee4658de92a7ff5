(** Facts about evaluations of expressions: inversion for the sequenced operators, and a
    procedure that checks that all evaluation orders of a concrete expression are defined. *)
From Verif Require Import Base BaseLemmas ExprSpec.

Section E.
Variables (W : Z) (addr : Z -> Z) (bp : Z) (ext : Z -> list Z -> mem -> option (Z * mem)).
Notation red := (red W addr bp ext). Notation estep := (estep W addr bp ext).
Notation esteps := (esteps W addr bp ext). Notation bad := (bad W addr bp ext). Notation safe := (safe W addr bp ext).

Lemma estep_inv e m y : estep (e, m) y ->
  (exists e' m', y = (e', m') /\ red e m = Some (Some (e', m'))) \/
  (exists F e0 e1 m1, e = plug F e0 /\ y = (plug F e1, m1) /\ estep (e0, m) (e1, m1)).
Proof. intros H. inversion H; subst; [left|right]; eauto 8. Qed.

Lemma val_stuck v m y : ~ estep (EVal v, m) y.
Proof.
  intros H. apply estep_inv in H as [(e' & m' & _ & H)|(F & e0 & e1 & m1 & E & _)]; [discriminate|].
  destruct F; discriminate.
Qed.

(** A unary context that waits for its operand: evaluations go through the operand's value. *)
Lemma ctx_inv (C : ex -> ex) (F0 : frame) :
  (forall e, plug F0 e = C e) ->
  (forall e e0 F, plug F e0 = C e -> F = F0 /\ e0 = e) ->
  (forall e m, (forall v, e <> EVal v) -> red (C e) m = None) ->
  (forall e v, C e <> EVal v) ->
  forall e m v m', esteps (C e, m) (EVal v, m') ->
  exists x m1, esteps (e, m) (EVal x, m1) /\ exists e2 m2, red (C (EVal x)) m1 = Some (Some (e2, m2)) /\ esteps (e2, m2) (EVal v, m').
Proof.
  intros HF0 HF Hred HC e m v m' H. remember (C e, m) as x eqn:Ex. remember (EVal v, m') as y eqn:Ey.
  revert e m Ex. induction H as [x|x y z H1 H2 IH]; intros e m ->.
  - apply pair_inj in Ey as [E _]. now elim (HC e v).
  - subst z. pose proof H1 as H1'. apply estep_inv in H1 as [(e' & m1 & -> & Hr)|(F & e0 & e1 & m1 & E & -> & He)].
    + assert (Hv : exists x, e = EVal x).
      { destruct e; try (rewrite Hred in Hr by discriminate; discriminate). eauto. }
      destruct Hv as [x ->]. exists x, m. split; [constructor|]. eauto.
    + symmetry in E. apply HF in E as [-> ->]. rewrite HF0 in IH.
      destruct (IH eq_refl e1 m1 eq_refl) as (x & m2 & E1 & E2). exists x, m2. split; [econstructor; eauto|exact E2].
Qed.

Lemma steps_val v m v' m' : esteps (EVal v, m) (EVal v', m') -> v' = v /\ m' = m.
Proof.
  intros H. inversion H as [|? ? ? H1 H2]; subst; auto. now apply val_stuck in H1.
Qed.

Ltac ctx C F0 :=
  let H := fresh in pose proof (ctx_inv C F0) as H;
  specialize (H ltac:(reflexivity));
  specialize (H ltac:(let E := fresh in intros ? ? [] E; try discriminate E; cbn in E; injection E; intros; subst; auto));
  specialize (H ltac:(let e := fresh in let m := fresh in let Hv := fresh in
    intros e m Hv; destruct e; try reflexivity; exfalso; eapply Hv; reflexivity));
  specialize (H ltac:(discriminate)).

Lemma bool_inv r m v m' : esteps (EUn EBool r, m) (EVal v, m') ->
  exists vr, esteps (r, m) (EVal vr, m') /\ v = if vr =? 0 then 0 else 1.
Proof.
  intros H. ctx (EUn EBool) (FUn EBool). destruct (H0 _ _ _ _ H) as (x & m1 & E1 & e2 & m2 & Hr & E2).
  cbn in Hr. injection Hr as <- <-. apply steps_val in E2 as [-> ->]. eauto.
Qed.
Lemma and_inv k l r m v m' : esteps (EAnd2 k l r, m) (EVal v, m') ->
  exists vl m1, esteps (l, m) (EVal vl, m1) /\
   ((vl = 0 /\ v = 0 /\ m' = m1) \/
    (vl <> 0 /\ exists vr, esteps (r, m1) (EVal vr, m') /\ v = if vr =? 0 then 0 else 1)).
Proof.
  intros H. ctx (fun e => EAnd2 k e r) (FAnd2 k r). destruct (H0 _ _ _ _ H) as (x & m1 & E1 & e2 & m2 & Hr & E2).
  exists x, m1. split; auto. cbn in Hr. destruct (Z.eqb_spec x 0); injection Hr as <- <-.
  - left. apply steps_val in E2 as [-> ->]. auto.
  - right. split; auto. now apply bool_inv.
Qed.
Lemma or_inv k l r m v m' : esteps (EOr2 k l r, m) (EVal v, m') ->
  exists vl m1, esteps (l, m) (EVal vl, m1) /\
   ((vl <> 0 /\ v = 1 /\ m' = m1) \/
    (vl = 0 /\ exists vr, esteps (r, m1) (EVal vr, m') /\ v = if vr =? 0 then 0 else 1)).
Proof.
  intros H. ctx (fun e => EOr2 k e r) (FOr2 k r). destruct (H0 _ _ _ _ H) as (x & m1 & E1 & e2 & m2 & Hr & E2).
  exists x, m1. split; auto. cbn in Hr. destruct (Z.eqb_spec x 0); injection Hr as <- <-.
  - right. split; auto. now apply bool_inv.
  - left. apply steps_val in E2 as [-> ->]. auto.
Qed.
Lemma cond_inv k c t f m v m' : esteps (ECond k c t f, m) (EVal v, m') ->
  exists vc m1, esteps (c, m) (EVal vc, m1) /\
   ((vc <> 0 /\ esteps (t, m1) (EVal v, m')) \/ (vc = 0 /\ esteps (f, m1) (EVal v, m'))).
Proof.
  intros H. ctx (fun e => ECond k e t f) (FCond k t f). destruct (H0 _ _ _ _ H) as (x & m1 & E1 & e2 & m2 & Hr & E2).
  exists x, m1. split; auto. cbn in Hr. destruct (Z.eqb_spec x 0); injection Hr as <- <-; auto.
Qed.
Lemma comma_inv l r m v m' : esteps (EComma l r, m) (EVal v, m') ->
  exists vl m1, esteps (l, m) (EVal vl, m1) /\ esteps (r, m1) (EVal v, m').
Proof.
  intros H. ctx (fun e => EComma e r) (FComma r). destruct (H0 _ _ _ _ H) as (x & m1 & E1 & e2 & m2 & Hr & E2).
  exists x, m1. split; auto. cbn in Hr. injection Hr as <- <-. auto.
Qed.
Lemma deref_inv sz a m v m' : esteps (EDeref sz a, m) (EVal v, m') ->
  exists p, esteps (a, m) (EVal p, m') /\ load W sz m' p = Some v.
Proof.
  intros H. ctx (EDeref sz) (FDeref sz). destruct (H0 _ _ _ _ H) as (x & m1 & E1 & e2 & m2 & Hr & E2).
  cbn in Hr. destruct (load W sz m1 x) as [w|] eqn:Hl; [|discriminate]. cbn in Hr. injection Hr as <- <-.
  apply steps_val in E2 as [-> ->]. eauto.
Qed.

Lemma assign_inv sz l r m v m' : esteps (EAssign sz l r, m) (EVal v, m') ->
  exists p b m0, esteps (EAssign sz l r, m) (EAssign sz (EVal p) (EVal b), m0) /\
    store sz m0 p b = Some m' /\ v = conv W sz b.
Proof.
  intros H. remember (EAssign sz l r, m) as x eqn:Ex. remember (EVal v, m') as y eqn:Ey.
  revert l r m Ex. induction H as [x|x y z H1 H2 IH]; intros l r m ->; [discriminate|]. subst z.
  pose proof H1 as H1'. apply estep_inv in H1 as [(e' & m1 & -> & Hr)|(F & e0 & e1 & m1 & E & -> & He)].
  - destruct l; try discriminate. destruct r; try discriminate. cbn in Hr.
    destruct (store sz m v0 v1) as [m2|] eqn:Hs; [|discriminate]. cbn in Hr. injection Hr as <- <-.
    apply steps_val in H2 as [-> ->]. exists v0, v1, m. split; [constructor|auto].
  - destruct F; try discriminate; cbn in E; injection E as -> -> ->; cbn [plug] in *;
      destruct (IH eq_refl _ _ _ eq_refl) as (p & b & m0 & E1 & E2 & E3); exists p, b, m0;
      (split; [econstructor; eauto|auto]).
Qed.
Lemma mst_same n m a v m' : mst n m a v = Some m' -> forall x, x < a -> m' x = m x.
Proof.
  revert m a v. induction n as [|n IH]; intros m a v H x Hx; cbn in H; [congruence|].
  apply obind_Some in H as (b & _ & H). rewrite (IH _ _ _ H) by lia.
  destruct (Z.eqb_spec x a); [lia|reflexivity].
Qed.
Lemma mst_mld n m a v m' : mst n m a v = Some m' -> mld n m' a = Some (v mod 2 ^ (8 * Z.of_nat n)).
Proof.
  revert m a v. induction n as [|n IH]; intros m a v H; cbn [mst mld] in *.
  { f_equal. change (8 * Z.of_nat 0) with 0. cbn. now rewrite Z.mod_1_r. }
  apply obind_Some in H as (b & _ & H). pose proof (mst_same _ _ _ _ _ H a ltac:(lia)) as Ha. cbn in Ha.
  rewrite Z.eqb_refl in Ha. rewrite Ha. cbn [obind]. rewrite (IH _ _ _ H). cbn [obind]. f_equal.
  replace (8 * Z.of_nat (S n)) with (8 + 8 * Z.of_nat n) by lia. rewrite Z.pow_add_r by lia.
  change (2 ^ 8) with 256. pose proof (Z.pow_pos_nonneg 2 (8 * Z.of_nat n) ltac:(lia) ltac:(lia)).
  rewrite Z.rem_mul_r by lia. reflexivity.
Qed.
Lemma conv_low sz b : W = 2 \/ W = 4 -> valid_size W sz ->
  conv W sz (b mod 2 ^ (8 * Z.of_nat (nbytes sz))) = conv W sz b.
Proof.
  intros HW Hv. unfold nbytes. rewrite Z2Nat.id by lia. change (b mod 2 ^ (8 * Z.abs sz)) with (wrap (8 * Z.abs sz) b).
  unfold conv, word. destruct (Z.eqb_spec sz W) as [->|].
  { replace (Z.abs W) with W by lia. unfold wrap. apply Z.mod_mod. destruct HW; subst; cbn; lia. }
  destruct (Z.ltb_spec sz 0).
  - replace (Z.abs sz) with (- sz) by lia. f_equal. unfold valid_size in Hv. apply swrap_wrap; lia.
  - replace (Z.abs sz) with sz by lia. unfold wrap. apply Z.mod_mod. apply Z.pow_nonzero; lia.
Qed.

(** ** All possible next steps *)
Definition lift (C : ex -> ex) (r : option (ex * mem)) : option (ex * mem) :=
  match r with Some (e, m) => Some (C e, m) | None => None end.
Fixpoint succ (e : ex) (m : mem) : list (option (ex * mem)) :=
  (match red e m with Some r => [r] | None => [] end) ++
  match e with
  | EVal _ | ENum _ _ | EIdent _ | ELocal _ => []
  | EDeref sz a => map (lift (EDeref sz)) (succ a m)
  | EPre i sz a => map (lift (EPre i sz)) (succ a m)
  | EPost i sz a => map (lift (EPost i sz)) (succ a m)
  | EPostBy i sz n a => map (lift (EPostBy i sz n)) (succ a m)
  | EUn u a => map (lift (EUn u)) (succ a m)
  | EArith o l r => map (lift (fun x => EArith o x r)) (succ l m) ++ map (lift (EArith o l)) (succ r m)
  | ECmp o l r => map (lift (fun x => ECmp o x r)) (succ l m) ++ map (lift (ECmp o l)) (succ r m)
  | EAssign o l r => map (lift (fun x => EAssign o x r)) (succ l m) ++ map (lift (EAssign o l)) (succ r m)
  | EAssignOp o sz l r => map (lift (fun x => EAssignOp o sz x r)) (succ l m) ++ map (lift (EAssignOp o sz l)) (succ r m)
  | EComma l r => map (lift (fun x => EComma x r)) (succ l m)
  | EAnd2 k l r => map (lift (fun x => EAnd2 k x r)) (succ l m)
  | EOr2 k l r => map (lift (fun x => EOr2 k x r)) (succ l m)
  | ECond k c t f => map (lift (fun x => ECond k x t f)) (succ c m)
  | ECall f args =>
      map (lift (fun x => ECall x args)) (succ f m) ++
      (fix go (bef l : list ex) := match l with
        | [] => []
        | a :: l => map (lift (fun x => ECall f (bef ++ x :: l))) (succ a m) ++ go (bef ++ [a]) l
        end) [] args
  end.
Definition succ_args m f := fix go (bef l : list ex) := match l with
        | [] => []
        | a :: l => map (lift (fun x => ECall f (bef ++ x :: l))) (succ a m) ++ go (bef ++ [a]) l
        end.

Lemma succ_in F e m r : In r (succ e m) -> In (lift (plug F) r) (succ (plug F e) m).
Proof.
  intros H. destruct F; cbn [plug succ]; apply in_or_app; right;
    try exact (in_map (lift _) _ _ H);
    try (apply in_or_app; left; exact (in_map (lift _) _ _ H));
    try (apply in_or_app; right; exact (in_map (lift _) _ _ H)).
  apply in_or_app; right. change (In (lift (fun x => ECall f (before ++ x :: after)) r) (succ_args m f [] (before ++ e :: after))).
  assert (G : forall b0, In (lift (fun x => ECall f ((b0 ++ before) ++ x :: after)) r) (succ_args m f b0 (before ++ e :: after))).
  { induction before as [|b l IH]; intros b0; cbn [app succ_args]; apply in_or_app.
    - left. rewrite app_nil_r. exact (in_map (lift _) _ _ H).
    - right. specialize (IH (b0 ++ [b])). rewrite <- (app_assoc b0 [b] l) in IH. exact IH. }
  apply (G []).
Qed.
Lemma succ_step e m e' m' : estep (e, m) (e', m') -> In (Some (e', m')) (succ e m).
Proof.
  intros H. remember (e, m) as x. remember (e', m') as y. revert e m e' m' Heqx Heqy.
  induction H; intros; apply pair_inj in Heqx as [<- <-]; apply pair_inj in Heqy as [<- <-].
  - destruct e; cbn [succ]; rewrite H; apply in_or_app; left; left; reflexivity.
  - apply (succ_in F e m (Some (e', m'))). exact (IHestep _ _ _ _ eq_refl eq_refl).
Qed.
Lemma succ_bad e m : bad e m -> In None (succ e m).
Proof.
  induction 1.
  - destruct e; cbn [succ]; rewrite H; apply in_or_app; left; left; reflexivity.
  - apply (succ_in F e m None IHbad).
Qed.
Fixpoint safe_check (fuel : nat) (e : ex) (m : mem) : bool :=
  match fuel with
  | O => false
  | S fuel => forallb (fun r => match r with Some (e', m') => safe_check fuel e' m' | None => false end) (succ e m)
  end.
Lemma safe_check_ok fuel : forall e m, safe_check fuel e m = true -> safe e m.
Proof.
  induction fuel as [|fuel IH]; intros e m H; [discriminate|]. cbn [safe_check] in H. rewrite forallb_forall in H.
  intros e' m' Hs. inversion Hs as [|? [e1 m1] ? H1 H2]; subst.
  - intros Hb. apply succ_bad in Hb. specialize (H _ Hb). discriminate.
  - apply succ_step in H1. specialize (H _ H1). cbn in H. apply IH in H. exact (H _ _ H2).
Qed.
End E.
