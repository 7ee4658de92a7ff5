(** Checking by exhaustive execution that a given function has no undefined behaviour (used for
    the examples in StmtProps). *)
From Verif Require Import Base BaseLemmas ExprSpec ExprLemmas StmtSpec.

Section Check.
Variables (W : Z) (addr : Z -> Z) (bp : Z) (ext : Z -> list Z -> mem -> option (Z * mem)).
Variables (body : stmt) (is_main : bool).
Notation evals := (evals W addr bp ext). Notation holds := (holds W addr bp ext).
Notation oholds := (oholds W addr bp ext). Notation oevals := (oevals W addr bp ext).
Notation safe := (safe W addr bp ext). Notation succ := (succ W addr bp ext).
Notation sstep := (sstep W addr bp ext body is_main). Notation ssteps := (ssteps W addr bp ext body is_main).

Fixpoint gather {A B} (f : A -> option (list B)) (l : list A) : option (list B) :=
  match l with [] => Some [] | a :: l => let? x := f a in let? y := gather f l in Some (x ++ y) end.
Lemma gather_ok {A B} (f : A -> option (list B)) l r : gather f l = Some r ->
  forall a, In a l -> exists x, f a = Some x /\ incl x r.
Proof.
  revert r. induction l as [|b l IH]; intros r H a Ha; [destruct Ha|]. cbn in H.
  apply obind_Some in H as (x & H1 & H). apply obind_Some in H as (y & H2 & H). apply some_inj in H. subst r.
  destruct Ha as [<-|Ha]; [exists x; split; auto; apply incl_appl, incl_refl|].
  destruct (IH _ H2 _ Ha) as (z & Hz & Hi). exists z. split; auto. now apply incl_appr.
Qed.

Fixpoint eval_all (fuel : nat) (e : ex) (m : mem) : option (list (Z * mem)) :=
  match fuel with
  | O => None
  | S fuel =>
      match e with
      | EVal v => Some [(v, m)]
      | _ => gather (fun r => match r with Some (e', m') => eval_all fuel e' m' | None => None end) (succ e m)
      end
  end.
Lemma eval_all_ok fuel : forall e m l, eval_all fuel e m = Some l -> safe e m /\ forall v m', evals e m v m' -> In (v, m') l.
Proof.
  induction fuel as [|fuel IH]; intros e m l H; [discriminate|].
  assert (V : (exists v, e = EVal v) \/ (forall v, e <> EVal v) /\ gather (fun r => match r with Some (e', m') => eval_all fuel e' m' | None => None end) (succ e m) = Some l)
    by (destruct e; first [left; eexists; reflexivity|right; split; [discriminate|exact H]]).
  destruct V as [[v ->]|[NV V]].
  - apply some_inj in H. subst l. split.
    + intros e' m' Hs. inversion Hs as [|? [e1 m1] ? H1 H2]; subst.
      * intros Hb. apply succ_bad in Hb. destruct Hb.
      * apply succ_step in H1. destruct H1.
    + intros v0 m' He. inversion He as [|? [e1 m1] ? H1 H2]; subst; [left; reflexivity|]. apply succ_step in H1. destruct H1.
  - clear H. pose proof (gather_ok _ _ _ V) as Q. split.
    + intros e' m' Hs. inversion Hs as [|? [e1 m1] ? H1 H2]; subst.
      * intros Hb. apply succ_bad in Hb. destruct (Q _ Hb) as (x & Hx & _). discriminate.
      * apply succ_step in H1. destruct (Q _ H1) as (x & Hx & _). apply IH in Hx as [Hx _]. exact (Hx _ _ H2).
    + intros v0 m' He. inversion He as [|? [e1 m1] ? H1 H2]; subst.
      * now destruct (NV v0).
      * apply succ_step in H1. destruct (Q _ H1) as (x & Hx & Hi). apply IH in Hx as [_ Hx]. apply Hi, Hx. exact H2.
Qed.

Definition ctl_all (fuel : nat) (c : ctl) (m : mem) : option (list (bool * mem)) :=
  match c with
  | CConst v => Some [(negb (word W v =? 0), m)]
  | CExpr e => let? l := eval_all fuel e m in Some (map (fun x => (negb (fst x =? 0), snd x)) l)
  end.
Lemma ctl_all_ok fuel c m l : ctl_all fuel c m = Some l ->
  (forall e, ctl_expr c = Some e -> safe e m) /\ forall b m', holds c m b m' -> In (b, m') l.
Proof.
  intros H. destruct c as [v|e]; cbn [ctl_all] in H.
  - apply some_inj in H. subst l. split; [discriminate|]. intros b m' [-> ->]. left. reflexivity.
  - apply obind_Some in H as (r & H1 & H). apply some_inj in H. subst l. apply eval_all_ok in H1 as [H1 H2]. split.
    + intros e' He. apply some_inj in He. now subst e'.
    + intros b m' (v & Hv & ->). apply H2 in Hv. apply in_map_iff. exists (v, m'). auto.
Qed.
Definition ofor_all (fuel : nat) (c : option ctl) (m : mem) : option (list (bool * mem)) :=
  match c with None => Some [(true, m)] | Some c => ctl_all fuel c m end.
Definition oeval_all (fuel : nat) (e : option ex) (m : mem) : option (list mem) :=
  match e with None => Some [m] | Some e => let? l := eval_all fuel e m in Some (map snd l) end.

(** All states that may follow, [None] if there may be undefined behaviour. *)
Definition step_all (fuel : nat) (x : state) : option (list state) :=
  match x with
  | Ret _ _ => Some []
  | Run s k m =>
      match s with
      | SSkip =>
          match k with
          | KStop => Some [Ret (if is_main then Some 0 else None) m]
          | KSeq s k => Some [Run s k m]
          | KWhile c b k => Some [Run (SWhile c b) k m]
          | KDo b c k => let? l := ctl_all fuel c m in Some (map (fun y => Run (if fst y : bool then SDo b c else SSkip) k (snd y)) l)
          | KFor c x b k => let? l := oeval_all fuel x m in Some (map (fun y => Run (SFor None c x b) k y) l)
          | KSwitch k => Some [Run SSkip k m]
          end
      | SExpr e => let? l := eval_all fuel e m in Some (map (fun y => Run SSkip k (snd y)) l)
      | SSeq a b => Some [Run a (KSeq b k) m]
      | SBlock b => Some [Run b k m]
      | SIf c a => let? l := ctl_all fuel c m in Some (map (fun y => Run (if fst y : bool then a else SSkip) k (snd y)) l)
      | SIfElse c a b => let? l := ctl_all fuel c m in Some (map (fun y => Run (if fst y : bool then a else b) k (snd y)) l)
      | SWhile c b => let? l := ctl_all fuel c m in Some (map (fun y => if fst y : bool then Run b (KWhile c b k) (snd y) else Run SSkip k (snd y)) l)
      | SDo b c => Some [Run b (KDo b c k) m]
      | SFor (Some i) c x b => let? l := eval_all fuel i m in Some (map (fun y => Run (SFor None c x b) k (snd y)) l)
      | SFor None c x b => let? l := ofor_all fuel c m in Some (map (fun y => if fst y : bool then Run b (KFor c x b k) (snd y) else Run SSkip k (snd y)) l)
      | SBreak => match on_break k with Some k => Some [Run SSkip k m] | None => Some [] end
      | SContinue => match on_continue k with Some k => Some [Run SSkip k m] | None => Some [] end
      | SReturn None => Some [Ret None m]
      | SReturn (Some e) => let? l := eval_all fuel e m in Some (map (fun y => Ret (Some (fst y)) (snd y)) l)
      | SSwitch e b =>
          let? l := eval_all fuel e m in
          Some (map (fun y => match find W (ToCase (fst y)) b (KSwitch k) with
                              | Some (s, k') => Run s k' (snd y)
                              | None => match find W ToDefault b (KSwitch k) with
                                        | Some (s, k') => Run s k' (snd y)
                                        | None => Run SSkip k (snd y)
                                        end
                              end) l)
      | SCase _ a | SDefault a | SLabel _ a => Some [Run a k m]
      | SGoto l => match find W (ToLabel l) body KStop with Some (s, k) => Some [Run s k m] | None => Some [] end
      end
  end.

Ltac ev H Q := apply obind_Some in H as (?r & Q & H); apply some_inj in H; subst.
Lemma step_all_ok fuel x l : step_all fuel x = Some l ->
  (forall e, next_expr x = Some e -> safe e (mem_of x)) /\ forall y, sstep x y -> In y l.
Proof.
  intros H. split.
  - intros e He. destruct x as [s k m|]; [|discriminate].
    destruct s; cbn in H, He; try discriminate;
      try (apply obind_Some in H as (r & H1 & _); first [apply some_inj in He; subst; apply eval_all_ok in H1; apply H1|apply ctl_all_ok in H1; now apply H1]).
    + destruct k; cbn in He; try discriminate; apply obind_Some in H as (r & H1 & _).
      * apply ctl_all_ok in H1. now apply H1.
      * subst x. cbn in H1. apply obind_Some in H1 as (r1 & H1 & _). apply eval_all_ok in H1. apply H1.
    + destruct i as [i|].
      * apply obind_Some in H as (r & H1 & _). apply some_inj in He. subst. apply eval_all_ok in H1. apply H1.
      * destruct c as [c|]; [|discriminate]. apply obind_Some in H as (r & H1 & _). apply ctl_all_ok in H1. now apply H1.
    + destruct e0 as [e0|]; [|discriminate]. apply obind_Some in H as (r & H1 & _). apply some_inj in He. subst. apply eval_all_ok in H1. apply H1.
  - intros y Hy.
    assert (IM : forall A (f : A -> state) (a : A) (l0 : list A), In a l0 -> In (f a) (map f l0)) by (intros; now apply in_map).
    destruct Hy; cbn [step_all] in H; try (apply some_inj in H; subst l; left; reflexivity).
    + ev H Q. apply ctl_all_ok in Q as [_ Q]. apply Q in H0. exact (IM _ _ _ _ H0).
    + ev H Q. destruct x as [e|]; cbn in Q, H0.
      * apply obind_Some in Q as (r1 & Q & E). apply some_inj in E. subst r. destruct H0 as [v Hv]. apply eval_all_ok in Q as [_ Q].
        apply Q in Hv. apply in_map_iff. exists m'. split; auto. apply in_map_iff. exists (v, m'). auto.
      * apply some_inj in Q. subst. left. reflexivity.
    + ev H Q. apply eval_all_ok in Q as [_ Q]. apply Q in H0. exact (IM _ _ _ _ H0).
    + ev H Q. apply ctl_all_ok in Q as [_ Q]. apply Q in H0. exact (IM _ _ _ _ H0).
    + ev H Q. apply ctl_all_ok in Q as [_ Q]. apply Q in H0. exact (IM _ _ _ _ H0).
    + ev H Q. apply ctl_all_ok in Q as [_ Q]. apply Q in H0. exact (IM _ _ _ _ H0).
    + ev H Q. apply eval_all_ok in Q as [_ Q]. apply Q in H0. exact (IM _ _ _ _ H0).
    + ev H Q. destruct c as [c|]; cbn in Q, H0.
      * apply ctl_all_ok in Q as [_ Q]. apply Q in H0. exact (IM _ _ _ _ H0).
      * apply some_inj in Q. subst. destruct H0 as [-> ->]. left. reflexivity.
    + rewrite H0 in H. apply some_inj in H. subst. left. reflexivity.
    + rewrite H0 in H. apply some_inj in H. subst. left. reflexivity.
    + ev H Q. apply eval_all_ok in Q as [_ Q]. apply Q in H0. exact (IM _ _ _ _ H0).
    + ev H Q. apply eval_all_ok in Q as [_ Q]. apply Q in H0. apply in_map_iff. exists (v, m'). split; auto. cbn [fst snd]. now rewrite H1.
    + ev H Q. apply eval_all_ok in Q as [_ Q]. apply Q in H0. apply in_map_iff. exists (v, m'). split; auto. cbn [fst snd]. now rewrite H1, H2.
    + ev H Q. apply eval_all_ok in Q as [_ Q]. apply Q in H0. apply in_map_iff. exists (v, m'). split; auto. cbn [fst snd]. now rewrite H1, H2.
    + rewrite H0 in H. apply some_inj in H. subst. left. reflexivity.
Qed.

Fixpoint run_check (fe fuel : nat) (x : state) : bool :=
  match fuel with
  | O => false
  | S fuel => match step_all fe x with None => false | Some l => forallb (run_check fe fuel) l end
  end.
Lemma run_check_ok fe fuel : forall x, run_check fe fuel x = true -> safe_run W addr bp ext body is_main x.
Proof.
  induction fuel as [|fuel IH]; intros x H; [discriminate|]. cbn in H. destruct (step_all fe x) as [l|] eqn:E; [|discriminate].
  apply step_all_ok in E as [E1 E2]. rewrite forallb_forall in H. intros n y e Hs He. inversion Hs; subst.
  - now apply E1.
  - apply E2 in H0. apply H in H0. eapply (IH _ H0); eauto.
Qed.
End Check.
