(** From the stack of an expression to its code: fusion, emission and simulation put together. *)
From Verif Require Import Base BaseLemmas X86 ExprSpec CgModel CgTree CgFuse MachSpec CgMach CgEmit CgSim.

Section C.
Variable W : Z.
Hypothesis HW : W = 2 \/ W = 4.

(** What the front end may put after an expression (smlrc.c:8850-9720). *)
Definition tailtok (t : tok) : bool := match t with TReturn | TIf _ | TIfNot _ => true | _ => false end.
Definition tail_ok (tail : stack) : Prop := tail = [] \/ exists t, tail = [t] /\ tailtok t = true.

Lemma rpn_last e : wf W e -> exists u t, rpn W e = u ++ [t] /\ tailtok t = false.
Proof.
  intros Hw. destruct e; try contradiction; cbn [rpn].
  - eexists [], _. split; [reflexivity|]. destruct uns; reflexivity.
  - eexists [], _. split; [reflexivity|]. reflexivity.
  - eexists [], _. split; [reflexivity|]. reflexivity.
  - eexists _, _. split; reflexivity.
  - eexists _, _. split; [reflexivity|]. destruct inc; reflexivity.
  - eexists _, _. split; [reflexivity|]. destruct inc; reflexivity.
  - eexists (rpn W e ++ [TNum n]), _. split; [rewrite <- app_assoc; reflexivity|]. destruct add; reflexivity.
  - eexists _, _. split; reflexivity.
  - eexists (_ ++ _), _. split; [rewrite <- app_assoc; reflexivity|reflexivity].
  - eexists (_ ++ _), _. split; [rewrite <- app_assoc; reflexivity|reflexivity].
  - eexists (_ ++ _), _. split; [rewrite <- app_assoc; reflexivity|reflexivity].
  - eexists (_ ++ _), _. split; [rewrite <- app_assoc; reflexivity|reflexivity].
  - eexists (_ ++ _), _. split; [rewrite <- app_assoc; reflexivity|reflexivity].
  - exists (rpn W e1 ++ TShortCirc lab :: rpn W e2), (TLogAnd lab). split; [rewrite <- app_assoc; reflexivity|reflexivity].
  - exists (rpn W e1 ++ TShortCirc (- lab) :: rpn W e2), (TLogOr lab). split; [rewrite <- app_assoc; reflexivity|reflexivity].
  - exists (rpn W e1 ++ TShortCirc (- lab) :: rpn W e3 ++ TGoto (lab + 1) :: TLogAnd lab :: rpn W e2), (TLogAnd (lab + 1)).
    split; [rewrite <- !app_assoc; cbn [app]; rewrite <- !app_assoc; reflexivity|reflexivity].
  - exists (TLParen (W * zlen args) :: rpn_args W args ++ rpn W e), (TRParen (W * zlen args)).
    split; [cbn [app]; rewrite <- !app_assoc; reflexivity|reflexivity].
Qed.

Lemma gen_expr_fuse e tail : wf W e -> tail_ok tail ->
  gen_expr W (rpn W e ++ tail) = gen_loop W (length (F W e ++ tail)) (F W e ++ tail) 0 \/
  gen_expr W (rpn W e ++ tail) = None /\ 131 < 3 * zlen (rpn W e) + zlen tail.
Proof.
  intros Hw Ht. destruct (rpn_last e Hw) as (u & t & Eu & Hn). unfold gen_expr.
  assert (Hz : exists t', zget (rpn W e ++ tail) (zlen (rpn W e ++ tail) - 1) = Some t' /\
     match t' with TIf _ | TIfNot _ | TReturn => zlen (rpn W e ++ tail) - 2 | _ => zlen (rpn W e ++ tail) - 1 end =
     zlen (rpn W e) - 1).
  { destruct Ht as [->|(t2 & -> & Ht2)].
    - rewrite app_nil_r. exists t. split; [rewrite Eu; eapply zget_at with (a := u) (b := []); [reflexivity|zl; lia]|].
      destruct t; try discriminate; reflexivity.
    - exists t2. split; [eapply zget_at with (a := rpn W e) (b := []); [reflexivity|zl; lia]|].
      rewrite zlen_app. change (zlen [t2]) with 1. destruct t2; try discriminate; lia. }
  destruct Hz as (t' & Ez & Ei). rewrite Ez. cbn [obind]. rewrite Ei.
  destruct (fuse_ok W HW e Hw (rpn W e ++ tail) [] tail (zlen (rpn W e) - 1) (2 * length (rpn W e ++ tail) + 2)%nat) as [E|[E Hov]].
  - reflexivity.
  - change (zlen (@nil tok)) with 0. lia.
  - rewrite app_length. lia.
  - rewrite E. left. reflexivity.
  - rewrite E. right. split; [reflexivity|]. change (zlen (@nil tok)) with 0 in Hov. lia.
Qed.

Lemma gen_loop_em e tail code :
  CgEmit.em W [] (F W e ++ tail) [] code -> gen_loop W (length (F W e ++ tail)) (F W e ++ tail) 0 = Some code.
Proof. intros H. apply (em_loop W [] (F W e ++ tail) code H). lia. Qed.

Variable addr : Z -> Z.
Variable bp : Z.
Variables lo top : Z.
Variable prot : Z -> Prop.
Hypothesis Hlo : 0 <= lo.
Hypothesis Htop : top < 2 ^ (8 * W).
Hypothesis Hprot : forall a, prot a -> ~ (lo <= a < top).
Variable callee : Z -> st -> option st.
Variable ext : Z -> list Z -> mem -> option (Z * mem).
Variable room : Z.
Hypothesis Hroom : 0 <= room.
Hypothesis Hcallee : callee_ok W bp lo top prot callee ext room.
Variable prog : list instr.
Hypothesis Huniq : forall l p, nth_error prog p = Some (Lab l) -> find_label l prog = Some p.

Notation fullsem := (fullsem W addr bp lo top prot callee ext room prog).
Notation cmpsem := (cmpsem W addr bp lo top prot callee ext room prog).
Notation good := (all_good W HW addr bp lo top prot Hlo Htop Hprot callee ext room Hroom Hcallee prog Huniq).

Lemma expr_code e tail : wf W e -> tail = [] \/ tail = [TReturn] ->
  exists code, (gen_expr W (rpn W e ++ tail) = Some code \/
                gen_expr W (rpn W e ++ tail) = None /\ 131 < 3 * zlen (rpn W e) + zlen tail) /\ fullsem e code.
Proof.
  intros Hw Ht. destruct (good e Hw) as [(c & Hem & Hs) _].
  exists c. split; [|exact Hs].
  destruct (gen_expr_fuse e tail Hw) as [E|E].
  { destruct Ht as [->| ->]; [left|right; exists TReturn]; auto. }
  2:{ right. exact E. }
  left. rewrite E. apply gen_loop_em. rewrite <- (app_nil_r c). apply em_app.
  - apply Hem. destruct Ht as [->| ->]; cbn; exact I.
  - destruct Ht as [->| ->]; [constructor|]. apply em1; [discriminate|]. cbn [app]. unfold gen_step. rewrite zg0. reflexivity.
Qed.

Lemma cond_code c l r neg lab : wf W (ECmp c l r) ->
  exists c0, let s := rpn W (ECmp c l r) ++ [if neg : bool then TIfNot lab else TIf lab] in
    (gen_expr W s = Some (c0 ++ gen1 (if neg then Ijncc (tok_cmp c) else Ijcc (tok_cmp c)) (XNum lab)) \/
     gen_expr W s = None /\ 130 < 3 * zlen (rpn W (ECmp c l r))) /\ cmpsem c l r c0.
Proof.
  intros Hw. destruct Hw as [Hwl Hwr].
  destruct (cmp_core W HW addr bp lo top prot Hlo Htop Hprot callee ext room Hroom prog Huniq c l r (good l) (good r) (conj Hwl Hwr))
    as (c0 & Hem & Hs).
  exists c0. intros s. split; [|exact Hs]. subst s.
  destruct (gen_expr_fuse (ECmp c l r) [if neg then TIfNot lab else TIf lab] (conj Hwl Hwr)) as [E|[E Hov]].
  { right. eexists. split; [reflexivity|]. destruct neg; reflexivity. }
  2:{ right. split; [exact E|]. change (zlen [if neg then TIfNot lab else TIf lab]) with 1 in Hov. lia. }
  left. rewrite E. apply gen_loop_em.
  rewrite <- (app_nil_r (c0 ++ _)). apply em_app.
  - specialize (Hem [] ([if neg then TIfNot lab else TIf lab] ++ [])). destruct neg; exact Hem.
  - apply em1; [discriminate|]. cbn [app]. unfold gen_step. rewrite zg0. destruct neg; reflexivity.
Qed.
End C.
