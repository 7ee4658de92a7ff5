(** Adding the base type, parameters that are arrays or functions, room in the table. *)
From Coq Require Import NArith.
From Verif Require Import Base BaseLemmas DeclSpec DeclModel DtorSpec DtorModel DtorRep DtorProof DtorProof2 DtorProof3.
Ltac Zify.zify_post_hook ::= idtac.

Section L.
Variable W : Z.
Variable tenv : N -> option ty.

Lemma holds_app st x p t : holds W st p t -> holds W (st ++ x) p t.
Proof. intros (a & z & -> & L). exists a, (z ++ x). rewrite <- !app_assoc. auto. Qed.
Lemma rep_app st x pb t : rep W st pb t -> rep W (st ++ x) pb t.
Proof. intros [H1 H2]. split; [|exact H2]. destruct pb; [exact H1|now apply holds_app]. Qed.
Lemma env_app tdf st x : env_ok W tdf tenv st -> env_ok W tdf tenv (st ++ x).
Proof.
  intros H n. specialize (H n). destruct (tdf n), (tenv n); try exact H. destruct H. split; [now apply holds_app|assumption].
Qed.

Lemma clash_last L t : clash (kindL L) (headk W t) = true \/ (kindL L = KRb /\ t = YSc SVoid) <-> lastok L t = false.
Proof.
  unfold kindL, lastok. destruct (rev L) as [|[|n|q] r]; cbn [ok1].
  - split; [intros [H|[H _]]; discriminate|discriminate].
  - split; [intros [H|[H _]]; discriminate|discriminate].
  - destruct t as [s|j|t|m t|q t]; cbn [headk].
    + destruct (scalTok_scalar W s) as (S & _). rewrite (clash_scalar _ KRb S).
      destruct s; cbn; split; intros H; try discriminate; auto; destruct H as [H|[_ H]]; discriminate.
    + cbn. split; [intros [H|[_ H]]; discriminate|discriminate].
    + cbn. split; [intros [H|[_ H]]; discriminate|discriminate].
    + cbn. split; [intros [H|[_ H]]; discriminate|discriminate].
    + cbn. split; auto.
  - destruct t as [s|j|t|m t|p t]; cbn [headk ret_ok].
    + destruct (scalTok_scalar W s) as (S & _). rewrite (clash_scalar _ KRp S).
      split; [intros [H|[H _]]; discriminate|discriminate].
    + cbn. split; [intros [H|[H _]]; discriminate|discriminate].
    + cbn. split; [intros [H|[H _]]; discriminate|discriminate].
    + cbn. split; auto.
    + cbn. split; auto.
Qed.

Lemma copy_ok L st n p t : let st1 := st ++ (KIdent, n) :: encL W L in
  holds W st p t -> wty W false t ->
  ris (copyType (length st1) st1 p 0) (if clash (kindL L) (headk W t) then None else Some (st1 ++ enc W t))
      (zlen st1 + zlen (enc W t) <= symax).
Proof.
  intros st1 HH HW. pose proof (topk_L W st n L) as HT. fold st1 in HT.
  assert (HH1 : holds W st1 p t) by (now apply holds_app). destruct HH1 as (a & z & ES & EA).
  destruct (clash (kindL L) (headk W t)) eqn:EC.
  - assert (LN : (0 < length st1)%nat) by (unfold st1; rewrite app_length; cbn; lia).
    destruct (length st1) as [|f]; [lia|]. cbn [copyType].
    destruct (enc_head W t) as (v & r & EH).
    assert (G : zget st1 (p + 1) = Some (headk W t, v)).
    { rewrite ES, zget_app_r by lia. replace (p + 1 - zlen a) with 0 by lia. rewrite EH. reflexivity. }
    rewrite G, HT, EC. apply ris_bad.
  - clearbody st1. destruct (scans_all W t HW (kindL L) 0 ltac:(lia) EC) as (l & v & k & E & SC).
    assert (LN : exists f, length st1 = (length l + S f)%nat).
    { exists (length st1 - S (length l))%nat. assert (S (length l) <= length st1)%nat; [|lia].
      rewrite ES, !app_length, E, app_length. cbn. lia. }
    destruct LN as [f ->].
    rewrite E.
    assert (ZL : zlen (l ++ [(basek W t, v)]) = zlen l + 1) by (rewrite zlen_app; reflexivity). rewrite ZL.
    assert (ES' : st1 = a ++ l ++ [(basek W t, v)] ++ z).
    { rewrite ES, E, <- !app_assoc. reflexivity. }
    destruct (copy_scan l (S f) st1 p 0 (kindL L) a ([(basek W t, v)] ++ z) k 0 ES' EA HT SC) as [[X1 X2]|[X1 X2]]; rewrite X1.
    + split; [discriminate|]. intros. lia.
    + cbn [copyType].
      assert (G : zget (st1 ++ l) (p + zlen l + 1) = Some (basek W t, v)).
      { rewrite ES', <- app_assoc. rewrite zget_app_r by (pose proof (zlen_nonneg l); lia).
        rewrite <- app_assoc, zget_app_r by lia. replace (p + zlen l + 1 - zlen a - zlen l) with 0 by lia. reflexivity. }
      rewrite G, X2. pose proof (basek_scalar W t) as B. rewrite (clash_scalar _ k B).
      rewrite (level_scalar _ B), B. change ((0 + 0 =? 0) && true) with true. cbv iota.
      rewrite app_assoc. destruct (push_cases (st1 ++ l) (basek W t, v)) as [[Y1 Y2]|Y1]; rewrite Y1; cbn [rbind].
      * split; [discriminate|]. intros. rewrite zlen_app in Y2. lia.
      * apply ris_ok.
Qed.

Lemma pushBase_ok L st n pb t : let st1 := st ++ (KIdent, n) :: encL W L in
  rep W st pb t ->
  ris (pushBase st1 pb) (if lastok L t then Some (st1 ++ enc W t) else None)
      (zlen st1 + zlen (enc W t) <= symax).
Proof.
  intros st1 [HR HW]. unfold pushBase.
  pose proof (topk_L W st n L) as HT. fold st1 in HT.
  pose proof (clash_last L t) as CL.
  apply (ris_eq _ (obind (if clash (kindL L) (headk W t) then None else Some (st1 ++ enc W t))
                         (fun st' => if lastok L t then Some st' else None))).
  2:{ destruct (clash (kindL L) (headk W t)); cbn [obind]; [|reflexivity].
      rewrite (proj1 CL) by auto. reflexivity. }
  apply ris_bind.
  - destruct pb as [k v|p].
    + rewrite HR.
      assert (EC : clash (kindL L) (headk W t) = false).
      { destruct (enc_last W t) as [(v' & E & EH)|(l & k' & v' & w & E & _)].
        - rewrite EH. apply clash_scalar, basek_scalar.
        - rewrite HR in E. apply (f_equal (@length _)) in E. rewrite app_length in E. cbn in E. lia. }
      rewrite EC. eapply ris_weak; [apply push_ris|]. rewrite zlen_cons, zlen_nil. lia.
    + apply copy_ok; assumption.
  - clearbody st1. intros st2 E. destruct (clash (kindL L) (headk W t)) eqn:EC; [discriminate|]. injection E as <-.
    rewrite topk_enc.
    destruct (enc_last_w W t HW) as [(v & E)|(l & k & v & w & E & K)].
    + assert (G : zget (st1 ++ enc W t) (zlen (st1 ++ enc W t) - 2) = zget st1 (zlen st1 - 1)).
      { rewrite E, zlen_app, zlen_cons, zlen_nil. replace (zlen st1 + (1 + 0) - 2) with (zlen st1 - 1) by lia.
        apply zget_app_l. lia. }
      rewrite G. unfold topk in HT. destruct (zget st1 (zlen st1 - 1)) as [[k' v']|]; [|discriminate]. injection HT as ->.
      destruct (lastok L t) eqn:EL.
      * assert (X : ~ (kindL L = KRb /\ t = YSc SVoid)).
        { intros H. assert (true = false); [apply CL; auto|discriminate]. }
        destruct (basek W t) eqn:EB; try apply ris_ok.
        destruct (kindL L) eqn:EK; try apply ris_ok. exfalso. apply X. split; [reflexivity|].
        apply (void_base W t v); congruence.
      * destruct (proj2 CL eq_refl) as [H|[H1 H2]]; [congruence|]. subst t. cbn [basek scalTok]. rewrite H1. apply ris_bad.
    + rewrite E, app_assoc, zget_snoc2.
      assert (EL : lastok L t = true).
      { destruct (lastok L t) eqn:EL; [reflexivity|]. destruct (proj2 CL eq_refl) as [H|[H1 H2]]; [congruence|].
        subst t. cbn in E. apply (f_equal (@length _)) in E. rewrite app_length in E. cbn in E. lia. }
      rewrite EL. destruct (basek W t); try apply ris_ok. destruct k; try apply ris_ok. exfalso. now apply K.
Qed.

Lemma zlen_enc_pos t : 1 <= zlen (enc W t).
Proof. destruct (enc_head W t) as (v & r & ->). rewrite zlen_cons. pose proof (zlen_nonneg r). lia. Qed.

Lemma firstn_snoc {A} (st : list A) x r : firstn (Z.to_nat (zlen st + 1)) (st ++ x :: r) = st ++ [x].
Proof.
  replace (Z.to_nat (zlen st + 1)) with (length (st ++ [x])) by (rewrite app_length; unfold zlen; cbn; lia).
  replace (st ++ x :: r) with ((st ++ [x]) ++ r) by (rewrite <- app_assoc; reflexivity).
  rewrite firstn_app, Nat.sub_diag, firstn_all. cbn. apply app_nil_r.
Qed.
Lemma skipn_snoc {A} (st : list A) x r : skipn (Z.to_nat (zlen st + 1)) (st ++ x :: r) = r.
Proof.
  replace (Z.to_nat (zlen st + 1)) with (length (st ++ [x])) by (rewrite app_length; unfold zlen; cbn; lia).
  replace (st ++ x :: r) with ((st ++ [x]) ++ r) by (rewrite <- app_assoc; reflexivity).
  rewrite skipn_app, Nat.sub_diag, skipn_all. reflexivity.
Qed.
Lemma skipn_S_snoc {A} (st : list A) x y r : skipn (S (Z.to_nat (zlen st + 1))) (st ++ x :: y :: r) = r.
Proof.
  replace (S (Z.to_nat (zlen st + 1))) with (Z.to_nat (zlen (st ++ [x]) + 1)) by (rewrite zlen_app, zlen_cons, zlen_nil; unfold zlen; lia).
  replace (st ++ x :: y :: r) with ((st ++ [x]) ++ y :: r) by (rewrite <- app_assoc; reflexivity).
  apply skipn_snoc.
Qed.
Lemma delete_snoc st x y r : delete (st ++ x :: y :: r) (zlen st + 1) = st ++ x :: r.
Proof. unfold delete. rewrite firstn_snoc, skipn_S_snoc, <- app_assoc. reflexivity. Qed.
Lemma zget_snoc {A} (st : list A) x y r : zget (st ++ x :: y :: r) (zlen st + 1) = Some y.
Proof. rewrite zget_app_r by lia. replace (zlen st + 1 - zlen st) with 1 by lia. reflexivity. Qed.
Lemma lset_snoc {A} (st : list A) x y r z : lset (st ++ x :: y :: r) (Z.to_nat (zlen st + 1)) z = st ++ x :: z :: r.
Proof.
  replace (Z.to_nat (zlen st + 1)) with (length (st ++ [x])) by (rewrite app_length; unfold zlen; cbn; lia).
  replace (st ++ x :: y :: r) with ((st ++ [x]) ++ y :: r) by (rewrite <- app_assoc; reflexivity).
  rewrite lset_app, <- app_assoc. reflexivity.
Qed.
Lemma decay_ok st n t :
  ris (decay (st ++ (KIdent, n) :: enc W t) (zlen st + 1)) (Some (st ++ (KIdent, n) :: enc W (adjust t)))
      (zlen st + 2 + zlen (enc W t) <= symax).
Proof.
  unfold decay. destruct t as [s|j|t|m t|q t].
  - cbn [enc adjust]. rewrite zget_snoc. destruct (scalTok_scalar W s) as (_ & _ & _ & H1 & H2).
    destruct (scalTok W s); try congruence; apply ris_ok.
  - cbn [enc adjust]. rewrite zget_snoc. apply ris_ok.
  - cbn [enc adjust]. rewrite zget_snoc. apply ris_ok.
  - cbn [enc adjust app]. rewrite zget_snoc. cbv zeta. rewrite delete_snoc, zget_snoc, delete_snoc, zget_snoc, lset_snoc. apply ris_ok.
  - change (adjust (YFun q t)) with (YPtr (YFun q t)).
    change (enc W (YPtr (YFun q t))) with ((KStar, 0) :: enc W (YFun q t)). rewrite !enc_fun. rewrite zget_snoc. unfold insert. rewrite firstn_snoc, skipn_snoc.
    rewrite zlen_app, !zlen_cons.
    match goal with |- ris (if ?b then _ else _) _ _ => destruct b eqn:E end.
    + split; [discriminate|]. intros. lia.
    + rewrite <- app_assoc. apply ris_ok.
Qed.

(* ---------------------------------------------------------------- room *)
Lemma zlen_flat_cons {A B} (f : A -> list B) x l : zlen (flat_map f (x :: l)) = zlen (f x) + zlen (flat_map f l).
Proof. cbn [flat_map]. apply zlen_app. Qed.
Lemma cost_nonneg :
  (forall d, 1 <= cost_d W tenv d) /\ (forall c, 1 <= cost_c W tenv c) /\
  (forall ss, 0 <= cost_s W tenv ss) /\ (forall ps, 0 <= cost_p W tenv ps).
Proof.
  assert (B : forall b, 0 <= cost_b W tenv b).
  { intros b. unfold cost_b. destruct (base_ty W tenv b); [apply zlen_nonneg|lia]. }
  apply dtor_mut; intros; ce; try lia.
  all: try (pose proof (B b)); try lia.
Qed.
Lemma enc_adjust t : zlen (enc W (adjust t)) <= 1 + zlen (enc W t).
Proof.
  destruct t; cbn [adjust]; try lia.
  - cbn [enc]. rewrite zlen_app, !zlen_cons, zlen_nil. lia.
  - change (enc W (YPtr (YFun q t))) with ((KStar, 0) :: enc W (YFun q t)). rewrite zlen_cons. lia.
Qed.
Definition encp (l : list (option N * ty)) : stk :=
  flat_map (fun p => (KIdent, nm (fst p)) :: enc W (adjust (snd p))) l.
Lemma encp_eq l : flat_map (fun p => (KIdent, nm (fst p)) :: enc W (snd p)) (map (fun p => (fst p, adjust (snd p))) l) = encp l.
Proof. unfold encp. induction l as [|p l IH]; [reflexivity|]. cbn [map flat_map fst snd]. now rewrite IH. Qed.
Lemma param_cost b d t n t' : base_ty W tenv b = Some t ->
  (forall n L, lay_d W tenv d = Some (n, L) -> 1 + zlen (encL W L) <= cost_d W tenv d) ->
  mean_d W tenv false d t = Some (n, t') -> 1 + zlen (enc W t') <= cost_b W tenv b + cost_d W tenv d.
Proof.
  intros HB IH. rewrite lay_d_mean. destruct (lay_d W tenv d) as [[m L]|]; [|discriminate].
  destruct (lastok L t); [|discriminate]. intros E. injection E as <- <-. specialize (IH _ _ eq_refl).
  rewrite enc_apps, zlen_app. unfold cost_b. rewrite HB. lia.
Qed.
Definition PD d := forall n L, lay_d W tenv d = Some (n, L) -> 1 + zlen (encL W L) <= cost_d W tenv d.
Definition PC c := forall n L, lay_c W tenv c = Some (n, L) -> 1 + zlen (encL W L) <= cost_c W tenv c.
Definition PS ss := forall L, lay_s W tenv ss = Some L -> zlen (encL W L) <= cost_s W tenv ss.
Definition PP ps := forall l e, mean_p W tenv false ps = Some (l, e) ->
  zlen (encp l) + (if e then 2 else 0) <= cost_p W tenv ps.
Lemma encL_cons l L : zlen (encL W (l :: L)) = zlen (enc1 W l) + zlen (encL W L).
Proof. cbn [encL flat_map]. apply zlen_app. Qed.
Lemma encL_stars n : zlen (encL W (repeat LPtr n)) = Z.of_nat n.
Proof. induction n; [reflexivity|]. cbn [repeat]. rewrite encL_cons, IHn. cbn [enc1]. rewrite zlen_cons, zlen_nil. lia. Qed.
(** with [fun_params] *)
Lemma fun_params_eq ps l e q : fun_params ps l e = Some q ->
  q = None /\ ps = PNil \/
  (q = Some ([], false) /\ l = [(None, YSc SVoid)] /\ exists b d, ps = PLast b d) \/
  (q = Some (map (fun p => (fst p, adjust (snd p))) l, e) /\ existsb (fun p => is_void (snd p)) l = false /\ ps <> PNil).
Proof.
  unfold fun_params. destruct ps as [|b d|b d tr|b d ps].
  - intros H. injection H as <-. auto.
  - intros H. destruct l as [|[[n|] t] l].
    + cbn in H. injection H as <-. do 2 right. repeat split. discriminate.
    + destruct (existsb _ _) eqn:E; [discriminate|]. injection H as <-. do 2 right. repeat split. discriminate.
    + assert (X : (t = YSc SVoid /\ l = []) \/ (if existsb (fun p => is_void (snd p)) ((None, t) :: l) then None
            else Some (Some (map (fun p => (fst p, adjust (snd p))) ((None, t) :: l), e))) = Some q).
      { destruct t as [[]| | | |]; auto. destruct l; auto. }
      destruct X as [[-> ->]|X].
      * injection H as <-. right. left. eauto.
      * destruct (existsb _ _) eqn:E; [discriminate|]. injection X as <-. do 2 right. repeat split. discriminate.
  - intros H. destruct (existsb _ _) eqn:E; [discriminate|]. injection H as <-. do 2 right. repeat split. discriminate.
  - intros H. destruct (existsb _ _) eqn:E; [discriminate|]. injection H as <-. do 2 right. repeat split. discriminate.
Qed.
Lemma mean_p_nonempty ps l e : mean_p W tenv false ps = Some (l, e) -> ps <> PNil -> l <> [].
Proof.
  destruct ps as [|b d|b d tr|b d ps]; [congruence| | |]; intros H _.
  - rewrite mean_p_last in H. destruct (base_ty W tenv b); [|discriminate]. destruct (mean_d _ _ _ d t); congruence.
  - rewrite mean_p_ell in H. destruct (base_ty W tenv b); [|discriminate]. destruct (mean_d _ _ _ d t); congruence.
  - rewrite mean_p_cons in H. destruct (base_ty W tenv b); [|discriminate]. destruct (mean_d _ _ _ d t); [|discriminate].
    destruct (mean_p W tenv false ps) as [[? ?]|]; congruence.
Qed.
Lemma encq_cases ps l e q : mean_p W tenv false ps = Some (l, e) -> fun_params ps l e = Some q ->
  (ps = PNil /\ encq W q = []) \/
  (l = [(None, YSc SVoid)] /\ (exists b d, ps = PLast b d) /\ encq W q = encp l) \/
  (existsb (fun p => is_void (snd p)) l = false /\ encq W q = encp l ++ (if e then [(KIdent, -1); (KEllipsis, 0)] else [])).
Proof.
  intros HM HF. destruct (fun_params_eq _ _ _ _ HF) as [[-> ->]|[(-> & -> & b & d & ->)|(-> & HE & HN)]].
  - left. auto.
  - right. left. split; [reflexivity|]. split; [eauto|]. reflexivity.
  - right. right. split; [exact HE|]. pose proof (mean_p_nonempty _ _ _ HM HN) as NE.
    rewrite <- encp_eq. unfold encq. destruct l as [|p l]; [congruence|]. reflexivity.
Qed.
Lemma encq_cost ps l e q : mean_p W tenv false ps = Some (l, e) -> fun_params ps l e = Some q -> PP ps ->
  zlen (encq W q) <= cost_p W tenv ps.
Proof.
  intros HM HF HP. specialize (HP l e HM). pose proof (proj2 (proj2 (proj2 cost_nonneg)) ps).
  destruct (encq_cases _ _ _ _ HM HF) as [[_ ->]|[(_ & _ & ->)|[_ ->]]].
  - rewrite zlen_nil. lia.
  - destruct e; lia.
  - rewrite zlen_app. destruct e; [change (zlen [(KIdent, -1); (KEllipsis, 0)]) with 2|rewrite zlen_nil]; lia.
Qed.
Lemma cost_all : (forall d, PD d) /\ (forall c, PC c) /\ (forall ss, PS ss) /\ (forall ps, PP ps).
Proof.
  apply dtor_mut.
  - intros s c IHc ss IHs n L. ce. rewrite lay_d_eq.
    destruct (lay_c W tenv c) as [[m L0]|] eqn:E0; [|discriminate]. destruct (lay_s W tenv ss) as [L1|] eqn:E1; [|discriminate].
    destruct (chk _ tint); [|discriminate]. intros H. injection H as <- <-.
    specialize (IHc _ _ E0). specialize (IHs _ E1). rewrite !encL_app, !zlen_app, encL_stars. lia.
  - intros n m L H. injection H as <- <-. reflexivity.
  - intros d IH n L H. apply IH in H. exact H.
  - intros L H. injection H as <-. reflexivity.
  - intros n ss IH L. ce. cbn [lay_s]. destruct (_ && _); [|discriminate].
    destruct (lay_s W tenv ss) as [L'|] eqn:EL; [|discriminate]. intros H. injection H as <-. specialize (IH _ EL).
    rewrite encL_cons. cbn [enc1]. rewrite !zlen_cons, zlen_nil. lia.
  - intros ps IHp ss IH L. ce. cbn [lay_s]. destruct (mean_p W tenv false ps) as [[l e]|] eqn:EM; [|discriminate].
    destruct (fun_params ps l e) as [q|] eqn:EF; [|discriminate]. destruct (lay_s W tenv ss) as [L'|] eqn:EL; [|discriminate].
    intros H. injection H as <-. specialize (IH _ EL). pose proof (encq_cost _ _ _ _ EM EF IHp).
    rewrite encL_cons. cbn [enc1]. rewrite zlen_cons, zlen_app, zlen_cons, zlen_nil. lia.
  - intros l e H. injection H as <- <-. reflexivity.
  - intros b d IH l e H. rewrite mean_p_last in H. destruct (base_ty W tenv b) as [t|] eqn:EB; [|discriminate].
    destruct (mean_d W tenv false d t) as [[n t']|] eqn:EM; [|discriminate]. injection H as <- <-.
    pose proof (param_cost b d t n t' EB IH EM). pose proof (enc_adjust t').
    unfold encp. rewrite zlen_flat_cons. ce. cbn [flat_map fst snd]. rewrite zlen_nil, zlen_cons. lia.
  - intros b d IH tr l e H. rewrite mean_p_ell in H. destruct (base_ty W tenv b) as [t|] eqn:EB; [|discriminate].
    destruct (mean_d W tenv false d t) as [[n t']|] eqn:EM; [|discriminate]. injection H as <- <-.
    pose proof (param_cost b d t n t' EB IH EM). pose proof (enc_adjust t').
    unfold encp. rewrite zlen_flat_cons. ce. cbn [flat_map fst snd]. rewrite zlen_nil, zlen_cons. lia.
  - intros b d IH ps IHp l e H. rewrite mean_p_cons in H. destruct (base_ty W tenv b) as [t|] eqn:EB; [|discriminate].
    destruct (mean_d W tenv false d t) as [[n t']|] eqn:EM; [|discriminate].
    destruct (mean_p W tenv false ps) as [[l' e']|] eqn:EP; [|discriminate]. injection H as <- <-.
    pose proof (param_cost b d t n t' EB IH EM). pose proof (enc_adjust t'). specialize (IHp _ _ EP).
    unfold encp in *. rewrite zlen_flat_cons. ce. cbn [fst snd]. rewrite zlen_cons. lia.
Qed.
End L.
