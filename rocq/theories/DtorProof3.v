(** Adding the base type; parameters that are arrays or functions; room in the table. *)
From Coq Require Import NArith.
From Verif Require Import Base BaseLemmas DeclSpec DeclModel DtorSpec DtorModel DtorRep DtorProof DtorProof2.
Ltac Zify.zify_post_hook ::= idtac.

Section L.
Variable W : Z.
Variable tenv : N -> option ty.

(** going over entries without stopping or clashing *)
Fixpoint scanc (l : stk) (top : kind) (c : Z) : option (kind * Z) :=
  match l with
  | [] => Some (top, c)
  | (k, v) :: l =>
      if clash top k then None
      else if (c + level k =? 0) && isScalar k then None else scanc l k (c + level k)
  end.
Lemma scanc_app l1 l2 : forall top c,
  scanc (l1 ++ l2) top c = match scanc l1 top c with Some (k, c') => scanc l2 k c' | None => None end.
Proof.
  induction l1 as [|[k v] l1 IH]; intros top c; cbn [app scanc]; [reflexivity|].
  destruct (clash top k); [reflexivity|]. destruct (_ && _); [reflexivity|]. apply IH.
Qed.
Lemma push_cases st e : push st [e] = Full /\ symax < zlen st + 1 \/ push st [e] = Ok (st ++ [e]).
Proof.
  unfold push. rewrite zlen_app, zlen_cons, zlen_nil.
  destruct (symax <? zlen st + (1 + 0)) eqn:E; [left; split; [reflexivity|lia]|right; reflexivity].
Qed.
Lemma copy_scan l : forall f st ptr c top a z top' c',
  st = a ++ l ++ z -> zlen a = ptr + 1 -> topk st = Some top -> scanc l top c = Some (top', c') ->
  copyType (length l + f) st ptr c = Full /\ symax < zlen st + zlen l \/
  copyType (length l + f) st ptr c = copyType f (st ++ l) (ptr + zlen l) c' /\ topk (st ++ l) = Some top'.
Proof.
  induction l as [|[k v] l IH]; intros f st ptr c top a z top' c' ES EA ET EC; cbn [length plus].
  - right. cbn in EC. injection EC as <- <-. rewrite app_nil_r, zlen_nil, Z.add_0_r. auto.
  - cbn [scanc] in EC. destruct (clash top k) eqn:E1; [discriminate|].
    destruct ((c + level k =? 0) && isScalar k) eqn:E2; [discriminate|].
    cbn [copyType].
    assert (G : zget st (ptr + 1) = Some (k, v)).
    { rewrite ES, zget_app_r by lia. replace (ptr + 1 - zlen a) with 0 by lia. reflexivity. }
    rewrite G, ET, E1. rewrite zlen_cons. pose proof (zlen_nonneg l).
    destruct (push_cases st (k, v)) as [[-> X]| ->]; cbn [rbind].
    + left. split; [reflexivity|lia].
    + rewrite E2.
      destruct (IH f (st ++ [(k, v)]) (ptr + 1) (c + level k) k (a ++ [(k, v)]) (z ++ [(k, v)]) top' c') as [[X1 X2]|[X1 X2]].
      * rewrite ES. rewrite <- !app_assoc. reflexivity.
      * rewrite zlen_app, zlen_cons, zlen_nil. lia.
      * apply topk_snoc.
      * exact EC.
      * left. split; [exact X1|]. rewrite zlen_app, zlen_cons, zlen_nil in X2. lia.
      * right. rewrite <- app_assoc in X1, X2. cbn [app] in X1, X2.
        replace (ptr + (1 + zlen l)) with (ptr + 1 + zlen l) by lia. auto.
Qed.

Lemma clash_scalar k t : isScalar k = true -> clash t k = false.
Proof. destruct k; cbn; try discriminate; intros _; unfold clash; cbn; now rewrite !andb_false_r. Qed.
Definition clashy (k : kind) : bool := kind_eqb k KLp || kind_eqb k KLb.
Lemma clash_not k t : clashy k = false -> clash t k = false.
Proof. unfold clashy, clash. intros H. apply orb_false_iff in H. destruct H as [-> ->]. now rewrite !andb_false_r. Qed.

Lemma go_Forall s (l : list (option N * ty)) :
  (fix go (l : list (option N * ty)) : Prop :=
     match l with
     | [] => True
     | p :: l => (is_void (snd p) = false /\ adjust (snd p) = snd p /\ wty W s (snd p)) /\ go l
     end) l <-> Forall (fun p => is_void (snd p) = false /\ adjust (snd p) = snd p /\ wty W s (snd p)) l.
Proof.
  induction l as [|p l IH]; [split; constructor|]. rewrite IH. split.
  - intros [H1 H2]. now constructor.
  - intros H. split; [exact (Forall_inv H)|exact (Forall_inv_tail H)].
Qed.

Definition scans (t : ty) : Prop := forall top c, 0 <= c -> clash top (headk W t) = false ->
  exists l v k, enc W t = l ++ [(basek W t, v)] /\ scanc l top c = Some (k, c).
Lemma level_scalar k : isScalar k = true -> level k = 0.
Proof. destruct k; cbn; congruence. Qed.
Lemma scans_through t top c : scans t -> 1 <= c -> clash top (headk W t) = false ->
  scanc (enc W t) top c = Some (basek W t, c).
Proof.
  intros H HC HT. destruct (H top c ltac:(lia) HT) as (l & v & k & E & S). rewrite E, scanc_app, S.
  cbn [scanc]. pose proof (basek_scalar W t) as B. rewrite (clash_scalar _ k B), (level_scalar _ B), Z.add_0_r.
  destruct (c =? 0) eqn:X; [lia|]. reflexivity.
Qed.
Lemma scan_params l : Forall (fun p => scans (snd p)) l -> forall top c, 1 <= c ->
  exists k, scanc (flat_map (fun p => (KIdent, nm (fst p)) :: enc W (snd p)) l) top c = Some (k, c).
Proof.
  induction 1 as [|p l Hp _ IH]; intros top c HC; cbn [flat_map]; [exists top; reflexivity|].
  cbn [app scanc]. rewrite clash_not by reflexivity. cbn [level isScalar]. rewrite andb_false_r, Z.add_0_r.
  rewrite scanc_app, (scans_through (snd p) KIdent c Hp HC).
  - apply IH, HC.
  - unfold clash. reflexivity.
Qed.
Lemma scans_all t : wty W false t -> scans t.
Proof.
  induction t as [s|j|t IH|n t IH|t IH|l e t IHl IH] using ty_ind2; intros HW top c HC HT.
  - exists [], 0, top. split; reflexivity.
  - exists [], j, top. split; reflexivity.
  - cbn [wty] in HW. destruct (IH HW KStar c HC eq_refl) as (l & v & k & E & S).
    exists ((KStar, 0) :: l), v, k. cbn [enc basek]. rewrite E. split; [reflexivity|].
    cbn [scanc]. rewrite clash_not by reflexivity. cbn [level isScalar]. rewrite andb_false_r, Z.add_0_r. exact S.
  - cbn [wty] in HW. destruct HW as (_ & HE & HW). cbn [headk] in HT.
    assert (HT' : clash KRb (headk W t) = false).
    { destruct t; cbn [headk]; try reflexivity; [apply clash_scalar, scalTok_scalar|discriminate]. }
    destruct (IH HW KRb c HC HT') as (l & v & k & E & S).
    exists ([(KLb, 0); (KNum, match n with Some n => n | None => 0 end); (KRb, 0)] ++ l), v, k.
    cbn [enc basek]. rewrite E. split; [reflexivity|].
    cbn [app scanc]. rewrite HT. change (clash KLb KNum) with false. change (clash KNum KRb) with false. cbv iota. cbn [level isScalar]. rewrite !andb_false_r.
    replace (c + 1 + 0 + -1) with c by lia. exact S.
  - cbn [wty] in HW. destruct HW as (HR & HW & _). cbn [headk] in HT.
    assert (HT' : clash KRp (headk W t) = false).
    { destruct t; cbn [headk]; try reflexivity; try discriminate. apply clash_scalar, scalTok_scalar. }
    destruct (IH HW KRp c HC HT') as (l & v & k & E & S).
    exists ([(KLp, 0); (KRp, 0)] ++ l), v, k. rewrite enc_fun. cbn [encq basek app]. rewrite E. split; [reflexivity|].
    cbn [scanc]. rewrite HT. change (clash KLp KRp) with false. cbv iota. cbn [level isScalar]. rewrite !andb_false_r.
    replace (c + 1 + -1) with c by lia. exact S.
  - cbn [wty] in HW. destruct HW as (HR & HW & HE & HL). cbn [headk] in HT. apply go_Forall in HL.
    assert (HT' : clash KRp (headk W t) = false).
    { destruct t; cbn [headk]; try reflexivity; try discriminate. apply clash_scalar, scalTok_scalar. }
    destruct (IH HW KRp c HC HT') as (l' & v & k & E & S).
    exists ((KLp, 0) :: encq W (Some (l, e)) ++ (KRp, 0) :: l'), v, k. rewrite enc_fun. cbn [basek app]. rewrite E.
    split; [now rewrite <- app_assoc|].
    cbn [scanc]. rewrite HT. cbn [level isScalar]. rewrite andb_false_r.
    assert (X : exists k', scanc (encq W (Some (l, e))) KLp (c + 1) = Some (k', c + 1)).
    { assert (F : Forall (fun p => scans (snd p)) l).
      { rewrite Forall_forall in *. intros p Ip. apply IHl; [exact Ip|]. apply HL, Ip. }
      unfold encq. destruct l as [|p l].
      - destruct e; [exfalso; now apply HE|]. cbn [scanc]. change (clash KLp KIdent) with false. change (clash KIdent KVoid) with false.
        cbv iota. cbn [level isScalar]. rewrite andb_false_r, !Z.add_0_r. destruct (c + 1 =? 0) eqn:Y; [lia|]. cbn [andb]. eauto.
      - destruct (scan_params _ F KLp (c + 1) ltac:(lia)) as [k' X]. rewrite scanc_app, X. destruct e; cbn [scanc]; [|eauto].
        rewrite !clash_not by reflexivity. cbn [level isScalar]. rewrite !andb_false_r, !Z.add_0_r. eauto. }
    destruct X as [k' X]. rewrite scanc_app, X. cbn [scanc]. rewrite clash_not by reflexivity. cbn [level isScalar].
    rewrite andb_false_r. replace (c + 1 + -1) with c by lia. exact S.
Qed.

Lemma void_base t v : enc W t = [(basek W t, v)] -> basek W t = KVoid -> t = YSc SVoid.
Proof.
  destruct t as [s|j|t|n t|q t]; cbn [basek].
  - intros _ H. apply scalTok_scalar in H. now subst.
  - discriminate.
  - cbn [enc]. destruct (enc_head W t) as (x & r & ->). discriminate.
  - discriminate.
  - rewrite enc_fun. intros H. apply (f_equal (@length _)) in H. cbn in H. rewrite app_length in H. cbn in H. lia.
Qed.
(** a legal type does not end in an array of void *)
Lemma enc_last_w t : wty W false t -> (exists v, enc W t = [(basek W t, v)]) \/
  (exists l k v w, enc W t = l ++ [(k, w); (basek W t, v)] /\ (k = KRb -> basek W t <> KVoid)).
Proof.
  induction t as [s|j|t IH|n t IH|t IH|l e t _ IH] using ty_ind2; intros HW.
  - left. cbn. eauto.
  - left. cbn. eauto.
  - right. cbn [enc basek]. destruct (IH HW) as [(v & E)|(l & k & v & w & E & K)]; rewrite E.
    + exists [], KStar, v, 0. split; [reflexivity|discriminate].
    + exists ((KStar, 0) :: l), k, v, w. split; [reflexivity|auto].
  - right. cbn [enc basek]. cbn [wty] in HW. destruct HW as (_ & HE & HW). destruct (IH HW) as [(v & E)|(l & k & v & w & E & K)].
    + exists [(KLb, 0); (KNum, match n with Some n => n | None => 0 end)], KRb, v, 0. rewrite E. split; [reflexivity|].
      intros _ B. rewrite (void_base t v E B) in HE. discriminate.
    + rewrite E. exists ([(KLb, 0); (KNum, match n with Some n => n | None => 0 end); (KRb, 0)] ++ l), k, v, w. split; [reflexivity|auto].
  - right. cbn [enc basek]. destruct (IH (proj1 (proj2 HW))) as [(v & E)|(l & k & v & w & E & K)]; rewrite E.
    + exists [(KLp, 0)], KRp, v, 0. split; [reflexivity|discriminate].
    + exists ((KLp, 0) :: (KRp, 0) :: l), k, v, w. split; [reflexivity|auto].
  - right. rewrite enc_fun. cbn [basek]. destruct (IH (proj1 (proj2 HW))) as [(v & E)|(l' & k & v & w & E & K)]; rewrite E.
    + exists ((KLp, 0) :: encq W (Some (l, e))), KRp, v, 0. split; [reflexivity|discriminate].
    + exists ((KLp, 0) :: encq W (Some (l, e)) ++ (KRp, 0) :: l'), k, v, w. split; [|auto].
      cbn. now rewrite <- app_assoc.
Qed.
End L.
