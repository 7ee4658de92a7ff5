(** The parser on declarators of the grammar: suffixes, and the induction. *)
From Coq Require Import NArith.
From Verif Require Import Base BaseLemmas DeclSpec DeclModel DtorSpec DtorModel DtorRep DtorProof DtorProof2 DtorProof3 DtorProof4 DtorProof5.
Ltac Zify.zify_post_hook ::= idtac.

Section M.
Variable W : Z.
Variable tdf : N -> option Z.
Variable tenv : N -> option ty.
Notation derived := (derived W tdf).
Notation fxnParams := (fxnParams W tdf).
Notation envok := (env_ok W tdf tenv).
Notation layd := (lay_d W tenv).
Notation lays := (lay_s W tenv).
Notation encL := (encL W).
Notation PDer := (PDer W tdf tenv).
Notation PPar := (PPar W tdf tenv).
Notation funpart := (funpart W tdf).
Notation sufpart := (sufpart W tdf).
Notation corepart := (corepart W tdf).
Notation qof := (q_of W tenv).
Notation stars := (repeat LPtr).

Lemma enc_stars s : encL (stars s) = repeat (KStar, 0) s.
Proof. induction s; [reflexivity|]. cbn [repeat]. unfold DtorProof2.encL in *. cbn [flat_map enc1]. now rewrite IHs. Qed.
Lemma pushStars_ris s : forall st, ris (pushStars s st) (Some (st ++ encL (stars s))) (zlen st + Z.of_nat s <= symax).
Proof.
  induction s as [|s IH]; intros st.
  - cbn. rewrite app_nil_r. apply ris_ok.
  - cbn [pushStars repeat].
    apply (ris_eq _ (obind (Some (st ++ [(KStar, 0)])) (fun st1 => Some (st1 ++ encL (stars s))))).
    2:{ cbn [obind]. rewrite <- app_assoc. reflexivity. }
    apply ris_bind; [eapply ris_weak; [apply push_ris|]; lia|].
    intros st1 E. injection E as <-. eapply ris_weak; [apply IH|]. rewrite zlen_app, zlen_cons, zlen_nil. lia.
Qed.
Lemma end_ok s st k rest : follows k = true ->
  ris (endpart s st (k :: rest)) (Some (st ++ encL (stars s), k :: rest)) (zlen st + Z.of_nat s <= symax).
Proof.
  intros HK. unfold endpart. destruct (follows_not k rest HK) as (_ & _ & -> & _).
  apply (ris_eq _ (obind (Some (st ++ encL (stars s))) (fun st => Some (st, k :: rest)))); [|reflexivity].
  apply ris_bind; [apply pushStars_ris|]. intros. apply ris_ok.
Qed.
Lemma end_bad s st toks R : hdIs follows toks = false -> ris (endpart s st toks) None R.
Proof. intros H. unfold endpart. apply ris_none_bind. intros. rewrite H. apply ris_bad. Qed.
Lemma pr_s_bad ss k rest : follows k = true -> ss <> SNil -> hdIs follows (pr_s ss ++ k :: rest) = false.
Proof. intros HK H. destruct (pr_s_hd ss k rest HK) as [[? _]|[(n & ss' & _ & ->)|(ps & ss' & _ & ->)]]; [congruence| |]; reflexivity. Qed.

(* ---------------------------------------------------------------- arrays *)
Fixpoint adim (ss : sufs) (allow : bool) : option (list layer) :=
  match ss with
  | SNil => Some []
  | SFun _ _ => None
  | SArr n ss' =>
      if dim_ok n && (allow || match n with Some _ => true | None => false end)
      then match adim ss' false with Some L => Some (LArr n :: L) | None => None end
      else None
  end.
Lemma adim_lay s ss : forall n allow, adim (SArr n ss) allow =
  match lays (SArr n ss) with
  | Some L => if chk (L ++ stars s) tint && (allow || match n with Some _ => true | None => false end) then Some L else None
  | None => None
  end.
Proof.
  induction ss as [|m ss IH|ps ss IH]; intros n allow.
  - cbn [adim lay_s open_first negb]. rewrite andb_true_r. destruct (dim_ok n); cbn [andb]; [|reflexivity].
    cbn [app chk]. rewrite chk_stars. assert (X : ok1 (LArr n) (apps (stars s) tint) = true) by (destruct s; reflexivity).
    rewrite X. reflexivity.
  - change (adim (SArr n (SArr m ss)) allow) with
      (if dim_ok n && (allow || match n with Some _ => true | None => false end)
       then match adim (SArr m ss) false with Some L => Some (LArr n :: L) | None => None end else None).
    rewrite IH. change (lays (SArr n (SArr m ss))) with
      (if dim_ok n && negb (open_first (SArr m ss)) then match lays (SArr m ss) with Some L => Some (LArr n :: L) | None => None end else None).
    destruct (lays (SArr m ss)) as [L|] eqn:EL.
    + assert (HL : exists L', L = LArr m :: L').
      { cbn [lay_s] in EL. destruct (dim_ok m && _); [|discriminate]. destruct (lays ss); [|discriminate]. injection EL as <-. eauto. }
      destruct HL as [L' ->]. destruct (dim_ok n); cbn [andb]; [|reflexivity].
      assert (X : chk ((LArr n :: LArr m :: L') ++ stars s) tint = chk ((LArr m :: L') ++ stars s) tint) by reflexivity.
      destruct m as [m|]; cbn [open_first negb orb].
      * rewrite andb_true_r, X. destruct (chk ((LArr (Some m) :: L') ++ stars s) tint); cbn [andb]; [reflexivity|].
        destruct (allow || _); reflexivity.
      * rewrite andb_false_r. destruct (allow || _); reflexivity.
    + destruct (dim_ok n && (allow || _)); destruct (dim_ok n && negb _); reflexivity.
  - change (adim (SArr n (SFun ps ss)) allow) with
      (if dim_ok n && (allow || match n with Some _ => true | None => false end) then @None (list layer) else None).
    change (lays (SArr n (SFun ps ss))) with
      (if dim_ok n && true then match lays (SFun ps ss) with Some L => Some (LArr n :: L) | None => None end else None).
    destruct (lays (SFun ps ss)) as [L|] eqn:EL.
    + assert (HL : exists q L', L = LFun q :: L').
      { cbn [lay_s] in EL. destruct (mean_p W tenv false ps) as [[l e]|]; [|discriminate].
        destruct (fun_params ps l e); [|discriminate]. destruct (lays ss); [|discriminate]. injection EL as <-. eauto. }
      destruct HL as (q & L' & ->).
      assert (X : chk ((LArr n :: LFun q :: L') ++ stars s) tint = false) by reflexivity.
      destruct (dim_ok n && (allow || _)); destruct (dim_ok n && true); try reflexivity; rewrite X; reflexivity.
    + destruct (dim_ok n && (allow || _)); destruct (dim_ok n && true); reflexivity.
Qed.


Lemma delete_at {A} (st : list A) x r : firstn (Z.to_nat (zlen st)) (st ++ x :: r) ++ skipn (S (Z.to_nat (zlen st))) (st ++ x :: r) = st ++ r.
Proof.
  unfold zlen. rewrite Nat2Z.id. f_equal.
  - rewrite firstn_app, Nat.sub_diag, firstn_all. cbn. apply app_nil_r.
  - rewrite skipn_app, skipn_all2 by lia. replace (S (length st) - length st)%nat with 1%nat by lia. reflexivity.
Qed.

Lemma dims_ok s k rest : follows k = true -> forall ss allow st,
  ris (let! (st, toks) := dims st (pr_s ss ++ k :: rest) allow in endpart s st toks)
      (match adim ss allow with Some L => Some (st ++ encL (L ++ stars s), k :: rest) | None => None end)
      (zlen st + cost_s W tenv ss + Z.of_nat s <= symax).
Proof.
  intros HK. induction ss as [|n ss IH|ps ss IH]; intros allow st.
  - cbn [pr_s app adim]. destruct (follows_not k rest HK) as (_ & H & _).
    assert (E : dims st (k :: rest) allow = Ok (st, k :: rest)) by (destruct k; try discriminate; reflexivity).
    rewrite E. cbn [rbind]. eapply ris_weak; [apply end_ok, HK|]. rewrite cost_s_nil. lia.
  - rewrite pr_s_arr. cbn [app]. rewrite <- app_assoc. cbn [app].
    assert (HS : forall v, (forall L, adim ss false = Some L -> enc1 W (LArr n) = [(KLb, 0); (KNum, v); (KRb, 0)]) ->
      ris (let! (st, toks) :=
             (let! st1 := push st [(KVoid, 0)] in let! st2 := push st1 [(KLb, 0)] in
              let! st3 := push st2 [(KNum, v)] in let! st4 := push st3 [(KRb, 0)] in
              dims (delete st4 (zlen st)) (pr_s ss ++ k :: rest) false) in endpart s st toks)
          (match adim ss false with Some L => Some (st ++ encL (LArr n :: L ++ stars s), k :: rest) | None => None end)
          (zlen st + cost_s W tenv (SArr n ss) + Z.of_nat s <= symax)).
    { intros v HV. rewrite cost_s_arr. pose proof (proj1 (proj2 (proj2 (cost_nonneg W tenv))) ss) as CN.
      rewrite !rbind_assoc.
      apply (ris_eq _ (obind (Some (st ++ [(KVoid, 0)])) (fun st1 => obind (Some (st1 ++ [(KLb, 0)])) (fun st2 =>
               obind (Some (st2 ++ [(KNum, v)])) (fun st3 => obind (Some (st3 ++ [(KRb, 0)])) (fun st4 =>
                 match adim ss false with Some L => Some (st ++ encL (LArr n :: L ++ stars s), k :: rest) | None => None end))))));
        [|reflexivity].
      apply ris_bind; [eapply ris_weak; [apply push_ris|]; lia|]. intros st1 E. injection E as <-. rewrite rbind_assoc.
      apply ris_bind; [eapply ris_weak; [apply push_ris|]; rewrite zlen_app, zlen_cons, zlen_nil; lia|].
      intros st2 E. injection E as <-. rewrite rbind_assoc.
      apply ris_bind; [eapply ris_weak; [apply push_ris|]; rewrite !zlen_app, !zlen_cons, !zlen_nil; lia|].
      intros st3 E. injection E as <-. rewrite rbind_assoc.
      apply ris_bind; [eapply ris_weak; [apply push_ris|]; rewrite !zlen_app, !zlen_cons, !zlen_nil; lia|].
      intros st4 E. injection E as <-.
      replace (delete ((((st ++ [(KVoid, 0)]) ++ [(KLb, 0)]) ++ [(KNum, v)]) ++ [(KRb, 0)]) (zlen st))
        with (st ++ [(KLb, 0); (KNum, v); (KRb, 0)])
        by (rewrite <- !app_assoc; cbn [app]; unfold delete; rewrite delete_at; reflexivity).
      eapply ris_weak.
      - eapply ris_eq; [apply IH|]. destruct (adim ss false) as [L|]; [|reflexivity].
        unfold DtorProof2.encL. cbn [flat_map]. rewrite (HV L eq_refl), <- app_assoc. reflexivity.
      - rewrite zlen_app, !zlen_cons, zlen_nil. lia. }
    change (adim (SArr n ss) allow) with
      (if dim_ok n && (allow || match n with Some _ => true | None => false end)
       then match adim ss false with Some L => Some (LArr n :: L) | None => None end else None).
    destruct n as [n|]; cbn [pr_dim app dims].
    + cbn [dim_ok]. rewrite orb_true_r, andb_true_r. destruct (n <? 1) eqn:EN.
      * destruct (1 <=? n) eqn:E1; [lia|].
        apply ris_none_bind. intros x E. exfalso. destruct (push st [(KVoid, 0)]) as [st1| | | |]; cbn in E; try discriminate.
        destruct (push st1 [(KLb, 0)]); cbn in E; discriminate.
      * destruct (1 <=? n) eqn:E1; [|lia]. eapply ris_eq; [apply (HS n)|].
        -- intros; reflexivity.
        -- destruct (adim ss false); reflexivity.
    + cbn [dim_ok andb]. rewrite orb_false_r. destruct allow.
      * eapply ris_eq; [apply (HS 0)|]. { intros; reflexivity. } destruct (adim ss false); reflexivity.
      * apply ris_none_bind. intros x E. exfalso. destruct (push st [(KVoid, 0)]) as [st1| | | |]; cbn in E; try discriminate.
        destruct (push st1 [(KLb, 0)]); cbn in E; discriminate.
  - cbn [adim]. rewrite pr_s_fun. cbn [app dims rbind]. apply end_bad. reflexivity.
Qed.

(* ---------------------------------------------------------------- functions *)
Lemma qof_pexp ps : pexp W tenv (0 =? 0) ps = match qof ps with Some q => Some (encq W q) | None => None end.
Proof. unfold pexp, q_of. destruct (mean_p W tenv false ps) as [[l e]|]; reflexivity. Qed.
Lemma qof_cost ps q : qof ps = Some q -> zlen (encq W q) <= cost_p W tenv ps.
Proof.
  unfold q_of. destruct (mean_p W tenv false ps) as [[l e]|] eqn:E; [|discriminate]. intros H.
  eapply encq_cost; eauto. apply (cost_all W tenv).
Qed.
Lemma fun_ok s ps ss f st k rest : PPar ps -> wf_p W tenv false ps = true -> (length (pr_p ps) < f)%nat ->
  follows k = true -> envok st ->
  ris (let! (st, toks) := funpart f st (pr_p ps ++ TRp :: pr_s ss ++ k :: rest) in endpart s st toks)
      (match qof ps with
       | Some q => match ss with SNil => Some (st ++ encL (LFun q :: stars s), k :: rest) | _ => None end
       | None => None
       end) (zlen st + 2 + cost_p W tenv ps + Z.of_nat s <= symax).
Proof.
  intros PP WF LF HK HE. unfold DtorProof5.funpart. rewrite rbind_assoc.
  pose proof (proj2 (proj2 (proj2 (cost_nonneg W tenv))) ps) as CN.
  apply (ris_eq _ (obind (Some (st ++ [(KLp, 0)])) (fun _ => match qof ps with
       | Some q => match ss with SNil => Some (st ++ encL (LFun q :: stars s), k :: rest) | _ => None end
       | None => None
       end))); [|reflexivity].
  apply ris_bind; [eapply ris_weak; [apply push_ris|]; lia|]. intros st1 E. injection E as <-. rewrite rbind_assoc.
  apply (ris_eq _ (obind (match qof ps with Some q => Some ((st ++ [(KLp, 0)]) ++ encq W q, TRp :: pr_s ss ++ k :: rest) | None => None end)
       (fun _ => match qof ps with
       | Some q => match ss with SNil => Some (st ++ encL (LFun q :: stars s), k :: rest) | _ => None end
       | None => None
       end))); [|destruct (qof ps); reflexivity].
  apply ris_bind.
  - eapply ris_weak; [eapply ris_eq; [apply PP; try assumption; try lia|]|].
    + apply clean_snoc; discriminate.
    + now apply env_app.
    + rewrite qof_pexp. destruct (qof ps); reflexivity.
    + rewrite zlen_app, zlen_cons, zlen_nil. lia.
  - intros x E. destruct (qof ps) as [q|] eqn:EQ; [|discriminate]. injection E as <-.
    pose proof (qof_cost ps q EQ) as QC. rewrite rbind_assoc.
    apply (ris_eq _ (obind (Some (((st ++ [(KLp, 0)]) ++ encq W q) ++ [(KRp, 0)]))
      (fun _ => match ss with SNil => Some (st ++ encL (LFun q :: stars s), k :: rest) | _ => None end))); [|reflexivity].
    apply ris_bind; [eapply ris_weak; [apply push_ris|]; rewrite !zlen_app, !zlen_cons, !zlen_nil; lia|].
    intros st2 E. injection E as <-. cbn [rbind tl].
    replace (((st ++ [(KLp, 0)]) ++ encq W q) ++ [(KRp, 0)]) with (st ++ enc1 W (LFun q))
      by (cbn [enc1]; rewrite <- !app_assoc; reflexivity).
    destruct ss as [|n ss|ps' ss].
    + cbn [pr_s app]. eapply ris_weak; [eapply ris_eq; [apply end_ok, HK|]|].
      * unfold DtorProof2.encL. cbn [flat_map]. rewrite <- app_assoc. reflexivity.
      * cbn [enc1]. rewrite zlen_app, zlen_cons, zlen_app, zlen_cons, zlen_nil. lia.
    + apply end_bad, pr_s_bad; [exact HK|discriminate].
    + apply end_bad, pr_s_bad; [exact HK|discriminate].
Qed.
Lemma lays_fun ps ss : lays (SFun ps ss) =
  match qof ps, lays ss with Some q, Some L => Some (LFun q :: L) | _, _ => None end.
Proof.
  unfold q_of. cbn [lay_s]. destruct (mean_p W tenv false ps) as [[l e]|]; [|reflexivity].
  destruct (fun_params ps l e); reflexivity.
Qed.
Lemma lays_hd ss L : lays ss = Some L -> ss <> SNil -> exists l L', L = l :: L' /\ l <> LPtr.
Proof.
  intros H N. destruct ss as [|n ss|ps ss]; [congruence| |].
  - cbn [lay_s] in H. destruct (dim_ok n && _); [|discriminate]. destruct (lays ss); [|discriminate]. injection H as <-.
    do 2 eexists; split; [reflexivity|discriminate].
  - rewrite lays_fun in H. destruct (qof ps); [|discriminate]. destruct (lays ss); [|discriminate]. injection H as <-.
    do 2 eexists; split; [reflexivity|discriminate].
Qed.
Definition dres (st : stk) (n : option N) (L0 : list layer) (ss : sufs) (s : nat) (r : list tok) : option (stk * list tok) :=
  match lays ss with
  | Some L1 => if chk (L0 ++ L1 ++ stars s) tint then Some (st ++ (KIdent, nm n) :: encL (L0 ++ L1 ++ stars s), r) else None
  | None => None
  end.
Lemma chk_split L0 l L : chk L0 tint = true -> chk (L0 ++ l :: L) tint = lastok L0 (app1 l (apps L tint)) && chk (l :: L) tint.
Proof. intros H. rewrite chk_app, chk_last, H. reflexivity. Qed.
Lemma dres_fun st n L0 ps ss s r : chk L0 tint = true ->
  dres st n L0 (SFun ps ss) s r =
  match qof ps with
  | Some q => match ss with
              | SNil => if lastok L0 (YFun q tint) then Some ((st ++ (KIdent, nm n) :: encL L0) ++ encL (LFun q :: stars s), r) else None
              | _ => None
              end
  | None => None
  end.
Proof.
  intros H. unfold dres. rewrite lays_fun. destruct (qof ps) as [q|]; [|reflexivity].
  assert (LO : forall t, lastok L0 (YFun q t) = lastok L0 (YFun q tint)) by (intros; unfold lastok; destruct (rev L0) as [|[]]; reflexivity).
  destruct (lays ss) as [L1|] eqn:EL.
  - cbn [app]. rewrite (chk_split L0 (LFun q) (L1 ++ stars s) H). cbn [app1]. rewrite LO.
    assert (D : ss = SNil \/ ss <> SNil) by (destruct ss; [left; reflexivity|right; discriminate|right; discriminate]).
    destruct D as [->|NN].
    + injection EL as <-. cbn [app chk ok1]. rewrite chk_stars.
      assert (X : ret_ok (apps (stars s) tint) = true) by (destruct s; reflexivity). rewrite X. cbn [andb].
      rewrite andb_true_r. destruct (lastok L0 (YFun q tint)); [|reflexivity].
      rewrite encL_app, <- app_assoc. reflexivity.
    + destruct (lays_hd ss L1 EL NN) as (l & L' & -> & NP).
      assert (X : ok1 (LFun q) (apps ((l :: L') ++ stars s) tint) = false) by (destruct l; [congruence|reflexivity|reflexivity]).
      cbn [chk]. rewrite X. cbn [andb]. rewrite andb_false_r. destruct ss; [congruence|reflexivity|reflexivity].
  - destruct ss; [discriminate|reflexivity|reflexivity].
Qed.

Definition sufparts (ss : sufs) : Prop := forall ps ss', ss = SFun ps ss' -> PPar ps.
Lemma suf_ok ss s f st n L0 k rest : sufparts ss -> wf_s W tenv false ss = true -> (length (pr_s ss) <= f)%nat ->
  follows k = true -> envok st -> chk L0 tint = true ->
  ris (let! (st, toks) := sufpart f false (st ++ (KIdent, nm n) :: encL L0) (pr_s ss ++ k :: rest) in endpart s st toks)
      (dres st n L0 ss s (k :: rest)) (zlen (st ++ (KIdent, nm n) :: encL L0) + cost_s W tenv ss + Z.of_nat s <= symax).
Proof.
  intros SP WF LF HK HE HL. unfold DtorProof5.sufpart. cbn [orb]. rewrite topk_L.
  destruct ss as [|m ss|ps ss].
  - cbn [pr_s app]. destruct (follows_not k rest HK) as (-> & -> & _). cbn [rbind].
    eapply ris_eq; [eapply ris_weak; [apply end_ok, HK|]|].
    + rewrite cost_s_nil. lia.
    + unfold dres. cbn [lay_s app]. rewrite chk_app, chk_stars, andb_true_r, chk_last, HL.
      assert (X : lastok L0 (apps (stars s) tint) = true) by (unfold lastok; destruct (rev L0) as [|[]]; [reflexivity|reflexivity|destruct s; reflexivity|destruct s; reflexivity]).
      rewrite X. cbn [andb]. rewrite encL_app, <- app_assoc. reflexivity.
  - assert (E1 : hdIs isLp (pr_s (SArr m ss) ++ k :: rest) = false) by reflexivity.
    assert (E2 : hdIs isLb (pr_s (SArr m ss) ++ k :: rest) = true) by reflexivity. rewrite E1, E2.
    pose proof (dims_ok s k rest HK (SArr m ss) true (st ++ (KIdent, nm n) :: encL L0)) as D.
    rewrite (adim_lay s) in D. cbn [orb] in D.
    assert (LK : kindL L0 = KRp <-> (forall t, lastok L0 (YArr m t) = false)).
    { unfold kindL, lastok. destruct (rev L0) as [|[]]; cbn; split; intros; try discriminate; try reflexivity; specialize (H tint); discriminate. }
    assert (LT : kindL L0 <> KRp -> forall t, lastok L0 (YArr m t) = true).
    { intros NK t. destruct (lastok L0 (YArr m t)) eqn:E; [reflexivity|]. exfalso. apply NK, LK.
      intros t'. rewrite <- E. unfold lastok. destruct (rev L0) as [|[]]; reflexivity. }
    assert (DR : dres st n L0 (SArr m ss) s (k :: rest) =
       match lays (SArr m ss) with
       | Some L1 => if lastok L0 (YArr m tint) && chk (L1 ++ stars s) tint
                    then Some ((st ++ (KIdent, nm n) :: encL L0) ++ encL (L1 ++ stars s), k :: rest) else None
       | None => None
       end).
    { unfold dres. destruct (lays (SArr m ss)) as [L1|] eqn:EL; [|reflexivity].
      assert (HH : exists L', L1 = LArr m :: L').
      { cbn [lay_s] in EL. destruct (dim_ok m && _); [|discriminate]. destruct (lays ss); [|discriminate]. injection EL as <-. eauto. }
      destruct HH as [L' ->]. cbn [app]. rewrite (chk_split L0 (LArr m) (L' ++ stars s) HL). cbn [app1].
      assert (LO : lastok L0 (YArr m (apps (L' ++ stars s) tint)) = lastok L0 (YArr m tint)) by (unfold lastok; destruct (rev L0) as [|[]]; reflexivity).
      rewrite LO. destruct (lastok L0 (YArr m tint) && chk (LArr m :: L' ++ stars s) tint); [|reflexivity]. rewrite encL_app, <- app_assoc. reflexivity. }
    rewrite DR. assert (DK : kindL L0 = KRp \/ kindL L0 <> KRp) by (destruct (kindL L0); (left; reflexivity) || (right; discriminate)).
    destruct DK as [EK|NK].
    + rewrite EK. apply LK with (t := tint) in EK. rewrite EK. cbn [andb]. destruct (lays (SArr m ss)); apply ris_bad.
    + rewrite (LT NK). cbn [andb].
      destruct (lays (SArr m ss)) as [L1|]; [rewrite andb_true_r in D; destruct (chk (L1 ++ stars s) tint)|];
      (destruct (kindL L0); try (exfalso; apply NK; reflexivity); exact D).
  - assert (E1 : hdIs isLp (pr_s (SFun ps ss) ++ k :: rest) = true) by reflexivity. rewrite E1.
    rewrite (dres_fun st n L0 ps ss s (k :: rest) HL).
    rewrite wf_s_fun in WF. apply andb_prop in WF. destruct WF as [WP WS]. rewrite pr_s_fun in LF. cbn [length] in LF. rewrite app_length in LF.
    cbn [app tl rbind]. rewrite pr_s_fun. cbn [app tl rbind]. rewrite <- app_assoc. cbn [app].
    pose proof (fun_ok s ps ss f (st ++ (KIdent, nm n) :: encL L0) k rest (SP ps ss eq_refl) WP) as F.
    specialize (F ltac:(lia) HK ltac:(now apply env_app)). rewrite cost_s_fun.
    pose proof (proj1 (proj2 (proj2 (cost_nonneg W tenv))) ss) as CN.
    assert (LK : forall q, lastok L0 (YFun q tint) = match kindL L0 with KRp | KRb => false | _ => true end).
    { intros q. unfold lastok, kindL. destruct (rev L0) as [|[]]; reflexivity. }
    destruct (kindL L0) eqn:EK;
      try (destruct (qof ps) as [q|]; [rewrite LK; destruct ss; apply ris_bad|apply ris_bad]);
      (eapply ris_eq; [eapply ris_weak; [exact F|]; lia|]; destruct (qof ps); [rewrite LK|]; reflexivity).
Qed.
End M.
