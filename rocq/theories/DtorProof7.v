(** The parser on declarators of the grammar: every declarator, parameter list, declaration and type
    name. *)
From Coq Require Import NArith.
From Verif Require Import Base BaseLemmas DeclSpec DeclModel DtorSpec DtorModel DtorRep DtorProof DtorProof2 DtorProof3 DtorProof4 DtorProof5 DtorProof6.
Ltac Zify.zify_post_hook ::= idtac.

Section M.
Variable W : Z.
Variable tdf : N -> option Z.
Variable tenv : N -> option ty.
Notation derived := (derived W tdf).
Notation envok := (env_ok W tdf tenv).
Notation layd := (lay_d W tenv).
Notation layc := (lay_c W tenv).
Notation encL := (encL W).
Notation PDer := (PDer W tdf tenv).
Notation PPar := (PPar W tdf tenv).
Notation dres := (dres W tenv).

Lemma dexp_dres st s c ss r : dexp W tenv st (Dc s c ss) r =
  match layc c with Some (n, L0) => dres st n L0 ss s r | None => None end.
Proof.
  unfold dexp. rewrite lay_d_eq. destruct (layc c) as [[n L0]|]; [|reflexivity]. unfold DtorProof6.dres.
  destruct (lay_s W tenv ss) as [L1|]; [|reflexivity]. destruct (chk _ tint); reflexivity.
Qed.
Lemma pr_p_hd ps st r : envok st -> wf_p W tenv false ps = true ->
  hdIs isRp (pr_p ps ++ TRp :: r) || hdIs (startsDecl W tdf) (pr_p ps ++ TRp :: r) = true.
Proof.
  intros HE WF. destruct ps as [|b d|b d tr|b d ps].
  - reflexivity.
  - rewrite wf_p_last in WF. apply andb_prop in WF. destruct WF as [WB _]. rewrite pr_p_last, <- app_assoc.
    rewrite (hd_starts W tdf tenv st) by exact HE. destruct (base_hd W tdf tenv b (pr_d d ++ TRp :: r) WB) as [-> _]. apply orb_true_r.
  - rewrite wf_p_ell in WF. apply andb_prop in WF. destruct WF as [WF _]. apply andb_prop in WF. destruct WF as [WB _].
    rewrite pr_p_ell, <- app_assoc.
    rewrite (hd_starts W tdf tenv st) by exact HE.
    match goal with |- context [pr_base b ++ ?x] => destruct (base_hd W tdf tenv b x WB) as [-> _] end. apply orb_true_r.
  - rewrite wf_p_cons in WF. apply andb_prop in WF. destruct WF as [WF _]. apply andb_prop in WF. destruct WF as [WF _].
    apply andb_prop in WF. destruct WF as [WB _]. rewrite pr_p_cons, <- app_assoc.
    rewrite (hd_starts W tdf tenv st) by exact HE.
    match goal with |- context [pr_base b ++ ?x] => destruct (base_hd W tdf tenv b x WB) as [-> _] end. apply orb_true_r.
Qed.

Definition PCor (c : core) : Prop := forall d, c = CParen d -> PDer d.
Lemma step_d s c ss : PCor c -> sufparts W tdf tenv ss -> PDer (Dc s c ss).
Proof.
  intros PC PS WF f st k rest LF HK HC HE. rewrite wf_d_eq in WF. apply andb_prop in WF. destruct WF as [WC WS].
  rewrite pr_d_eq in *. rewrite !app_length in LF. destruct f as [|f]; [lia|].
  rewrite cost_d_eq, dexp_dres, derived_S. rewrite <- !app_assoc.
  rewrite stars_ok by (apply nostar; exact HK).
  pose proof (proj1 (proj2 (proj2 (cost_nonneg W tenv))) ss) as CS.
  destruct c as [n|d].
  - rewrite cost_c_name. change (layc (CName n)) with (Some (n, @nil layer)). cbv iota beta.
    assert (NAME : forall toks0, corepart W tdf f st toks0 =
        (let! st := push st [(KIdent, nm n)] in Ok (false, st, pr_s ss ++ k :: rest)) ->
        ris (let! (params, st, toks) := corepart W tdf f st toks0 in
             let! (st, toks) := sufpart W tdf f params st toks in endpart s st toks)
            (dres st n [] ss s (k :: rest)) (zlen st + (Z.of_nat s + 1 + cost_s W tenv ss) <= symax)).
    { intros toks0 ->. rewrite rbind_assoc.
      apply (ris_eq _ (obind (Some (st ++ [(KIdent, nm n)])) (fun _ => dres st n [] ss s (k :: rest)))); [|reflexivity].
      apply ris_bind; [eapply ris_weak; [apply push_ris|]; lia|]. intros st1 E. injection E as <-. cbn [rbind].
      eapply ris_weak; [apply (suf_ok W tdf tenv ss s f st n [] k rest); try assumption; try reflexivity|].
      - destruct n; cbn [length] in LF; lia.
      - change (DtorProof2.encL W []) with (@nil (kind * Z)). rewrite zlen_app, zlen_cons, zlen_nil. lia. }
    destruct n as [n|].
    + apply NAME. reflexivity.
    + change (pr_c (CName None)) with (@nil tok) in *. cbn [app] in *.
      destruct (pr_s_hd ss k rest HK) as [[-> EE]|[(m & ss' & -> & EE)|(ps & ss' & -> & EE)]].
      * apply NAME. rewrite EE. destruct k; try discriminate; reflexivity.
      * apply NAME. rewrite EE. reflexivity.
      * rewrite EE. cbn [corepart]. rewrite wf_s_fun in WS. apply andb_prop in WS. destruct WS as [WP WS].
        rewrite (pr_p_hd ps st _ HE WP). cbn [rbind]. unfold sufpart. cbn [orb].
        destruct HC as (k' & -> & N1 & N2).
        rewrite dres_fun by reflexivity. rewrite pr_s_fun in LF. cbn [length] in LF. rewrite app_length in LF.
        set (E := match q_of W tenv ps with
          | Some q => match ss' with
              | SNil => if lastok [] (YFun q tint) then Some ((st ++ (KIdent, nm None) :: DtorProof2.encL W []) ++ DtorProof2.encL W (LFun q :: repeat LPtr s), k :: rest) else None
              | _ => None end
          | None => None end).
        assert (GO : ris (let! (st, toks) := (let! (st, toks) := (let! st := push st [(KIdent, -1)] in Ok (st, pr_p ps ++ TRp :: pr_s ss' ++ k :: rest)) in
                             funpart W tdf f st toks) in endpart s st toks) E
                         (zlen st + (Z.of_nat s + 1 + cost_s W tenv (SFun ps ss')) <= symax)).
        { rewrite cost_s_fun in *. pose proof (proj2 (proj2 (proj2 (cost_nonneg W tenv))) ps) as CP.
          pose proof (proj1 (proj2 (proj2 (cost_nonneg W tenv))) ss') as CS'.
          rewrite !rbind_assoc.
          apply (ris_eq _ (obind (Some (st ++ [(KIdent, -1)])) (fun _ => E))); [|reflexivity].
          apply ris_bind; [eapply ris_weak; [apply push_ris|]; lia|]. intros st1 EQ. injection EQ as <-. cbn [rbind].
          eapply ris_weak; [eapply ris_eq; [apply (fun_ok W tdf tenv s ps ss' f (st ++ [(KIdent, -1)]) k rest)|]|].
          - eapply PS; reflexivity.
          - exact WP.
          - lia.
          - exact HK.
          - now apply env_app.
          - unfold E. destruct (q_of W tenv ps) as [q|]; [|reflexivity]. destruct ss'; reflexivity.
          - rewrite zlen_app, zlen_cons, zlen_nil. lia. }
        destruct k'; try (exfalso; congruence); exact GO.
  - rewrite cost_c_paren, lay_c_paren. rewrite pr_c_paren in *. cbn [app length] in *. rewrite app_length in LF. cbn [length] in LF.
    rewrite wf_c_paren in WC. apply andb_prop in WC. destruct WC as [WD WI].
    rewrite <- !app_assoc. cbn [app corepart].
    assert (HH : hdIs isRp (pr_d d ++ TRp :: pr_s ss ++ k :: rest) || hdIs (startsDecl W tdf) (pr_d d ++ TRp :: pr_s ss ++ k :: rest) = false).
    { rewrite (hd_starts W tdf tenv st) by exact HE. pose proof (pr_d_hd d) as HD. destruct (pr_d d) as [|t l]; [discriminate|].
      cbn [inner_ok negb app hdIs] in *. destruct t; try discriminate; cbn [isRp orb]; destruct (starts W tenv _); (discriminate || reflexivity). }
    rewrite HH, rbind_assoc.
    pose proof (PC d eq_refl WD f st TRp (pr_s ss ++ k :: rest) ltac:(lia) eq_refl HC HE) as D. unfold dexp in D.
    destruct (layd d) as [[n L0]|] eqn:EL.
    + pose proof (proj1 (cost_all W tenv) d n L0 EL) as CL.
      apply (ris_eq _ (obind (Some (st ++ (KIdent, nm n) :: encL L0, TRp :: pr_s ss ++ k :: rest)) (fun _ => dres st n L0 ss s (k :: rest)))); [|reflexivity].
      apply ris_bind; [eapply ris_weak; [exact D|]; lia|]. intros x E. injection E as <-. cbn [rbind].
      eapply ris_weak; [apply suf_ok; try assumption|].
      * lia.
      * eapply lay_d_chk; eauto.
      * rewrite zlen_app, zlen_cons. lia.
    + apply ris_none_bind. intros x E. exfalso. eapply D. exact E.
Qed.

Theorem parse_all : (forall d, PDer d) /\ (forall c, PCor c) /\ (forall ss, sufparts W tdf tenv ss) /\ (forall ps, PPar ps).
Proof.
  apply dtor_mut.
  - intros s c IC ss IS. now apply step_d.
  - intros n d E. discriminate.
  - intros d IH d' E. injection E as <-. exact IH.
  - intros ps ss E. discriminate.
  - intros n ss _ ps ss' E. discriminate.
  - intros ps IH ss _ ps' ss' E. injection E as <- <-. exact IH.
  - apply PPar_nil.
  - intros b d IH. now apply PPar_last.
  - intros b d IH tr. now apply PPar_ell.
  - intros b d IH ps IP. now apply PPar_cons.
Qed.
Definition parse_d := proj1 parse_all.
End M.
