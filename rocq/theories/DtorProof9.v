(** Declarations and type names; C and what the compiler accepts; the table determines the types. *)
From Coq Require Import NArith.
From Verif Require Import Base BaseLemmas DeclSpec DeclModel DtorSpec DtorModel DtorRep DtorProof DtorProof2 DtorProof3 DtorProof4 DtorProof5 DtorProof6 DtorProof7 DtorProof8.
Ltac Zify.zify_post_hook ::= idtac.

(* ---------------------------------------------------------------- C and the rest *)
Section C.
Variable W : Z.
Variable tenv : N -> option ty.
Lemma elem_lax o t : elem_ok true o t = true -> elem_ok false o t = true.
Proof. destruct t as [[]| | |[]|]; cbn; try discriminate; auto. Qed.
Lemma lax :
  (forall d, (forall t x, mean_d W tenv true d t = Some x -> mean_d W tenv false d t = Some x) /\
             (wf_d W tenv true d = true -> wf_d W tenv false d = true)) /\
  (forall c, (forall t x, mean_c W tenv true c t = Some x -> mean_c W tenv false c t = Some x) /\
             (wf_c W tenv true c = true -> wf_c W tenv false c = true)) /\
  (forall ss, (forall t x, mean_s W tenv true ss t = Some x -> mean_s W tenv false ss t = Some x) /\
              (wf_s W tenv true ss = true -> wf_s W tenv false ss = true)) /\
  (forall ps, (forall x, mean_p W tenv true ps = Some x -> mean_p W tenv false ps = Some x) /\
              (wf_p W tenv true ps = true -> wf_p W tenv false ps = true)).
Proof.
  apply dtor_mut.
  - intros s c [MC WC] ss [MS WS]. split.
    + intros t x. rewrite !mean_d_eq. destruct (mean_s W tenv true ss (Nat.iter s YPtr t)) as [t'|] eqn:E; [|discriminate].
      rewrite (MS _ _ E). apply MC.
    + rewrite !wf_d_eq. intros H. apply andb_prop in H. destruct H as [H1 H2]. now rewrite WC, WS.
  - intros n. split; auto.
  - intros d [MD WD]. split.
    + intros t x. rewrite !mean_c_paren. apply MD.
    + rewrite !wf_c_paren. intros H. apply andb_prop in H. destruct H as [H1 H2]. now rewrite WD, H2.
  - split; auto.
  - intros n ss [MS WS]. split.
    + intros t x. rewrite !mean_s_arr. destruct (mean_s W tenv true ss t) as [t'|] eqn:E; [|discriminate].
      rewrite (MS _ _ E). destruct (dim_ok n); cbn [andb]; [|discriminate].
      destruct (elem_ok true (open_first ss) t') eqn:EE; [|discriminate]. now rewrite (elem_lax _ _ EE).
    + rewrite !wf_s_arr. exact WS.
  - intros ps [MP WP] ss [MS WS]. split.
    + intros t x. rewrite !mean_s_fun. destruct (mean_s W tenv true ss t) as [t'|] eqn:E; [|discriminate].
      rewrite (MS _ _ E). destruct (mean_p W tenv true ps) as [[l e]|] eqn:E2; [|discriminate]. now rewrite (MP _ eq_refl).
    + rewrite !wf_s_fun. intros H. apply andb_prop in H. destruct H as [H1 H2]. now rewrite WP, WS.
  - split; auto.
  - intros b d [MD WD]. split.
    + intros x. rewrite !mean_p_last. destruct (base_ty W tenv b) as [t|]; [|discriminate].
      destruct (mean_d W tenv true d t) as [p|] eqn:E; [|discriminate]. now rewrite (MD _ _ E).
    + rewrite !wf_p_last. intros H. apply andb_prop in H. destruct H as [H1 H2]. now rewrite H1, WD.
  - intros b d [MD WD] tr. split.
    + intros x. rewrite !mean_p_ell. destruct (base_ty W tenv b) as [t|]; [|discriminate].
      destruct (mean_d W tenv true d t) as [p|] eqn:E; [|discriminate]. now rewrite (MD _ _ E).
    + rewrite !wf_p_ell. intros H. apply andb_prop in H. destruct H as [H _]. apply andb_prop in H. destruct H as [H1 H2].
      now rewrite H1, WD.
  - intros b d [MD WD] ps [MP WP]. split.
    + intros x. rewrite !mean_p_cons. destruct (base_ty W tenv b) as [t|]; [|discriminate].
      destruct (mean_d W tenv true d t) as [p|] eqn:E; [|discriminate]. rewrite (MD _ _ E).
      destruct (mean_p W tenv true ps) as [[l e]|] eqn:E2; [|discriminate]. now rewrite (MP _ eq_refl).
    + rewrite !wf_p_cons. intros H. apply andb_prop in H. destruct H as [H _]. apply andb_prop in H. destruct H as [H H3].
      apply andb_prop in H. destruct H as [H1 H2]. now rewrite H1, WD, WP.
Qed.
Lemma lax_decl obj b ds l : mean_decl W tenv true obj b ds = Some l -> mean_decl W tenv false obj b ds = Some l.
Proof.
  unfold mean_decl. destruct (base_ty W tenv b) as [t|]; [|discriminate]. revert l.
  induction ds as [|d ds IH]; intros l; cbn [declareds]; [auto|]. unfold declared.
  destruct (mean_d W tenv true d t) as [[[n|] t']|] eqn:E; try discriminate. rewrite (proj1 (proj1 lax d) _ _ E).
  destruct (obj && is_void t'); [discriminate|]. destruct (declareds W tenv true obj t ds) as [l'|]; [|discriminate].
  now rewrite (IH l' eq_refl).
Qed.
Lemma lax_wf b ds : wf_decl W tenv true b ds = true -> wf_decl W tenv false b ds = true.
Proof.
  unfold wf_decl. intros H. apply andb_prop in H. destruct H as [H1 H2]. rewrite H1. cbn [andb].
  rewrite forallb_forall in *. intros d I. apply (proj1 lax d), H2, I.
Qed.
Lemma lax_name cast b d t : mean_name W tenv true cast b d = Some t -> mean_name W tenv false cast b d = Some t.
Proof.
  unfold mean_name. destruct (base_ty W tenv b) as [t0|]; [|discriminate].
  destruct (mean_d W tenv true d t0) as [[[n|] t']|] eqn:E; try discriminate. now rewrite (proj1 (proj1 lax d) _ _ E).
Qed.

(** types stay within the rules *)
Variable s : bool.
Hypothesis TW : forall n t, tenv n = Some t -> wty W s t.
Lemma wty_iter k t : wty W s t -> wty W s (Nat.iter k YPtr t).
Proof. induction k; auto. Qed.
Lemma wty_adjust t : wty W s t -> is_void t = false ->
  is_void (adjust t) = false /\ adjust (adjust t) = adjust t /\ wty W s (adjust t).
Proof. intros H V. destruct t; cbn in *; intuition. Qed.
Lemma wty_base b t : base_ty W tenv b = Some t -> wty W s t.
Proof.
  destruct b as [ws|j|n]; cbn [base_ty].
  - destruct (words_ty W ws) as [sc|] eqn:E; [|discriminate]. intros H. injection H as <-. cbn [wty]. unfold words_ty in E.
    destruct (find _ _) as [[sc' ?]|]; [|discriminate]. destruct (available W sc') eqn:EA; [|discriminate]. congruence.
  - intros H. injection H as <-. exact I.
  - apply TW.
Qed.
Definition okp (x : list (option N * ty) * bool) : Prop := Forall (fun p => wty W s (snd p)) (fst x) /\ (snd x = true -> fst x <> []).
Lemma wty_fun ps l e q t : okp (l, e) -> fun_params ps l e = Some q -> ret_ok t = true -> wty W s t -> wty W s (YFun q t).
Proof.
  intros [HF HE] HQ HR HT. cbn [fst snd] in *. cbn [wty]. split; [exact HR|]. split; [exact HT|].
  assert (GEN : existsb (fun p => is_void (snd p)) l = false ->
     Forall (fun p => is_void (snd p) = false /\ adjust (snd p) = snd p /\ wty W s (snd p)) (map (fun p => (fst p, adjust (snd p))) l)).
  { clear HQ HE. induction l as [|p l IH]; cbn [existsb map]; intros X; [constructor|]. apply orb_false_elim in X. destruct X as [X1 X2].
    constructor; [|apply IH; [exact (Forall_inv_tail HF)|exact X2]]. cbn [snd]. apply wty_adjust; [exact (Forall_inv HF)|exact X1]. }
  assert (GEN2 : (if existsb (fun p => is_void (snd p)) l then None else Some (Some (map (fun p => (fst p, adjust (snd p))) l, e))) = Some q ->
    match q with None => True | Some (l, e) => (e = true -> l <> []) /\ Forall (fun p => is_void (snd p) = false /\ adjust (snd p) = snd p /\ wty W s (snd p)) l end).
  { destruct (existsb _ l) eqn:E; [discriminate|]. intros X. injection X as <-. split; [|now apply GEN].
    intros He Hm. apply (HE He). destruct l; [reflexivity|discriminate]. }
  assert (GEN3 : match q with None => True | Some (l, e) => (e = true -> l <> []) /\ Forall (fun p => is_void (snd p) = false /\ adjust (snd p) = snd p /\ wty W s (snd p)) l end).
  { destruct ps; cbn [fun_params] in HQ.
    - injection HQ as <-. exact I.
    - destruct l as [|[[n|] [[]| | | |]] [|p l]]; try (apply GEN2; exact HQ).
      injection HQ as <-. split; [discriminate|constructor].
    - apply GEN2. destruct l as [|[[n|] [[]| | | |]] [|p l]]; exact HQ.
    - apply GEN2. destruct l as [|[[n|] [[]| | | |]] [|p l]]; exact HQ. }
  destruct q as [[l' e']|]; [|exact I]. destruct GEN3 as [G1 G2]. split; [exact G1|]. now apply go_Forall.
Qed.
Lemma wty_all :
  (forall d t n t', wty W s t -> mean_d W tenv s d t = Some (n, t') -> wty W s t') /\
  (forall c t n t', wty W s t -> mean_c W tenv s c t = Some (n, t') -> wty W s t') /\
  (forall ss t t', wty W s t -> mean_s W tenv s ss t = Some t' -> wty W s t') /\
  (forall ps x, mean_p W tenv s ps = Some x -> okp x).
Proof.
  apply dtor_mut.
  - intros k c IC ss IS t n t' HT. rewrite mean_d_eq. destruct (mean_s W tenv s ss _) as [t1|] eqn:E; [|discriminate].
    apply IC. eapply IS; [|exact E]. now apply wty_iter.
  - intros m t n t' HT H. injection H as <- <-. exact HT.
  - intros d IH t n t' HT. rewrite mean_c_paren. now apply IH.
  - intros t t' HT H. injection H as <-. exact HT.
  - intros n ss IH t t' HT. rewrite mean_s_arr. destruct (mean_s W tenv s ss t) as [t1|] eqn:E; [|discriminate].
    destruct (dim_ok n) eqn:ED; cbn [andb]; [|discriminate]. destruct (elem_ok s (open_first ss) t1) eqn:EE; [|discriminate].
    intros H. injection H as <-. cbn [wty]. split; [exact ED|]. split; [|now apply (IH t)].
    destruct t1 as [[]| | |[]|], s; cbn in *; congruence || auto.
  - intros ps IP ss IS t t' HT. rewrite mean_s_fun. destruct (mean_s W tenv s ss t) as [t1|] eqn:E; [|discriminate].
    destruct (mean_p W tenv s ps) as [[l e]|] eqn:EP; [|discriminate]. destruct (fun_params ps l e) as [q|] eqn:EF; [|discriminate].
    destruct (ret_ok t1) eqn:ER; [|discriminate]. intros H. injection H as <-.
    eapply wty_fun; [exact (IP _ eq_refl)|exact EF|exact ER|now apply (IS t)].
  - intros x H. injection H as <-. split; [constructor|discriminate].
  - intros b d ID x. rewrite mean_p_last. destruct (base_ty W tenv b) as [t|] eqn:EB; [|discriminate].
    destruct (mean_d W tenv s d t) as [[n t']|] eqn:E; [|discriminate]. intros H. injection H as <-.
    split; [|discriminate]. repeat constructor. cbn [snd]. eapply ID; [|exact E]. eapply wty_base; eauto.
  - intros b d ID tr x. rewrite mean_p_ell. destruct (base_ty W tenv b) as [t|] eqn:EB; [|discriminate].
    destruct (mean_d W tenv s d t) as [[n t']|] eqn:E; [|discriminate]. intros H. injection H as <-.
    split; [|intros _; discriminate]. repeat constructor. cbn [snd]. eapply ID; [|exact E]. eapply wty_base; eauto.
  - intros b d ID ps IP x. rewrite mean_p_cons. destruct (base_ty W tenv b) as [t|] eqn:EB; [|discriminate].
    destruct (mean_d W tenv s d t) as [[n t']|] eqn:E; [|discriminate].
    destruct (mean_p W tenv s ps) as [[l e]|] eqn:EP; [|discriminate]. intros H. injection H as <-.
    destruct (IP _ eq_refl) as [F1 F2]. split; [|intros _; discriminate].
    constructor; [|exact F1]. cbn [snd]. eapply ID; [|exact E]. eapply wty_base; eauto.
Qed.
End C.

(* ---------------------------------------------------------------- the table determines the type *)
Section Inj.
Variable W : Z.
Lemma scalTok_nrm a b : scalTok W a = scalTok W b -> nrm_s W a = nrm_s W b.
Proof. destruct a, b; cbn; destruct (W =? 2); congruence. Qed.
Lemma nm_inj a b : nm a = nm b -> a = b.
Proof. destruct a as [a|], b as [b|]; cbn; intros H; try lia; [|reflexivity]. f_equal. lia. Qed.
Definition pl (l : list (option N * ty)) : stk := flat_map (fun p => (KIdent, nm (fst p)) :: enc W (snd p)) l.
Definition nl (l : list (option N * ty)) := map (fun p => (fst p, nrm W (snd p))) l.
Definition ql (q : fpars) : list (option N * ty) * bool :=
  match q with None => ([], false) | Some ([], false) => ([(None, YSc SVoid)], false) | Some x => x end.
Lemma encq_ql q : encq W q = pl (fst (ql q)) ++ elle (snd (ql q)).
Proof. destruct q as [[[|p l] []]|]; reflexivity. Qed.
Definition inj1 (t1 : ty) : Prop := forall t2 r1 r2, wty W false t1 -> wty W false t2 ->
  enc W t1 ++ r1 = enc W t2 ++ r2 -> nrm W t1 = nrm W t2 /\ r1 = r2.
Lemma enc_noell t r v r' : enc W t ++ r <> (KEllipsis, v) :: r'.
Proof. destruct t as [s| | | |]; cbn; try discriminate. destruct s; cbn; try destruct (W =? 2); discriminate. Qed.
Lemma pl_inj l1 : Forall (fun p => inj1 (snd p)) l1 -> forall l2 e1 e2 r1 r2,
  Forall (fun p => wty W false (snd p)) l1 -> Forall (fun p => wty W false (snd p)) l2 ->
  pl l1 ++ elle e1 ++ (KRp, 0) :: r1 = pl l2 ++ elle e2 ++ (KRp, 0) :: r2 -> nl l1 = nl l2 /\ e1 = e2 /\ r1 = r2.
Proof.
  induction l1 as [|[n1 t1] l1 IH]; intros HI l2 e1 e2 r1 r2 W1 W2 H.
  - destruct l2 as [|[n2 t2] l2].
    + destruct e1, e2; cbn in H; try discriminate; injection H as <-; auto.
    + cbn [pl flat_map app fst snd] in H. destruct e1; cbn [elle app] in H; [|discriminate].
      injection H as _ H. exfalso. symmetry in H. rewrite <- !app_assoc in H. eapply enc_noell. exact H.
  - destruct l2 as [|[n2 t2] l2].
    + cbn [pl flat_map app fst snd] in H. destruct e2; cbn [elle app] in H; [|discriminate].
      injection H as _ H. exfalso. rewrite <- !app_assoc in H. eapply enc_noell. exact H.
    + cbn [pl flat_map app fst snd] in H. injection H as HN H. rewrite <- !app_assoc in H.
      pose proof (Forall_inv HI) as I1. pose proof (Forall_inv W1) as V1. pose proof (Forall_inv W2) as V2. cbn [snd] in *.
      destruct (I1 t2 _ _ V1 V2 H) as [EN ER].
      destruct (IH (Forall_inv_tail HI) l2 e1 e2 r1 r2 (Forall_inv_tail W1) (Forall_inv_tail W2) ER) as (E1 & E2 & E3).
      cbn [nl map fst snd]. rewrite (nm_inj _ _ HN), EN. unfold nl in E1. rewrite E1. auto.
Qed.
Definition nq (q : fpars) : fpars := match q with Some (l, e) => Some (nl l, e) | None => None end.
Definition okq (q : fpars) : Prop :=
  match q with None => True | Some (l, e) => (e = true -> l <> []) /\ Forall (fun p => is_void (snd p) = false /\ adjust (snd p) = snd p /\ wty W false (snd p)) l end.
Lemma ql_inj q1 q2 : okq q1 -> okq q2 -> nl (fst (ql q1)) = nl (fst (ql q2)) -> snd (ql q1) = snd (ql q2) -> nq q1 = nq q2.
Proof.
  intros H1 H2. destruct q1 as [[[|[n1 t1] l1] [|]]|], q2 as [[[|[n2 t2] l2] [|]]|]; cbn [ql fst snd nq];
    cbn [okq] in *; try (destruct H1 as [H1 F1]); try (destruct H2 as [H2 F2]); try (exfalso; now apply H1); try (exfalso; now apply H2);
    intros E1 E2; try discriminate; try congruence; try reflexivity.
  - exfalso. cbn in E1. injection E1 as _ E1 _. pose proof (proj1 (Forall_inv F2)) as V. cbn [snd] in V.
    destruct t2 as [[]| | | |]; cbn in *; try discriminate; destruct (W =? 2); discriminate.
  - exfalso. cbn in E1. injection E1 as _ E1 _. pose proof (proj1 (Forall_inv F1)) as V. cbn [snd] in V.
    destruct t1 as [[]| | | |]; cbn in *; try discriminate; destruct (W =? 2); discriminate.
Qed.
Lemma wty_fun_inv q t : wty W false (YFun q t) -> okq q /\ wty W false t /\ Forall (fun p => wty W false (snd p)) (fst (ql q)).
Proof.
  cbn [wty]. intros (_ & HT & HQ). destruct q as [[l e]|]; [|repeat split; auto; constructor].
  destruct HQ as [H1 H2]. apply go_Forall in H2. split; [split; assumption|]. split; [exact HT|].
  destruct l as [|p l]; [destruct e; cbn; [constructor|]|].
  - constructor; [reflexivity|constructor].
  - cbn [ql fst]. eapply Forall_impl; [|exact H2]. cbn. tauto.
Qed.
Lemma nrm_fun q t : nrm W (YFun q t) = YFun (nq q) (nrm W t).
Proof. destruct q as [[l e]|]; reflexivity. Qed.
Lemma enc_inj t1 : inj1 t1.
Proof.
  induction t1 as [s|j|t IH|n t IH|t IH|l e t HL IH] using ty_ind2; intros t2 r1 r2 W1 W2 H.
  - destruct t2 as [s2| | | |q2 t2]; cbn [enc app] in H; try (rewrite enc_fun in H); cbn [app] in H.
    + injection H as H ->. cbn. now rewrite (scalTok_nrm _ _ H).
    + exfalso. destruct s; cbn in H; try destruct (W =? 2); discriminate.
    + exfalso. destruct s; cbn in H; try destruct (W =? 2); discriminate.
    + exfalso. destruct s; cbn in H; try destruct (W =? 2); discriminate.
    + exfalso. destruct s; cbn in H; try destruct (W =? 2); discriminate.
  - destruct t2 as [s2| | | |q2 t2]; cbn [enc app] in H; try (rewrite enc_fun in H); cbn [app] in H; try discriminate.
    + exfalso. destruct s2; cbn in H; try destruct (W =? 2); discriminate.
    + injection H as <- <-. auto.
  - destruct t2 as [s2| |t2| |q2 t2]; cbn [enc app] in H; try (rewrite enc_fun in H); cbn [app] in H; try discriminate.
    + exfalso. destruct s2; cbn in H; try destruct (W =? 2); discriminate.
    + injection H as H. destruct (IH t2 r1 r2 W1 W2 H) as [E ->]. cbn. now rewrite E.
  - destruct t2 as [s2| | |n2 t2|q2 t2]; cbn [enc app] in H; try (rewrite enc_fun in H); cbn [app] in H; try discriminate.
    + exfalso. destruct s2; cbn in H; try destruct (W =? 2); discriminate.
    + injection H as HN H. cbn [wty] in W1, W2. destruct W1 as (D1 & _ & W1), W2 as (D2 & _ & W2).
      destruct (IH t2 r1 r2 W1 W2 H) as [E ->]. cbn. rewrite E.
      assert (X : n = n2) by (destruct n, n2; cbn in *; try lia; congruence). now rewrite X.
  - destruct t2 as [s2| | | |q2 t2]; cbn [enc app] in H; try discriminate.
    + exfalso. destruct s2; cbn in H; try destruct (W =? 2); discriminate.
    + change ((KLp, 0) :: (KRp, 0) :: enc W t ++ r1 = enc W (YFun q2 t2) ++ r2) in H. rewrite enc_fun in H. cbn [app] in H.
      injection H as H. rewrite encq_ql, <- !app_assoc in H. cbn [app] in H.
      destruct (wty_fun_inv _ _ W1) as (_ & V1 & _), (wty_fun_inv _ _ W2) as (Q2 & V2 & F2).
      destruct (pl_inj [] (Forall_nil _) (fst (ql q2)) false (snd (ql q2)) (enc W t ++ r1) (enc W t2 ++ r2) (Forall_nil _) F2 H) as (E1 & E2 & E3).
      destruct (IH t2 r1 r2 V1 V2 E3) as [E ->]. rewrite !nrm_fun, E. split; [|reflexivity]. f_equal.
      apply (ql_inj None q2); [exact I|exact Q2|exact E1|exact E2].
  - destruct t2 as [s2| | | |q2 t2]; rewrite enc_fun in H; cbn [app] in H; try discriminate.
    + exfalso. cbn in H. destruct s2; cbn in H; try destruct (W =? 2); discriminate.
    + rewrite enc_fun in H. cbn [app] in H. apply (f_equal (@tl (kind * Z))) in H. cbn [tl] in H. rewrite !encq_ql, <- !app_assoc in H. cbn [app] in H.
      destruct (wty_fun_inv _ _ W1) as (Q1 & V1 & F1), (wty_fun_inv _ _ W2) as (Q2 & V2 & F2).
      assert (HI : Forall (fun p => inj1 (snd p)) (fst (ql (Some (l, e))))).
      { destruct l as [|p l]; [destruct e; cbn; [constructor|]|exact HL]. constructor; [|constructor]. cbn [snd].
        intros t0 a b _ Wb E. destruct t0 as [s0| | | |q0 t0]; cbn in E; try discriminate. injection E as E ->. split; [|reflexivity].
        apply (f_equal YSc), scalTok_nrm. exact E. }
      destruct (pl_inj _ HI (fst (ql q2)) _ (snd (ql q2)) (enc W t ++ r1) (enc W t2 ++ r2) F1 F2 H) as (E1 & E2 & E3).
      destruct (IH t2 r1 r2 V1 V2 E3) as [E ->]. rewrite !nrm_fun, E. split; [|reflexivity]. f_equal.
      now apply ql_inj.
Qed.
End Inj.

(* ---------------------------------------------------------------- declarations *)
Section D.
Variable W : Z.
Variable tdf : N -> option Z.
Variable tenv : N -> option ty.
Notation derived := (derived W tdf).
Notation envok := (env_ok W tdf tenv).

Definition enc_decls (l : list (N * ty)) : stk := flat_map (fun p => (KIdent, Z.of_N (fst p)) :: enc W (snd p)) l.
Fixpoint cost_ds (b : bspec) (ds : list dcr) : Z :=
  match ds with [] => 0 | d :: ds => cost_b W tenv b + cost_d W tenv d + cost_ds b ds end.
Lemma cost_ds_nonneg b ds : 0 <= cost_ds b ds.
Proof.
  induction ds as [|d ds IH]; cbn [cost_ds]; [lia|]. pose proof (proj1 (cost_nonneg W tenv) d).
  assert (0 <= cost_b W tenv b) by (unfold cost_b; destruct (base_ty W tenv b); [apply zlen_nonneg|lia]). lia.
Qed.
Lemma pr_ds_cons d d' ds : pr_ds (d :: d' :: ds) = pr_d d ++ TComma :: pr_ds (d' :: ds).
Proof. reflexivity. Qed.

(** one declarator and the base type *)
Lemma one_ris b t pb d st k rest : envok st -> clean st -> wf_d W tenv false d = true -> base_ty W tenv b = Some t ->
  rep W st pb t -> follows k = true ->
  ris (let! (st1, r) := derived (S (length (pr_d d ++ k :: rest))) st (pr_d d ++ k :: rest) in
       let! st2 := pushBase st1 pb in Ok (st2, r))
      (match mean_d W tenv false d t with Some (n, t') => Some (st ++ (KIdent, nm n) :: enc W t', k :: rest) | None => None end)
      (zlen st + cost_b W tenv b + cost_d W tenv d <= symax).
Proof.
  intros HE HC WD EB HP HK. rewrite lay_d_mean.
  assert (LF : (length (pr_d d) < S (length (pr_d d ++ k :: rest)))%nat) by (rewrite app_length; lia).
  pose proof (parse_d W tdf tenv d WD _ st k rest LF HK HC HE) as D. unfold dexp in D.
  unfold cost_b. rewrite EB. pose proof (zlen_nonneg (enc W t)) as ZE.
  destruct (lay_d W tenv d) as [[n L]|] eqn:EL.
  - pose proof (proj1 (cost_all W tenv) d n L EL) as CL.
    apply (ris_eq _ (obind (Some (st ++ (KIdent, nm n) :: encL W L, k :: rest))
       (fun _ => obind (if lastok L t then Some ((st ++ (KIdent, nm n) :: encL W L) ++ enc W t) else None)
                   (fun st2 => Some (st2, k :: rest))))).
    + apply ris_bind; [eapply ris_weak; [exact D|]; lia|]. intros x E. injection E as <-.
      apply ris_bind; [eapply ris_weak; [apply pushBase_ok; exact HP|]; rewrite zlen_app, zlen_cons; lia|].
      intros. apply ris_ok.
    + cbn [obind]. destruct (lastok L t); [|reflexivity]. cbn [obind]. rewrite enc_apps, <- app_assoc. reflexivity.
  - apply ris_none_bind. intros x E. exfalso. eapply D. exact E.
Qed.
Lemma one_len b t d n t' : base_ty W tenv b = Some t -> mean_d W tenv false d t = Some (n, t') ->
  1 + zlen (enc W t') <= cost_b W tenv b + cost_d W tenv d.
Proof.
  intros EB EM. pose proof (param_cost W tenv b d t n t' EB (proj1 (cost_all W tenv) d) EM). lia.
Qed.

Definition dstep (f : nat) (obj : bool) (last : Z) (pb : pbase) (st : stk) (toks : list tok) : res (stk * list tok) :=
  if obj && voidParam st 0 false then Bad
  else match zget st last with
       | Some (KIdent, n) =>
           if n =? -1 then Bad
           else match toks with TComma :: r => declList W tdf f obj st pb r | TSemi :: r => Ok (st, r) | _ => Bad end
       | _ => Internal
       end.
Lemma declList_S f obj st pb toks : declList W tdf (S f) obj st pb toks =
  rbind (let! (st1, r) := derived (S (length toks)) st toks in let! st2 := pushBase st1 pb in Ok (st2, r))
        (fun x => dstep f obj (zlen st) pb (fst x) (snd x)).
Proof.
  cbn [declList]. destruct (derived (S (length toks)) st toks) as [[st1 r]| | | |]; cbn [rbind]; try reflexivity.
  destruct (pushBase st1 pb); reflexivity.
Qed.
Lemma zget_at {A} (st : list A) x r : zget (st ++ x :: r) (zlen st) = Some x.
Proof. rewrite zget_app_r by lia. replace (zlen st - zlen st) with 0 by lia. reflexivity. Qed.

Lemma list_ris obj b t pb rest : base_ty W tenv b = Some t -> forall ds f st, ds <> [] ->
  forallb (wf_d W tenv false) ds = true -> (length ds <= f)%nat -> envok st -> clean st -> rep W st pb t ->
  ris (declList W tdf f obj st pb (pr_ds ds ++ TSemi :: rest))
      (match declareds W tenv false obj t ds with Some l => Some (st ++ enc_decls l, rest) | None => None end)
      (zlen st + cost_ds b ds <= symax).
Proof.
  intros EB. induction ds as [|d ds IH]; intros f st NE WD LF HE HC HP; [congruence|].
  destruct f as [|f]; [cbn in LF; lia|]. cbn [forallb] in WD. apply andb_prop in WD. destruct WD as [WD WDs].
  assert (TK : exists k r0, pr_ds (d :: ds) ++ TSemi :: rest = pr_d d ++ k :: r0 /\ follows k = true /\
     (ds = [] /\ k = TSemi /\ r0 = rest \/ ds <> [] /\ k = TComma /\ r0 = pr_ds ds ++ TSemi :: rest)).
  { destruct ds as [|d' ds].
    - exists TSemi, rest. split; [reflexivity|]. split; [reflexivity|]. auto.
    - exists TComma, (pr_ds (d' :: ds) ++ TSemi :: rest). rewrite pr_ds_cons, <- app_assoc. split; [reflexivity|]. split; [reflexivity|].
      right. split; [discriminate|auto]. }
  destruct TK as (k & r0 & -> & HK & CASES). rewrite declList_S. cbn [cost_ds].
  pose proof (cost_ds_nonneg b ds) as CN.
  eapply ris_eq with (o := obind (match mean_d W tenv false d t with Some (n, t') => Some (st ++ (KIdent, nm n) :: enc W t', k :: r0) | None => None end)
    (fun _ => match declareds W tenv false obj t (d :: ds) with Some l => Some (st ++ enc_decls l, rest) | None => None end)).
  - apply ris_bind; [eapply ris_weak; [apply (one_ris b t); assumption|]; lia|].
    intros x E. cbn [declareds]. unfold declared. destruct (mean_d W tenv false d t) as [[n t']|] eqn:EM; [|discriminate].
    injection E as <-. cbn [fst snd]. unfold dstep. rewrite void_enc, zget_at.
    replace (is_void t' && negb ((nm n =? -1) && (0 =? 1) && false)) with (is_void t') by (rewrite !andb_false_r, andb_true_r; reflexivity).
    destruct n as [n|]; cbn [nm].
    + destruct (obj && is_void t'); [apply ris_bad|].
      destruct (Z.of_N n =? -1) eqn:EZ; [lia|].
      destruct CASES as [(-> & -> & ->)|(ND & -> & ->)].
      * cbn [declareds]. unfold enc_decls. cbn [flat_map fst snd]. rewrite app_nil_r. apply ris_ok.
      * pose proof (one_len b t d (Some n) t' EB EM) as OL.
        eapply ris_weak; [eapply ris_eq; [apply (IH f (st ++ (KIdent, Z.of_N n) :: enc W t')); try assumption|]|].
        -- cbn in LF; lia.
        -- now apply env_app.
        -- apply clean_enc.
        -- now apply rep_app.
        -- destruct (declareds W tenv false obj t ds) as [l|]; [|reflexivity].
           unfold enc_decls. cbn [flat_map fst snd]. rewrite <- app_assoc. reflexivity.
        -- rewrite zlen_app, zlen_cons. lia.
    + destruct (obj && is_void t'); [apply ris_bad|]. apply ris_bad.
  - cbn [declareds]. unfold declared. destruct (mean_d W tenv false d t) as [[n t']|]; reflexivity.
Qed.
Lemma pr_ds_len ds rest : (length ds <= S (length (pr_ds ds ++ TSemi :: rest)))%nat.
Proof.
  induction ds as [|d [|d' ds] IH]; [cbn; lia|rewrite app_length; cbn; lia|].
  rewrite pr_ds_cons, <- app_assoc, app_length. cbn [app length] in *. lia.
Qed.
Lemma pr_ds_hd ds rest : noW (pr_ds ds ++ TSemi :: rest) /\ pr_ds ds ++ TSemi :: rest <> [].
Proof.
  destruct ds as [|d [|d' ds]].
  - split; [intros w r' H|]; discriminate.
  - split; [now apply pr_d_noW|apply pr_d_cons].
  - rewrite pr_ds_cons, <- app_assoc. split; [now apply pr_d_noW|apply pr_d_cons].
Qed.

Theorem decl_ris obj b ds st rest : envok st -> clean st -> wf_decl W tenv false b ds = true ->
  ris (parseDecl W tdf obj st (pr_decl b ds ++ rest))
      (match mean_decl W tenv false obj b ds with Some l => Some (st ++ enc_decls l, rest) | None => None end)
      (zlen st + cost_ds b ds <= symax).
Proof.
  intros HE HC WF. unfold wf_decl in WF. apply andb_prop in WF. destruct WF as [WF WD]. apply andb_prop in WF. destruct WF as [WB NE].
  unfold pr_decl. rewrite <- !app_assoc. cbn [app]. unfold parseDecl. rewrite (hd_starts W tdf tenv st _ HE).
  destruct (base_hd W tdf tenv b (pr_ds ds ++ TSemi :: rest) WB) as [-> _].
  destruct (pr_ds_hd ds rest) as [HN HR].
  pose proof (spec_ok W tdf tenv st b _ HE WB HN HR) as SP. unfold mean_decl.
  destruct (base_ty W tenv b) as [t|] eqn:EB.
  - destruct SP as (pb & -> & HP). cbn [rbind]. apply (list_ris obj b t pb rest EB); try assumption.
    + intros ->. discriminate.
    + apply pr_ds_len.
  - apply ris_none_bind. intros [pb r'] E. destruct (SP _ _ E) as (w & r'' & ->).
    rewrite declList_S. rewrite rbind_assoc. apply ris_none_bind. intros x E'. exfalso. eapply derived_W. exact E'.
Qed.
Theorem name_ris cast b d st rest : envok st -> clean st -> wf_b W tenv b = true -> wf_d W tenv false d = true ->
  ris (typeName W tdf cast st (pr_base b ++ pr_d d ++ TRp :: rest))
      (match mean_name W tenv false cast b d with Some t => Some (st ++ (KIdent, -1) :: enc W t, rest) | None => None end)
      (zlen st + cost_b W tenv b + cost_d W tenv d <= symax).
Proof.
  intros HE HC WB WD. unfold typeName. rewrite (hd_starts W tdf tenv st _ HE).
  destruct (base_hd W tdf tenv b (pr_d d ++ TRp :: rest) WB) as [-> _].
  pose proof (spec_ok W tdf tenv st b _ HE WB (pr_d_noW d TRp rest eq_refl) (pr_d_cons d TRp rest)) as SP. unfold mean_name.
  destruct (base_ty W tenv b) as [t|] eqn:EB.
  - destruct SP as (pb & -> & HP). cbn [rbind].
    pose proof (one_ris b t pb d st TRp rest HE HC WD EB HP eq_refl) as O.
    match goal with |- ris ?a0 _ _ => assert (EQ : a0 =
      rbind (let! (st1, r) := derived (S (length (pr_d d ++ TRp :: rest))) st (pr_d d ++ TRp :: rest) in let! st2 := pushBase st1 pb in Ok (st2, r))
        (fun x => if negb cast && voidParam (fst x) 0 false then Bad
                  else match zget (fst x) (zlen st), snd x with
                       | Some (KIdent, n), TRp :: r => if n =? -1 then Ok (fst x, r) else Bad
                       | _, _ => Bad end)) end.
    { destruct (derived _ st _) as [[s1 r1]| | | |]; cbn [rbind]; try reflexivity. destruct (pushBase s1 pb); reflexivity. }
    rewrite EQ. clear EQ.
    eapply ris_eq; [eapply ris_bind; [exact O|]|].
    + intros x E. destruct (mean_d W tenv false d t) as [[n t']|] eqn:EM; [|discriminate]. injection E as <-. cbn [fst snd].
      rewrite void_enc, zget_at, nm_none.
      replace (is_void t' && negb (match n with None => true | Some _ => false end && (0 =? 1) && false)) with (is_void t') by (rewrite !andb_false_r, andb_true_r; reflexivity).
      instantiate (1 := fun x => match mean_d W tenv false d t with
        | Some (None, t') => if negb cast && is_void t' then None else Some (st ++ (KIdent, -1) :: enc W t', rest)
        | _ => None end). cbv beta. rewrite EM.
      destruct n as [n|]; (destruct (negb cast && is_void t'); [apply ris_bad|]); [apply ris_bad|apply ris_ok].
    + destruct (mean_d W tenv false d t) as [[[n|] t']|]; cbn [obind]; try reflexivity. destruct (negb cast && is_void t'); reflexivity.
  - apply ris_none_bind. intros [pb r'] E. destruct (SP _ _ E) as (w & r'' & ->).
    apply ris_none_bind. intros x E'. exfalso. eapply derived_W. exact E'.
Qed.

(** what is accepted is in the grammar *)
Hypothesis ST : forall t, startsDecl W tdf t = starts W tenv t.
Lemma list_sound obj f : forall st pb toks st' rest, declList W tdf f obj st pb toks = Ok (st', rest) ->
  exists ds, ds <> [] /\ forallb (wf_d W tenv false) ds = true /\ toks = pr_ds ds ++ TSemi :: rest.
Proof.
  induction f as [|f IH]; intros st pb toks st' rest H; [discriminate|]. rewrite declList_S in H.
  destruct (derived (S (length toks)) st toks) as [[st1 r]| | | |] eqn:ED; cbn [rbind] in H; try discriminate.
  destruct (pushBase st1 pb) as [st2| | | |]; cbn [rbind fst snd] in H; try discriminate.
  destruct (proj1 (sound_all W tdf tenv ST _) _ _ _ _ ED) as (d & k & r0 & WD & -> & -> & HK).
  unfold dstep in H. destruct (obj && voidParam st2 0 false); [discriminate|].
  destruct (zget st2 (zlen st)) as [[[] n]|]; try discriminate. destruct (n =? -1); [discriminate|].
  destruct k; try discriminate.
  - destruct (IH _ _ _ _ _ H) as (ds & NE & WDs & ->). exists (d :: ds). split; [discriminate|]. cbn [forallb]. rewrite WD, WDs.
    split; [reflexivity|]. destruct ds as [|d' ds]; [congruence|]. rewrite pr_ds_cons, <- app_assoc. reflexivity.
  - injection H as <- <-. exists [d]. split; [discriminate|]. cbn [forallb]. rewrite WD. split; reflexivity.
Qed.
Theorem decl_sound obj st toks st' rest : parseDecl W tdf obj st toks = Ok (st', rest) ->
  exists b ds, wf_decl W tenv false b ds = true /\ toks = pr_decl b ds ++ rest.
Proof.
  unfold parseDecl. rewrite (hd_st W tdf tenv ST). destruct (hdIs (starts W tenv) toks) eqn:EH; [|discriminate].
  destruct (parseSpec W tdf toks) as [[pb r]| | | |] eqn:EP; cbn [rbind]; try discriminate. intros H.
  destruct (spec_sound W tdf tenv _ _ _ EP EH) as (b & WB & ->).
  destruct (list_sound _ _ _ _ _ _ _ H) as (ds & NE & WD & ->).
  exists b, ds. unfold wf_decl, pr_decl. rewrite WB, WD, <- !app_assoc. split; [|reflexivity]. destruct ds; [congruence|reflexivity].
Qed.
Theorem name_sound cast st toks st' rest : typeName W tdf cast st toks = Ok (st', rest) ->
  exists b d, wf_b W tenv b = true /\ wf_d W tenv false d = true /\ toks = pr_base b ++ pr_d d ++ TRp :: rest.
Proof.
  unfold typeName. rewrite (hd_st W tdf tenv ST). destruct (hdIs (starts W tenv) toks) eqn:EH; [|discriminate].
  destruct (parseSpec W tdf toks) as [[pb r]| | | |] eqn:EP; cbn [rbind]; try discriminate.
  destruct (derived (S (length r)) st r) as [[st1 r1]| | | |] eqn:ED; cbn [rbind]; try discriminate.
  destruct (pushBase st1 pb) as [st2| | | |]; cbn [rbind]; try discriminate.
  destruct (negb cast && voidParam st2 0 false); [discriminate|].
  destruct (spec_sound W tdf tenv _ _ _ EP EH) as (b & WB & ->).
  destruct (proj1 (sound_all W tdf tenv ST _) _ _ _ _ ED) as (d & k & r0 & WD & -> & -> & HK).
  destruct (zget st2 (zlen st)) as [[[] n]|]; try discriminate. destruct k; try discriminate.
  destruct (n =? -1); [|discriminate]. intros H. injection H as <- <-. exists b, d. auto.
Qed.
End D.
