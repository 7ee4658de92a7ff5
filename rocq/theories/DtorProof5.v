(** The parser on declarators of the grammar. *)
From Coq Require Import NArith.
From Verif Require Import Base BaseLemmas DeclSpec DeclModel DtorSpec DtorModel DtorRep DtorProof DtorProof2 DtorProof3 DtorProof4.
Ltac Zify.zify_post_hook ::= idtac.

Lemma rbind_assoc {A B C} (r : res A) (f : A -> res B) (g : B -> res C) :
  rbind (rbind r f) g = rbind r (fun x => rbind (f x) g).
Proof. destruct r; reflexivity. Qed.

Section M.
Variable W : Z.
Variable tdf : N -> option Z.
Variable tenv : N -> option ty.
Notation derived := (derived W tdf).
Notation fxnParams := (fxnParams W tdf).
Notation envok := (env_ok W tdf tenv).
Notation layd := (lay_d W tenv).
Notation lays := (lay_s W tenv).
Notation encL := (encL W).

Definition clean (st : stk) : Prop := exists k, topk st = Some k /\ k <> KRp /\ k <> KRb.
Lemma clean_snoc st k v : k <> KRp -> k <> KRb -> clean (st ++ [(k, v)]).
Proof. intros. exists k. split; [apply topk_snoc|auto]. Qed.
Lemma clean_enc st x t : clean (st ++ x :: enc W t).
Proof.
  exists (basek W t). change (x :: enc W t) with ([x] ++ enc W t). rewrite app_assoc. split; [apply topk_enc|].
  pose proof (basek_scalar W t) as B. destruct (basek W t); try discriminate; split; discriminate.
Qed.

Definition q_of (ps : pars) : option fpars :=
  match mean_p W tenv false ps with Some (l, e) => fun_params ps l e | None => None end.
Definition elle (e : bool) : stk := if e then [(KIdent, -1); (KEllipsis, 0)] else [].
Definition pexp (c0 : bool) (ps : pars) : option stk :=
  match mean_p W tenv false ps with
  | Some (l, e) =>
      if c0 then match fun_params ps l e with Some q => Some (encq W q) | None => None end
      else if existsb (fun p => is_void (snd p)) l then None else Some (encp W l ++ elle e)
  | None => None
  end.
Definition dexp (st : stk) (d : dcr) (r : list tok) : option (stk * list tok) :=
  match layd d with Some (n, L) => Some (st ++ (KIdent, nm n) :: encL L, r) | None => None end.

Definition PDer (d : dcr) : Prop := wf_d W tenv false d = true -> forall f st k rest,
  (length (pr_d d) < f)%nat -> follows k = true -> clean st -> envok st ->
  ris (derived f st (pr_d d ++ k :: rest)) (dexp st d (k :: rest)) (zlen st + cost_d W tenv d <= symax).
Definition PPar (ps : pars) : Prop := wf_p W tenv false ps = true -> forall f st rest cnt,
  (length (pr_p ps) < f)%nat -> clean st -> envok st -> 0 <= cnt ->
  ris (fxnParams f st (pr_p ps ++ TRp :: rest) cnt false)
      (match pexp (cnt =? 0) ps with Some x => Some (st ++ x, TRp :: rest) | None => None end)
      (zlen st + cost_p W tenv ps <= symax).

(* ---------------------------------------------------------------- the parts of the code *)
Definition corepart (f : nat) (st : stk) (toks : list tok) : res (bool * stk * list tok) :=
  match toks with
  | TLp :: r =>
      if hdIs isRp r || hdIs (startsDecl W tdf) r then Ok (true, st, r)
      else let! (st, r) := derived f st r in
           match r with TRp :: r => Ok (false, st, r) | _ => Bad end
  | TId n :: r => let! st := push st [(KIdent, Z.of_N n)] in Ok (false, st, r)
  | _ => let! st := push st [(KIdent, -1)] in Ok (false, st, toks)
  end.
Definition funpart (f : nat) (st : stk) (toks : list tok) : res (stk * list tok) :=
  let! st := push st [(KLp, 0)] in
  let! (st, toks) := fxnParams f st toks 0 false in
  let! st := push st [(KRp, 0)] in
  Ok (st, tl toks).
Definition isLp (t : tok) : bool := match t with TLp => true | _ => false end.
Definition isLb (t : tok) : bool := match t with TLb => true | _ => false end.
Definition sufpart (f : nat) (params : bool) (st : stk) (toks : list tok) : res (stk * list tok) :=
  if params || hdIs isLp toks then
    match topk st with
    | Some KRp | Some KRb => Bad
    | None => Internal
    | _ =>
        let! (st, toks) := if (params : bool) then let! st := push st [(KIdent, -1)] in Ok (st, toks)
                           else Ok (st, tl toks) in
        funpart f st toks
    end
  else if hdIs isLb toks then
    match topk st with
    | Some KRp => Bad
    | None => Internal
    | _ => dims st toks true
    end
  else Ok (st, toks).
Definition endpart (s : nat) (st : stk) (toks : list tok) : res (stk * list tok) :=
  let! st := pushStars s st in if hdIs follows toks then Ok (st, toks) else Bad.
Lemma derived_S f st toks : derived (S f) st toks =
  let '(s, toks) := starsOf toks in
  let! (params, st, toks) := corepart f st toks in
  let! (st, toks) := sufpart f params st toks in
  endpart s st toks.
Proof. reflexivity. Qed.

Definition ptail (f : nat) (cnt : Z) (ell : bool) (st : stk) (toks : list tok) : res (stk * list tok) :=
  match toks with
  | TRp :: _ => if voidParam st (cnt + 1) true then Bad else Ok (st, toks)
  | TComma :: r => if voidParam st (cnt + 1) false then Bad else fxnParams f st r (cnt + 1) ell
  | _ => Bad
  end.
Definition phead (f : nat) (st : stk) (toks : list tok) (cnt : Z) (ell : bool) : res (stk * pbase * list tok * bool) :=
  if negb (hdIs (startsDecl W tdf) toks) then
    match toks with
    | TEll :: r =>
        if (cnt =? 0) || ell then Bad
        else let! st := push st [(KIdent, -1)] in Ok (st, PTok KEllipsis 0, r, true)
    | _ => Bad
    end
  else if ell then Bad
  else
    let! (b, r) := parseSpec W tdf toks in
    let! (st, r) := derived f st r in
    Ok (st, b, r, ell).
Lemma fxn_raw f st toks cnt ell : fxnParams (S f) st toks cnt ell =
  if hdIs isRp toks then Ok (st, toks)
  else
    let! (st1, b, toks, ell) := phead f st toks cnt ell in
    let! st2 := pushBase st1 b in
    let! st3 := decay st2 (zlen st + 1) in
    ptail f cnt ell st3 toks.
Proof. reflexivity. Qed.
Lemma fxn_S f st toks cnt : hdIs isRp toks = false -> hdIs (startsDecl W tdf) toks = true ->
  fxnParams (S f) st toks cnt false =
  let! (b, r) := parseSpec W tdf toks in
  let! (st1, r) := derived f st r in
  let! st2 := pushBase st1 b in
  let! st3 := decay st2 (zlen st + 1) in
  ptail f cnt false st3 r.
Proof.
  intros H1 H2. rewrite fxn_raw, H1. unfold phead. rewrite H2. cbn [negb].
  destruct (parseSpec W tdf toks) as [[b r]| | | |]; cbn [rbind]; try reflexivity.
  destruct (derived f st r) as [[st1 r1]| | | |]; reflexivity.
Qed.
Lemma fxn_end f st toks cnt e : hdIs isRp toks = true -> fxnParams (S f) st toks cnt e = Ok (st, toks).
Proof. intros H. rewrite fxn_raw. now rewrite H. Qed.
Lemma fxn_ell f st toks cnt : 0 < cnt -> fxnParams (S f) st (TEll :: toks) cnt false =
  let! st1 := push st [(KIdent, -1)] in
  let! st2 := pushBase st1 (PTok KEllipsis 0) in
  let! st3 := decay st2 (zlen st + 1) in
  ptail f cnt true st3 toks.
Proof.
  intros H. rewrite fxn_raw. unfold phead. cbn [hdIs isRp startsDecl negb].
  destruct (cnt =? 0) eqn:E; [lia|]. cbn [orb].
  destruct (push st [(KIdent, -1)]); reflexivity.
Qed.

(* ---------------------------------------------------------------- tokens *)
Lemma follows_not k rest : follows k = true ->
  hdIs isLp (k :: rest) = false /\ hdIs isLb (k :: rest) = false /\ hdIs follows (k :: rest) = true /\
  (forall n, k <> TId n) /\ k <> TStar /\ k <> TLp.
Proof. destruct k; cbn; try discriminate; repeat split; discriminate. Qed.
Lemma pr_s_hd ss k rest : follows k = true ->
  (ss = SNil /\ pr_s ss ++ k :: rest = k :: rest) \/
  (exists n ss', ss = SArr n ss' /\ pr_s ss ++ k :: rest = TLb :: pr_dim n ++ TRb :: pr_s ss' ++ k :: rest) \/
  (exists ps ss', ss = SFun ps ss' /\ pr_s ss ++ k :: rest = TLp :: pr_p ps ++ TRp :: pr_s ss' ++ k :: rest).
Proof.
  intros HK. destruct ss as [|n ss|ps ss].
  - left. auto.
  - right. left. exists n, ss. split; [reflexivity|]. rewrite pr_s_arr. cbn [app]. rewrite <- app_assoc. reflexivity.
  - right. right. exists ps, ss. split; [reflexivity|]. rewrite pr_s_fun. cbn [app]. rewrite <- app_assoc. reflexivity.
Qed.
Lemma stars_ok s r : (forall r', r <> TStar :: r') -> starsOf (repeat TStar s ++ r) = (s, r).
Proof.
  intros H. induction s; cbn [repeat app starsOf].
  - destruct r as [|t r]; [reflexivity|]. destruct t; try reflexivity. exfalso. eapply H; eauto.
  - now rewrite IHs.
Qed.
Lemma nostar c ss k rest : follows k = true -> forall r', pr_c c ++ pr_s ss ++ k :: rest <> TStar :: r'.
Proof.
  intros HK r'. destruct c as [[n|]|d].
  - discriminate.
  - cbn [pr_c app]. destruct (pr_s_hd ss k rest HK) as [[_ ->]|[(n & ss' & _ & ->)|(ps & ss' & _ & ->)]]; try discriminate.
    intros H. injection H as H _. destruct (follows_not k rest HK) as (_ & _ & _ & _ & X & _). congruence.
  - rewrite pr_c_paren. discriminate.
Qed.
(** the first token of a declarator *)
Definition isD (t : tok) : bool := match t with TStar | TLp | TLb | TId _ => true | _ => false end.
Lemma pr_d_hd d : match pr_d d with [] => True | t :: _ => isD t = true end.
Proof.
  destruct d as [s c ss]. rewrite pr_d_eq. destruct s; [|reflexivity]. cbn [repeat app].
  destruct c as [[n|]|d]; [reflexivity| |rewrite pr_c_paren; reflexivity]. cbn [pr_c app].
  destruct ss; [exact I|rewrite pr_s_arr; reflexivity|rewrite pr_s_fun; reflexivity].
Qed.
Lemma pr_d_noW d k rest : follows k = true -> noW (pr_d d ++ k :: rest).
Proof.
  intros HK w r' H. pose proof (pr_d_hd d) as X. destruct (pr_d d) as [|t l]; cbn in H; injection H as -> _; discriminate.
Qed.
Lemma pr_d_cons d k rest : pr_d d ++ k :: rest <> [].
Proof. destruct (pr_d d); discriminate. Qed.
Lemma base_hd b r : wf_b W tenv b = true -> hdIs (starts W tenv) (pr_base b ++ r) = true /\ hdIs isRp (pr_base b ++ r) = false.
Proof.
  destruct b as [[|w ws]|j|n]; cbn [wf_b pr_base map app hdIs]; try discriminate; try tauto.
Qed.
Lemma base_len b : wf_b W tenv b = true -> (1 <= length (pr_base b))%nat.
Proof. destruct b as [[|w ws]|j|n]; cbn; try discriminate; lia. Qed.
Lemma hd_starts st r : envok st -> hdIs (startsDecl W tdf) r = hdIs (starts W tenv) r.
Proof. intros HE. destruct r as [|t r]; [reflexivity|]. cbn [hdIs]. apply (starts_eq W tdf tenv st HE). Qed.

Lemma derived_W f st w r : forall x, derived f st (TW w :: r) <> Ok x.
Proof.
  destruct f as [|f]; [discriminate|]. rewrite derived_S. cbn [starsOf corepart].
  intros x. destruct (push st [(KIdent, -1)]) as [st1| | | |]; cbn [rbind]; try discriminate.
Qed.

(* ---------------------------------------------------------------- one parameter *)
Definition param (b : bspec) (d : dcr) : option (option N * ty) :=
  match base_ty W tenv b with Some t => mean_d W tenv false d t | None => None end.
Lemma param_ris {X} b d f st k rest (T : stk -> list tok -> res X) (G : option N * ty -> option X) (R : Prop) :
  PDer d -> wf_b W tenv b = true -> wf_d W tenv false d = true -> (length (pr_d d) < f)%nat -> follows k = true ->
  clean st -> envok st -> (R -> zlen st + 1 + cost_b W tenv b + cost_d W tenv d <= symax) ->
  (forall n t', param b d = Some (n, t') ->
     ris (T (st ++ (KIdent, nm n) :: enc W (adjust t')) (k :: rest)) (G (n, t')) R) ->
  ris (let! (b, r) := parseSpec W tdf (pr_base b ++ pr_d d ++ k :: rest) in
       let! (st1, r) := derived f st r in
       let! st2 := pushBase st1 b in
       let! st3 := decay st2 (zlen st + 1) in
       T st3 r) (obind (param b d) G) R.
Proof.
  intros PD WB WD LF HK HC HE HR HT. unfold param in *.
  pose proof (spec_ok W tdf tenv st b (pr_d d ++ k :: rest) HE WB (pr_d_noW d k rest HK) (pr_d_cons d k rest)) as SP.
  destruct (base_ty W tenv b) as [t|] eqn:EB.
  - destruct SP as (pb & -> & HP). cbn [rbind]. rewrite lay_d_mean in *.
    pose proof (PD WD f st k rest LF HK HC HE) as D. unfold dexp in D.
    destruct (layd d) as [[n L]|] eqn:EL.
    + pose proof (proj1 (cost_all W tenv) d n L EL) as CL.
      unfold cost_b in HR. rewrite EB in HR.
      apply (ris_eq _ (obind (Some (st ++ (KIdent, nm n) :: encL L, k :: rest))
              (fun _ => obind (if lastok L t then Some (n, apps L t) else None) G))); [|reflexivity].
      apply ris_bind; [eapply ris_weak; [exact D|]; intros; specialize (HR H); pose proof (zlen_nonneg (enc W t)); lia|].
      intros x E. injection E as <-.
      apply (ris_eq _ (obind (if lastok L t then Some ((st ++ (KIdent, nm n) :: encL L) ++ enc W t) else None)
                         (fun _ => G (n, apps L t)))); [|destruct (lastok L t); reflexivity].
      apply ris_bind.
      * eapply ris_weak; [apply pushBase_ok; exact HP|]. intros H; specialize (HR H).
        rewrite zlen_app, zlen_cons. lia.
      * intros st2 E. destruct (lastok L t) eqn:EO; [|discriminate]. injection E as <-.
        replace ((st ++ (KIdent, nm n) :: encL L) ++ enc W t) with (st ++ (KIdent, nm n) :: enc W (apps L t))
          by (rewrite enc_apps, <- app_assoc; reflexivity).
        apply (ris_eq _ (obind (Some (st ++ (KIdent, nm n) :: enc W (adjust (apps L t)))) (fun _ => G (n, apps L t)))); [|reflexivity].
        apply ris_bind.
        -- eapply ris_weak; [apply decay_ok|]. intros H; specialize (HR H). rewrite enc_apps, zlen_app. lia.
        -- intros st3 E. injection E as <-. apply HT. reflexivity.
    + apply ris_none_bind. intros x E. exfalso. eapply D. exact E.
  - cbn [obind]. apply ris_none_bind. intros [pb r'] E. destruct (SP _ _ E) as (w & r'' & ->).
    apply ris_none_bind. intros x E'. exfalso. eapply derived_W. exact E'.
Qed.

Lemma void_adjust t : is_void (adjust t) = is_void t.
Proof. destruct t; reflexivity. Qed.
Lemma nm_none n : (nm n =? -1) = match n with None => true | Some _ => false end.
Proof. destruct n as [n|]; cbn; [|reflexivity]. lia. Qed.

Lemma PPar_nil : PPar PNil.
Proof.
  intros _ f st rest cnt LF _ _ _. destruct f as [|f]; [cbn in LF; lia|]. cbn [pr_p app]. rewrite fxn_end by reflexivity.
  unfold pexp. cbn [mean_p]. destruct (cnt =? 0); cbn; rewrite app_nil_r; apply ris_ok.
Qed.
Lemma PPar_last b d : PDer d -> PPar (PLast b d).
Proof.
  intros PD WF f st rest cnt LF HC HE HN. rewrite wf_p_last in WF. apply andb_prop in WF. destruct WF as [WB WD].
  rewrite pr_p_last in LF. rewrite app_length in LF. pose proof (base_len b WB) as BL.
  destruct f as [|f]; [lia|]. rewrite pr_p_last, <- app_assoc.
  destruct (base_hd b (pr_d d ++ TRp :: rest) WB) as [H1 H2].
  rewrite fxn_S; [|exact H2|rewrite (hd_starts st); assumption].
  eapply ris_eq.
  - apply (param_ris b d f st TRp rest (ptail f cnt false)
             (fun p => if is_void (snd p) && negb ((match fst p with None => true | Some _ => false end) && (cnt =? 0))
                       then None else Some (st ++ (KIdent, nm (fst p)) :: enc W (adjust (snd p)), TRp :: rest))); try assumption.
    + lia.
    + reflexivity.
    + intros H. rewrite cost_p_last in H. lia.
    + intros n t' _. cbn [ptail fst snd]. rewrite void_enc, void_adjust, nm_none, andb_true_r.
      replace (cnt + 1 =? 1) with (cnt =? 0) by (destruct (cnt =? 0) eqn:?, (cnt + 1 =? 1) eqn:?; lia).
      destruct (is_void t' && _); [apply ris_bad|apply ris_ok].
  - unfold param, pexp. rewrite mean_p_last. destruct (base_ty W tenv b) as [t|]; cbn [obind]; [|reflexivity].
    destruct (mean_d W tenv false d t) as [[n t']|]; cbn [obind fst snd]; [|reflexivity].
    destruct (cnt =? 0).
    + rewrite andb_true_r. destruct n as [n|]; cbn [negb].
      * rewrite andb_true_r. cbn [fun_params existsb snd]. rewrite orb_false_r.
        destruct (is_void t'); [reflexivity|]. cbn [map fst snd encq flat_map]. rewrite !app_nil_r. reflexivity.
      * rewrite andb_false_r. assert (X : t' = YSc SVoid \/ fun_params (PLast b d) [(None, t')] false =
            if is_void t' then None else Some (Some ([(None, adjust t')], false))).
        { cbn [fun_params existsb snd map fst]. rewrite orb_false_r. destruct t' as [[]| | | |]; auto. }
        destruct X as [->|X]; [reflexivity|]. destruct (is_void t') eqn:EV.
        -- destruct t' as [[]| | | |]; (discriminate || reflexivity).
        -- rewrite X. cbn [encq flat_map fst snd]. rewrite !app_nil_r. reflexivity.
    + rewrite andb_false_r, andb_true_r. cbn [existsb snd]. rewrite orb_false_r. destruct (is_void t'); [reflexivity|].
      unfold encp. cbn [flat_map fst snd elle]. rewrite !app_nil_r. reflexivity.
Qed.
Lemma fun_params_many ps l e : (forall b d, ps <> PLast b d) -> ps <> PNil ->
  fun_params ps l e = if existsb (fun p => is_void (snd p)) l then None
                      else Some (Some (map (fun p => (fst p, adjust (snd p))) l, e)).
Proof. intros H1 H2. destruct ps; [congruence|exfalso; eapply H1; eauto| |]; destruct l as [|[[]] l]; reflexivity. Qed.
Lemma pexp_many c0 ps : (forall b d, ps <> PLast b d) -> ps <> PNil ->
  pexp c0 ps = match mean_p W tenv false ps with
               | Some (l, e) => if existsb (fun p => is_void (snd p)) l then None else Some (encp W l ++ elle e)
               | None => None
               end.
Proof.
  intros H1 H2. unfold pexp. destruct (mean_p W tenv false ps) as [[l e]|] eqn:E; [|reflexivity].
  destruct c0; [|reflexivity]. rewrite (fun_params_many ps l e H1 H2).
  pose proof (mean_p_nonempty W tenv ps l e E H2) as NE.
  destruct (existsb _ l); [reflexivity|]. f_equal. rewrite <- encp_eq. unfold encq, elle. destruct l; [congruence|]. reflexivity.
Qed.
Lemma PPar_cons b d ps : PDer d -> PPar ps -> PPar (PCons b d ps).
Proof.
  intros PD PP WF f st rest cnt LF HC HE HN. rewrite wf_p_cons in WF. cbn [negb] in WF. rewrite andb_true_r in WF.
  apply andb_prop in WF. destruct WF as [WF WP]. apply andb_prop in WF. destruct WF as [WB WD].
  rewrite pr_p_cons in LF. rewrite !app_length in LF. cbn [length] in LF. pose proof (base_len b WB) as BL.
  destruct f as [|f]; [lia|]. rewrite pr_p_cons, <- !app_assoc. cbn [app].
  destruct (base_hd b (pr_d d ++ TComma :: pr_p ps ++ TRp :: rest) WB) as [H1 H2].
  rewrite fxn_S; [|exact H2|rewrite (hd_starts st); assumption].
  eapply ris_eq.
  - apply (param_ris b d f st TComma (pr_p ps ++ TRp :: rest) (ptail f cnt false)
             (fun p => if is_void (snd p) then None
                       else match pexp false ps with
                            | Some x => Some ((st ++ (KIdent, nm (fst p)) :: enc W (adjust (snd p))) ++ x, TRp :: rest)
                            | None => None end)); try assumption.
    + lia.
    + reflexivity.
    + intros H. rewrite cost_p_cons in H. pose proof (proj2 (proj2 (proj2 (cost_nonneg W tenv))) ps). lia.
    + intros n t' EP. cbn [ptail fst snd]. rewrite void_enc, void_adjust, !andb_false_r, andb_true_r.
      destruct (is_void t'); [apply ris_bad|].
      replace false with (cnt + 1 =? 0) at 2 by lia.
      eapply ris_weak; [apply PP; try assumption; try lia|].
      * apply clean_enc.
      * now apply env_app.
      * intros H. rewrite cost_p_cons in H. rewrite zlen_app, zlen_cons.
        unfold param in EP. destruct (base_ty W tenv b) as [t|] eqn:EB; [|discriminate].
        pose proof (param_cost W tenv b d t n t' EB (proj1 (cost_all W tenv) d) EP). pose proof (enc_adjust W t'). lia.
  - rewrite (pexp_many (cnt =? 0)) by (intros; discriminate). unfold param. rewrite mean_p_cons.
    destruct (base_ty W tenv b) as [t|]; cbn [obind]; [|reflexivity].
    destruct (mean_d W tenv false d t) as [[n t']|]; cbn [obind fst snd]; [|reflexivity].
    unfold pexp. destruct (mean_p W tenv false ps) as [[l e]|].
    + cbn [existsb snd]. destruct (is_void t'); cbn [orb]; [reflexivity|].
      destruct (existsb _ l); [reflexivity|]. unfold encp. cbn [flat_map fst snd].
      rewrite <- !app_assoc. reflexivity.
    + destruct (is_void t'); reflexivity.
Qed.
Lemma PPar_ell b d tr : PDer d -> PPar (PEll b d tr).
Proof.
  intros PD WF f st rest cnt LF HC HE HN. rewrite wf_p_ell in WF. rewrite andb_true_r in WF.
  apply andb_prop in WF. destruct WF as [WB WD].
  rewrite pr_p_ell in LF. rewrite !app_length in LF. cbn [length] in LF. pose proof (base_len b WB) as BL.
  destruct f as [|f]; [lia|]. rewrite pr_p_ell, <- !app_assoc. cbn [app].
  destruct (base_hd b (pr_d d ++ TComma :: TEll :: (if tr then [TComma] else []) ++ TRp :: rest) WB) as [H1 H2].
  rewrite fxn_S; [|exact H2|rewrite (hd_starts st); assumption].
  eapply ris_eq.
  - apply (param_ris b d f st TComma (TEll :: (if tr then [TComma] else []) ++ TRp :: rest) (ptail f cnt false)
             (fun p => if is_void (snd p) then None
                       else Some ((st ++ (KIdent, nm (fst p)) :: enc W (adjust (snd p))) ++ elle true, TRp :: rest))); try assumption.
    + lia.
    + reflexivity.
    + intros H. rewrite cost_p_ell in H. lia.
    + intros n t' EP. cbn [ptail fst snd]. rewrite void_enc, void_adjust, !andb_false_r, andb_true_r.
      destruct (is_void t'); [apply ris_bad|].
      destruct f as [|f]; [lia|]. rewrite fxn_ell by lia.
      assert (HZ : zlen st + cost_p W tenv (PEll b d tr) <= symax ->
                   zlen (st ++ (KIdent, nm n) :: enc W (adjust t')) + 2 <= symax).
      { intros H. rewrite cost_p_ell in H. rewrite zlen_app, zlen_cons.
        unfold param in EP. destruct (base_ty W tenv b) as [t|] eqn:EB; [|discriminate].
        pose proof (param_cost W tenv b d t n t' EB (proj1 (cost_all W tenv) d) EP). pose proof (enc_adjust W t'). lia. }
      set (s1 := st ++ (KIdent, nm n) :: enc W (adjust t')) in *. clearbody s1.
      apply (ris_eq _ (obind (Some (s1 ++ [(KIdent, -1)])) (fun s2 => obind (Some (s2 ++ [(KEllipsis, 0)])) (fun s3 => Some (s3, TRp :: rest))))).
      2:{ cbn [obind elle]. rewrite <- app_assoc. reflexivity. }
      apply ris_bind; [eapply ris_weak; [apply push_ris|]; intros H; specialize (HZ H); lia|].
      intros s2 E. injection E as <-.
      apply ris_bind.
      * unfold pushBase. apply (ris_eq _ (obind (Some ((s1 ++ [(KIdent, -1)]) ++ [(KEllipsis, 0)])) (fun s => Some s))); [|reflexivity].
        apply ris_bind; [eapply ris_weak; [apply push_ris|]; intros H; specialize (HZ H); rewrite zlen_app, zlen_cons, zlen_nil; lia|].
        intros s2 E. injection E as <-. rewrite topk_snoc. apply ris_ok.
      * intros s3 E. injection E as <-. rewrite <- app_assoc. cbn [app].
        unfold decay. rewrite zget_snoc. cbn [rbind].
        assert (V : forall c l, voidParam (s1 ++ [(KIdent, -1); (KEllipsis, 0)]) c l = false).
        { intros c l. unfold voidParam. replace (s1 ++ [(KIdent, -1); (KEllipsis, 0)]) with ((s1 ++ [(KIdent, -1)]) ++ [(KEllipsis, 0)]) by (rewrite <- app_assoc; reflexivity).
          rewrite topk_snoc. reflexivity. }
        destruct tr; cbn [app ptail]; rewrite V.
        -- destruct f as [|f]; [lia|]. rewrite fxn_end by reflexivity. apply ris_ok.
        -- apply ris_ok.
  - rewrite (pexp_many (cnt =? 0)) by (intros; discriminate). unfold param. rewrite mean_p_ell.
    destruct (base_ty W tenv b) as [t|]; cbn [obind]; [|reflexivity].
    destruct (mean_d W tenv false d t) as [[n t']|]; cbn [obind fst snd]; [|reflexivity].
    cbn [existsb snd]. rewrite orb_false_r. destruct (is_void t'); [reflexivity|].
    unfold encp. cbn [flat_map fst snd]. rewrite app_nil_r, <- app_assoc. reflexivity.
Qed.
End M.
