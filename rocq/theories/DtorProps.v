(** C49: declarations and type names give their names the types C gives them. *)
From Coq Require Import NArith.
From Verif Require Import Base BaseLemmas DeclSpec DeclModel DtorSpec DtorModel DtorRep DtorProof DtorProof2 DtorProof3 DtorProof4 DtorProof5 DtorProof6 DtorProof7 DtorProof8 DtorProof9.
Ltac Zify.zify_post_hook ::= idtac.

(** The table when a declaration begins: not in the middle of a type. *)
Definition between (st : stk) : Prop := exists k, topk st = Some k /\ k <> KRp /\ k <> KRb.

(** Every declaration C allows, whatever its declarators, is accepted, and the names it declares are
    entered in order, each with the type C gives it, provided there is room in the table. *)
Theorem C49_declaration_gives_the_types W tdf tenv obj st b ds l rest :
  env_ok W tdf tenv st -> between st ->
  wf_decl W tenv true b ds = true -> mean_decl W tenv true obj b ds = Some l ->
  zlen st + cost_ds W tenv b ds <= symax ->
  parseDecl W tdf obj st (pr_decl b ds ++ rest) = Ok (st ++ enc_decls W l, rest).
Proof.
  intros HE HB HW HM HR. pose proof (decl_ris W tdf tenv obj b ds st rest HE HB (lax_wf W tenv b ds HW)) as H.
  rewrite (lax_decl W tenv obj b ds l HM) in H. exact (proj2 H HR).
Qed.
(** ... and so is every type name in a cast or under sizeof *)
Theorem C49_type_name_gives_the_type W tdf tenv cast st b d t rest :
  env_ok W tdf tenv st -> between st ->
  wf_b W tenv b = true -> wf_d W tenv true d = true -> mean_name W tenv true cast b d = Some t ->
  zlen st + cost_b W tenv b + cost_d W tenv d <= symax ->
  typeName W tdf cast st (pr_base b ++ pr_d d ++ TRp :: rest) = Ok (st ++ (KIdent, -1) :: enc W t, rest).
Proof.
  intros HE HB WB WD HM HR.
  pose proof (name_ris W tdf tenv cast b d st rest HE HB WB (proj2 (proj1 (lax W tenv) d) WD)) as H.
  rewrite (lax_name W tenv cast b d t HM) in H. exact (proj2 H HR).
Qed.

(** Whatever is accepted, whatever the tokens: it is a declaration of the grammar, and the table is
    extended with exactly its names and the types C gives them.  Partial: [false], not [true]: the
    grammar is C's and a comma before the end of a parameter list, and the rules for types are C's
    without the one that the elements of an array have a known size. *)
Theorem C49_accepted_declarations_partial W tdf tenv obj st toks st' rest :
  env_ok W tdf tenv st -> between st -> parseDecl W tdf obj st toks = Ok (st', rest) ->
  exists b ds l, wf_decl W tenv false b ds = true /\ toks = pr_decl b ds ++ rest /\
    mean_decl W tenv false obj b ds = Some l /\ st' = st ++ enc_decls W l /\
    Forall (fun p => wty W false (snd p)) l.
Proof.
  intros HE HB H. destruct (decl_sound W tdf tenv (starts_eq W tdf tenv st HE) _ _ _ _ _ H) as (b & ds & WF & ->).
  exists b, ds. pose proof (decl_ris W tdf tenv obj b ds st rest HE HB WF) as R.
  destruct (mean_decl W tenv false obj b ds) as [l|] eqn:EM; [|exfalso; eapply R; exact H].
  exists l. pose proof (proj1 R _ H) as RR. clear R. injection RR as ->. repeat (split; [assumption || reflexivity|]).
  assert (TW : forall n t, tenv n = Some t -> wty W false t).
  { intros n t E. specialize (HE n). rewrite E in HE. destruct (tdf n); [|contradiction]. apply HE. }
  unfold mean_decl in EM. destruct (base_ty W tenv b) as [t|] eqn:EB; [|discriminate].
  pose proof (wty_base W tenv false TW b t EB) as WT. clear - EM WT TW. revert l EM.
  induction ds as [|d ds IH]; intros l E; cbn [declareds] in E; [injection E as <-; constructor|].
  unfold declared in E. destruct (mean_d W tenv false d t) as [[[n|] t']|] eqn:ED; try discriminate.
  destruct (obj && is_void t'); [discriminate|]. destruct (declareds W tenv false obj t ds) as [l'|]; [|discriminate].
  injection E as <-. constructor; [|now apply IH]. exact (proj1 (wty_all W tenv false TW) d t _ t' WT ED).
Qed.
Theorem C49_accepted_type_names_partial W tdf tenv cast st toks st' rest :
  env_ok W tdf tenv st -> between st -> typeName W tdf cast st toks = Ok (st', rest) ->
  exists b d t, wf_b W tenv b = true /\ wf_d W tenv false d = true /\ toks = pr_base b ++ pr_d d ++ TRp :: rest /\
    mean_name W tenv false cast b d = Some t /\ st' = st ++ (KIdent, -1) :: enc W t.
Proof.
  intros HE HB H. destruct (name_sound W tdf tenv (starts_eq W tdf tenv st HE) _ _ _ _ _ H) as (b & d & WB & WD & ->).
  exists b, d. pose proof (name_ris W tdf tenv cast b d st rest HE HB WB WD) as R.
  destruct (mean_name W tenv false cast b d) as [t|] eqn:EM; [|exfalso; eapply R; exact H].
  exists t. pose proof (proj1 R _ H) as RR. clear R. injection RR as ->. repeat (split; [assumption || reflexivity|]). reflexivity.
Qed.
(** A declaration whose types break the rules is not accepted. *)
Theorem C49_illegal_declarations_refused W tdf tenv obj st b ds rest :
  env_ok W tdf tenv st -> between st -> wf_decl W tenv false b ds = true ->
  mean_decl W tenv false obj b ds = None -> forall x, parseDecl W tdf obj st (pr_decl b ds ++ rest) <> Ok x.
Proof.
  intros HE HB WF HM x H. pose proof (decl_ris W tdf tenv obj b ds st rest HE HB WF) as R.
  rewrite HM in R. eapply R. exact H.
Qed.

(** The entries of the table are those of one type only, up to the integer types this compiler
    identifies, wherever they are followed by others. *)
Theorem C49_table_determines_the_type W t1 t2 r1 r2 :
  wty W false t1 -> wty W false t2 -> enc W t1 ++ r1 = enc W t2 ++ r2 -> nrm W t1 = nrm W t2 /\ r1 = r2.
Proof. intros H1 H2 H. now apply (enc_inj W t1). Qed.

(* ---------------------------------------------------------------- what is not C *)
Fixpoint ncr (l : list tok) : bool :=
  match l with
  | TComma :: (TRp :: _) => false
  | _ :: l => ncr l
  | [] => true
  end.
Definition notrp (l : list tok) : bool := match l with TRp :: _ => false | _ => true end.
Lemma ncr_comma l : ncr (TComma :: l) = notrp l && ncr l.
Proof. destruct l as [|[] l]; reflexivity. Qed.
Lemma ncr_cons t l : t <> TComma -> ncr (t :: l) = ncr l.
Proof. intros H. destruct t; try congruence; reflexivity. Qed.
Lemma ncr_base b l : ncr (pr_base b ++ l) = ncr l.
Proof.
  destruct b as [ws|j|n]; cbn [pr_base app]; [|now rewrite ncr_cons|now rewrite ncr_cons].
  induction ws as [|w ws IH]; [reflexivity|]. cbn [map app]. now rewrite ncr_cons.
Qed.
Lemma ncr_stars s l : ncr (repeat TStar s ++ l) = ncr l.
Proof. induction s; [reflexivity|]. cbn [repeat app]. now rewrite ncr_cons. Qed.
Lemma base_notrp W tenv b l : wf_b W tenv b = true -> notrp (pr_base b ++ l) = true.
Proof. destruct b as [[|w ws]|j|n]; cbn; auto; discriminate. Qed.
Lemma ncr_all W tenv :
  (forall d, wf_d W tenv true d = true -> forall l, ncr l = true -> ncr (pr_d d ++ l) = true) /\
  (forall c, wf_c W tenv true c = true -> forall l, ncr l = true -> ncr (pr_c c ++ l) = true) /\
  (forall ss, wf_s W tenv true ss = true -> forall l, ncr l = true -> ncr (pr_s ss ++ l) = true) /\
  (forall ps, wf_p W tenv true ps = true -> forall l, ncr l = true ->
     ncr (pr_p ps ++ l) = true /\ (ps <> PNil -> notrp (pr_p ps ++ l) = true)).
Proof.
  apply dtor_mut.
  - intros s c IC ss IS WF l H. rewrite wf_d_eq in WF. apply andb_prop in WF. destruct WF as [WC WS].
    rewrite pr_d_eq, <- !app_assoc, ncr_stars. apply IC; [exact WC|]. now apply IS.
  - intros [n|] _ l H; [|exact H]. cbn [pr_c app]. now rewrite ncr_cons.
  - intros d ID WF l H. rewrite wf_c_paren in WF. apply andb_prop in WF. destruct WF as [WD _].
    rewrite pr_c_paren. cbn [app]. rewrite ncr_cons, <- app_assoc by discriminate. apply ID; [exact WD|].
    cbn [app]. now rewrite ncr_cons.
  - intros _ l H. exact H.
  - intros n ss IS WF l H. rewrite wf_s_arr in WF. rewrite pr_s_arr. cbn [app]. rewrite ncr_cons, <- app_assoc by discriminate.
    destruct n; cbn [pr_dim app]; rewrite ?ncr_cons by discriminate; now apply IS.
  - intros ps IP ss IS WF l H. rewrite wf_s_fun in WF. apply andb_prop in WF. destruct WF as [WP WS].
    rewrite pr_s_fun. cbn [app]. rewrite ncr_cons, <- app_assoc by discriminate. apply IP; [exact WP|].
    cbn [app]. rewrite ncr_cons by discriminate. now apply IS.
  - intros _ l H. split; [exact H|congruence].
  - intros b d ID WF l H. rewrite wf_p_last in WF. apply andb_prop in WF. destruct WF as [WB WD].
    rewrite pr_p_last, <- app_assoc. split; [rewrite ncr_base; now apply ID|]. intros _. eapply base_notrp; eauto.
  - intros b d ID tr WF l H. rewrite wf_p_ell in WF. apply andb_prop in WF. destruct WF as [WF WT].
    apply andb_prop in WF. destruct WF as [WB WD]. destruct tr; [discriminate|].
    rewrite pr_p_ell, <- !app_assoc. split; [|intros _; eapply base_notrp; eauto].
    rewrite ncr_base. apply ID; [exact WD|]. cbn [app]. rewrite ncr_comma. cbn [notrp andb]. now rewrite ncr_cons.
  - intros b d ID ps IP WF l H. rewrite wf_p_cons in WF. apply andb_prop in WF. destruct WF as [WF WN].
    apply andb_prop in WF. destruct WF as [WF WP]. apply andb_prop in WF. destruct WF as [WB WD].
    rewrite pr_p_cons, <- !app_assoc. split; [|intros _; eapply base_notrp; eauto].
    rewrite ncr_base. apply ID; [exact WD|]. cbn [app]. rewrite ncr_comma.
    destruct (IP WP l H) as [I1 I2]. rewrite I1, I2; [reflexivity|]. intros ->. discriminate.
Qed.
Lemma d_notrp d l : notrp l = true -> notrp (pr_d d ++ l) = true.
Proof. intros H. pose proof (pr_d_hd d) as Y. destruct (pr_d d) as [|[] ?]; auto; discriminate. Qed.
Lemma ncr_ds W tenv ds l : forallb (wf_d W tenv true) ds = true -> ncr l = true -> notrp l = true ->
  ncr (pr_ds ds ++ l) = true /\ notrp (pr_ds ds ++ l) = true.
Proof.
  intros WD H HN. induction ds as [|d ds IH]; [auto|].
  cbn [forallb] in WD. apply andb_prop in WD. destruct WD as [W1 W2]. destruct ds as [|d' ds].
  - split; [now apply (ncr_all W tenv)|now apply d_notrp].
  - rewrite pr_ds_cons, <- app_assoc. cbn [app]. destruct (IH W2) as [I1 I2]. split; [|now apply d_notrp].
    apply (ncr_all W tenv); [exact W1|]. now rewrite ncr_comma, I1, I2.
Qed.
Lemma ncr_decl W tenv b ds l : wf_decl W tenv true b ds = true -> ncr l = true -> ncr (pr_decl b ds ++ l) = true.
Proof.
  unfold wf_decl, pr_decl. intros WF H. apply andb_prop in WF. destruct WF as [_ WD].
  rewrite <- !app_assoc, ncr_base. cbn [app]. apply (ncr_ds W tenv); [exact WD|now rewrite ncr_cons|reflexivity].
Qed.

(** the tables of the examples: a typedef of [char *], number 7; entry 1 is its name *)
Definition st0 : stk := [(KInt, 0); (KIdent, 7); (KStar, 0); (KChar, 0)].
Definition tdf0 (n : N) : option Z := if N.eqb n 7 then Some 1 else None.
Definition tenv0 (n : N) : option ty := if N.eqb n 7 then Some (YPtr (YSc SChar)) else None.
Lemma env0 W : env_ok W tdf0 tenv0 st0.
Proof.
  intros n. unfold tdf0, tenv0. destruct (N.eqb n 7); [|exact I]. split; [|reflexivity].
  exists [(KInt, 0); (KIdent, 7)], []. split; reflexivity.
Qed.
Lemma between0 : between st0.
Proof. exists KChar. repeat split; discriminate. Qed.

(** "What is accepted is C": it is not.  A comma may follow the last parameter ... *)
Definition accepts_only_C : Prop :=
  forall W tdf tenv obj st toks st' rest, W = 2 \/ W = 4 -> env_ok W tdf tenv st -> between st ->
    parseDecl W tdf obj st toks = Ok (st', rest) ->
    exists b ds l, wf_decl W tenv true b ds = true /\ toks = pr_decl b ds ++ rest /\ mean_decl W tenv true obj b ds = Some l.
(* int f(int,); *)
Definition comma_toks := [TW WInt; TId 1; TLp; TW WInt; TComma; TRp; TSemi].
Theorem C49_accepts_only_C_refuted : ~ accepts_only_C.
Proof.
  intros H.
  destruct (H 4 tdf0 tenv0 true st0 comma_toks (st0 ++ enc_decls 4 [(1%N, YFun (Some ([(None, YSc SInt)], false)) (YSc SInt))]) []
              (or_intror eq_refl) (env0 4) between0 ltac:(vm_compute; reflexivity)) as (b & ds & l & WF & E & _).
  pose proof (ncr_decl 4 tenv0 b ds [] WF eq_refl) as X. rewrite <- E in X. vm_compute in X. discriminate.
Qed.
(** ... and the elements of an array may be arrays of unknown size: int (a[3])[]; *)
Definition array_toks := [TW WInt; TLp; TId 1; TLb; TDim 3; TRb; TRp; TLb; TRb; TSemi].
Theorem C49_accepts_only_C_array_refuted : ~ accepts_only_C.
Proof.
  intros H.
  set (T := YArr (Some 3) (YArr None (YSc SInt))).
  set (e0 := fun _ : N => @None Z). set (t0 := fun _ : N => @None ty).
  assert (HE : env_ok 4 e0 t0 st0) by (intros n; exact I).
  assert (HP : parseDecl 4 e0 true st0 array_toks = Ok (st0 ++ enc_decls 4 [(1%N, T)], [])) by (vm_compute; reflexivity).
  destruct (H 4 e0 t0 true st0 array_toks _ [] (or_intror eq_refl) HE between0 HP) as (b & ds & l & WF & E & EM).
  pose proof (decl_ris 4 e0 t0 true b ds st0 [] HE between0 (lax_wf 4 t0 b ds WF)) as R.
  rewrite E in HP. rewrite (lax_decl 4 t0 true b ds l EM) in R. apply proj1 in R. specialize (R _ HP). injection R as R.
  assert (TWf : forall s n t, t0 n = Some t -> wty 4 s t) by (intros; discriminate).
  assert (WL : Forall (fun p => wty 4 true (snd p)) l).
  { unfold mean_decl in EM. destruct (base_ty 4 t0 b) as [t|] eqn:EB; [|discriminate].
    pose proof (wty_base 4 t0 true (TWf true) b t EB) as WT. clear - EM WT TWf. revert l EM.
    induction ds as [|d ds IH]; intros l E; cbn [declareds] in E; [injection E as <-; constructor|].
    unfold declared in E. destruct (mean_d 4 t0 true d t) as [[[n|] t']|] eqn:ED; try discriminate.
    destruct (true && is_void t'); [discriminate|]. destruct (declareds 4 t0 true true t ds) as [l'|]; [|discriminate].
    injection E as <-. constructor; [|now apply IH]. exact (proj1 (wty_all 4 t0 true (TWf true)) d t _ t' WT ED). }
  destruct l as [|[n t] l]; [discriminate|].
  unfold enc_decls in R. cbn [flat_map fst snd app st0] in R. injection R as _ R.
  pose proof (Forall_inv WL) as W1. cbn [snd] in W1. clear - R W1.
  destruct t as [sc|j|t|m t|q t]; cbn in R; try discriminate.
  - destruct sc; discriminate.
  - destruct t as [sc|j|t|m2 t|q t]; cbn in R; try discriminate.
    + destruct sc; discriminate.
    + cbn [wty] in W1. destruct W1 as (_ & W1 & W2 & _). destruct m2 as [m2|]; [|discriminate W1].
      cbn in R. injection R as _ R _. cbn in W2. subst m2. discriminate.
Qed.

(** A typedef name in parentheses is always taken for a parameter list: [int (T);] is not accepted,
    although it declares [T] anew in C, where only the declarators of parameters are read so. *)
Theorem C49_typedef_name_in_parentheses W tdf tenv obj st n rest :
  env_ok W tdf tenv st -> between st -> tdf n <> None ->
  forall x, parseDecl W tdf obj st (TW WInt :: TLp :: TId n :: TRp :: TSemi :: rest) <> Ok x.
Proof.
  intros HE HB HN.
  assert (ET : exists t, tenv n = Some t).
  { specialize (HE n). destruct (tdf n); [|congruence]. destruct (tenv n); [eauto|contradiction]. }
  destruct ET as [t ET].
  apply (C49_illegal_declarations_refused W tdf tenv obj st (BWords [WInt])
           [Dc 0 (CName None) (SFun (PLast (BTypedef n) (Dc 0 (CName None) SNil)) SNil)] rest HE HB).
  - cbn. rewrite ET. reflexivity.
  - unfold mean_decl. cbn [base_ty]. change (words_ty W [WInt]) with (Some SInt). cbn [declareds]. unfold declared.
    cbn. rewrite ET. destruct t as [[]| | | |]; reflexivity.
Qed.

(* ---------------------------------------------------------------- the theorems apply *)
(* int *( *f(void))[3], x: f is a function without parameters that returns a pointer to an array of
   3 pointers to int *)
Definition ex_d := Dc 1 (CParen (Dc 1 (CName (Some 1%N)) (SFun (PLast (BWords [WVoid]) (Dc 0 (CName None) SNil)) SNil))) (SArr (Some 3) SNil).
Definition ex_ds := [ex_d; Dc 0 (CName (Some 2%N)) SNil].
Definition ex_l := [(1%N, YFun (Some ([], false)) (YPtr (YArr (Some 3) (YPtr (YSc SInt))))); (2%N, YSc SInt)].
Example ex_print : pr_decl (BWords [WInt]) ex_ds =
  [TW WInt; TStar; TLp; TStar; TId 1; TLp; TW WVoid; TRp; TRp; TLb; TDim 3; TRb; TComma; TId 2; TSemi].
Proof. reflexivity. Qed.
Example ex_hyp : wf_decl 4 tenv0 true (BWords [WInt]) ex_ds = true /\ mean_decl 4 tenv0 true true (BWords [WInt]) ex_ds = Some ex_l /\
  zlen st0 + cost_ds 4 tenv0 (BWords [WInt]) ex_ds <= symax.
Proof. split; [reflexivity|]. split; [reflexivity|]. vm_compute. discriminate. Qed.
Example ex_parse : parseDecl 4 tdf0 true st0 (pr_decl (BWords [WInt]) ex_ds ++ [TOther]) =
  Ok (st0 ++ [(KIdent, 1); (KLp, 0); (KIdent, -1); (KVoid, 0); (KRp, 0); (KStar, 0); (KLb, 0); (KNum, 3); (KRb, 0); (KStar, 0); (KInt, 0);
              (KIdent, 2); (KInt, 0)], [TOther]).
Proof. vm_compute. reflexivity. Qed.
(* void qsort(void *, unsigned, T[], int ( *f)(T, ...)), f left out: parameters that are arrays become pointers *)
Definition ex_q := Dc 0 (CName (Some 3%N))
  (SFun (PCons (BWords [WVoid]) (Dc 1 (CName None) SNil)
        (PCons (BWords [WUnsigned]) (Dc 0 (CName None) SNil)
        (PCons (BTypedef 7) (Dc 0 (CName None) (SArr None SNil))
        (PLast (BWords [WInt]) (Dc 0 (CParen (Dc 1 (CName None) SNil)) (SFun (PEll (BTypedef 7) (Dc 0 (CName None) SNil) false) SNil)))))) SNil).
Example ex_q_mean : mean_decl 2 tenv0 true true (BWords [WVoid]) [ex_q] =
  Some [(3%N, YFun (Some ([(None, YPtr (YSc SVoid)); (None, YSc SUns); (None, YPtr (YPtr (YSc SChar)));
                           (None, YPtr (YFun (Some ([(None, YPtr (YSc SChar))], true)) (YSc SInt)))], false)) (YSc SVoid))].
Proof. reflexivity. Qed.
Example ex_q_parse : parseDecl 2 tdf0 true st0 (pr_decl (BWords [WVoid]) [ex_q]) =
  Ok (st0 ++ enc_decls 2 [(3%N, YFun (Some ([(None, YPtr (YSc SVoid)); (None, YSc SUns); (None, YPtr (YPtr (YSc SChar)));
                           (None, YPtr (YFun (Some ([(None, YPtr (YSc SChar))], true)) (YSc SInt)))], false)) (YSc SVoid))], []).
Proof. vm_compute. reflexivity. Qed.
(* the cast to pointer to array of 2 T *)
Example ex_name : typeName 4 tdf0 true st0 ([TId 7; TLp; TStar; TRp; TLb; TDim 2; TRb] ++ [TRp]) =
  Ok (st0 ++ (KIdent, -1) :: enc 4 (YPtr (YArr (Some 2) (YPtr (YSc SChar)))), []) /\
  mean_name 4 tenv0 true true (BTypedef 7) (Dc 0 (CParen (Dc 1 (CName None) SNil)) (SArr (Some 2) SNil)) = Some (YPtr (YArr (Some 2) (YPtr (YSc SChar)))).
Proof. split; vm_compute; reflexivity. Qed.
(* refused: int f()[3]; int a[2](void); int f()(); void x; int a[0]; int a[2][]; int f(void, int);
   int f(...); short char a; int; *)
Example ex_bad : map (fun toks => match parseDecl 4 tdf0 true st0 toks with Ok _ => true | _ => false end)
  [[TW WInt; TId 1; TLp; TRp; TLb; TDim 3; TRb; TSemi]; [TW WInt; TId 1; TLb; TDim 2; TRb; TLp; TW WVoid; TRp; TSemi];
   [TW WInt; TId 1; TLp; TRp; TLp; TRp; TSemi]; [TW WVoid; TId 1; TSemi]; [TW WInt; TId 1; TLb; TDim 0; TRb; TSemi];
   [TW WInt; TId 1; TLb; TDim 2; TRb; TLb; TRb; TSemi]; [TW WInt; TId 1; TLp; TW WVoid; TComma; TW WInt; TRp; TSemi];
   [TW WInt; TId 1; TLp; TEll; TRp; TSemi]; [TW WShort; TW WChar; TId 1; TSemi]; [TW WInt; TSemi]] = repeat false 10.
Proof. vm_compute. reflexivity. Qed.
Example ex_inj : enc 4 (YSc SLong) = enc 4 (YSc SInt) /\ enc 4 (YSc SShort) <> enc 4 (YSc SInt) /\ wty 4 false (YFun (Some ([(None, YPtr (YSc SVoid))], true)) (YSc SInt)).
Proof. split; [reflexivity|]. split; [discriminate|]. cbn. repeat split; discriminate. Qed.

Print Assumptions C49_declaration_gives_the_types.
Print Assumptions C49_type_name_gives_the_type.
Print Assumptions C49_accepted_declarations_partial.
Print Assumptions C49_accepted_type_names_partial.
Print Assumptions C49_illegal_declarations_refused.
Print Assumptions C49_table_determines_the_type.
Print Assumptions C49_accepts_only_C_refuted.
Print Assumptions C49_accepts_only_C_array_refuted.
Print Assumptions C49_typedef_name_in_parentheses.
