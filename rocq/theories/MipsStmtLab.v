(** No label is defined twice in the MIPS code of a function. *)
From Verif Require Import Base BaseLemmas X86 CgModel ExprSpec CgTree CgFuse CgCorrect StmtSpec StmtModel StmtLab MipsModel MipsSpec MipsCode MipsGen MipsStmtPre MipsStmtModel.
From Coq Require Import Permutation.
Notation elabs_args := StmtLab.elabs_args.

Lemma mlabels_app a b : labels (a ++ b) = labels a ++ labels b.
Proof. induction a as [|[] a IH]; cbn; congruence. Qed.
Ltac ml := repeat match goal with |- context [if ?b then _ else _] => destruct b end; try reflexivity.
Ltac mla := repeat (rewrite ?mlabels_app; cbn [labels app]).
Lemma ml3c op rd rs n : labels (gen3c op rd rs n) = [].
Proof. unfold gen3c. destruct op; ml. Qed.
Lemma ml3 op rd rs n : labels (gen3 op rd rs n) = [].
Proof. reflexivity. Qed.
Lemma mlext w sz : labels (gen_extend w sz) = [].
Proof. unfold gen_extend. ml; apply ml3c. Qed.
Lemma mlgrow n : labels (gen_grow n) = [].
Proof. unfold gen_grow. destruct (n =? 0); [reflexivity|apply ml3c]. Qed.
Lemma mlread p rd sz : labels (gread p rd sz) = [].
Proof. destruct p; reflexivity. Qed.
Lemma mlwrite p rd sz : labels (gwrite p rd sz) = [].
Proof. destruct p; reflexivity. Qed.
Lemma mlbin a w L R : labels (gen_bin a w L R) = [].
Proof. unfold gen_bin. destruct (is_div a) as [[? []]|]; reflexivity. Qed.
Lemma mlincdec i p w sz : labels (gen_incdec i p w sz) = [].
Proof. unfold gen_incdec. mla. now rewrite mlread, ml3c, mlwrite, mlext. Qed.
Lemma mlpost i p w sz : labels (gen_postincdec i p w sz) = [].
Proof. unfold gen_postincdec. cbv zeta. mla. now rewrite mlread, !ml3c, mlwrite, mlext. Qed.
Lemma mlpostby i w L R sz : labels (gen_postby i w L R sz) = [].
Proof. unfold gen_postby. cbv zeta. destruct (w =? L); reflexivity. Qed.
Lemma mlassignop a w L R sz : labels (gen_assignop a w L R sz) = [].
Proof. unfold gen_assignop. destruct (w =? L); mla; rewrite mlbin; reflexivity. Qed.
Lemma mlblk b slt br k w L R lab : labels (gen_blk b slt br k w L R lab) = [].
Proof. destruct b; cbn [gen_blk]; rewrite ?ml3c; reflexivity. Qed.
Lemma mlblks l slt br k w L R lab : labels (concat (map (fun b => gen_blk b slt br k w L R lab) l)) = [].
Proof. induction l; cbn [map concat]; [reflexivity|]. now rewrite mlabels_app, mlblk, IHl. Qed.
Lemma mlpush mcd w n : labels (pushc mcd w n) = [].
Proof. unfold pushc. destruct (rk mcd n); [reflexivity|]. mla. now rewrite ml3c. Qed.
Lemma mlpop mcd n : labels (popc mcd n) = [].
Proof. unfold popc. destruct (rk mcd n); [reflexivity|]. mla. now rewrite ml3c. Qed.
Lemma mlimm t k w : labels (imm_code t k w) = [].
Proof. destruct t; cbn [imm_code]; try reflexivity; [apply ml3c|apply mlblks]. Qed.
Lemma mlbinc t w L R : labels (bin_code t w L R) = [].
Proof. destruct t; cbn [bin_code]; try reflexivity; [apply mlbin|apply mlblks]. Qed.
Lemma mlconst mcd t k w n : labels (const_code mcd t k w n) = [].
Proof. unfold const_code. destruct (isimm t); [apply mlimm|]. mla. now rewrite mlpush, mlpop, mlbinc. Qed.
Lemma mlun u w : labels (unc u w) = [].
Proof. destruct u; cbn [unc]; rewrite ?ml3c; reflexivity. Qed.
Lemma mltwo mcd w n cl cr : labels (two mcd w n cl cr) = labels cl ++ labels cr.
Proof. unfold two. mla. rewrite mlpush, mlpop. now rewrite app_nil_r. Qed.
Lemma mlloadargs v : labels (loadargs v) = [].
Proof. unfold loadargs. mla. ml. Qed.
Lemma mlargpush mcd b : labels (argpush mcd b) = [].
Proof. unfold argpush. destruct b; [reflexivity|apply mlpush]. Qed.
Lemma elabs_pl e p : pl e = Some p -> elabs e = [].
Proof. destruct e; try discriminate; reflexivity. Qed.
Lemma elabs_bconst t l r sw k t' : bconst t l r = Some (sw, k, t') -> elabs l ++ elabs r = if sw then elabs r else elabs l.
Proof.
  intros H. destruct (match r with ENum _ k => Some k | _ => None end) as [kr|] eqn:Er.
  - destruct r; try discriminate. cbn [bconst] in H. destruct (rconst t _) as [? ?]. injection H as <- <- <-. apply app_nil_r.
  - assert (Hb : bconst t l r = match l with
      | ENum _ k => if iscomm t then let '(k', t') := special_const (flip t) k in Some (true, k', t') else None
      | _ => None end) by (destruct r; try discriminate; reflexivity).
    rewrite Hb in H. destruct l; try discriminate. destruct (iscomm t); [|discriminate]. destruct (special_const _ _) as [? ?].
    injection H as <- <- <-. reflexivity.
Qed.
Lemma elabs_anum o r k : anum o r = Some k -> elabs r = [].
Proof. destruct r; try discriminate; reflexivity. Qed.

Lemma labels_C mcd e : forall w n, labels (C mcd e w n) = elabs e.
Proof.
  induction e using ex_ind2; intros w m; try reflexivity.
  - apply ml3c.
  - cbn [C elabs]. destruct (pl e) as [p|] eqn:Hp; [rewrite (elabs_pl _ _ Hp); apply mlread|]. now rewrite mlabels_app, IHe, mlread, app_nil_r.
  - cbn [C elabs]. destruct (pl e) as [p|] eqn:Hp; [rewrite (elabs_pl _ _ Hp); apply mlincdec|]. mla. now rewrite IHe, mlincdec, app_nil_r.
  - cbn [C elabs]. destruct (pl e) as [p|] eqn:Hp; [rewrite (elabs_pl _ _ Hp); apply mlpost|]. mla. now rewrite IHe, mlpost, app_nil_r.
  - cbn [C elabs]. mla. now rewrite mltwo, IHe, mlpostby, !app_nil_r.
  - cbn [C elabs]. mla. now rewrite IHe, mlun, app_nil_r.
  - cbn [C elabs]. destruct (bconst _ e1 e2) as [[[sw k] t]|] eqn:Hb; mla.
    + rewrite mlconst, app_nil_r, (elabs_bconst _ _ _ _ _ _ Hb). destruct sw; auto.
    + now rewrite mltwo, IHe1, IHe2, mlbinc, app_nil_r.
  - cbn [C elabs]. destruct (bconst _ e1 e2) as [[[sw k] t]|] eqn:Hb; mla.
    + rewrite mlconst, app_nil_r, (elabs_bconst _ _ _ _ _ _ Hb). destruct sw; auto.
    + now rewrite mltwo, IHe1, IHe2, mlbinc, app_nil_r.
  - cbn [C elabs]. destruct (pl e1) as [p|] eqn:Hp; mla.
    + rewrite (elabs_pl _ _ Hp), IHe2, mlwrite, mlext. cbn [app]. now rewrite app_nil_r.
    + rewrite mltwo, IHe1, IHe2, mlext. destruct (w =? _); now rewrite ?app_nil_r.
  - cbn [C elabs]. cbv zeta. assert (A : forall w n, labels (match anum (tok_arith o) e2 with Some k => [Mli w k] | None => C mcd e2 w n end) = elabs e2).
    { intros w' n'. destruct (anum (tok_arith o) e2) as [k|] eqn:Ha; [rewrite (elabs_anum _ _ _ Ha); reflexivity|apply IHe2]. }
    destruct (pl e1) as [p|] eqn:Hp; mla.
    + rewrite (elabs_pl _ _ Hp), A, mlread, mlbin, mlwrite, mlext. cbn [app]. now rewrite app_nil_r.
    + rewrite mltwo, IHe1, A, mlassignop, mlext. now rewrite app_nil_r.
  - cbn [C elabs]. mla. now rewrite IHe1, IHe2.
  - cbn [C elabs]. mla. now rewrite IHe1, IHe2.
  - cbn [C elabs]. mla. now rewrite IHe1, IHe2.
  - cbn [C elabs]. mla. now rewrite IHe1, IHe2, IHe3.
  - cbn [C elabs]. fold (C_args mcd m). fold elabs_args. cbv zeta.
    assert (A : forall l i, Forall (fun e => forall w n, labels (C mcd e w n) = elabs e) l -> labels (C_args mcd m l i) = elabs_args l).
    { induction l as [|a l IHl]; intros i Hl; [reflexivity|]. inversion Hl; subst. cbn [C_args StmtLab.elabs_args]. fold (C_args mcd m). fold elabs_args.
      rewrite mlabels_app, IHl by assumption. f_equal. destruct (one mcd && (i <? 4)); [auto|]. mla. rewrite mlargpush, H2.
      destruct (one mcd && (i =? 4)); rewrite ?mlpush; cbn [labels app]; now rewrite ?app_nil_r. }
    mla. rewrite (A args 0 H), mlgrow.
    assert (E1 : labels (if one mcd then [] else if 4 * zlen args <? 16 then gen_grow (16 - 4 * zlen args) else []) = []) by (ml; apply mlgrow).
    assert (E2 : labels (if one mcd then [] else argpush mcd (isnil args)) = []) by (destruct (one mcd); [reflexivity|apply mlargpush]).
    assert (E3 : labels (if one mcd then gen_grow 16 else loadargs (4 * zlen args)) = []) by (destruct (one mcd); [apply mlgrow|apply mlloadargs]).
    rewrite E1, E2, E3. cbn [app]. f_equal.
    replace (labels (match e with EIdent id => [Mjal id] | _ => [Mjalr rV0] end)) with (@nil Z) by (destruct e; reflexivity).
    rewrite !app_nil_r. destruct e; try reflexivity; apply IHe.
Qed.
Lemma labels_Ctop mcd e : labels (Ctop mcd e) = elabs e.
Proof.
  unfold Ctop. destruct (is_assign0 e) as [[sz l]|] eqn:E; [|apply labels_C].
  destruct e; try discriminate. cbn [is_assign0] in E. destruct e2; try discriminate. destruct (tru n =? 0); [|discriminate]. injection E as <- <-.
  cbn [elabs]. rewrite app_nil_r. destruct (pl e1) as [p|] eqn:Hp; [rewrite (elabs_pl _ _ Hp); apply mlwrite|]. mla. now rewrite labels_C, app_nil_r.
Qed.
Lemma labels_br c a b w L R yes lab : labels (br_code c a b w L R yes lab) = [].
Proof. unfold br_code. destruct (cmp_op c) as [op uns]. cbv zeta. apply mlblks. Qed.
Lemma labels_Cif e yes lab : labels (Cif e yes lab) = elabs e.
Proof.
  destruct e; cbn [Cif]; try (mla; unfold jmp; cbn [labels]; rewrite app_nil_r; apply labels_C).
  unfold Cbin. cbn [elabs]. destruct (bconst _ e1 e2) as [[[sw k] t]|] eqn:Hb; mla.
  - rewrite (elabs_bconst _ _ _ _ _ _ Hb).
    replace (labels (match t with TCmp c0 _ => _ | _ => _ end)) with (@nil Z)
      by (destruct t; mla; rewrite ?labels_br, ?mlconst; reflexivity).
    rewrite app_nil_r. destruct sw; apply labels_C.
  - rewrite mltwo, !labels_C, labels_br. now rewrite app_nil_r.
Qed.

(** The operators that may follow an expression. *)
Definition mtail (e : ex) (tail : stack) : Prop :=
  tail = [] \/ tail = [TReturn] \/ isvoid e = false /\ exists yes lab, tail = [tif yes lab].
Lemma mtail_nil e : mtail e []. Proof. now left. Qed.
Lemma mtail_ret e : mtail e [TReturn]. Proof. right. now left. Qed.
Lemma mexpr_labels e tail code : wf 4 e -> typed e -> mtail e tail -> gen_expr (rpn 4 e ++ tail) = Some code -> sub (labels code) (elabs e).
Proof.
  intros Hw Ht [->|[->|[Hv (yes & lab & ->)]]] H.
  - rewrite app_nil_r, gen_stmt in H by assumption. injection H as <-. rewrite labels_Ctop. apply sub_refl.
  - rewrite gen_value in H by assumption. injection H as <-. rewrite labels_C. apply sub_refl.
  - rewrite gen_cond in H by assumption. injection H as <-. rewrite labels_Cif. apply sub_refl.
Qed.

(** Label numbers do not matter for types, stack space, alignment. *)
Lemma isvoid_strip e : isvoid (strip e) = isvoid e.
Proof. induction e using ex_ind2; cbn [strip isvoid]; try reflexivity; try congruence. Qed.
Lemma typed_strip e : typed e -> typed (strip e).
Proof.
  induction e using ex_ind2; cbn [strip typed]; rewrite ?isvoid_strip; try tauto.
  - intros ((x & ->) & H1 & H2). split; [|auto]. cbn [strip]. eauto.
  - intros [[H1 H2] H3]. split; [auto|]. clear H1 H2 IHe. induction H as [|a l Ha Hl IH]; cbn [map]; [auto|].
    destruct H3 as [[H1 H2] H3]. rewrite isvoid_strip. split; [auto|exact (IH H3)].
Qed.
Lemma strip_void e x : strip e = EUn EVoid x -> exists y, e = EUn EVoid y.
Proof. destruct e; try discriminate. cbn [strip]. intros H. injection H as -> _. eauto. Qed.
Lemma typed_unstrip e : typed (strip e) -> typed e.
Proof.
  induction e using ex_ind2; cbn [strip typed]; rewrite ?isvoid_strip; try tauto.
  - intros ((x & H0) & H1 & H2). split; [|auto]. eapply strip_void; eauto.
  - intros [[H1 H2] H3]. split; [auto|]. clear H1 H2 IHe. induction H as [|a l Ha Hl IH]; cbn [map] in *; [auto|].
    destruct H3 as [[H1 H2] H3]. rewrite isvoid_strip in H1. split; [auto|exact (IH H3)].
Qed.
Lemma mdepth_strip e : mdepth (strip e) = mdepth e.
Proof.
  induction e using ex_ind2; cbn [strip mdepth]; try congruence.
  rewrite IHe. unfold zlen. rewrite map_length. f_equal. f_equal. clear IHe. induction H; cbn [map]; [reflexivity|]. now rewrite IHForall, H.
Qed.
Lemma access_strip e : access e <> None -> access (strip e) = access e.
Proof.
  intros H. destruct e; cbn [access strip] in *; try congruence;
    repeat (match goal with H : match ?x with _ => _ end <> None |- _ => destruct x; cbn [access strip] in *; try congruence end).
Qed.
Lemma unaligned_strip e : unaligned e -> unaligned (strip e).
Proof.
  induction 1 as [e sz a H1 H2|F e H IH]; [|rewrite strip_plug; now constructor].
  apply una_here with sz a; [|assumption]. rewrite access_strip; congruence.
Qed.
Lemma msafe_strip addr bp ext e m : msafe addr bp ext (strip e) m -> msafe addr bp ext e m.
Proof.
  intros [H1 H2]. split; [now apply safe_strip|]. intros e' m' Hs Hu. apply esteps_strip in Hs. cbn [fst snd] in Hs.
  apply (H2 _ _ Hs). now apply unaligned_strip.
Qed.
Lemma relabel_mwf e n : 0 < n -> mwfx e -> wf 4 (fst (relabel e n)) /\ typed (fst (relabel e n)) /\ strip (fst (relabel e n)) = e /\
  fresh_in n (snd (relabel e n)) (elabs (fst (relabel e n))).
Proof.
  intros Hn [Hw Ht]. destruct (relabel_wf 4 e n Hn Hw) as (A & B & C). split; [exact A|]. split; [|auto].
  apply typed_unstrip. rewrite B. exact Ht.
Qed.
Lemma mtail_strip e tail : mtail e tail -> forall e', strip e' = e -> mtail e' tail.
Proof.
  intros [->|[->|[Hv H]]] e' <-; [apply mtail_nil|apply mtail_ret|]. right. right. split; [|exact H]. now rewrite isvoid_strip in Hv.
Qed.

Lemma comp_expr_inv e tail c code c' : comp_expr e tail c = Some (code, c') ->
  exists e', relabel e (lc c) = (e', lc c') /\ gen_expr (rpn 4 e' ++ tail) = Some code /\ c' = set_lc (lc c') c.
Proof.
  unfold comp_expr. destruct (relabel e (lc c)) as [e' n] eqn:E. intros H. apply obind_Some in H as (cd & Hc & H).
  apply some_inj, pair_inj in H as [-> <-]. exists e'. auto.
Qed.
Lemma comp_expr_L e tail c code c' : mwfx e -> mtail e tail -> comp_expr e tail c = Some (code, c') -> L c (labels code) c'.
Proof.
  intros Hw Ht H Hi. destruct (comp_expr_inv _ _ _ _ _ H) as (e' & E & G & Ec). revert Hi. rewrite Ec.
  intros Hi. destruct (relabel_mwf e (lc c) (proj1 Hi) Hw) as (W1 & T1 & S1 & W3). rewrite E in W1, T1, S1, W3. cbn [fst snd] in *.
  revert Hi. apply L_sub with (b := elabs e').
  - eapply mexpr_labels; eauto; eapply mtail_strip; eauto.
  - now apply L_fresh.
Qed.
Lemma comp_ctl_L t neg l c code c' : cmwfx t -> comp_ctl t neg l c = Some (code, c') -> L c (labels code) c'.
Proof.
  destruct t as [v|e]; cbn [comp_ctl cmwfx]; intros Hw H.
  - apply some_inj, pair_inj in H as [<- <-]. destruct (Bool.eqb _ _); apply L_nil.
  - assert (A : forall code1 c', comp_expr e [TReturn] c = Some (code1, c') ->
      L c (labels (code1 ++ (if neg then gen_jump_if_zero rV0 l else gen_jump_if_not_zero rV0 l))) c').
    { intros c1 c2 H1. apply comp_expr_L in H1; auto using mtail_ret. rewrite mlabels_app.
      replace (labels (if neg then gen_jump_if_zero rV0 l else gen_jump_if_not_zero rV0 l)) with (@nil Z) by (destruct neg; reflexivity).
      now rewrite app_nil_r. }
    destruct e; try (apply obind_Some in H as ([c1 c2] & H1 & H); apply some_inj, pair_inj in H as [<- <-]; now apply A).
    apply comp_expr_L in H; auto. right. right. split; [reflexivity|]. exists (negb neg), l. destruct neg; reflexivity.
Qed.
Lemma comp_octl_L t l c code c' : ocmwfx t -> comp_octl t l c = Some (code, c') -> L c (labels code) c'.
Proof.
  destruct t; cbn; [apply comp_ctl_L|]. intros _ H. apply some_inj, pair_inj in H as [<- <-]. apply L_nil.
Qed.

Lemma gen_chain_labels tbl : labels (gen_chain tbl) = [].
Proof. induction tbl as [|[v l] t IH]; cbn; auto. Qed.
Ltac ob H x y Hx := apply obind_Some in H as ([x y] & Hx & H).
Ltac fin H := apply some_inj, pair_inj in H as [<- <-].
Lemma labels_jump l : labels (gen_jump l) = []. Proof. reflexivity. Qed.
Lemma labels_opt (b : bool) l : labels (if b then [] else gen_jump l) = []. Proof. now destruct b. Qed.

Ltac perm := rewrite (Permutation_count_occ Z.eq_dec); let z := fresh in intros z;
  repeat (rewrite ?count_occ_app; cbn [count_occ app]; try match goal with |- context[Z.eq_dec ?a ?b] => destruct (Z.eq_dec a b) end); lia.
Lemma comp_L s : forall x lvl last C code C', mswf s -> comp x lvl last s C = Some (code, C') -> L C (labels code) C'.
Proof.
  induction s; intros X lvl last C code C' Hw H; cbn [comp mswf] in *.
  - fin H. apply L_nil.
  - eapply comp_expr_L; eauto using mtail_nil.
  - ob H ca c1 H1. ob H cb c2 H2. fin H. rewrite mlabels_app. destruct Hw. eapply L_app; eauto.
  - eauto.
  - ob H ct c1 H1. ob H ca c2 H2. fin H. destruct Hw.
    apply comp_ctl_L in H1; auto. apply IHs in H2; auto.
    apply L_reserve_then with (n := lc C + 2) (rs := [lc C]) (l := labels ct ++ labels ca); [lia|repeat constructor; intros []| |eapply L_app; eauto|].
    + intros y [<-|[]]. lia.
    + rewrite !mlabels_app. cbn [labels app]. rewrite app_assoc. apply Permutation_cons_append.
  - ob H ct c1 H1. ob H ca c2 H2. ob H cb c3 H3. fin H. destruct Hw as (? & ? & ?).
    apply comp_ctl_L in H1; auto. apply IHs1 in H2; auto. apply IHs2 in H3; auto.
    apply L_reserve_then with (n := lc C + 2) (rs := [lc C; lc C + 1]) (l := labels ct ++ labels ca ++ labels cb);
      [lia|repeat constructor; cbn; intuition lia| |eapply L_app; eauto; eapply L_app; eauto|].
    + cbn; intuition lia.
    + rewrite !mlabels_app, labels_jump. cbn [labels app]. perm.
  - ob H ct c1 H1. ob H cb c2 H2. fin H. destruct Hw.
    apply comp_ctl_L in H1; auto. apply IHs in H2; auto.
    apply L_reserve_then with (n := lc C + 2) (rs := [lc C; lc C + 1]) (l := labels ct ++ labels cb);
      [lia|repeat constructor; cbn; intuition lia| |eapply L_app; eauto|].
    + cbn; intuition lia.
    + rewrite !mlabels_app, labels_opt. cbn [labels app]. apply perm_skip. rewrite app_assoc. apply Permutation_cons_append.
  - ob H cb c1 H1. ob H ct c2 H2. fin H. destruct Hw.
    apply IHs in H1; auto. apply comp_ctl_L in H2; auto.
    apply L_reserve_then with (n := lc C + 3) (rs := [lc C; lc C + 1; lc C + 2]) (l := labels cb ++ labels ct);
      [lia|repeat constructor; cbn; intuition lia| |eapply L_app; eauto|].
    + cbn; intuition lia.
    + rewrite !mlabels_app. cbn [labels app]. perm.
  - ob H ci c1 H1. ob H ct c2 H2. destruct Hw as (Wi & Wc & Wx & Wb).
    assert (L1 : L (set_lc (lc C + 4) C) (labels ci) c1).
    { destruct i; [eapply comp_expr_L; eauto using mtail_nil|]. fin H1. apply L_nil. }
    apply comp_octl_L in H2; auto.
    destruct x as [e|].
    + destruct (relabel e (lc c2)) as [e' n] eqn:Er.
      assert (LX : forall cx, gen_expr (rpn 4 e') = Some cx -> L c2 (labels cx) (set_lc n c2)).
      { intros cx Hx. apply (comp_expr_L e [] c2 cx (set_lc n c2) Wx (mtail_nil e)).
        unfold comp_expr. rewrite Er, app_nil_r, Hx. reflexivity. }
      destruct (_ && _).
      * ob H cb c3 H3. apply obind_Some in H as (cx & H4 & H). fin H. apply LX in H4. apply IHs in H3; auto.
        apply L_reserve_then with (n := lc C + 4) (rs := [lc C; lc C + 1; lc C + 3]) (l := labels ci ++ labels ct ++ labels cx ++ labels cb);
          [lia|repeat constructor; cbn; intuition lia|cbn; intuition lia| |].
        -- eapply L_app; [exact L1|]. eapply L_app; [exact H2|]. eapply L_app; [exact H4|]. exact H3.
        -- rewrite !mlabels_app, labels_opt. cbn [labels app]. perm.
      * apply obind_Some in H as (cx & H4 & H). ob H cb c3 H3. fin H. apply LX in H4. apply IHs in H3; auto.
        apply L_reserve_then with (n := lc C + 4) (rs := [lc C; lc C + 1; lc C + 2; lc C + 3]) (l := labels ci ++ labels ct ++ labels cx ++ labels cb);
          [lia|repeat constructor; cbn; intuition lia|cbn; intuition lia| |].
        -- eapply L_app; [exact L1|]. eapply L_app; [exact H2|]. eapply L_app; [exact H4|]. exact H3.
        -- rewrite !mlabels_app, !labels_jump. cbn [labels app]. perm.
    + ob H cb c3 H3. fin H. apply IHs in H3; auto.
      apply L_reserve_then with (n := lc C + 4) (rs := [lc C; lc C + 3]) (l := labels ci ++ labels ct ++ labels cb);
        [lia|repeat constructor; cbn; intuition lia|cbn; intuition lia| |].
      * eapply L_app; [exact L1|]. eapply L_app; [exact H2|]. exact H3.
      * rewrite !mlabels_app, labels_opt. cbn [labels app]. perm.
  - destruct (brk X); [|discriminate]. fin H. apply L_nil.
  - destruct (cnt X =? 0); [discriminate|]. fin H. apply L_nil.
  - ob H ce c1 H1. fin H. rewrite mlabels_app.
    replace (labels (if _ : bool then [] else gen_jump (epi X))) with (@nil Z) by (destruct (last && (lvl =? 1) && negb (main X)); reflexivity).
    rewrite app_nil_r. destruct e; [eapply comp_expr_L; eauto using mtail_ret|]. fin H1. apply L_nil.
  - ob H ce c1 H1. apply obind_Some in H as (c2 & H2 & H). ob H cb c3 H3. ob H q d H4. fin H. destruct Hw.
    apply comp_expr_L in H1; auto using mtail_ret. apply add_case_inv in H2. apply IHs in H3; auto.
    apply L_reserve_then with (n := lc C + 2) (rs := [lc C; lc C + 1]) (l := labels ce ++ labels cb);
      [lia|repeat constructor; cbn; intuition lia|cbn; intuition lia| |].
    + eapply L_app; [exact H1|]. eapply L_ext; [exact H3|..]; subst; reflexivity.
    + rewrite !mlabels_app, !labels_jump, gen_chain_labels. 
      replace (labels (if (if d =? 0 then lc C else d) =? lc C then [] else gen_jump (if d =? 0 then lc C else d))) with (@nil Z)
        by (destruct (_ =? lc C); reflexivity).
      cbn [labels app]. perm.
  - destruct (cidx X =? 0); [discriminate|]. destruct (existsb _ _); [discriminate|].
    apply obind_Some in H as (c1 & H1 & H). ob H ca c2 H2. fin H. apply add_case_inv in H1. subst c1. apply IHs in H2; auto.
    cbn [labels app lc] in *. change (lc C :: labels ca) with ([lc C] ++ labels ca).
    eapply L_app; [apply (L_reserve C (lc C + 1) [lc C]); [lia|repeat constructor; intros []|intros y [<-|[]]; lia]|].
    eapply L_ext; [exact H2|..]; reflexivity.
  - destruct (cidx X =? 0); [discriminate|]. ob H v d H0. destruct (negb _); [discriminate|].
    apply obind_Some in H as (cs & H1 & H). ob H ca c2 H2. fin H. apply IHs in H2; auto.
    cbn [labels app lc] in *. change (lc C :: labels ca) with ([lc C] ++ labels ca).
    eapply L_app; [apply (L_reserve C (lc C + 1) [lc C]); [lia|repeat constructor; intros []|intros y [<-|[]]; lia]|].
    eapply L_ext; [exact H2|..]; reflexivity.
  - ob H k c1 H1. fin H. apply (goto_L 4 (or_intror eq_refl)) in H1. exact H1.
  - ob H k c1 H1. ob H ca c2 H2. fin H. apply (goto_L 4 (or_intror eq_refl)) in H1. apply IHs in H2; auto.
    change (labels ([Mlab k] ++ ca)) with ([k] ++ labels ca). eapply L_app; eauto.
Qed.
