(** Generated function bodies do not change $31 except by calls (used by MipsFnProof). *)
From Verif Require Import Base BaseLemmas X86 ExprSpec ExprLemmas CgModel CgTree CgFuse StmtSpec StmtPre StmtModel StmtLab StmtLay StmtComp MipsModel MipsSpec MipsCode MipsEmit MipsGen MipsMach MipsSim MipsProps MipsStmtPre MipsStmtModel MipsStmtLab MipsFnModel.

Definition wr31 (i : mins) : bool :=
  match i with
  | Mla rd _ | Mli rd _ | Mmove rd _ | Mmflo rd | Mmfhi rd | Mload _ rd _ | Malu _ rd _ _ | Mseb rd _ | Mseh rd _ => rd =? 31
  | _ => false
  end.
Definition n31 (code : list mins) : Prop := existsb wr31 code = false.
Lemma n31_app a b : n31 (a ++ b) <-> n31 a /\ n31 b.
Proof. unfold n31. rewrite existsb_app. apply orb_false_iff. Qed.
Lemma n31_cons i b : n31 (i :: b) <-> wr31 i = false /\ n31 b.
Proof. unfold n31. cbn [existsb]. apply orb_false_iff. Qed.
Lemma n31_nil : n31 []. Proof. reflexivity. Qed.

Ltac n1 := repeat (rewrite n31_app || rewrite n31_cons); repeat split; auto using n31_nil; cbn [wr31]; try (apply Z.eqb_neq; unfold rTA, rTB, rSP, rV0, rA0 in *; lia).
Lemma n3c op rd rs k : rd <> 31 -> n31 (gen3c op rd rs k).
Proof. intros. unfold gen3c. destruct op; try (n1; fail); destruct (_ && _); n1. Qed.
Lemma n3 op rd rs rt : rd <> 31 -> n31 (gen3 op rd rs rt).
Proof. intros. unfold gen3. n1. Qed.
Lemma next r sz : r <> 31 -> n31 (gen_extend r sz).
Proof. intros. unfold gen_extend. repeat (destruct (_ =? _)); auto using n3c; n1. Qed.
Lemma nread p rd sz : rd <> 31 -> n31 (gread p rd sz).
Proof. intros. destruct p; cbn [gread]; unfold read_ident, read_local, read_ind; n1. Qed.
Lemma nwrite p rd sz : n31 (gwrite p rd sz).
Proof. destruct p; reflexivity. Qed.
Lemma nwind a b sz : n31 (write_ind a b sz). Proof. reflexivity. Qed.
Lemma nbin a w L R : w <> 31 -> n31 (gen_bin a w L R).
Proof. intros. unfold gen_bin. destruct (is_div a) as [[? []]|]; auto using n3; n1. Qed.
Lemma nincdec i p w sz : w <> 31 -> n31 (gen_incdec i p w sz).
Proof. intros. unfold gen_incdec. n1; auto using nread, n3c, nwrite, next. Qed.
Lemma npost i p w sz : w <> 31 -> n31 (gen_postincdec i p w sz).
Proof. intros. unfold gen_postincdec. cbv zeta. n1; auto using nread, n3c, nwrite, next. Qed.
Lemma npostby i w L R sz : w <> 31 -> n31 (gen_postby i w L R sz).
Proof. intros. unfold gen_postby, read_ind, gen3. cbv zeta. destruct (w =? L); n1; auto using nwind. Qed.
Lemma nassignop a w L R sz : w <> 31 -> n31 (gen_assignop a w L R sz).
Proof. intros. unfold gen_assignop, read_ind. destruct (w =? L); n1; auto using nbin, nwind. Qed.
Lemma nblk b slt br k w L R lab : w <> 31 -> n31 (gen_blk b slt br k w L R lab).
Proof. intros. destruct b; cbn [gen_blk]; auto using n3, n3c; n1. Qed.
Lemma nblks l slt br k w L R lab : w <> 31 -> n31 (concat (map (fun b => gen_blk b slt br k w L R lab) l)).
Proof. intros. induction l; cbn [map concat]; n1. now apply nblk. Qed.
Lemma npush mcd w n : n31 (pushc mcd w n).
Proof. unfold pushc. destruct (rk mcd n); n1; auto using n3c. Qed.
Lemma npop mcd n : n31 (popc mcd n).
Proof. unfold popc. destruct (rk mcd n); n1; auto using n3c. Qed.
Lemma nimm t k w : w <> 31 -> n31 (imm_code t k w).
Proof. intros. destruct t; cbn [imm_code]; try reflexivity; [now apply n3c|now apply nblks]. Qed.
Lemma nbinc t w L R : w <> 31 -> n31 (bin_code t w L R).
Proof. intros. destruct t; cbn [bin_code]; try reflexivity; [now apply nbin|now apply nblks]. Qed.
Lemma nun u w : w <> 31 -> n31 (unc u w).
Proof. intros. destruct u; cbn [unc]; auto using n3, n3c; n1. Qed.
Lemma ntwo mcd w n cl cr : n31 cl -> n31 cr -> n31 (two mcd w n cl cr).
Proof. intros. unfold two. n1; auto using npush, npop. Qed.
Lemma nloadargs v : n31 (loadargs v).
Proof. unfold loadargs. n1; destruct (_ <=? v); reflexivity. Qed.
Lemma nargpush mcd b : n31 (argpush mcd b).
Proof. unfold argpush. destruct b; [reflexivity|apply npush]. Qed.
Lemma ngrow k : n31 (gen_grow k).
Proof. unfold gen_grow. destruct (k =? 0); [reflexivity|now apply n3c]. Qed.

(** Registers that may be used for the value of a subexpression. *)
Definition kw (mcd w n : Z) : Prop := 0 <= n /\ 2 <= w <= 15 /\ (mcd = 0 -> w = 2 \/ w <= 7 + n).
Lemma kw31 mcd w n : kw mcd w n -> w <> 31. Proof. intros (_ & H & _). lia. Qed.
Lemma kw_push mcd w n : kw mcd w n -> kw mcd (wpush mcd w n) (n + 1).
Proof.
  intros (H0 & H1 & H2). unfold wpush, rk, can_use. destruct (Z.eqb_spec mcd 0) as [E|E]; cbn [andb].
  - destruct (n <? MAX_TEMP_REGS) eqn:Hn; unfold MAX_TEMP_REGS in Hn; unfold winc, rV0, rT0.
    + destruct (Z.eqb_spec w 2); repeat split; try lia; destruct (H2 E); lia.
    + repeat split; try lia; destruct (H2 E); lia.
  - repeat split; lia.
Qed.
Lemma nconst mcd t k w n : kw mcd w n -> n31 (const_code mcd t k w n).
Proof.
  intros K. pose proof (kw31 _ _ _ K). pose proof (kw31 _ _ _ (kw_push _ _ _ K)). unfold const_code. destruct (isimm t); [now apply nimm|].
  n1; auto using npush, npop, nbinc.
Qed.
Lemma one_kw mcd i n : one mcd && (i <? 4) = true -> 0 <= i -> 0 <= n -> kw mcd (rA0 + i) n.
Proof. unfold one, rA0. intros H Hi Hn. apply andb_prop in H as [H1 H2]. repeat split; lia. Qed.
Lemma n31_C mcd e : forall w n, kw mcd w n -> n31 (C mcd e w n).
Proof.
  induction e using ex_ind2; intros w m K; pose proof (kw31 _ _ _ K) as N; pose proof (kw31 _ _ _ (kw_push _ _ _ K)) as N1; cbn [C].
  - reflexivity.
  - n1.
  - n1.
  - now apply n3c.
  - destruct (pl e); n1; auto using nread.
  - destruct (pl e); n1; auto using nincdec.
  - destruct (pl e); n1; auto using npost.
  - n1; auto using npostby. apply ntwo; auto. n1.
  - n1; auto using nun.
  - destruct (bconst _ e1 e2) as [[[sw k] t]|]; n1; auto using nconst, ntwo, kw_push.
    + destruct sw; auto.
    + apply (nbinc (TArith (tok_arith o) 0)). exact N.
  - destruct (bconst _ e1 e2) as [[[sw k] t]|]; n1; auto using nconst, ntwo, kw_push.
    + destruct sw; auto.
    + eapply (nbinc (TCmp _ 0)). exact N.
  - destruct (pl e1); n1; auto using nwrite, next, ntwo, kw_push. destruct (w =? _); n1.
  - cbv zeta.
    assert (A : forall w n, kw mcd w n -> n31 (match anum (tok_arith o) e2 with Some k => [Mli w k] | None => C mcd e2 w n end)).
    { intros w' n' K'. pose proof (kw31 _ _ _ K'). destruct (anum _ _); [n1|auto]. }
    destruct (pl e1); n1; auto using nread, nbin, nwrite, next, ntwo, kw_push, nassignop. apply nread. unfold rTB. lia.
  - n1; auto.
  - n1; auto.
  - n1; auto.
  - n1; auto.
  - fold (C_args mcd m). cbv zeta. destruct K as (K0 & K1 & K2). assert (KV : kw mcd rV0 m) by (unfold rV0; repeat split; lia).
    assert (A : forall l i, 0 <= i -> Forall (fun e => forall w n, kw mcd w n -> n31 (C mcd e w n)) l -> n31 (C_args mcd m l i)).
    { induction l as [|a l IHl]; intros i Hi Hl; [reflexivity|]. inversion Hl; subst. cbn [C_args]. fold (C_args mcd m).
      rewrite n31_app. split; [apply IHl; auto; lia|]. destruct (one mcd && (i <? 4)) eqn:Eo; [apply H2, one_kw; auto|].
      n1; auto using nargpush. destruct (one mcd && (i =? 4)); [apply npush|reflexivity]. }
    repeat rewrite n31_app. repeat split; auto using ngrow; try lia.
    + destruct (one mcd); [reflexivity|]. destruct (_ <? 16); [apply ngrow|reflexivity].
    + apply A; auto. lia.
    + destruct (one mcd); [reflexivity|apply nargpush].
    + destruct e; try reflexivity; apply IHe; exact KV.
    + destruct (one mcd); [apply ngrow|apply nloadargs].
    + destruct e; reflexivity.
Qed.
Lemma kw0 mcd : kw mcd rV0 0. Proof. unfold kw, rV0. lia. Qed.
Lemma n31_Ctop mcd e : n31 (Ctop mcd e).
Proof.
  unfold Ctop. destruct (is_assign0 e) as [[sz l]|]; [|apply n31_C, kw0]. destruct (pl l); [apply nwrite|]. n1; auto using n31_C, kw0, nwind.
Qed.
Lemma n31_br c a b L R yes lab : n31 (br_code c a b rV0 L R yes lab).
Proof. unfold br_code. destruct (cmp_op c) as [op uns]. cbv zeta. apply nblks. discriminate. Qed.
Lemma n31_Cif e yes lab : n31 (Cif e yes lab).
Proof.
  assert (J : n31 (jmp yes lab)) by (destruct yes; reflexivity).
  assert (D : forall mcd a, n31 (C mcd a rV0 0)) by (intros; apply n31_C, kw0).
  assert (K1 : forall mcd a, n31 (C mcd a (wpush mcd rV0 0) 1)) by (intros; apply n31_C, (kw_push _ _ 0), kw0).
  destruct e; cbn [Cif]; try (n1; fail). unfold Cbin. destruct (bconst _ e1 e2) as [[[sw k] t]|].
  - rewrite n31_app. split; [destruct sw; auto|]. destruct t; try apply n31_br; n1; auto using nconst, kw0.
  - n1; auto using ntwo, n31_br.
Qed.
Lemma n31_expr e tail code : wf 4 e -> typed e -> mtail e tail -> gen_expr (rpn 4 e ++ tail) = Some code -> n31 code.
Proof.
  intros Hw Ht [->|[->|[Hv (yes & lab & ->)]]] H.
  - rewrite app_nil_r, gen_stmt in H by assumption. injection H as <-. apply n31_Ctop.
  - rewrite gen_value in H by assumption. injection H as <-. apply n31_C, kw0.
  - rewrite gen_cond in H by assumption. injection H as <-. apply n31_Cif.
Qed.
Lemma n31_jump l : n31 (gen_jump l). Proof. reflexivity. Qed.
Lemma n31_lab l : n31 [Mlab l]. Proof. reflexivity. Qed.
Lemma n31_chain t : n31 (gen_chain t).
Proof. induction t as [|[v l] t IH]; [reflexivity|]. unfold gen_chain. cbn [flat_map]. rewrite n31_app. split; [reflexivity|exact IH]. Qed.
Lemma n31_comp_expr e tail c code c' : mwfx e -> mtail e tail -> 0 < lc c -> comp_expr e tail c = Some (code, c') -> n31 code /\ lc c <= lc c'.
Proof.
  intros Hw Ht Hl H. destruct (comp_expr_inv _ _ _ _ _ H) as (e' & E & G & Ec).
  destruct (relabel_mwf e (lc c) Hl Hw) as (W1 & T1 & S1 & _). pose proof (relabel_le e (lc c)) as Hle. rewrite E in *. cbn [fst snd] in *.
  split; [|exact Hle]. eapply n31_expr; eauto. eapply mtail_strip; eauto.
Qed.
Ltac ob H x y Hx := apply obind_Some in H as ([x y] & Hx & H).
Ltac fin H := apply some_inj, pair_inj in H as [<- <-].
Lemma n31_comp_ctl t neg l c code c' : cmwfx t -> 0 < lc c -> comp_ctl t neg l c = Some (code, c') -> n31 code /\ lc c <= lc c'.
Proof.
  intros Hw Hl H. destruct t as [v|e]; cbn [comp_ctl cmwfx] in *.
  - fin H. split; [|lia]. destruct (Bool.eqb _ _); reflexivity.
  - assert (A : (forall tl, mtail e tl -> comp_expr e tl c = Some (code, c') -> n31 code /\ lc c <= lc c') /\
      ((let? (code, c) := comp_expr e [TReturn] c in Some (code ++ (if neg then gen_jump_if_zero rV0 l else gen_jump_if_not_zero rV0 l), c)) = Some (code, c') -> n31 code /\ lc c <= lc c')).
    { split; [intros tl Ht Hc; eapply n31_comp_expr; eauto|]. intros Hc. ob Hc cd c1 H1. fin Hc. apply n31_comp_expr in H1 as [H1 H2]; auto using mtail_ret.
      split; auto. rewrite n31_app. split; auto. destruct neg; reflexivity. }
    destruct A as [A1 A2]. destruct e; try (exact (A2 H)). apply (A1 _) in H; auto. right. right. split; [reflexivity|].
    destruct neg; [exists false, l|exists true, l]; reflexivity.
Qed.
Lemma n31_comp_octl t l c code c' : ocmwfx t -> 0 < lc c -> comp_octl t l c = Some (code, c') -> n31 code /\ lc c <= lc c'.
Proof. intros Hw Hl H. destruct t; cbn [comp_octl] in H; [eapply n31_comp_ctl; eauto|]. fin H. split; [reflexivity|lia]. Qed.
Lemma add_goto_le l def c k c' : add_goto_label l def c = Some (k, c') -> lc c <= lc c'.
Proof.
  unfold add_goto_label. destruct (goto_find _ _) as [[? d]|]; [destruct (d && def)|destruct (_ >=? _)]; intros H; try discriminate; injection H as <- <-; cbn [lc]; lia.
Qed.
Ltac nn := repeat rewrite n31_app; repeat split; auto using n31_jump, n31_lab, n31_chain; try lia; try (match goal with |- n31 (if ?b then _ else _) => destruct b; reflexivity end).
Lemma n31_comp s : forall x lvl last C code C', mswf s -> 0 < lc C -> comp x lvl last s C = Some (code, C') -> n31 code /\ lc C <= lc C'.
Proof.
  induction s; intros X lvl last C code C' Hw HL H; cbn [comp mswf] in *.
  - fin H. split; [reflexivity|lia].
  - eapply n31_comp_expr; eauto using mtail_nil.
  - ob H ca c1 H1. ob H cb c2 H2. fin H. destruct Hw. apply IHs1 in H1 as [A1 A2]; auto. apply IHs2 in H2 as [B1 B2]; auto; try lia. nn.
  - eauto.
  - ob H ct c1 H1. ob H ca c2 H2. fin H. destruct Hw. apply n31_comp_ctl in H1 as [A1 A2]; cbn [lc set_lc] in *; auto; try lia. apply IHs in H2 as [B1 B2]; auto; try lia. nn.
  - ob H ct c1 H1. ob H ca c2 H2. ob H cb c3 H3. fin H. destruct Hw as (? & ? & ?).
    apply n31_comp_ctl in H1 as [A1 A2]; cbn [lc set_lc] in *; auto; try lia. apply IHs1 in H2 as [B1 B2]; auto; try lia. apply IHs2 in H3 as [D1 D2]; auto; try lia. nn.
  - ob H ct c1 H1. ob H cb c2 H2. fin H. destruct Hw.
    apply n31_comp_ctl in H1 as [A1 A2]; cbn [lc set_lc] in *; auto; try lia. apply IHs in H2 as [B1 B2]; auto; try lia. nn.
  - ob H cb c1 H1. ob H ct c2 H2. fin H. destruct Hw.
    apply IHs in H1 as [A1 A2]; cbn [lc set_lc] in *; auto; try lia. apply n31_comp_ctl in H2 as [B1 B2]; auto; try lia. nn.
  - ob H ci c1 H1. ob H ct c2 H2. destruct Hw as (Wi & Wc & Wx & Wb).
    assert (L1 : n31 ci /\ lc C + 4 <= lc c1).
    { destruct i; [apply n31_comp_expr in H1; cbn [lc set_lc] in *; auto using mtail_nil; lia|]. fin H1. split; [reflexivity|cbn; lia]. }
    destruct L1 as [L1 L2]. apply n31_comp_octl in H2 as [A1 A2]; auto; try lia.
    destruct x as [e|].
    + destruct (relabel e (lc c2)) as [e' n] eqn:Er.
      assert (LX : forall cx, gen_expr (rpn 4 e') = Some cx -> n31 cx /\ lc c2 <= n).
      { intros cx Hx. apply (n31_comp_expr e [] c2 cx (set_lc n c2) Wx (mtail_nil e)); [lia|].
        unfold comp_expr. rewrite Er, app_nil_r, Hx. reflexivity. }
      destruct (_ && _).
      * ob H cb c3 H3. apply obind_Some in H as (cx & H4 & H). fin H. apply LX in H4 as [D1 D2]. apply IHs in H3 as [B1 B2]; cbn [lc set_lc] in *; auto; try lia. nn.
      * apply obind_Some in H as (cx & H4 & H). ob H cb c3 H3. fin H. apply LX in H4 as [D1 D2]. apply IHs in H3 as [B1 B2]; cbn [lc set_lc] in *; auto; try lia. nn.
    + ob H cb c3 H3. fin H. apply IHs in H3 as [B1 B2]; auto; try lia. nn.
  - destruct (brk X); [|discriminate]. fin H. split; [reflexivity|lia].
  - destruct (cnt X =? 0); [discriminate|]. fin H. split; [reflexivity|lia].
  - ob H ce c1 H1. fin H. assert (A : n31 ce /\ lc C <= lc c1).
    { destruct e; [eapply n31_comp_expr; eauto using mtail_ret|]. fin H1. split; [reflexivity|lia]. }
    destruct A. nn.
  - ob H ce c1 H1. apply obind_Some in H as (c2 & H2 & H). ob H cb c3 H3. ob H q d H4. fin H. destruct Hw.
    apply n31_comp_expr in H1 as [A1 A2]; cbn [lc set_lc] in *; auto using mtail_ret; try lia. apply add_case_inv in H2. subst c2. apply IHs in H3 as [B1 B2]; cbn [lc] in *; auto; try lia. nn.
  - destruct (cidx X =? 0); [discriminate|]. destruct (existsb _ _); [discriminate|].
    apply obind_Some in H as (c1 & H1 & H). ob H ca c2 H2. fin H. apply add_case_inv in H1. subst c1. apply IHs in H2 as [A1 A2]; cbn [lc set_lc] in *; auto; try lia. nn.
  - destruct (cidx X =? 0); [discriminate|]. ob H v d H0. destruct (negb _); [discriminate|].
    apply obind_Some in H as (cs & H1 & H). ob H ca c2 H2. fin H. apply IHs in H2 as [A1 A2]; cbn [lc] in *; auto; try lia. nn.
  - ob H k c1 H1. fin H. assert (A : lc C <= lc c1) by (eapply add_goto_le; eauto). nn.
  - ob H k c1 H1. ob H ca c2 H2. fin H. assert (A : lc C <= lc c1) by (eapply add_goto_le; eauto). apply IHs in H2 as [A1 A2]; auto; try lia. nn.
Qed.
Lemma n31_body main n body code n' : mswf body -> 0 < n -> comp_body main n body = Some (code, n') -> n31 code.
Proof.
  intros Hw Hn H. unfold comp_body in H. ob H cb c H1. destruct (negb _); [discriminate|]. apply obind_Some in H as (cm & H2 & H). fin H.
  apply n31_comp in H1 as [A _]; cbn [lc]; auto; try lia. repeat rewrite n31_app. repeat split; auto.
  destruct main; [|apply some_inj in H2; subst; reflexivity].
  assert (E : gen_expr [TNum 0; TReturn] = Some [Mli 2 0]) by (vm_compute; reflexivity). rewrite E in H2. apply some_inj in H2. subst. reflexivity.
Qed.

(** Runs of code without calls keep $31. *)
Lemma exec_31 addr i s s' : exec addr i s = Some s' -> wr31 i = false -> R s' 31 = R s 31.
Proof.
  assert (S : forall r v t, r <> 31 -> R (setr r v t) 31 = R t 31).
  { intros r v t Hr. unfold setr. destruct (r =? 0); [reflexivity|]. cbn [R]. replace (31 =? r) with false by lia. reflexivity. }
  intros H W. destruct i; cbn [exec wr31] in *; try discriminate; try (injection H as <-; rewrite ?S by lia; reflexivity).
  - destruct (_ =? 0); [|discriminate]. injection H as <-. rewrite S by lia. destruct a; cbn [clobA]; rewrite ?S by lia; reflexivity.
  - destruct (_ =? 0); [|discriminate]. injection H as <-. destruct a; cbn [clobA]; rewrite ?S by lia; reflexivity.
  - assert (A : R (setr rd (aluv op (reg s rs) (opval s o)) (clob o s)) 31 = R s 31) by (rewrite S by lia; destruct o; cbn [clob]; rewrite ?S by lia; reflexivity).
    destruct op; injection H as <-; exact A.
  - destruct (_ =? 0); [discriminate|]. destruct sgn; [destruct (_ && _); [discriminate|]|]; injection H as <-; reflexivity.
Qed.
Lemma msteps_31 addr callee prog j x y : n31 prog -> existsb is_call prog = false -> msteps addr callee prog j x y -> R (snd y) 31 = R (snd x) 31.
Proof.
  intros HN HC H. induction H as [|k x y z H1 H2 IH]; [reflexivity|]. rewrite IH. clear IH H2. destruct x as [pc s]. unfold mstep in H1.
  apply obind_Some in H1 as (i & Hi & H1). apply nth_error_In in Hi.
  assert (Wi : wr31 i = false) by (destruct (wr31 i) eqn:E; auto; exfalso; assert (existsb wr31 prog = true) by (apply existsb_exists; eauto); unfold n31 in HN; congruence).
  assert (Ci : is_call i = false) by (destruct (is_call i) eqn:E; auto; exfalso; assert (existsb is_call prog = true) by (apply existsb_exists; eauto); congruence).
  assert (B : forall b l, branch prog b l pc s = Some y -> R (snd y) 31 = R s 31).
  { intros b l Hb. unfold branch in Hb. destruct b; [apply obind_Some in Hb as (q & _ & Hb)|]; injection Hb as <-; reflexivity. }
  cbn [snd]. destruct i; try discriminate Ci; try (eapply B; exact H1); try (injection H1 as <-; reflexivity);
    apply obind_Some in H1 as (s' & E & H1); injection H1 as <-; eapply exec_31; eauto.
Qed.
