(** GenExpr0 emits the code of the tree: all expressions. *)
From Verif Require Import Base BaseLemmas X86 ExprSpec CgModel CgTree CgFuse MipsModel MipsSpec MipsCode MipsPrep MipsEmit.
Ltac Zify.zify_post_hook ::= idtac.

Lemma C_call mcd f args w n : C mcd (ECall f args) w n =
  (if one mcd then [] else if 4 * zlen args <? 16 then gen_grow (16 - 4 * zlen args) else []) ++
  C_args mcd n args 0 ++
  (if one mcd then [] else argpush mcd (isnil args)) ++
  (match f with EIdent _ => [] | _ => C mcd f rV0 n end) ++
  (if one mcd then gen_grow 16 else loadargs (4 * zlen args)) ++
  (match f with EIdent id => [Mjal id] | _ => [Mjalr rV0] end) ++
  gen_grow (- (if 4 * zlen args <? 16 then 16 else 4 * zlen args)).
Proof. reflexivity. Qed.
Lemma cdepth_call f args : cdepth (ECall f args) = 1 + Z.max (cdepth f) (cdepth_args args).
Proof. reflexivity. Qed.

Section Emit.
Variable mcd : Z.
Hypothesis Hmcd : 0 <= mcd.
Notation gen_step := (MipsModel.gen_step mcd).
Notation C := (MipsCode.C mcd).
Notation rk := (MipsCode.rk mcd).
Notation wpush := (MipsCode.wpush mcd).
Notation pushc := (MipsCode.pushc mcd).
Notation popc := (MipsCode.popc mcd).
Notation lreg := (MipsCode.lreg mcd).
Notation rreg := (MipsCode.rreg mcd).
Notation em := (MipsEmit.em mcd).
Notation gok := (MipsEmit.gok mcd).
Notation pc := (MipsEmit.pc mcd).
Notation w1 := (MipsEmit.w1 mcd).
Notation emits := (MipsEmit.emits mcd).
Notation depthok := (MipsEmit.depthok mcd).

Ltac gs := unfold MipsModel.gen_step; rewrite ?g_cur, ?g_prev, ?g_next; cbn [obind].

Lemma emits_num u k : emits (ENum u k).
Proof.
  intros pre post g n w _ _ Hg _ Hn. destruct (push_if_ok mcd Hmcd g n w Hg) as (g' & E & Hg' & Hpo).
  exists (set_gu true g'). cbn [P MipsCode.C guf]. split; [|split; [reflexivity|split; [exact Hg'|intros; exact Hpo]]].
  apply em_one. gs. cbn [nextok] in Hn. rewrite Hn, E. destruct Hg' as [-> _]. reflexivity.
Qed.
Lemma emits_ident k : emits (EIdent k).
Proof.
  intros pre post g n w _ _ Hg _ Hn. destruct (push_if_ok mcd Hmcd g n w Hg) as (g' & E & Hg' & Hpo).
  exists (set_gu true g'). cbn [P MipsCode.C guf]. split; [|split; [reflexivity|split; [exact Hg'|intros; exact Hpo]]].
  apply em_one. gs. cbn [nextok] in Hn. destruct Hn as [Hn1 Hn2]. rewrite Hn1, Hn2, E. destruct Hg' as [-> _]. reflexivity.
Qed.
Lemma emits_local k : emits (ELocal k).
Proof.
  intros pre post g n w _ _ Hg _ Hn. destruct (push_if_ok mcd Hmcd g n w Hg) as (g' & E & Hg' & Hpo).
  exists (set_gu true g'). cbn [P MipsCode.C guf]. split; [|split; [reflexivity|split; [exact Hg'|intros; exact Hpo]]].
  apply em_one. gs. cbn [nextok] in Hn. rewrite Hn, E. destruct Hg' as [-> _]. reflexivity.
Qed.

(** An operator after two operands. *)
Lemma emits_two l r t op pre post g n w : emits l -> emits r -> wf 4 l -> wf 4 r -> typed l -> typed r ->
  isvoid l = false -> isvoid r = false ->
  gok g n w -> depthok (Z.max (cdepth l) (cdepth r)) (w1 g n w) -> nextok r (Some t) ->
  (forall s i g c L R g', zget s i = Some t -> zget s (i + 1) = hd_error post -> zget s (i - 1) = olast (pre ++ P l ++ P r) ->
     pop_reg mcd g = (c, L, R, g') -> gen_step s i g = Some (c ++ op (wr g') L R, i + 1, g')) ->
  exists g', em pre (P l ++ P r ++ [t]) post g
     (pc g n w ++ two mcd (w1 g n w) (n1 g n) (C l (w1 g n w) (n1 g n)) (C r (wpush (w1 g n w) (n1 g n)) (n1 g n + 1)) ++
      op (w1 g n w) (lreg (w1 g n w) (n1 g n)) (rreg (w1 g n w) (n1 g n))) g' /\
   gu g' = true /\ gok g' (n1 g n) (w1 g n w) /\ (Z.max (cdepth l) (cdepth r) = 0 -> po g' = po g).
Proof.
  intros IHl IHr Hl Hr Tl Tr Vl Vr Hg Hd Hn Hop.
  destruct (two_emits mcd Hmcd l r pre (t :: post) g n w) as (g1 & E1 & g2 & E2 & U2 & G2 & P2); auto.
  exists g2. split; [|auto]. rewrite app_assoc. eapply em_eq.
  - apply em_app with (b := [t]) (1 := E1). apply em_one. apply (Hop _ _ _ _ _ _ _ (g_cur _ _ _) (g_next _ _ _) (g_prev _ _ _) E2).
  - reflexivity.
  - destruct G2 as [-> _]. unfold two. now las.
Qed.

Lemma wf_anum r o : wf 4 r -> typed r -> isvoid r = false -> emits r ->
  exists r', P r' = match anum o r with Some k => [MT (TNum k)] | None => P r end /\
    (forall w n, C r' w n = match anum o r with Some k => [Mli w k] | None => C r w n end) /\
    wf 4 r' /\ typed r' /\ isvoid r' = false /\ emits r' /\ cdepth r' = cdepth r /\
    (r' = r \/ exists k, r' = ENum false k).
Proof.
  intros Hw Ht Hv He. destruct (anum o r) as [k|] eqn:E.
  - exists (ENum false k). destruct r; try discriminate E. repeat split; auto using emits_num. right. eauto.
  - exists r. repeat split; auto.
Qed.

Lemma isif_branch {A} o (a b : A) : isif o = false ->
  (match o with Some (MT (TIf l)) => a | Some (MT (TIfNot l)) => a | _ => b end) = b.
Proof. destruct o as [[[]| | | |]|]; try discriminate; reflexivity. Qed.
Lemma isif_lab o : isif o = false ->
  (match o with Some (MT (TIf l)) => (true, true, l) | Some (MT (TIfNot l)) => (true, false, l) | _ => (false, false, 0) end) = (false, false, 0).
Proof. destruct o as [[[]| | | |]|]; try discriminate; reflexivity. Qed.
Definition isnumo (o : option mtok) : bool := match o with Some x => isnum x | None => false end.
Lemma num_match {A} o (f : Z -> A) d : isnumo o = false -> match o with Some (MT (TNum n)) => f n | _ => d end = d.
Proof. destruct o as [[[]| | | |]|]; try discriminate; reflexivity. Qed.

(** Comparisons and arithmetic on registers. *)
Lemma bin_step t s i g c L R g' : match t with TArith _ _ | TCmp _ _ => True | _ => False end ->
  zget s i = Some (MT t) -> isif (zget s (i + 1)) = false -> isimm t = false \/ isnumo (zget s (i - 1)) = false ->
  pop_reg mcd g = (c, L, R, g') -> gen_step s i g = Some (c ++ bin_code t (wr g') L R, i + 1, g').
Proof.
  intros Ht Hs Hn Hp Hpop. unfold MipsModel.gen_step. rewrite Hs. cbn [obind]. destruct t; try contradiction.
  - cbv zeta. rewrite Hpop. cbn [isimm] in Hp.
    destruct Hp as [Hp|Hp].
    + destruct a; try discriminate Hp; reflexivity.
    + destruct a; cbn [is_div]; try reflexivity; apply num_match; assumption.
  - destruct Hp as [Hp|Hp]; [discriminate|].
    unfold gen_cmp. destruct (cmp_op c0) as [op uns] eqn:Eo. rewrite !(num_match _ _ _ Hp).
    rewrite isif_lab by assumption. cbn [Z.eqb Pos.eqb]. rewrite Hpop. cbn [andb]. unfold bin_code, cmp_reg, slt_of. rewrite Eo. cbn [fst snd].
    reflexivity.
Qed.
(** Operators with an immediate operand. *)
Lemma imm_step t k s i g : isimm t = true ->
  zget s i = Some (MT t) -> isif (zget s (i + 1)) = false -> zget s (i - 1) = Some (MT (TNum k)) ->
  gen_step s i g = Some (imm_code t k (wr g), i + 1, g).
Proof.
  intros Ht Hs Hn Hp. unfold MipsModel.gen_step. rewrite Hs, Hp. cbn [obind]. destruct t; try discriminate.
  - destruct a; try discriminate; reflexivity.
  - unfold gen_cmp, imm_code, cmp_imm, slt_of. destruct (cmp_op c) as [op uns] eqn:Eo. rewrite isif_lab by assumption. cbn [fst snd].
    destruct (k =? 0); cbn [Z.eqb Pos.eqb andb]; reflexivity.
Qed.

Lemma bconst_kind t l r sw k t' : match t with TArith _ _ | TCmp _ _ => True | _ => False end ->
  bconst t l r = Some (sw, k, t') -> match t' with TArith _ _ | TCmp _ _ => True | _ => False end /\
    (if sw then exists u j, l = ENum u j else exists u j, r = ENum u j).
Proof.
  intros Ht. rewrite bconst_eq.
  assert (S0 : forall t k, match t with TArith _ _ | TCmp _ _ => True | _ => False end -> match snd (special_const t k) with TArith _ _ | TCmp _ _ => True | _ => False end).
  { intros t0 k0. destruct t0; try contradiction; intros _; unfold special_const; [destruct a|destruct c];
    repeat match goal with |- context [if ?b then _ else _] => destruct b end; exact Logic.I. }
  destruct (onum_ex r) as [j|] eqn:Er.
  - assert (R0 : match snd (rconst t j) with TArith _ _ | TCmp _ _ => True | _ => False end).
    { unfold rconst. specialize (S0 t j Ht). destruct t; try contradiction; [destruct a|]; cbn [iscomm];
        repeat match goal with |- context [if ?b then _ else _] => destruct b end; auto. }
    destruct (rconst t j). intros [= <- _ <-]. split; [exact R0|]. destruct r; try discriminate Er. eauto.
  - destruct (onum_ex l) as [j|] eqn:El; [|discriminate]. destruct (iscomm t); [|discriminate].
    pose proof (S0 (flip t) j (flip_binop _ Ht)) as S1. destruct (special_const (flip t) j). intros [= <- _ <-]. split; [exact S1|].
    destruct l; try discriminate El. eauto.
Qed.
Lemma bconst_none t l r : bconst t l r = None -> onum_ex r = None.
Proof. rewrite bconst_eq. destruct (onum_ex r) as [j|]; [destruct (rconst t j); discriminate|reflexivity]. Qed.

Lemma last_notnum r pre : wf 4 r -> onum_ex r = None -> isnumo (olast (pre ++ P r)) = false.
Proof.
  intros Hw Hn. destruct (P_num r Hw) as (v & y & E & _ & Ho & _). rewrite E, olast_snoc2. cbn [isnumo].
  rewrite Hn in Ho. destruct y as [[]| | | |]; try reflexivity. discriminate Ho.
Qed.

Lemma emits_bin t l r pre post g n w : match t with TArith _ _ | TCmp _ _ => True | _ => False end ->
  emits l -> emits r -> wf 4 l -> wf 4 r -> typed l -> typed r -> isvoid l = false -> isvoid r = false ->
  gok g n w -> depthok (Z.max (cdepth l) (cdepth r)) (w1 g n w) -> isif (hd_error post) = false ->
  exists g', em pre (match bconst t l r with
      | Some (sw, k, t') => (if sw then P r else P l) ++ [MT (TNum k); MT t']
      | None => P l ++ P r ++ [MT t] end) post g
    (pc g n w ++ match bconst t l r with
      | Some (sw, k, t') => (if sw then C r (w1 g n w) (n1 g n) else C l (w1 g n w) (n1 g n)) ++ const_code mcd t' k (w1 g n w) (n1 g n)
      | None => two mcd (w1 g n w) (n1 g n) (C l (w1 g n w) (n1 g n)) (C r (wpush (w1 g n w) (n1 g n)) (n1 g n + 1)) ++
                bin_code t (w1 g n w) (lreg (w1 g n w) (n1 g n)) (rreg (w1 g n w) (n1 g n)) end) g' /\
   gu g' = true /\ gok g' (n1 g n) (w1 g n w) /\ (Z.max (cdepth l) (cdepth r) = 0 -> po g' = po g).
Proof.
  intros Ht IHl IHr Hl Hr Tl Tr Vl Vr Hg Hd Hn. pose proof (cdepth_nonneg l). pose proof (cdepth_nonneg r).
  destruct (bconst t l r) as [[[sw k] t']|] eqn:Eb.
  - destruct (bconst_kind _ _ _ _ _ _ Ht Eb) as [Ht' Hx].
    set (x := if sw then r else l).
    replace (if sw then P r else P l) with (P x) by (unfold x; destruct sw; reflexivity).
    replace (if sw then C r (w1 g n w) (n1 g n) else C l (w1 g n w) (n1 g n)) with (C x (w1 g n w) (n1 g n)) by (unfold x; destruct sw; reflexivity).
    assert (Hx' : emits x /\ wf 4 x /\ typed x /\ isvoid x = false /\ cdepth x = Z.max (cdepth l) (cdepth r)).
    { unfold x. destruct sw; destruct Hx as (u & j & ->); cbn [cdepth] in *; repeat split; auto; lia. }
    destruct Hx' as (IHx & Hwx & Tx & Vx & Dx). rewrite <- Dx in *. clear Hx.
    unfold const_code. destruct (isimm t') eqn:Ei.
    + destruct (IHx pre (MT (TNum k) :: MT t' :: post) g n w Hwx Tx Hg Hd) as (g1 & E1 & U1 & G1 & P1).
      { apply plain_ok. repeat split. }
      rewrite (guf_void x Vx) in U1. exists (set_gu true g1). split; [|split; [reflexivity|split; [exact G1|exact P1]]].
      change [MT (TNum k); MT t'] with ([MT (TNum k)] ++ [MT t']). rewrite app_assoc.
      eapply em_eq; [eapply em_app with (b := [MT t']); [eapply em_app with (b := [MT (TNum k)]) (1 := E1)|]|reflexivity|].
      * apply em_one. gs. cbn [hd_error app]. replace (imm_next (Some (MT t'))) with true by (destruct t'; try discriminate Ei; [destruct a; try discriminate Ei|]; reflexivity). reflexivity.
      * apply em_one. apply (imm_step t' k); [exact Ei|apply g_cur|now rewrite g_next|rewrite g_prev, app_assoc; apply olast_snoc].
      * cbn [wr set_gu]. destruct G1 as [-> _]. rewrite app_nil_r, <- app_assoc. reflexivity.
    + destruct (emits_two x (ENum false k) (MT t') (bin_code t') pre post g n w IHx (emits_num false k) Hwx Logic.I Tx Logic.I Vx eq_refl Hg) as (g' & E & U & G & Po).
      * cbn [cdepth]. now rewrite Z.max_l by lia.
      * cbn [nextok]. destruct t'; try contradiction; [|discriminate]. destruct a; try discriminate Ei; reflexivity.
      * intros s i g0 c L R g' H1 H2 H3 H4. apply bin_step; auto. now rewrite H2.
      * exists g'. split; [|split; [exact U|split; [exact G|]]].
        -- eapply em_eq; [exact E|reflexivity|]. unfold two. cbn [MipsCode.C]. now las.
        -- cbn [cdepth] in Po. rewrite Z.max_l in Po by lia. exact Po.
  - apply emits_two; auto.
    + apply bconst_none in Eb. destruct r; try discriminate Eb; cbn [nextok]; auto; destruct t; try contradiction; repeat split.
    + intros s i g0 c L R g' H1 H2 H3 H4. apply bin_step; auto; [now rewrite H2|]. right. rewrite H3, app_assoc.
      apply last_notnum; auto. eapply bconst_none; eauto.
Qed.

(** *** Calls *)
Lemma npush (H : mcd <> 0) w n m : pushc w n = pushc w m.
Proof. unfold MipsCode.pushc. rewrite !rk_eq. replace (mcd =? 0) with false by lia. reflexivity. Qed.
Lemma nwpush (H : mcd <> 0) w n : wpush w n = w.
Proof. unfold MipsCode.wpush. rewrite rk_eq. replace (mcd =? 0) with false by lia. reflexivity. Qed.

(** The state before the argument with index [j] ([-1]: before the function); [first]: nothing was evaluated yet. *)
Definition argst (j : Z) (first : bool) (g : gst) : Prop :=
  if one mcd then
    po g = 4 * j /\ (if j <? 0 then wr g = rV0 /\ gu g = false
                     else if j <? 4 then wr g = rA0 + j /\ gu g = false
                     else wr g = rV0 /\ gu g = negb first)
  else wr g = rV0 /\ gu g = negb first.

Lemma emits_args (Hm : mcd <> 0) args n : Forall emits args -> wf_args 4 args ->
  (fix go l := match l with [] => True | a :: l => (isvoid a = false /\ typed a) /\ go l end) args ->
  cdepth_args args <= mcd - 1 -> forall i pre post g, 0 <= i ->
  argst (i + zlen args - 1) true g ->
  exists g', em pre (P_args args) post g (C_args mcd n args i) g' /\ argst (i - 1) (isnil args) g'.
Proof.
  induction args as [|a l IH]; intros Hf Hw Ht Hd i pre post g Hi Hs.
  - exists g. split; [constructor|]. change (zlen []) with 0 in Hs. rewrite Z.add_0_r in Hs. exact Hs.
  - inversion Hf as [|? ? IHa Hf']; subst. destruct Hw as [Hwa Hwl]. destruct Ht as [[Va Ta] Tl].
    change (cdepth_args (a :: l)) with (Z.max (cdepth_args l) (cdepth a)) in Hd. pose proof (cdepth_nonneg a) as Hda.
    rewrite P_args_cons. change (C_args mcd n (a :: l) i) with
      (C_args mcd n l (i + 1) ++ (if one mcd && (i <? 4) then C a (rA0 + i) n
       else argpush mcd (isnil l) ++ C a rV0 n ++ (if one mcd && (i =? 4) then pushc rV0 0 else []))).
    destruct (IH Hf' Hwl Tl ltac:(lia) (i + 1) pre ((P a ++ [MT TArgSep]) ++ post) g ltac:(lia)) as (g1 & E1 & S1).
    { rewrite zlen_cons in Hs. replace (i + 1 + zlen l - 1) with (i + (zlen l + 1) - 1) by lia. replace (i + (1 + zlen l) - 1) with (i + (zlen l + 1) - 1) in Hs by lia. exact Hs. }
    replace (i + 1 - 1) with i in S1 by lia. cbn [isnil].
    set (n0 := if gu g1 then n - 1 else n). assert (En : n1 g1 n0 = n) by (unfold n1, n0; destruct (gu g1); lia).
    assert (Go : gok g1 n0 (wr g1)) by (split; [reflexivity|intros; contradiction]).
    assert (Ew : w1 g1 n0 (wr g1) = wr g1) by (unfold MipsEmit.w1; rewrite nwpush by assumption; now destruct (gu g1)).
    destruct (IHa (pre ++ P_args l) (MT TArgSep :: post) g1 n0 (wr g1) Hwa Ta Go) as (g2 & E2 & U2 & G2 & P2).
    { rewrite Ew. unfold argst, one in S1. destruct (mcd =? 1) eqn:Em.
      - left. lia.
      - right. destruct S1 as [S1 _]. repeat split; auto; lia. }
    { apply plain_ok. repeat split. }
    rewrite (guf_void a Va) in U2. rewrite En, Ew in *. destruct G2 as [W2 _].
    assert (Hp : po g2 = po g1 \/ one mcd = false).
    { unfold one. destruct (mcd =? 1) eqn:Em; [left; apply P2; lia|now right]. }
    unfold argst in S1 |- *. destruct (one mcd) eqn:Eo; cbn [andb].
    + destruct Hp as [Hp|]; [|discriminate]. destruct S1 as [S1 S2]. replace (i <? 0) with false in S2 by lia.
      assert (Hstep : gen_step (((pre ++ P_args l) ++ P a) ++ MT TArgSep :: post) (zlen ((pre ++ P_args l) ++ P a)) g2 =
         Some (if i =? 4 then pushc (wr g2) 0 else [], zlen ((pre ++ P_args l) ++ P a) + 1,
          if i =? 4 then mkg false rA3 (tu g2 + 1) 12 else if i <? 4 then mkg false (if i =? 0 then rV0 else wr g2 - 1) (tu g2) (4 * i - 4) else mkg (gu g2) (wr g2) (tu g2) (4 * i - 4))).
      { gs. unfold one in Eo. rewrite Eo, Hp, S1. destruct (i =? 4) eqn:E4.
        - replace (4 * i =? 16) with true by lia. destruct (push_ok mcd Hmcd g2 0 (wr g2) ltac:(split; [reflexivity|intros; contradiction])) as [Ep _].
          rewrite Ep. cbn [tu]. replace (4 * i - 4) with 12 by lia. reflexivity.
        - replace (4 * i =? 16) with false by lia. destruct (i <? 4) eqn:E5.
          + replace ((0 <=? 4 * i) && (4 * i <=? 12)) with true by lia. replace (4 * i =? 0) with (i =? 0) by lia. reflexivity.
          + replace ((0 <=? 4 * i) && (4 * i <=? 12)) with false by lia. reflexivity. }
      eexists. split.
      * eapply em_eq; [eapply em_app with (1 := E1); eapply em_app with (b := [MT TArgSep]) (1 := E2)|reflexivity|].
        -- apply em_one. exact Hstep.
        -- destruct (i <? 4) eqn:E4.
           ++ destruct S2 as [S2 S3]. replace (i =? 4) with false by lia. unfold MipsEmit.pc. rewrite S3, S2. now las.
           ++ destruct S2 as [S2 S3]. rewrite W2, S2. unfold argpush. unfold MipsEmit.pc. rewrite S3, ?S2.
              rewrite (npush Hm rV0 n0 0). destruct (isnil l); destruct (i =? 4); cbn [negb]; now las.
      * cbn beta. destruct (i =? 4) eqn:E4; [|destruct (i <? 4) eqn:E5].
        -- cbn [po wr gu]. split; [lia|]. replace (i - 1 <? 0) with false by lia. replace (i - 1 <? 4) with true by lia. split; [|reflexivity]. unfold rA3, rA0. lia.
        -- cbn [po wr gu]. split; [lia|]. destruct (i =? 0) eqn:E0; [replace (i - 1 <? 0) with true by lia; auto|].
           replace (i - 1 <? 0) with false by lia. replace (i - 1 <? 4) with true by lia. split; [|reflexivity]. lia.
        -- cbn [po wr gu]. split; [lia|]. replace (i - 1 <? 0) with false by lia. replace (i - 1 <? 4) with false by lia. rewrite W2. split; [tauto|exact U2].
    + destruct S1 as [S1 S2]. exists g2. split.
      * eapply em_eq; [eapply em_app with (1 := E1); eapply em_app with (b := [MT TArgSep]) (1 := E2)|reflexivity|].
        -- apply em_one. gs. unfold one in Eo. rewrite Eo. reflexivity.
        -- unfold argpush, MipsEmit.pc. rewrite S2, S1. rewrite (npush Hm rV0 n0 0). destruct (isnil l); cbn [negb]; now las.
      * rewrite W2. cbn [negb]. auto.
Qed.

Lemma emits_call f args : emits f -> Forall emits args -> emits (ECall f args).
Proof.
  intros IHf IHa pre post g n w Hw Ht Hg Hd Hn. rewrite P_call, C_call. rewrite cdepth_call in *.
  cbn [wf typed guf] in *. destruct Hw as [Hwf Hwa]. destruct Ht as [[Vf Tf] Ta].
  pose proof (cdepth_nonneg f) as D1. 
  destruct Hd as [Hd|(Hm & Hw1 & Hd)]; [lia|]. rewrite Hw1 in *.
  destruct (push_if_ok mcd Hmcd g n w Hg) as (g0 & E0 & G0 & Po0). destruct G0 as [W0 _]. rewrite Hw1 in W0.
  set (v := 4 * zlen args). set (n' := n1 g n).
  set (ga := mkg false (if (mcd =? 1) && (0 <=? v - 4) && (v - 4 <=? 12) then rA0 + (v - 4) / 4 else wr g0) (tu g0) (v - 4)).
  pose proof (zlen_nonneg args) as Hz.
  destruct (emits_args Hm args n' IHa Hwa Ta ltac:(lia) 0 (pre ++ [MT (TLParen v)]) ((P f ++ [MT (TRParen v)]) ++ post) ga ltac:(lia)) as (g1 & E1 & S1).
  { unfold argst, ga, one. destruct (mcd =? 1) eqn:Em.
    - cbn [po wr gu]. split; [lia|]. cbn [andb]. destruct (0 + zlen args - 1 <? 0) eqn:Ez.
      + replace (0 <=? v - 4) with false by lia. auto.
      + replace (0 <=? v - 4) with true by lia. cbn [andb]. destruct (0 + zlen args - 1 <? 4) eqn:E4.
        * replace (v - 4 <=? 12) with true by lia. split; [|reflexivity]. f_equal. unfold v. symmetry. apply Z.div_unique with 0; lia.
        * replace (v - 4 <=? 12) with false by lia. auto.
    - cbn [wr gu andb]. auto. }
  assert (S1' : wr g1 = rV0 /\ gu g1 = if one mcd then false else negb (isnil args)).
  { unfold argst in S1. destruct (one mcd); [|exact S1]. destruct S1 as [_ S1]. exact S1. }
  destruct S1' as [W1 U1].
  set (n0 := if gu g1 then n' - 1 else n'). assert (En : n1 g1 n0 = n') by (unfold n1, n0; destruct (gu g1); lia).
  assert (Go : gok g1 n0 rV0) by (split; [exact W1|intros; contradiction]).
  assert (Ew : w1 g1 n0 rV0 = rV0) by (unfold MipsEmit.w1; rewrite nwpush by assumption; now destruct (gu g1)).
  assert (Ef : exists g2, em ((pre ++ [MT (TLParen v)]) ++ P_args args) (P f) (MT (TRParen v) :: post) g1
     (pc g1 n0 rV0 ++ match f with EIdent _ => [] | _ => C f rV0 n' end) g2 /\ gu g2 = true /\ wr g2 = rV0).
  { destruct (onum_ex f) eqn:Eon; [|destruct (pl f) as [p|] eqn:Epf].
    - destruct (IHf ((pre ++ [MT (TLParen v)]) ++ P_args args) (MT (TRParen v) :: post) g1 n0 rV0 Hwf Tf Go) as (g2 & E2 & U2 & G2 & _).
      { rewrite Ew. right. repeat split; auto; lia. } { destruct f; try discriminate Eon. reflexivity. }
      exists g2. rewrite Ew, En in *. rewrite (guf_void f Vf) in U2. destruct f; try discriminate Eon. split; [exact E2|]. split; [exact U2|apply G2].
    - destruct f; try discriminate Epf.
      + destruct (push_if_ok mcd Hmcd g1 n0 rV0 Go) as (g2 & E2 & G2 & _). rewrite Ew in G2. exists (set_gu true g2). split; [|split; [reflexivity|apply G2]].
        cbn [P]. apply em_one. gs. rewrite E2. cbn [hd_error is_rpar orb]. reflexivity.
      + destruct (IHf ((pre ++ [MT (TLParen v)]) ++ P_args args) (MT (TRParen v) :: post) g1 n0 rV0 Hwf Tf Go) as (g2 & E2 & U2 & G2 & _).
        { left. reflexivity. } { reflexivity. } rewrite Ew, En in *. exists g2. split; [exact E2|]. split; [exact U2|apply G2].
    - destruct (IHf ((pre ++ [MT (TLParen v)]) ++ P_args args) (MT (TRParen v) :: post) g1 n0 rV0 Hwf Tf Go) as (g2 & E2 & U2 & G2 & _).
      { rewrite Ew. right. repeat split; auto; lia. } { destruct f; try discriminate; exact Logic.I || reflexivity. }
      exists g2. rewrite Ew, En in *. rewrite (guf_void f Vf) in U2. split; [|split; [exact U2|apply G2]].
      destruct f; try discriminate Epf; exact E2. }
  destruct Ef as (g2 & E2 & U2 & W2). exists g2. split; [|split; [exact U2|split; [split; [exact W2|intros; contradiction]|lia]]].
  change (MT (TLParen v) :: P_args args ++ P f ++ [MT (TRParen v)]) with ([MT (TLParen v)] ++ P_args args ++ P f ++ [MT (TRParen v)]).
  eapply em_eq.
  - eapply em_app with (a := [MT (TLParen v)]) (b := P_args args ++ P f ++ [MT (TRParen v)]); [|eapply em_app with (a := P_args args) (b := P f ++ [MT (TRParen v)]) (1 := E1); eapply em_app with (b := [MT (TRParen v)]) (1 := E2)].
    + apply em_one. gs. rewrite E0. cbv zeta. reflexivity.
    + apply em_one. gs. reflexivity.
  - reflexivity.
  - assert (Eprev : forall A (F : Z -> A) d, match olast (((pre ++ [MT (TLParen v)]) ++ P_args args) ++ P f) with Some (MT (TIdent n)) => F n | _ => d end =
       match f with EIdent id => F id | _ => d end).
    { intros A F d. destruct (P_end f Hwf) as (u & y & Ey & H1 & _). destruct (isleaf_ex f) eqn:El.
      - destruct f; try discriminate El; cbn [P]; rewrite olast_snoc; reflexivity.
      - rewrite Ey, olast_snoc2. specialize (H1 eq_refl). destruct y; try discriminate H1; destruct f; try discriminate El; reflexivity. }
    rewrite Eprev. clear Eprev. rewrite W2. fold v. unfold MipsEmit.pc at 2. rewrite U1. unfold argpush, one, loadargs. rewrite (npush Hm rV0 n0 0).
    destruct (mcd =? 1); cbn [negb andb]; [|destruct (isnil args); cbn [negb]]; destruct f; now las.
Qed.

(** *** All expressions *)
Lemma emits_all e : emits e.
Proof.
  induction e using ex_ind2; try (intros pre post g n w Hw Ht Hg Hd Hn; cbn [wf typed cdepth guf] in *).
  - contradiction.
  - apply emits_num.
  - now apply emits_ident.
  - now apply emits_local.
  - destruct Hw as [_ Hw], Ht as [Hv Ht]. cbn [P MipsCode.C].
    destruct (emits_access mcd Hmcd e (TStar sz) (fun p w => match p with PReg _ => gread (PReg w) w sz | _ => gread p w sz end) pre post g n w) as (g' & E & R); auto.
    { intros s i g0 p Hs Hp. unfold MipsModel.gen_step. rewrite Hs. cbn [obind].
      assert (Ep : gread (place_of (zget s (i - 1)) (wr g0)) (wr g0) sz = match p with PReg _ => gread (PReg (wr g0)) (wr g0) sz | _ => gread p (wr g0) sz end).
      { subst p. destruct (zget s (i - 1)) as [[[]| | | |]|]; reflexivity. }
      rewrite Ep. reflexivity. }
    exists g'. split; [|exact R]. eapply em_eq; [exact E|reflexivity|]. f_equal. destruct e; reflexivity.
  - destruct Hw as [_ Hw], Ht as [Hv Ht]. cbn [P MipsCode.C].
    destruct (emits_access mcd Hmcd e (if i then TInc sz else TDec sz) (fun p w => match p with PReg r => Mmove r w :: gen_incdec i (PReg r) w sz | p => gen_incdec i p w sz end) pre post g n w) as (g' & E & R); auto.
    { now destruct i. }
    { intros s j g0 p Hs Hp. unfold MipsModel.gen_step. rewrite Hs. cbn [obind]. destruct i; rewrite Hp; destruct p; reflexivity. }
    exists g'. split; [|exact R]. eapply em_eq; [exact E|reflexivity|]. f_equal. destruct e; reflexivity.
  - destruct Hw as [_ Hw], Ht as [Hv Ht]. cbn [P MipsCode.C].
    destruct (emits_access mcd Hmcd e (if i then TPostInc sz else TPostDec sz) (fun p w => match p with PReg r => Mmove r w :: gen_postincdec i (PReg r) w sz | p => gen_postincdec i p w sz end) pre post g n w) as (g' & E & R); auto.
    { now destruct i. }
    { intros s j g0 p Hs Hp. unfold MipsModel.gen_step. rewrite Hs. cbn [obind]. destruct i; rewrite Hp; destruct p; reflexivity. }
    exists g'. split; [|exact R]. eapply em_eq; [exact E|reflexivity|]. f_equal. destruct e; reflexivity.
  - intros pre post g n0 w Hw Ht Hg Hd Hn; cbn [wf typed cdepth guf] in *.
    destruct Hw as [_ Hw], Ht as [Hv Ht]. cbn [P MipsCode.C]. pose proof (cdepth_nonneg e) as D.
    destruct (emits_two e (ENum false n) (MT (if i then TPostAdd sz else TPostSub sz)) (fun w L R => gen_postby i w L R sz) pre post g n0 w
      IHe (emits_num false n) Hw Logic.I Ht Logic.I Hv eq_refl Hg) as (g' & E & U & G & Po).
    + cbn [cdepth]. now rewrite Z.max_l by lia.
    + destruct i; reflexivity.
    + intros s j g0 c L R g' H1 H2 H3 H4. unfold MipsModel.gen_step. rewrite H1. cbn [obind]. destruct i; rewrite H4; reflexivity.
    + exists g'. split; [eapply em_eq; [exact E|reflexivity|reflexivity]|]. split; [exact U|]. split; [exact G|].
      cbn [cdepth] in Po. rewrite Z.max_l in Po by lia. exact Po.
  - destruct Hw as [_ Hw], Ht as [Hv Ht]. cbn [P MipsCode.C].
    destruct (IHe pre (MT (TUn (tok_un u)) :: post) g n w Hw Ht Hg Hd) as (g1 & E1 & U1 & G1 & P1).
    { apply plain_ok. repeat split. }
    exists (if match u with EVoid => true | _ => false end then set_gu false g1 else g1). split; [|split; [|split]].
    + eapply em_un; [exact E1|]. gs. destruct G1 as [-> _]. destruct u; reflexivity.
    + destruct u; try reflexivity; rewrite U1; apply guf_void; apply Hv; discriminate.
    + destruct u; exact G1.
    + destruct u; exact P1.
  - destruct Hw as [Hw1 Hw2], Ht as [[V1 V2] [T1 T2]]. cbn [P MipsCode.C nextok] in *. apply (emits_bin (TArith (tok_arith o) 0)); auto; exact Logic.I.
  - destruct Hw as [Hw1 Hw2], Ht as [[V1 V2] [T1 T2]]. cbn [P MipsCode.C nextok] in *. apply (emits_bin (TCmp (tok_cmp o) 0)); auto; exact Logic.I.
  - destruct Hw as (_ & Hw1 & Hw2), Ht as [[V1 V2] [T1 T2]]. cbn [P MipsCode.C]. pose proof (cdepth_nonneg e2) as D2. pose proof (cdepth_nonneg e1) as D1.
    destruct (pl e1) as [p|] eqn:Ep.
    + assert (Dl : cdepth e1 = 0) by (destruct e1; try discriminate Ep; reflexivity). rewrite Dl in *. rewrite Z.max_r in * by lia.
      destruct (IHe2 pre ([rev_tok p; MT (TAssign sz)] ++ post) g n w Hw2 T2 Hg Hd) as (g1 & E1 & U1 & G1 & P1).
      { apply plain_ok. destruct e1; try discriminate Ep; injection Ep as <-; repeat split. }
      rewrite (guf_void e2 V2) in U1. exists g1. split; [|auto]. eapply em_eq; [eapply em_app with (1 := E1); eapply em_app with (a := [rev_tok p]) (b := [MT (TAssign sz)]); apply em_one|reflexivity|].
      * gs. destruct e1; try discriminate Ep; injection Ep as <-; reflexivity.
      * gs. rewrite olast_snoc. destruct e1; try discriminate Ep; injection Ep as <-; reflexivity.
      * destruct G1 as [-> _]. now las.
    + apply (emits_two e1 e2 (MT (TAssign sz)) (fun w L R => write_ind L R sz ++ (if w =? R then [] else [Mmove w R]) ++ gen_extend w sz)); auto.
      * apply plain_ok. repeat split.
      * intros s j g0 c L R g' H1 H2 H3 H4. unfold MipsModel.gen_step. rewrite H1, H3, app_assoc, rev_P by assumption. cbn [obind]. rewrite H4. reflexivity.
  - destruct Hw as (_ & Hw1 & Hw2), Ht as [[V1 V2] [T1 T2]]. cbn [P MipsCode.C]. cbv zeta.
    destruct (wf_anum e2 (tok_arith o) Hw2 T2 V2 IHe2) as (r & Er & Ec & Hwr & Tr & Vr & IHr & Dr & _). rewrite <- Er. rewrite <- Dr in *.
    pose proof (cdepth_nonneg r) as D2. pose proof (cdepth_nonneg e1) as D1. set (a := aop (tok_arith o) e2) in *.
    destruct (pl e1) as [p|] eqn:Ep.
    + assert (Dl : cdepth e1 = 0) by (destruct e1; try discriminate Ep; reflexivity). rewrite Dl in *. rewrite Z.max_r in * by lia.
      destruct (IHr pre ([rev_tok p; MT (TAssignOp a sz)] ++ post) g n w Hwr Tr Hg Hd) as (g1 & E1 & U1 & G1 & P1).
      { apply plain_ok. destruct e1; try discriminate Ep; injection Ep as <-; repeat split. }
      rewrite (guf_void r Vr) in U1. exists g1. split; [|auto]. eapply em_eq; [eapply em_app with (1 := E1); eapply em_app with (a := [rev_tok p]) (b := [MT (TAssignOp a sz)]); apply em_one|reflexivity|].
      * gs. destruct e1; try discriminate Ep; injection Ep as <-; reflexivity.
      * gs. rewrite olast_snoc. destruct e1; try discriminate Ep; injection Ep as <-; reflexivity.
      * destruct G1 as [-> _]. rewrite Ec. now las.
    + rewrite <- !Ec. apply (emits_two e1 r (MT (TAssignOp a sz)) (fun w L R => gen_assignop a w L R sz ++ gen_extend w sz)); auto.
      * apply plain_ok. repeat split.
      * intros s j g0 c L R g' H1 H2 H3 H4. unfold MipsModel.gen_step. rewrite H1, H3, app_assoc, rev_P by assumption. cbn [obind]. rewrite H4. reflexivity.
  - destruct Hw as (Hw1 & Hw2), Ht as [[x ->] [T1 T2]]. cbn [MipsCode.C]. change (P (EComma (EUn EVoid x) e2)) with (P (EUn EVoid x) ++ P e2 ++ [MT TComma]).
    pose proof (cdepth_nonneg e2) as D2. pose proof (cdepth_nonneg (EUn EVoid x)) as D1.
    destruct (IHe1 pre ((P e2 ++ [MT TComma]) ++ post) g n w Hw1 T1 Hg) as (g1 & E1 & U1 & G1 & P1).
    { eapply depthok_le; [exact Hmcd|exact Hd|lia]. } { exact Logic.I. }
    cbn [guf] in U1.
    destruct (IHe2 (pre ++ P (EUn EVoid x)) ([MT TComma] ++ post) g1 (n1 g n) (w1 g n w) Hw2 T2 G1) as (g2 & E2 & U2 & G2 & P2).
    { replace (w1 g1 (n1 g n) (w1 g n w)) with (w1 g n w) by (unfold MipsEmit.w1; now rewrite U1). eapply depthok_le; [exact Hmcd|exact Hd|lia]. } { apply plain_ok. repeat split. }
    assert (Q1 : forall n w, w1 g1 n w = w) by (intros; unfold MipsEmit.w1; now rewrite U1).
    assert (Q2 : forall n, n1 g1 n = n) by (intros; unfold n1; now rewrite U1).
    assert (Q3 : forall n w, pc g1 n w = []) by (intros; unfold MipsEmit.pc; now rewrite U1).
    rewrite Q1, Q2 in *. rewrite Q3 in E2.
    exists g2. split; [|split; [exact U2|split; [exact G2|intros; rewrite P2, P1 by lia; reflexivity]]].
    eapply em_eq; [eapply em_app with (1 := E1); eapply em_app with (1 := E2); apply em_one|reflexivity|].
    + gs. reflexivity.
    + cbn [MipsCode.C]. now las.
  - destruct Hw as (Hk & _ & _ & Hw1 & Hw2), Ht as [[V1 V2] [T1 T2]]. cbn [MipsCode.C P].
    pose proof (cdepth_nonneg e2) as D2. pose proof (cdepth_nonneg e1) as D1.
    destruct (IHe1 pre ((MT (TShortCirc k) :: P e2 ++ [MT (TLogAnd k)]) ++ post) g n w Hw1 T1 Hg) as (g1 & E1 & U1 & G1 & P1).
    { eapply depthok_le; [exact Hmcd|exact Hd|lia]. } { apply plain_ok. repeat split. }
    destruct (IHe2 ((pre ++ P e1) ++ [MT (TShortCirc k)]) ([MT (TLogAnd k)] ++ post) (set_gu false g1) (n1 g n) (w1 g n w) Hw2 T2 G1) as (g2 & E2 & U2 & G2 & P2).
    { eapply depthok_le; [exact Hmcd|exact Hd|lia]. } { apply plain_ok. repeat split. }
    cbn [MipsEmit.pc MipsEmit.w1 n1 gu set_gu] in E2, G2. rewrite (guf_void e2 V2) in U2.
    exists g2. split; [|split; [exact U2|split; [exact G2|intros; rewrite P2 by lia; cbn [po set_gu]; rewrite P1 by lia; reflexivity]]].
    eapply em_eq; [eapply em_app with (1 := E1); eapply em_app with (a := [MT (TShortCirc k)]) (b := P e2 ++ [MT (TLogAnd k)]); [apply em_one|eapply em_app with (1 := E2); apply em_one]|reflexivity|].
    + gs. replace (k >=? 0) with true by lia. reflexivity.
    + gs. reflexivity.
    + destruct G1 as [-> _]. unfold gen_jump_if_zero. now las.
  - destruct Hw as (Hk & _ & _ & Hw1 & Hw2), Ht as [[V1 V2] [T1 T2]]. cbn [MipsCode.C P].
    pose proof (cdepth_nonneg e2) as D2. pose proof (cdepth_nonneg e1) as D1.
    destruct (IHe1 pre ((MT (TShortCirc (- k)) :: P e2 ++ [MT (TLogOr k)]) ++ post) g n w Hw1 T1 Hg) as (g1 & E1 & U1 & G1 & P1).
    { eapply depthok_le; [exact Hmcd|exact Hd|lia]. } { apply plain_ok. repeat split. }
    destruct (IHe2 ((pre ++ P e1) ++ [MT (TShortCirc (- k))]) ([MT (TLogOr k)] ++ post) (set_gu false g1) (n1 g n) (w1 g n w) Hw2 T2 G1) as (g2 & E2 & U2 & G2 & P2).
    { eapply depthok_le; [exact Hmcd|exact Hd|lia]. } { apply plain_ok. repeat split. }
    cbn [MipsEmit.pc MipsEmit.w1 n1 gu set_gu] in E2, G2. rewrite (guf_void e2 V2) in U2.
    exists g2. split; [|split; [exact U2|split; [exact G2|intros; rewrite P2 by lia; cbn [po set_gu]; rewrite P1 by lia; reflexivity]]].
    eapply em_eq; [eapply em_app with (1 := E1); eapply em_app with (a := [MT (TShortCirc (- k))]) (b := P e2 ++ [MT (TLogOr k)]); [apply em_one|eapply em_app with (1 := E2); apply em_one]|reflexivity|].
    + gs. replace (- k >=? 0) with false by lia. reflexivity.
    + gs. reflexivity.
    + destruct G1 as [-> _]. unfold gen_jump_if_not_zero. rewrite Z.opp_involutive. now las.
  - destruct Hw as (Hk & Hw1 & Hw2 & Hw3), Ht as [V1 [T1 [T2 T3]]]. cbn [MipsCode.C P].
    pose proof (cdepth_nonneg e2) as D2. pose proof (cdepth_nonneg e1) as D1. pose proof (cdepth_nonneg e3) as D3.
    destruct (IHe1 pre ((MT (TShortCirc (- k)) :: P e3 ++ MT (TGoto (k + 1)) :: MT (TLogAnd k) :: P e2 ++ [MT (TLogAnd (k + 1))]) ++ post) g n w Hw1 T1 Hg) as (g1 & E1 & U1 & G1 & P1).
    { eapply depthok_le; [exact Hmcd|exact Hd|lia]. } { apply plain_ok. repeat split. }
    destruct (IHe3 ((pre ++ P e1) ++ [MT (TShortCirc (- k))]) ((MT (TGoto (k + 1)) :: MT (TLogAnd k) :: P e2 ++ [MT (TLogAnd (k + 1))]) ++ post) (set_gu false g1) (n1 g n) (w1 g n w) Hw3 T3 G1) as (g2 & E2 & U2 & G2 & P2).
    { eapply depthok_le; [exact Hmcd|exact Hd|lia]. } { apply plain_ok. repeat split. }
    cbn [MipsEmit.pc MipsEmit.w1 n1 gu set_gu] in E2, G2.
    destruct (IHe2 ((((pre ++ P e1) ++ [MT (TShortCirc (- k))]) ++ P e3) ++ [MT (TGoto (k + 1)); MT (TLogAnd k)]) ([MT (TLogAnd (k + 1))] ++ post) (set_gu false g2) (n1 g n) (w1 g n w) Hw2 T2 G2) as (g3 & E3 & U3 & G3 & P3).
    { eapply depthok_le; [exact Hmcd|exact Hd|lia]. } { apply plain_ok. repeat split. }
    cbn [MipsEmit.pc MipsEmit.w1 n1 gu set_gu] in E3, G3.
    exists g3. split; [|split; [exact U3|split; [exact G3|intros; rewrite P3 by lia; cbn [po set_gu]; rewrite P2 by lia; cbn [po set_gu]; rewrite P1 by lia; reflexivity]]].
    eapply em_eq; [eapply em_app with (1 := E1); eapply em_app with (a := [MT (TShortCirc (- k))]) (b := P e3 ++ [MT (TGoto (k + 1)); MT (TLogAnd k)] ++ P e2 ++ [MT (TLogAnd (k + 1))]);
      [apply em_one|eapply em_app with (1 := E2); eapply em_app with (a := [MT (TGoto (k + 1)); MT (TLogAnd k)]) (b := P e2 ++ [MT (TLogAnd (k + 1))]); [eapply em_cons; [|apply em_one]|eapply em_app with (1 := E3); apply em_one]]|reflexivity|].
    + gs. replace (- k >=? 0) with false by lia. reflexivity.
    + gs. reflexivity.
    + gs. reflexivity.
    + gs. reflexivity.
    + destruct G1 as [-> _]. unfold gen_jump_if_not_zero, gen_jump. rewrite Z.opp_involutive. now las.
  - now apply emits_call.
Qed.
End Emit.
