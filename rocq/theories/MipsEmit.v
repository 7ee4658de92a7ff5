(** GenExpr0 emits the code of the tree. *)
From Verif Require Import Base BaseLemmas X86 ExprSpec CgModel CgTree CgFuse MipsModel MipsSpec MipsCode MipsPrep.
Ltac Zify.zify_post_hook ::= idtac.

Definition olast (s : list mtok) : option mtok := zget s (zlen s - 1).
Lemma olast_snoc s x : olast (s ++ [x]) = Some x.
Proof. unfold olast. apply zget_at with (a := s) (b := []); [reflexivity|zl; lia]. Qed.
Lemma olast_snoc2 p s x : olast (p ++ s ++ [x]) = Some x.
Proof. rewrite app_assoc. apply olast_snoc. Qed.
Lemma g_cur {A} (pre : list A) t post : zget (pre ++ t :: post) (zlen pre) = Some t.
Proof. eapply zget_at; reflexivity. Qed.
Lemma g_prev pre t post : zget (pre ++ t :: post) (zlen pre - 1) = olast pre.
Proof.
  unfold olast. destruct pre as [|x l] using rev_ind; [reflexivity|]. clear IHl.
  rewrite <- app_assoc. rewrite !zlen_app. change (zlen [x]) with 1. replace (zlen l + 1 - 1) with (zlen l) by lia.
  cbn [app]. now rewrite !g_cur.
Qed.
Lemma g_next {A} (pre : list A) t post : zget (pre ++ t :: post) (zlen pre + 1) = hd_error post.
Proof.
  destruct post as [|x l].
  - cbn [hd_error]. apply zget_None. right. zl. change (zlen []) with 0. lia.
  - replace (pre ++ t :: x :: l) with ((pre ++ [t]) ++ x :: l) by now las. apply zget_at with (a := pre ++ [t]) (b := l); [reflexivity|zl; lia].
Qed.

Section Emit.
Variable mcd : Z.
Hypothesis Hmcd : 0 <= mcd.
Notation gen_step := (gen_step mcd).
Notation C := (C mcd).
Notation rk := (rk mcd).
Notation wpush := (wpush mcd).
Notation pushc := (pushc mcd).
Notation popc := (popc mcd).
Notation lreg := (lreg mcd).
Notation rreg := (rreg mcd).

Inductive em : list mtok -> list mtok -> list mtok -> gst -> list mins -> gst -> Prop :=
| em_nil pre post g : em pre [] post g [] g
| em_cons pre t mid post g c g1 c' g2 :
    gen_step (pre ++ t :: mid ++ post) (zlen pre) g = Some (c, zlen pre + 1, g1) ->
    em (pre ++ [t]) mid post g1 c' g2 -> em pre (t :: mid) post g (c ++ c') g2.

Lemma em_app pre a b post g c g1 c' g2 :
  em pre a (b ++ post) g c g1 -> em (pre ++ a) b post g1 c' g2 -> em pre (a ++ b) post g (c ++ c') g2.
Proof.
  revert pre g c. induction a as [|t a IH]; intros pre g c H1 H2.
  - inversion H1; subst. rewrite app_nil_r in H2. exact H2.
  - inversion H1; subst. cbn [app]. rewrite <- app_assoc. econstructor.
    + rewrite <- app_assoc. eassumption.
    + eapply IH; [eassumption|]. rewrite <- app_assoc. exact H2.
Qed.
Lemma em_one pre t post g c g' :
  gen_step (pre ++ t :: post) (zlen pre) g = Some (c, zlen pre + 1, g') -> em pre [t] post g c g'.
Proof. intros H. rewrite <- (app_nil_r c). econstructor; [exact H|constructor]. Qed.
Lemma em_eq pre ts ts' post g c c' g' : em pre ts post g c g' -> ts = ts' -> c = c' -> em pre ts' post g c' g'.
Proof. now intros H <- <-. Qed.

(** *** The generator's registers *)
Definition wreg (n : Z) : Z := if n =? 0 then rV0 else 7 + Z.min n 8.
Definition gok (g : gst) (n w : Z) : Prop := wr g = w /\ (mcd = 0 -> tu g = n /\ 0 <= n /\ w = wreg n).
Definition pc (g : gst) (n w : Z) := if gu g then pushc w n else [].
Definition w1 (g : gst) (n w : Z) := if gu g then wpush w n else w.
Definition n1 (g : gst) (n : Z) := if gu g then n + 1 else n.

Lemma rk_eq n : rk n = (mcd =? 0) && (n <? 8).
Proof. reflexivity. Qed.
Lemma push_ok g n w : gok g n w ->
  push_reg mcd g = (pushc w n, mkg (gu g) (wpush w n) (tu g + 1) (po g)) /\ gok (mkg (gu g) (wpush w n) (tu g + 1) (po g)) (n + 1) (wpush w n).
Proof.
  intros [<- Ht]. unfold push_reg, MipsCode.pushc, MipsCode.wpush, gok. rewrite rk_eq. unfold can_use, MAX_TEMP_REGS. cbn [wr tu].
  destruct (mcd =? 0) eqn:Em; cbn [andb].
  - apply Z.eqb_eq in Em. destruct (Ht Em) as (-> & Hn & Hw). split; [destruct (n <? 8); reflexivity|].
    split; [reflexivity|]. intros _. split; [reflexivity|]. split; [lia|]. rewrite Hw. unfold wreg, winc, rV0, rT0.
    destruct (n <? 8) eqn:E8; destruct (n =? 0) eqn:E0; replace (n + 1 =? 0) with false by lia; try lia.
    * cbn [Z.eqb Pos.eqb]. lia.
    * destruct (7 + Z.min n 8 =? 2) eqn:E; lia.
  - split; [reflexivity|]. split; [reflexivity|]. intros Em'. lia.
Qed.
Lemma push_if_ok g n w : gok g n w -> exists g', push_if mcd g = (pc g n w, g') /\ gok g' (n1 g n) (w1 g n w) /\ po g' = po g.
Proof.
  intros H. unfold push_if, pc, n1, w1. destruct (gu g) eqn:Eg.
  - destruct (push_ok g n w H) as [E H']. eexists. rewrite E. split; [reflexivity|]. split; [exact H'|reflexivity].
  - exists g. auto.
Qed.
Lemma pop_ok g n w : gok g (n + 1) (wpush w n) -> (mcd = 0 -> 0 <= n /\ w = wreg n) ->
  exists g', pop_reg mcd g = (popc n, lreg w n, rreg w n, g') /\ gok g' n w /\ po g' = po g /\ gu g' = gu g.
Proof.
  intros [E Ht] Hw. unfold pop_reg, MipsCode.popc, MipsCode.lreg, MipsCode.rreg. unfold MipsCode.wpush in *. rewrite rk_eq in *. unfold can_use, MAX_TEMP_REGS. rewrite E.
  destruct (mcd =? 0) eqn:Em; cbn [andb] in *.
  - apply Z.eqb_eq in Em. destruct (Ht Em) as (Et & Hn & Hw'). destruct (Hw Em) as [Hn0 ->]. rewrite Et. replace (n + 1 - 1) with n by lia.
    assert (Ew : n <? 8 = true -> wdec (winc (wreg n)) = wreg n).
    { intros H8. unfold wreg, winc, wdec, rV0, rT0. destruct (n =? 0) eqn:E0; [reflexivity|].
      replace (7 + Z.min n 8 =? 2) with false by lia. replace (7 + Z.min n 8 + 1 =? 8) with false by lia. lia. }
    destruct (n <? 8) eqn:E8.
    + eexists. rewrite Ew by reflexivity. split; [reflexivity|]. split; [|auto]. split; [reflexivity|]. intros _. cbn [tu]. auto.
    + eexists. split; [reflexivity|]. split; [|auto]. split; [reflexivity|]. intros _. cbn [tu]. auto.
  - eexists. split; [reflexivity|]. split; [|auto]. split; [reflexivity|]. intros Em'. lia.
Qed.

(** *** What may follow an expression *)
Definition isif (o : option mtok) : bool := match o with Some (MT (TIf _ | TIfNot _)) => true | _ => false end.
Definition nextok (e : ex) (o : option mtok) : Prop :=
  match e with
  | ENum _ _ => imm_next o = false
  | EIdent _ => is_rpar o = false /\ direct_next o = false
  | ELocal _ => direct_next o = false
  | EArith _ _ _ | ECmp _ _ _ => isif o = false
  | _ => True
  end.
Definition plain (o : option mtok) : Prop :=
  imm_next o = false /\ is_rpar o = false /\ direct_next o = false /\ isif o = false.
Lemma plain_ok e o : plain o -> nextok e o.
Proof. unfold plain. destruct e; cbn [nextok]; intuition. Qed.
Definition depthok (d w : Z) : Prop := d = 0 \/ (mcd <> 0 /\ w = rV0 /\ d <= mcd).
Lemma depthok_le d d' w : depthok d w -> 0 <= d' <= d -> depthok d' w.
Proof. unfold depthok. intros [H|H] Hd; [left; lia|right; lia]. Qed.
Lemma cdepth_nonneg e : 0 <= cdepth e.
Proof. induction e using ex_ind2; cbn [cdepth]; try lia. Qed.

Lemma guf_void e : isvoid e = false -> guf e = true.
Proof.
  induction e using ex_ind2; cbn [isvoid guf]; auto.
  - destruct u; auto.
  - intros Hv. apply orb_false_iff in Hv as [Hv _]. auto.
Qed.

(** The first token of an expression. *)
Lemma P_head e : wf 4 e -> exists t r, P e = t :: r /\ plain (Some t).
Proof.
  assert (B : forall a b t r, P a = t :: r /\ plain (Some t) -> exists t r, P a ++ b = t :: r /\ plain (Some t)).
  { intros a b t r [E Hp]. exists t, (r ++ b). rewrite E. auto. }
  assert (Hb : forall t0 a b, (exists t r, P a = t :: r /\ plain (Some t)) -> (exists t r, P b = t :: r /\ plain (Some t)) ->
     exists t r, match bconst t0 a b with Some (sw, k, t') => (if sw then P b else P a) ++ [MT (TNum k); MT t'] | None => P a ++ P b ++ [MT t0] end = t :: r /\ plain (Some t)).
  { intros t0 a b (ta & ra & Ha) (tb & rb & Hb). destruct (bconst t0 a b) as [[[[] k] t']|]; eauto. }
  assert (Pl : forall a, plain (Some (MT (TNum a)))) by (intros; repeat split).
  induction e using ex_ind2; cbn [wf]; intros Hw; try contradiction; cbn [P];
    try (eexists _, _; split; [reflexivity|repeat split; fail]).
  1-5: destruct Hw as [_ Hw]; destruct (IHe Hw) as (ta & ra & Ha); eauto.
  1-2: destruct Hw as [Hw1 Hw2]; auto.
  - destruct Hw as (_ & Hw1 & Hw2). destruct (IHe1 Hw1) as (ta & ra & Ha), (IHe2 Hw2) as (tb & rb & Hb'). destruct (pl e1); eauto.
  - destruct Hw as (_ & Hw1 & Hw2). destruct (IHe1 Hw1) as (ta & ra & Ha), (IHe2 Hw2) as (tb & rb & Hb'). cbv zeta. destruct (pl e1); [|eauto].
    destruct (anum _ _); [|eauto]. eexists _, _. split; [reflexivity|auto].
  - destruct Hw as (Hw1 & Hw2). destruct (IHe1 Hw1) as (ta & ra & Ha). eauto.
  - destruct Hw as (_ & _ & _ & Hw1 & Hw2). destruct (IHe1 Hw1) as (ta & ra & Ha). eauto.
  - destruct Hw as (_ & _ & _ & Hw1 & Hw2). destruct (IHe1 Hw1) as (ta & ra & Ha). eauto.
  - destruct Hw as (_ & Hw1 & Hw2 & _). destruct (IHe1 Hw1) as (ta & ra & Ha). eauto.
Qed.
Lemma plain_P e post : wf 4 e -> plain (hd_error (P e ++ post)).
Proof. intros Hw. destruct (P_head e Hw) as (t & r & -> & H). exact H. Qed.

(** *** The statement *)
Definition emits (e : ex) : Prop := forall pre post g n w,
  wf 4 e -> typed e -> gok g n w -> depthok (cdepth e) (w1 g n w) -> nextok e (hd_error post) ->
  exists g', em pre (P e) post g (pc g n w ++ C e (w1 g n w) (n1 g n)) g' /\ gu g' = guf e /\ gok g' (n1 g n) (w1 g n w) /\
    (cdepth e = 0 -> po g' = po g).

Ltac gs := unfold MipsModel.gen_step; rewrite ?g_cur, ?g_prev, ?g_next; cbn [obind].

Lemma gok_inv g n w : gok g n w -> mcd = 0 -> 0 <= n /\ w = wreg n.
Proof. intros [_ H] E. destruct (H E) as (_ & H1 & H2). auto. Qed.

(** A unary operator after its operand. *)
Lemma em_un a t post pre g n w g1 cc c g2 :
  em pre (P a) (t :: post) g (pc g n w ++ cc) g1 ->
  gen_step ((pre ++ P a) ++ t :: post) (zlen (pre ++ P a)) g1 = Some (c, zlen (pre ++ P a) + 1, g2) ->
  em pre (P a ++ [t]) post g (pc g n w ++ cc ++ c) g2.
Proof. intros H1 H2. rewrite app_assoc. eapply em_app; [exact H1|]. apply em_one. exact H2. Qed.

(** Access to an object: direct or through the register. *)
Lemma em_leafaddr a p pre t post g n w : pl a = Some p -> direct_next (Some t) = true -> gok g n w ->
  exists g', em pre (P a) (t :: post) g (pc g n w) g' /\ gu g' = true /\ gok g' (n1 g n) (w1 g n w) /\ po g' = po g /\
    forall r, place_of (olast (pre ++ P a)) r = p.
Proof.
  intros Hp Hd Hg. destruct (push_if_ok g n w Hg) as (g' & E & Hg' & Hpo). exists (set_gu true g').
  assert (Hn : is_rpar (Some t) || direct_next (Some t) = true) by (rewrite Hd; apply orb_true_r).
  destruct a; try discriminate Hp; injection Hp as <-; cbn [P].
  - split; [|split; [reflexivity|split; [exact Hg'|split; [exact Hpo|intros; now rewrite olast_snoc]]]].
    apply em_one. gs. rewrite E. cbn [hd_error]. rewrite Hn. now rewrite app_nil_r.
  - split; [|split; [reflexivity|split; [exact Hg'|split; [exact Hpo|intros; now rewrite olast_snoc]]]].
    apply em_one. gs. rewrite E. cbn [hd_error]. rewrite Hd. now rewrite app_nil_r.
Qed.
Lemma place_P a pre r : wf 4 a -> pl a = None -> place_of (olast (pre ++ P a)) r = PReg r.
Proof.
  intros Hw Hp. destruct (P_end a Hw) as (v & y & E & H1 & _). rewrite E, olast_snoc2.
  destruct (isleaf_ex a) eqn:El.
  - destruct a; try discriminate El; try discriminate Hp. cbn [P] in E. destruct v as [|? [|]]; try discriminate E. injection E as <-. reflexivity.
  - specialize (H1 eq_refl). destruct y; try discriminate H1; reflexivity.
Qed.
Lemma rev_P a pre : wf 4 a -> rev_place (olast (pre ++ P a)) = None.
Proof. intros Hw. destruct (P_end a Hw) as (v & y & E & H1 & _). rewrite E, olast_snoc2. reflexivity. Qed.

Lemma emits_access a (t : tok) c pre post g n w : emits a -> wf 4 a -> typed a -> isvoid a = false ->
  gok g n w -> depthok (cdepth a) (w1 g n w) -> direct_next (Some (MT t)) = true ->
  (forall s i g p, zget s i = Some (MT t) -> place_of (zget s (i - 1)) rTA = p ->
     gen_step s i g = Some (c p (wr g), i + 1, g)) ->
  exists g', em pre (P a ++ [MT t]) post g
      (pc g n w ++ match pl a with Some p => c p (w1 g n w) | None => C a (w1 g n w) (n1 g n) ++ c (PReg rTA) (w1 g n w) end) g' /\
    gu g' = true /\ gok g' (n1 g n) (w1 g n w) /\ (cdepth a = 0 -> po g' = po g).
Proof.
  intros IH Hw Ht Hv Hg Hd Hdir Hc. destruct (pl a) as [p|] eqn:Ep.
  - destruct (em_leafaddr a p pre (MT t) post g n w Ep Hdir Hg) as (g' & E & Hu & Hg' & Hpo & Hpl).
    exists g'. split; [|auto]. eapply em_app; [exact E|]. apply em_one. destruct Hg' as [Ew Hg']. rewrite <- Ew. apply Hc; [apply g_cur|].
    rewrite g_prev. apply Hpl.
  - destruct (IH pre (MT t :: post) g n w Hw Ht Hg Hd) as (g' & E & Hu & Hg' & Hpo).
    { destruct a; try discriminate Ep; try exact Logic.I; cbn [nextok hd_error]; destruct t; try discriminate Hdir; reflexivity. }
    exists g'. rewrite (guf_void a Hv) in Hu. split; [|auto]. eapply em_un; [exact E|].
    destruct Hg' as [Ew Hg']. rewrite <- Ew. apply Hc; [apply g_cur|]. rewrite g_prev. now apply place_P.
Qed.

(** Two operands: the state before the operator. *)
Lemma two_emits l r pre post g n w : emits l -> emits r -> wf 4 l -> wf 4 r -> typed l -> typed r -> isvoid l = false -> isvoid r = false ->
  gok g n w -> depthok (Z.max (cdepth l) (cdepth r)) (w1 g n w) -> nextok r (hd_error post) ->
  exists g1, em pre (P l ++ P r) post g
     (pc g n w ++ C l (w1 g n w) (n1 g n) ++ pushc (w1 g n w) (n1 g n) ++ C r (wpush (w1 g n w) (n1 g n)) (n1 g n + 1)) g1 /\
   exists g2, pop_reg mcd g1 = (popc (n1 g n), lreg (w1 g n w) (n1 g n), rreg (w1 g n w) (n1 g n), g2) /\ gu g2 = true /\
     gok g2 (n1 g n) (w1 g n w) /\ (Z.max (cdepth l) (cdepth r) = 0 -> po g2 = po g).
Proof.
  intros IHl IHr Hl Hr Tl Tr Vl Vr Hg Hd Hn. pose proof (cdepth_nonneg l). pose proof (cdepth_nonneg r).
  destruct (IHl pre (P r ++ post) g n w Hl Tl Hg) as (g1 & E1 & U1 & G1 & P1).
  { eapply depthok_le; [exact Hd|lia]. } { apply plain_ok. now apply plain_P. }
  rewrite (guf_void l Vl) in U1. set (w' := w1 g n w) in *. set (n' := n1 g n) in *.
  assert (Wp : mcd <> 0 -> wpush w' n' = w').
  { intros Hm. unfold MipsCode.wpush. rewrite rk_eq. replace (mcd =? 0) with false by lia. reflexivity. }
  destruct (IHr (pre ++ P l) post g1 n' w' Hr Tr G1) as (g2 & E2 & U2 & G2 & P2).
  { unfold w1. rewrite U1. destruct Hd as [Hd|(Hd1 & Hd2 & Hd3)]; [left; lia|right]. rewrite Wp by assumption. lia. } { exact Hn. }
  exists g2. split.
  - eapply em_eq; [eapply em_app; [exact E1|exact E2]|reflexivity|]. unfold pc at 2, w1 at 1, n1 at 1. rewrite U1. now rewrite <- app_assoc.
  - unfold w1, n1 in G2. rewrite U1 in G2. destruct (pop_ok g2 n' w' G2 (gok_inv _ _ _ G1)) as (g3 & E3 & G3 & Po3 & U3).
    exists g3. split; [exact E3|]. rewrite (guf_void r Vr) in U2. split; [congruence|]. split; [exact G3|].
    intros Hz. rewrite Po3, P2, P1 by lia. reflexivity.
Qed.
End Emit.
