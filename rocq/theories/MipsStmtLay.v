(** Layout of statement code and simulation, as in StmtLay, for the MIPS machine. *)
From Verif Require Import Base BaseLemmas X86 ExprSpec ExprLemmas CgModel CgTree StmtSpec StmtModel StmtLab StmtLay MipsModel MipsSpec MipsSim MipsStmtPre.

Section Lay.
Variables (addr : Z -> Z) (bp lo top : Z) (prot : Z -> Prop).
Variables (callee : Z -> mst -> option mst) (ext : Z -> list Z -> mem -> option (Z * mem)) (room : Z) (prog : list mins).
Variable D : Z.              (* stack depth *)
Variable G : Z -> nat -> Prop.  (* positions of goto labels *)
Hypothesis Gfun : forall l p q, G l p -> G l q -> p = q.
Variable pE : nat.           (* epilogue *)
Variable is_main : bool.
Notation mstep := (mstep addr callee prog).
Notation mstar := (mstar addr callee prog).
Notation regs := (mregs bp). Notation agree := (agree lo top prot). Notation keeps := (mkeeps top prot).
Notation evals := (evals 4 addr bp ext). Notation holds := (holds 4 addr bp ext).
Notation oholds := (oholds 4 addr bp ext). Notation oevals := (oevals 4 addr bp ext).
Notation safe := (msafe addr bp ext).
Notation word := (ExprSpec.word 4).

Notation msteps := (msteps addr callee prog).
Lemma msteps_trans a b x y z : msteps a x y -> msteps b y z -> msteps (a + b) x z.
Proof. induction 1; intros H2; [exact H2|]. cbn. econstructor; eauto. Qed.
Lemma mstar_msteps x y : mstar x y -> exists n, msteps n x y.
Proof. induction 1 as [|x y z H1 H2 [n H3]]; [exists 0%nat; constructor|exists (S n); econstructor; eauto]. Qed.
Lemma msteps_mstar n x y : msteps n x y -> mstar x y.
Proof. induction 1; [constructor|econstructor; eauto]. Qed.

(** From one position to another through labels and jumps. *)
Definition silent (p q : nat) : Prop := forall s, mstar (p, s) (q, s).
Definition hop (p q : nat) : Prop := forall s, exists n, msteps (S n) (p, s) (q, s).
Lemma silent_refl p : silent p p. Proof. intros s. constructor. Qed.
Lemma silent_trans p q r : silent p q -> silent q r -> silent p r.
Proof. intros H1 H2 s. eapply mstar_trans; [apply H1|apply H2]. Qed.
Lemma hop_silent p q : hop p q -> silent p q.
Proof. intros H s. destruct (H s) as [n Hn]. eapply msteps_mstar; eauto. Qed.
Lemma hop_trans p q r : hop p q -> silent q r -> hop p r.
Proof. intros H1 H2 s. destruct (H1 s) as [n Hn]. destruct (mstar_msteps _ _ (H2 s)) as [k Hk]. exists (n + k)%nat.
  apply (msteps_trans (S n) k _ _ _ Hn Hk). Qed.

Definition space (s : mst) : Prop := lo + room + D <= R s 29 <= top.
(** Machine state [s'] continues machine state [s]. *)
Definition okk (s : mst) (m' : mem) (s' : mst) : Prop := regs s' /\ agree m' (MM s') /\ keeps s s'.
Definition ecode (val : bool) (e : ex) (p p' : nat) : Prop :=
  forall s m, regs s -> agree m (MM s) -> safe e m -> space s ->
  exists v m' s', evals e m v m' /\ mstar (p, s) (p', s') /\ okk s m' s' /\ (val = true -> R s' 2 = v).
Definition oecode (val : bool) (e : option ex) (p p' : nat) : Prop := match e with None => p = p' | Some e => ecode val e p p' end.
Definition csafe (c : ctl) (m : mem) : Prop := match c with CConst _ => True | CExpr e => safe e m end.
Definition ccode (c : ctl) (p pt pf : nat) : Prop :=
  forall s m, regs s -> agree m (MM s) -> csafe c m -> space s ->
  exists b m' s', holds c m b m' /\ mstar (p, s) (if b : bool then pt else pf, s') /\ okk s m' s'.
Definition occode (c : option ctl) (p pt pf : nat) : Prop := match c with None => p = pt | Some c => ccode c p pt pf end.
Definition ofnever (c : option ctl) : Prop := onever 4 c = true.

(** Positions that the surroundings of a statement provide. *)
Record lctx := mklctx { xb : option nat; xc : option nat; tbl : Z -> option nat; dfl : option nat }.
Definition inloop (X : lctx) (b c : nat) : lctx := mklctx (Some b) (Some c) (tbl X) (dfl X).

(** Switch: from [p], the value in the accumulator selects the position to go to. *)
Definition dispatch (p : nat) (T : Z -> option nat) (d : nat) : Prop :=
  forall s m, regs s -> agree m (MM s) -> exists n s', msteps (S n) (p, s) (match T (R s 2) with Some q => q | None => d end, s') /\ okk s m s'.

(** Loop: head [p], condition [p1], body [p2]-[p3], third expression [px]-[py], end [p'],
    break and continue targets [qb], [qc]. *)
Record loop (c : option ctl) (x : option ex) (p p1 p2 px py p' qb qc : nat) : Prop := {
  lp_head : hop p p1;
  lp_cond : exists pt pf, occode c p1 pt pf /\ silent pt p2 /\ silent pf p';
  lp_x : oecode false x px py;
  lp_back : silent py p \/ onever 4 c = true /\ silent py p';
  lp_brk : silent qb p';
  lp_cnt : silent qc px
}.

Notation has_case := (has_case 4).
Inductive lay : stmt -> lctx -> nat -> nat -> Prop :=
| l_skip X p : lay SSkip X p p
| l_expr e X p p' : ecode false e p p' -> lay (SExpr e) X p p'
| l_seq a b X p p1 p' : lay a X p p1 -> lay b X p1 p' -> lay (SSeq a b) X p p'
| l_block b X p p' : lay b X p p' -> lay (SBlock b) X p p'
| l_if c a X p p1 p2 p' pf : ccode c p p1 pf -> silent pf p' -> lay a X p1 p2 -> silent p2 p' -> lay (SIf c a) X p p'
| l_ifelse c a b X p p1 p2 pf p3 p4 p' : ccode c p p1 pf -> silent pf p3 -> lay a X p1 p2 -> silent p2 p' -> lay b X p3 p4 -> silent p4 p' ->
    lay (SIfElse c a b) X p p'
| l_while c b X p p1 p2 p3 p' px qb qc : loop (Some c) None p p1 p2 px px p' qb qc -> silent p3 px ->
    lay b (inloop X qb qc) p2 p3 -> lay (SWhile c b) X p p'
| l_do b c X p p1 p2 pw pt p' pf qb qc : hop p p1 -> lay b (inloop X qb qc) p1 p2 -> silent p2 pw -> silent qc pw ->
    ccode c pw pt pf -> silent pt p -> silent pf p' -> silent qb p' -> lay (SDo b c) X p p'
| l_for0 c x b X p p1 p2 p3 px py p' qb qc : loop c x p p1 p2 px py p' qb qc -> silent p3 px ->
    lay b (inloop X qb qc) p2 p3 -> lay (SFor None c x b) X p p'
| l_for i c x b X p0 p p' : ecode false i p0 p -> lay (SFor None c x b) X p p' -> lay (SFor (Some i) c x b) X p0 p'
| l_break X p p' q : xb X = Some q -> hop p q -> lay SBreak X p p'
| l_continue X p p' q : xc X = Some q -> hop p q -> lay SContinue X p p'
| l_return e X p p1 p' : oecode true e p p1 -> silent p1 pE -> lay (SReturn e) X p p'
| l_switch e b X p p1 p2 p3 p' T d qb : ecode true e p p1 ->
    dispatch p1 T (match d with Some q => q | None => p' end) ->
    (forall v, T v <> None -> has_case v b = true) -> (d <> None -> has_default b = true) ->
    lay b (mklctx (Some qb) (xc X) T d) p2 p3 -> silent p3 p' -> silent qb p' -> lay (SSwitch e b) X p p'
| l_case v a X p p1 p' : tbl X (word v) = Some p -> hop p p1 -> lay a X p1 p' -> lay (SCase v a) X p p'
| l_default a X p p1 p' : dfl X = Some p -> hop p p1 -> lay a X p1 p' -> lay (SDefault a) X p p'
| l_goto l X p p' q : G l q -> hop p q -> lay (SGoto l) X p p'
| l_label l a X p p1 p' : G l p -> hop p p1 -> lay a X p1 p' -> lay (SLabel l a) X p p'.

(** Loops whose condition is the constant 0 need no code. *)
Definition nop (s : stmt) : Prop :=
  match s with
  | SWhile c _ => never 4 c = true
  | SFor None c _ _ => onever 4 c = true
  | _ => False
  end.
Definition layn (s : stmt) (X : lctx) (p p' : nat) : Prop := lay s X p p' \/ nop s /\ p = p'.

(** Positions for what remains to be done. *)
Inductive mc : cont -> lctx -> nat -> Prop :=
| mc_stop X p : xb X = None -> xc X = None ->
    (forall s m, regs s -> agree m (MM s) -> space s -> exists s', mstar (p, s) (pE, s') /\ okk s m s' /\ (is_main = true -> R s' 2 = 0)) ->
    mc KStop X p
| mc_seq s k X p p' : lay s X p p' -> mc k X p' -> mc (KSeq s k) X p
| mc_sil k X p q : silent p q -> mc k X q -> mc k X p
| mc_while c b k X X0 p r pk qb qc : silent p r -> silent qc r -> silent qb pk -> layn (SWhile c b) X0 r pk -> mc k X0 pk ->
    xb X = Some qb -> xc X = Some qc -> mc (KWhile c b k) X p
| mc_for c x b k X X0 p px py r pk qb qc : silent p px -> silent qc px -> oecode false x px py -> silent py r -> silent qb pk ->
    layn (SFor None c x b) X0 r pk -> mc k X0 pk -> xb X = Some qb -> xc X = Some qc -> mc (KFor c x b k) X p
| mc_do b c k X X0 p pw pt pf r pk qb qc : silent p pw -> silent qc pw -> ccode c pw pt pf -> silent pt r -> silent pf pk -> silent qb pk ->
    lay (SDo b c) X0 r pk -> mc k X0 pk -> xb X = Some qb -> xc X = Some qc -> mc (KDo b c k) X p
| mc_switch k X X0 p pk qb : silent p pk -> silent qb pk -> mc k X0 pk -> xb X = Some qb -> xc X = xc X0 -> mc (KSwitch k) X p.

Lemma mc_break k X p : mc k X p -> forall k', on_break k = Some k' ->
  exists q X', xb X = Some q /\ mc k' X' q.
Proof.
  induction 1; intros k' Hk; cbn in Hk; try discriminate; auto.
  all: apply some_inj in Hk; subst k'; eexists; exists X0; split; [eassumption|]; eapply mc_sil; eassumption.
Qed.
Lemma mc_nobreak k X p : mc k X p -> on_break k = None -> xb X = None.
Proof. induction 1; cbn; intros; auto; discriminate. Qed.
Lemma mc_continue k X p : mc k X p -> forall k', on_continue k = Some k' ->
  exists q X', xc X = Some q /\ mc k' X' q.
Proof.
  induction 1; intros k' Hk; cbn in Hk; try discriminate; auto.
  - apply some_inj in Hk; subst k'. exists qc, X. split; auto. eapply mc_while with (r := r) (qc := qc) (qb := qb) (X0 := X0); eauto.
  - apply some_inj in Hk; subst k'. exists qc, X. split; auto. eapply mc_for with (qc := qc) (qb := qb) (X0 := X0) (px := px) (py := py); eauto.
  - apply some_inj in Hk; subst k'. exists qc, X. split; auto. eapply mc_do with (qc := qc) (qb := qb) (X0 := X0) (pw := pw); eauto.
  - destruct (IHmc _ Hk) as (q & X' & H5 & H6). exists q, X'. split; [congruence|auto].
Qed.
Lemma mc_nocontinue k X p : mc k X p -> on_continue k = None -> xc X = None.
Proof. induction 1; cbn; intros; auto; try discriminate. rewrite H3. auto. Qed.

Definition tpos (t : target) (X : lctx) (q : nat) : Prop :=
  match t with ToLabel l => G l q | ToCase v => tbl X v = Some q | ToDefault => dfl X = Some q end.

Lemma mc_enter_while c b X p p1 p2 px p' qb qc k :
  loop (Some c) None p p1 p2 px px p' qb qc -> lay (SWhile c b) X p p' -> mc k X p' -> mc (KWhile c b k) (inloop X qb qc) px.
Proof.
  intros Hl Hy Hk. destruct (lp_back _ _ _ _ _ _ _ _ _ _ Hl) as [Hb|[Hn Hb]].
  - eapply mc_while with (r := p) (pk := p') (qb := qb) (qc := qc) (X0 := X); eauto; try reflexivity.
    + eapply silent_trans; [apply (lp_cnt _ _ _ _ _ _ _ _ _ _ Hl)|auto].
    + apply (lp_brk _ _ _ _ _ _ _ _ _ _ Hl).
    + now left.
  - eapply mc_while with (r := p') (pk := p') (qb := qb) (qc := qc) (X0 := X); eauto; try reflexivity.
    + eapply silent_trans; [apply (lp_cnt _ _ _ _ _ _ _ _ _ _ Hl)|auto].
    + apply (lp_brk _ _ _ _ _ _ _ _ _ _ Hl).
    + right. split; auto.
Qed.
Lemma mc_enter_for c x b X p p1 p2 px py p' qb qc k :
  loop c x p p1 p2 px py p' qb qc -> lay (SFor None c x b) X p p' -> mc k X p' -> mc (KFor c x b k) (inloop X qb qc) px.
Proof.
  intros Hl Hy Hk. destruct (lp_back _ _ _ _ _ _ _ _ _ _ Hl) as [Hb|[Hn Hb]].
  - eapply mc_for with (px := px) (py := py) (r := p) (pk := p') (qb := qb) (qc := qc) (X0 := X); eauto using silent_refl; try reflexivity.
    + apply (lp_cnt _ _ _ _ _ _ _ _ _ _ Hl).
    + apply (lp_x _ _ _ _ _ _ _ _ _ _ Hl).
    + apply (lp_brk _ _ _ _ _ _ _ _ _ _ Hl).
    + now left.
  - eapply mc_for with (px := px) (py := py) (r := p') (pk := p') (qb := qb) (qc := qc) (X0 := X); eauto using silent_refl; try reflexivity.
    + apply (lp_cnt _ _ _ _ _ _ _ _ _ _ Hl).
    + apply (lp_x _ _ _ _ _ _ _ _ _ _ Hl).
    + apply (lp_brk _ _ _ _ _ _ _ _ _ _ Hl).
    + right. split; auto.
Qed.

Lemma find_lay s X p p' : lay s X p p' -> forall k t s' k', mc k X p' -> find 4 t s k = Some (s', k') ->
  exists q p1 X' p2, tpos t X q /\ hop q p1 /\ lay s' X' p1 p2 /\ mc k' X' p2.
Proof.
  induction 1; intros k t s' k' Hk Hf; cbn [find] in Hf; try discriminate.
  - destruct (find 4 t a (KSeq b k)) as [r|] eqn:Ha.
    + apply some_inj in Hf. subst r. eapply IHlay1; [|exact Ha]. eapply mc_seq; eauto.
    + eauto.
  - eauto.
  - eapply IHlay; [|exact Hf]. eapply mc_sil; eauto.
  - destruct (find 4 t a k) as [r|] eqn:Ha.
    + apply some_inj in Hf. subst r. eapply IHlay1; [|exact Ha]. eapply mc_sil; eauto.
    + eapply IHlay2; [|exact Hf]. eapply mc_sil; eauto.
  - destruct (IHlay (KWhile c b k) t s' k') as (q & P1 & X' & P2 & Hq & Hr); auto.
    { eapply mc_sil; [eassumption|]. eapply mc_enter_while; eauto. eapply l_while; eauto. }
    exists q, P1, X', P2. split; [|exact Hr]. destruct t; exact Hq.
  - destruct (IHlay (KDo b c k) t s' k') as (q & P1 & X' & P2 & Hq & Hr); auto.
    { eapply mc_do with (X0 := X) (qb := qb) (qc := qc); eauto; try reflexivity. eapply l_do; eauto. }
    exists q, P1, X', P2. split; [|exact Hr]. destruct t; exact Hq.
  - destruct (IHlay (KFor c x b k) t s' k') as (q & P1 & X' & P2 & Hq & Hr); auto.
    { eapply mc_sil; [eassumption|]. eapply mc_enter_for; eauto. eapply l_for0; eauto. }
    exists q, P1, X', P2. split; [|exact Hr]. destruct t; exact Hq.
  - eapply IHlay; eauto.
  - destruct t; try discriminate.
    destruct (IHlay (KSwitch k) (ToLabel l) s' k') as (q & P1 & X' & P2 & Hq & Hr); auto.
    { eapply mc_switch with (qb := qb) (X0 := X); eauto; reflexivity. }
    exists q, P1, X', P2. split; [|exact Hr]. exact Hq.
  - destruct t; [now apply (IHlay k) in Hf| |now apply (IHlay k) in Hf].
    destruct (Z.eqb_spec (word v) v0) as [<-|]; [|now apply (IHlay k) in Hf].
    apply some_inj, pair_inj in Hf as [<- <-]. exists p, p1, X, p'. cbn [tpos]. auto.
  - destruct t; [now apply (IHlay k) in Hf|now apply (IHlay k) in Hf|].
    apply some_inj, pair_inj in Hf as [<- <-]. exists p, p1, X, p'. cbn [tpos]. auto.
  - destruct t; [|now apply (IHlay k) in Hf|now apply (IHlay k) in Hf].
    destruct (Z.eqb_spec l l0) as [<-|]; [|now apply (IHlay k) in Hf].
    apply some_inj, pair_inj in Hf as [<- <-]. exists p, p1, X, p'. cbn [tpos]. auto.
Qed.

Lemma has_case_find v s : has_case v s = true -> forall k, find 4 (ToCase v) s k <> None.
Proof.
  induction s; cbn; intros H k; try discriminate; auto.
  - apply orb_prop in H as [H|H].
    + pose proof (IHs1 H (KSeq s2 k)). destruct (find 4 (ToCase v) s1 (KSeq s2 k)); congruence.
    + destruct (find 4 (ToCase v) s1 (KSeq s2 k)); [discriminate|auto].
  - apply orb_prop in H as [H|H].
    + pose proof (IHs1 H k). destruct (find 4 (ToCase v) s1 k); congruence.
    + destruct (find 4 (ToCase v) s1 k); [discriminate|auto].
  - destruct (word v0 =? v); [discriminate|auto].
Qed.
Lemma has_default_find s : has_default s = true -> forall k, find 4 ToDefault s k <> None.
Proof.
  induction s; cbn; intros H k; try discriminate; auto.
  - apply orb_prop in H as [H|H].
    + pose proof (IHs1 H (KSeq s2 k)). destruct (find 4 ToDefault s1 (KSeq s2 k)); congruence.
    + destruct (find 4 ToDefault s1 (KSeq s2 k)); [discriminate|auto].
  - apply orb_prop in H as [H|H].
    + pose proof (IHs1 H k). destruct (find 4 ToDefault s1 k); congruence.
    + destruct (find 4 ToDefault s1 k); [discriminate|auto].
Qed.

(** ** Simulation *)
Fixpoint size (s : stmt) : nat :=
  match s with
  | SSeq a b => 3 + size a + size b
  | SIfElse _ a b => 2 + size a + size b
  | SBlock a | SIf _ a | SCase _ a | SDefault a | SLabel _ a | SWhile _ a | SDo a _ | SSwitch _ a => 2 + size a
  | SFor i _ _ a => (match i with None => 0 | _ => 1 end) + 2 + size a
  | SSkip => 0
  | _ => 1
  end.
Fixpoint ksz (k : cont) : nat :=
  match k with
  | KStop => 1
  | KSeq s k => 1 + size s + ksz k
  | KWhile _ b k | KDo b _ k | KFor _ _ b k => 4 + size b + ksz k
  | KSwitch k => 1 + ksz k
  end.
Definition measure (x : state) : nat := match x with Run s k _ => size s + ksz k | Ret _ _ => 0 end.

Variable body : stmt.
Variables p0 pend : nat.
Notation sstep := (sstep 4 addr bp ext body is_main).
Notation ssteps := (ssteps 4 addr bp ext body is_main).

Inductive match_states : state -> nat * mst -> Prop :=
| ms_run s k m X p p' ms : layn s X p p' -> mc k X p' -> regs ms -> agree m (MM ms) -> space ms -> match_states (Run s k m) (p, ms)
| ms_ret v m ms : regs ms -> agree m (MM ms) -> space ms -> (forall r, v = Some r -> R ms 2 = r) -> match_states (Ret v m) (pE, ms).

Definition nsafe (x : state) : Prop := forall e, next_expr x = Some e -> safe e (mem_of x).
(** [stuck] statements cannot occur: everything that the compiler accepts has its targets. *)
Variable Xtop : lctx.
Hypothesis Htop_lay : lay body Xtop p0 pend.
Hypothesis Htop_mc : mc KStop Xtop pend.
Hypothesis Hgoto : forall l q, G l q -> find 4 (ToLabel l) body KStop <> None.

Lemma keeps_refl s : keeps s s. Proof. split; auto. Qed.
Lemma space_keep s s' : keeps s s' -> space s -> space s'.
Proof. intros [E _]. unfold space. now rewrite E. Qed.
Lemma keeps_tr s s1 s2 : keeps s s1 -> keeps s1 s2 -> keeps s s2.
Proof. intros [E1 H1] [E2 H2]. split; [congruence|]. intros a Ha. rewrite H2, H1; auto. rewrite E1. exact Ha. Qed.

(** The outcome of one source step. *)
Definition sim1 (x : state) (c : nat * mst) : Prop :=
  exists y c' n, sstep x y /\ msteps n c c' /\ match_states y c' /\ keeps (snd c) (snd c') /\
    (n = 0%nat -> (measure y < measure x)%nat).

Lemma sim_zero x y c : sstep x y -> match_states y c -> (measure y < measure x)%nat -> sim1 x c.
Proof. intros H1 H2 H3. exists y, c, 0%nat. split; auto. split; [constructor|]. split; auto. split; [apply keeps_refl|auto]. Qed.
Lemma sim_star x y c c' : sstep x y -> mstar c c' -> match_states y c' -> keeps (snd c) (snd c') -> (measure y < measure x)%nat -> sim1 x c.
Proof. intros H1 H2 H3 H4 H5. apply mstar_msteps in H2 as [n Hn]. exists y, c', n. auto 10. Qed.
Lemma sim_plus x y c c1 c' n : sstep x y -> msteps (S n) c c1 -> mstar c1 c' -> match_states y c' -> keeps (snd c) (snd c') -> sim1 x c.
Proof.
  intros H1 H2 H3 H4 H5. apply mstar_msteps in H3 as [k Hk]. exists y, c', (S n + k)%nat.
  split; auto. split; [eapply msteps_trans; eauto|]. split; auto. split; auto. intros; lia.
Qed.

Lemma sim_skip k X p m ms : mc k X p -> regs ms -> agree m (MM ms) -> space ms -> nsafe (Run SSkip k m) -> sim1 (Run SSkip k m) (p, ms).
Proof.
  intros Hmc. revert m ms.
  induction Hmc; intros m ms HR HA HS Hs.
  - destruct (H1 ms m HR HA HS) as (s' & Hx & (R' & A' & K') & Hm).
    eapply sim_star; [apply st_end|exact Hx| |exact K'|cbn; lia].
    constructor; auto; [eapply space_keep; eauto|]. destruct is_main; [|discriminate]. intros r Hr. apply some_inj in Hr. subst r. auto.
  - eapply sim_zero; [apply st_next| |cbn; lia]. econstructor; eauto. now left.
  - destruct (IHHmc m ms HR HA HS Hs) as (y & c' & n & Q1 & Q2 & Q3 & Q4 & Q5).
    destruct (mstar_msteps _ _ (H ms)) as [j Hj]. exists y, c', (j + n)%nat. split; auto.
    split; [eapply msteps_trans; eauto|]. split; auto. split; auto. intros. apply Q5. lia.
  - eapply sim_star; [apply st_again_while|apply H| |apply keeps_refl|cbn; lia].
    eapply ms_run; eauto.
  - assert (exists m' s', oevals x m m' /\ mstar (px, ms) (py, s') /\ okk ms m' s') as (m' & s' & E & Hx & R' & A' & K').
    { destruct x; cbn in *.
      - destruct (H1 ms m HR HA) as (v & m' & s' & E1 & E2 & E3 & _); [apply Hs; reflexivity|auto|]. exists m', s'. eauto.
      - subst py. exists m, ms. split; auto. split; [constructor|]. split; auto. split; auto. apply keeps_refl. }
    eapply sim_star with (c' := (r, s')); [apply st_again_for; exact E| | |exact K'|cbn; lia].
    + eapply mstar_trans; [apply H|]. eapply mstar_trans; [exact Hx|]. apply H2.
    + eapply ms_run; eauto. eapply space_keep; eauto.
  - assert (csafe c m) by (destruct c; cbn; [exact I|apply Hs; reflexivity]).
    destruct (H1 ms m HR HA H8 HS) as (h & m' & s' & E & Hx & R' & A' & K').
    eapply sim_star with (c' := (if h then r else pk, s')); [apply st_again_do; exact E| | |exact K'|destruct h; cbn; lia].
    + eapply mstar_trans; [apply H|]. eapply mstar_trans; [exact Hx|]. destruct h; auto.
    + destruct h; eapply ms_run; eauto using space_keep.
      * left. eassumption.
      * left. constructor.
  - eapply sim_star; [apply st_end_switch|apply H| |apply keeps_refl|cbn; lia].
    eapply ms_run; eauto. left. constructor.
Qed.

Lemma never_word c : never 4 c = true -> forall m, holds c m false m.
Proof.
  destruct c as [v|]; cbn; [|discriminate]. intros H m. split; auto.
  rewrite trunc_zero in H by auto. now rewrite H.
Qed.

Ltac run := eapply ms_run; [first [left; eassumption|left; constructor] | | assumption | assumption | eauto using space_keep]; try eassumption.

Theorem sim_step x c : match_states x c -> nsafe x -> (exists v m, x = Ret v m) \/ sim1 x c.
Proof.
  intros Hm Hs. destruct Hm as [s k m X p p' ms Hl Hk HR HA HS|]; [right|eauto].
  destruct Hl as [Hl|[Hn ->]].
  2:{ destruct s; cbn in Hn; try contradiction.
      - eapply sim_zero; [eapply (st_while _ _ _ _ _ _ c s k m false m); now apply never_word|eapply ms_run; eauto; left; constructor|cbn; lia].
      - destruct i; [contradiction|]. destruct c as [c|]; [|discriminate].
        eapply sim_zero; [eapply (st_for _ _ _ _ _ _ (Some c) x s k m false m); now apply never_word|eapply ms_run; eauto; left; constructor|cbn; lia]. }
  revert Hk Hs. destruct Hl; intros Hk Hs.
  - eapply sim_skip; eauto.
  - destruct (H ms m HR HA (Hs e eq_refl) HS) as (v & m' & s' & E & Hx & (R' & A' & K') & _).
    eapply sim_star; [eapply st_expr; exact E|exact Hx| |exact K'|cbn; lia]. run.
  - eapply sim_zero; [apply st_seq| |cbn; lia]. run. eapply mc_seq; eauto.
  - eapply sim_zero; [apply st_block| |cbn; lia]. run.
  - assert (csafe c m) by (destruct c; cbn; [exact I|apply Hs; reflexivity]).
    destruct (H ms m HR HA H2 HS) as (h & m' & s' & E & Hx & R' & A' & K').
    eapply sim_star with (c' := (if h then p1 else p', s')); [apply st_if; exact E| | |exact K'|destruct h; cbn; lia].
    + eapply mstar_trans; [exact Hx|]. destruct h; [constructor|apply H0].
    + destruct h; run.
      eapply mc_sil; eauto.
  - assert (csafe c m) by (destruct c; cbn; [exact I|apply Hs; reflexivity]).
    destruct (H ms m HR HA H3 HS) as (h & m' & s' & E & Hx & R' & A' & K').
    eapply sim_star with (c' := (if h then p1 else p3, s')); [apply st_ifelse; exact E|eapply mstar_trans; [exact Hx|destruct h; [constructor|apply H0]]| |exact K'|destruct h; cbn; lia].
    destruct h; run; eapply mc_sil; eauto.
  - assert (csafe c m) by (destruct c; cbn; [exact I|apply Hs; reflexivity]).
    destruct (lp_cond _ _ _ _ _ _ _ _ _ _ H) as (pt & pf & Hc & St & Sf).
    destruct (lp_head _ _ _ _ _ _ _ _ _ _ H ms) as (n & Hn).
    destruct (Hc ms m HR HA H1 HS) as (h & m' & s' & E & Hx & R' & A' & K').
    eapply sim_plus with (c' := (if h then p2 else p', s')); [apply st_while; exact E|exact Hn| | |exact K'].
    + eapply mstar_trans; [exact Hx|]. destruct h; auto.
    + destruct h; run.
      eapply mc_sil; [eassumption|]. eapply mc_enter_while; eauto. eapply l_while; eauto.
  - destruct (H ms) as (n & Hn).
    eapply sim_plus; [apply st_do|exact Hn|constructor| |apply keeps_refl]. run.
    eapply mc_do with (X0 := X) (qb := qb) (qc := qc); eauto; try reflexivity. eapply l_do; eauto.
  - assert (exists pt pf h m' s', oholds c m h m' /\ mstar (p1, ms) (if h then pt else pf, s') /\ okk ms m' s' /\ silent pt p2 /\ silent pf p')
      as (pt & pf & h & m' & s' & E & Hx & (R' & A' & K') & St & Sf).
    { destruct (lp_cond _ _ _ _ _ _ _ _ _ _ H) as (pt & pf & Hc & St & Sf). exists pt, pf. destruct c as [c|]; cbn [occode oholds] in *.
      - assert (csafe c m) by (destruct c; cbn; [exact I|apply Hs; reflexivity]).
        destruct (Hc ms m HR HA H1 HS) as (h & m' & s' & E & Hx & R'). exists h, m', s'. auto 10.
      - subst p1. exists true, m, ms. split; auto. split; [constructor|]. split; auto. split; auto. split; auto. apply keeps_refl. }
    destruct (lp_head _ _ _ _ _ _ _ _ _ _ H ms) as (n & Hn).
    eapply sim_plus with (c' := (if h then p2 else p', s')); [apply st_for; exact E|exact Hn| | |exact K'].
    + eapply mstar_trans; [exact Hx|]. destruct h; auto.
    + destruct h; run.
      eapply mc_sil; [eassumption|]. eapply mc_enter_for; eauto. eapply l_for0; eauto.
  - destruct (H ms m HR HA (Hs i eq_refl) HS) as (v & m' & s' & E & Hx & (R' & A' & K') & _).
    eapply sim_star; [eapply st_for_init; exact E|exact Hx| |exact K'|cbn; lia]. run.
  - destruct (on_break k) as [k'|] eqn:Hb; [|pose proof (mc_nobreak _ _ _ Hk Hb); congruence].
    destruct (mc_break _ _ _ Hk _ Hb) as (q' & X' & E1 & Hk'). assert (q' = q) by congruence. subst q'.
    destruct (H0 ms) as (n & Hn). eapply sim_plus; [apply st_break; exact Hb|exact Hn|constructor| |apply keeps_refl].
    run.
  - destruct (on_continue k) as [k'|] eqn:Hb; [|pose proof (mc_nocontinue _ _ _ Hk Hb); congruence].
    destruct (mc_continue _ _ _ Hk _ Hb) as (q' & X' & E1 & Hk'). assert (q' = q) by congruence. subst q'.
    destruct (H0 ms) as (n & Hn). eapply sim_plus; [apply st_continue; exact Hb|exact Hn|constructor| |apply keeps_refl].
    run.
  - destruct e as [e|]; cbn [oecode] in H.
    + destruct (H ms m HR HA (Hs e eq_refl) HS) as (v & m' & s' & E & Hx & (R' & A' & K') & Hv). specialize (Hv eq_refl).
      eapply sim_star; [eapply st_return_val; exact E|eapply mstar_trans; [exact Hx|apply H0]| |exact K'|cbn; lia].
      constructor; eauto using space_keep. intros r Hr. congruence.
    + subst p1. eapply sim_star; [apply st_return|apply H0| |apply keeps_refl|cbn; lia]. constructor; auto. discriminate.
  - destruct (H ms m HR HA (Hs e eq_refl) HS) as (v & m' & s' & E & Hx & (R' & A' & K') & Hv). specialize (Hv eq_refl).
    destruct (H0 s' m' R' A') as (n & s2 & Hd & R2 & A2 & K2). rewrite Hv in Hd.
    assert (Hk' : mc (KSwitch k) (mklctx (Some qb) (xc X) T d) p3).
    { eapply mc_switch with (qb := qb) (X0 := X); eauto; reflexivity. }
    pose proof (keeps_tr _ _ _ K' K2) as K3. pose proof (space_keep _ _ K3 HS) as HS2.
    apply mstar_msteps in Hx as [j Hj].
    assert (HD : msteps (S (j + n)) (p, ms) (match T v with Some q => q | None => match d with Some q => q | None => p' end end, s2)).
    { replace (S (j + n)) with (j + S n)%nat by lia. eapply msteps_trans; eauto. }
    destruct (find 4 (ToCase v) b (KSwitch k)) as [[s1 k1]|] eqn:Hf.
    + destruct (find_lay _ _ _ _ Hl _ _ _ _ Hk' Hf) as (q & q1 & X' & q2 & Hq & Hh & Hl' & Hk1). cbn [tpos tbl] in Hq. rewrite Hq in HD.
      eapply sim_plus; [eapply st_switch_case; eauto|exact HD|apply hop_silent; exact Hh| |exact K3].
      run.
    + destruct (T v) as [q|] eqn:HT. { assert (has_case v b = true) by (apply H1; congruence). exfalso. eapply has_case_find; eauto. }
      destruct (find 4 ToDefault b (KSwitch k)) as [[s1 k1]|] eqn:Hf2.
      * destruct (find_lay _ _ _ _ Hl _ _ _ _ Hk' Hf2) as (q & q1 & X' & q2 & Hq & Hh & Hl' & Hk1). cbn [tpos dfl] in Hq. rewrite Hq in HD.
        eapply sim_plus; [eapply st_switch_default; eauto|exact HD|apply hop_silent; exact Hh| |exact K3].
        run.
      * destruct d as [q|]. { assert (has_default b = true) by (apply H2; congruence). exfalso. eapply has_default_find; eauto. }
        eapply sim_plus; [eapply st_switch_none; eauto|exact HD|constructor| |exact K3].
        run.
  - destruct (H0 ms) as (n & Hn). eapply sim_plus; [apply st_case|exact Hn|constructor| |apply keeps_refl]. run.
  - destruct (H0 ms) as (n & Hn). eapply sim_plus; [apply st_default|exact Hn|constructor| |apply keeps_refl]. run.
  - destruct (find 4 (ToLabel l) body KStop) as [[s1 k1]|] eqn:Hf; [|exfalso; eapply Hgoto; eauto].
    destruct (find_lay _ _ _ _ Htop_lay _ _ _ _ Htop_mc Hf) as (q' & q1 & X' & q2 & Hq & Hh & Hl' & Hk1). cbn [tpos] in Hq.
    assert (q' = q) by eauto. subst q'. destruct (H0 ms) as (n & Hn).
    eapply sim_plus; [apply st_goto; exact Hf|exact Hn|apply hop_silent; exact Hh| |apply keeps_refl].
    run.
  - destruct (H0 ms) as (n & Hn). eapply sim_plus; [apply st_label|exact Hn|constructor| |apply keeps_refl]. run.
Qed.

Lemma ssteps_trans a b x y z : ssteps a x y -> ssteps b y z -> ssteps (a + b) x z.
Proof. induction 1; intros H2; [exact H2|]. cbn. econstructor; eauto. Qed.

Definition safe_from (x : state) : Prop := forall n y, ssteps n x y -> nsafe y.
Lemma safe_from_steps n x y : ssteps n x y -> safe_from x -> safe_from y.
Proof. intros H1 H2 k z Hz. apply (H2 (n + k)%nat). eapply ssteps_trans; eauto. Qed.
Lemma safe_here x : safe_from x -> nsafe x.
Proof. intros H. apply (H 0%nat). constructor. Qed.

(** Until the function returns, the machine keeps executing instructions. *)
Lemma sim_progress : forall sz x c, (measure x < sz)%nat -> match_states x c -> safe_from x ->
  exists k n y c', ssteps k x y /\ msteps n c c' /\ match_states y c' /\ keeps (snd c) (snd c') /\
    ((exists v m, y = Ret v m) \/ (k > 0 /\ n > 0)%nat).
Proof.
  induction sz as [|sz IH]; intros x c Hz Hm Hs; [lia|].
  destruct (sim_step x c Hm (safe_here _ Hs)) as [Hr|(y & c' & n & H1 & H2 & H3 & H4 & H5)].
  - exists 0%nat, 0%nat, x, c. split; [constructor|]. split; [constructor|]. split; auto. split; [apply keeps_refl|auto].
  - assert (S1 : ssteps 1 x y) by (econstructor; [eassumption|constructor]).
    destruct n as [|n].
    + assert (measure y < sz)%nat by (specialize (H5 eq_refl); lia). inversion H2; subst.
      destruct (IH y c' H H3 (safe_from_steps _ _ _ S1 Hs)) as (k & n & y2 & c2 & Q1 & Q2 & Q3 & Q4 & Q5).
      exists (1 + k)%nat, n, y2, c2. split; [eapply ssteps_trans; eauto|]. split; auto. split; auto. split; auto. destruct Q5; [auto|right; lia].
    + exists 1%nat, (S n), y, c'. split; auto. split; auto. split; auto. split; auto. right. lia.
Qed.

Theorem sim_run N : forall x c, match_states x c -> safe_from x ->
  exists k n y c', ssteps k x y /\ msteps n c c' /\ match_states y c' /\ keeps (snd c) (snd c') /\
    ((exists v m, y = Ret v m) \/ (k >= N /\ n >= N)%nat).
Proof.
  induction N as [|N IH]; intros x c Hm Hs.
  - exists 0%nat, 0%nat, x, c. split; [constructor|]. split; [constructor|]. split; auto. split; [apply keeps_refl|right; lia].
  - destruct (IH x c Hm Hs) as (k & n & y & c' & Q1 & Q2 & Q3 & Q4 & [Q5|Q5]).
    + exists k, n, y, c'. auto 10.
    + destruct (sim_progress (S (measure y)) y c' (Nat.lt_succ_diag_r _) Q3 (safe_from_steps _ _ _ Q1 Hs))
        as (k2 & n2 & y2 & c2 & R1 & R2 & R3 & R4 & R5).
      exists (k + k2)%nat, (n + n2)%nat, y2, c2. split; [eapply ssteps_trans; eauto|]. split; [eapply msteps_trans; eauto|].
      split; auto. split; [eapply keeps_tr; eauto|]. destruct R5; [auto|right; lia].
Qed.
End Lay.
