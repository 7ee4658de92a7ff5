(** The invariant of programs that use the heap. *)
From Coq Require Import Permutation.
From Verif Require Import Base BaseLemmas StrSpec StrModel StrLemmas HeapModel HeapSpec HeapLemmas HeapOps HeapState HeapClient.

(** ** Memory contains bytes; the extent of the DOS heaps is fixed *)
Definition bytem (m : mem) : Prop := forall x v, m x = Some v -> byte v.
Lemma st_bytem m a v m' : st m a v = Some m' -> bytem m -> bytem m'.
Proof.
  unfold st. destruct (m a); [|discriminate]. cbn [obind]. intros E B. apply some_inj in E. subst m'. intros x w. destruct (x =? a); [|apply B].
  intros E. apply some_inj in E. subst w. apply u8_byte.
Qed.
Lemma stn_bytem n : forall m a v m', stn n m a v = Some m' -> bytem m -> bytem m'.
Proof.
  induction n as [|n IH]; cbn [stn]; intros m a v m' E B; [now apply some_inj in E as <-|].
  destruct (st m a v) eqn:E1; [|discriminate]. cbn [obind] in E. eauto using st_bytem.
Qed.
Lemma up_bytem n : forall m d s m', StrModel.up n m d s = Some m' -> bytem m -> bytem m'.
Proof.
  induction n as [|n IH]; cbn [StrModel.up]; intros m d s m' E B; [now apply some_inj in E as <-|].
  destruct (ldc m s); [|discriminate]. cbn [obind] in E. destruct (st m d z) eqn:E1; [|discriminate]. cbn [obind] in E. eauto using st_bytem.
Qed.
Lemma fill_bytem n : forall m p v m', fill n m p v = Some m' -> bytem m -> bytem m'.
Proof.
  induction n as [|n IH]; cbn [fill]; intros m p v m' E B; [now apply some_inj in E as <-|].
  destruct (st m p v) eqn:E1; [|discriminate]. cbn [obind] in E. eauto using st_bytem.
Qed.

Section W.
Context (c : cfg).

Definition dosok : bool :=
  let start := odd_up c (clo c) in let stop := odd_down c (chi c) in
  negb ((match cport c with DosTiny => (start <? clo c) || (chi c <? stop) | _ => false end) ||
         (stop <? start) || (uw c (stop - start) <? 2 * HF c)).
Definition dosinv (h : heap) : Prop :=
  cport c <> Linux -> hinit h = true -> dosok = true /\ hstart h = odd_up c (clo c) /\ hstop h = odd_down c (chi c).
Definition ev (h h' : heap) : Prop :=
  (bytem (hm h) -> bytem (hm h')) /\ (dosinv h -> dosinv h').
Lemma ev_refl h : ev h h. Proof. split; auto. Qed.
Lemma ev_trans h1 h2 h3 : ev h1 h2 -> ev h2 h3 -> ev h1 h3. Proof. intros [] []. split; auto. Qed.
Lemma ev_mem h m : (bytem (hm h) -> bytem m) -> ev h (set_mem h m). Proof. intros B. split; auto. Qed.

Lemma stx_bytem m p i v m' : stx c m p i v = Some m' -> bytem m -> bytem m'.
Proof. apply stn_bytem. Qed.

Ltac step E := match type of E with
  | (let? _ := ?o in _) = Some _ => let E1 := fresh "E" in destruct o eqn:E1; [|discriminate]; cbn [obind] in E
  | (if ?b then _ else _) = Some _ => destruct b eqn:?
  | Some _ = Some _ => apply some_inj in E
  | (_, _) = (_, _) => apply pair_inj in E as [? ?]
  | inl _ = inl _ => injection E as E
  | _ = _ => discriminate
  end.
Ltac prs := repeat match goal with H : (_, _) = (_, _) |- _ => apply pair_inj in H as [? ?] end.
Ltac walk E := cbv zeta in E; repeat step E; prs; subst; eauto 12 using stx_bytem.

Lemma sys_brk_ev h a h' r : sys_brk c h a = (h', r) -> (bytem (hm h) -> bytem (hm h')).
Proof.
  unfold sys_brk. destruct (_ && _ && _); intros E; apply pair_inj in E as [<- _]; cbn [hm]; auto. intros B x v.
  destruct (_ && _); [intros E; apply some_inj in E as <-; unfold byte; lia|]. destruct (_ && _); [discriminate|]. apply B.
Qed.
Lemma sbrk_to_ev h a h' r : sbrk_to c h a = (h', r) -> (bytem (hm h) -> bytem (hm h')).
Proof.
  unfold sbrk_to. destruct (if 0 <=? a then _ else _); [intros E; now apply pair_inj in E as [<- _]|].
  destruct (sys_brk c h _) as [h1 q] eqn:E1. pose proof (sys_brk_ev _ _ _ _ E1). destruct (negb _); intros E; apply pair_inj in E as [<- _]; auto.
Qed.
Lemma sbrk_ev h a h' r : sbrk c h a = (h', r) -> (bytem (hm h) -> bytem (hm h')).
Proof.
  unfold sbrk. destruct (_ =? _); [|apply sbrk_to_ev]. destruct (sys_brk c h 0) as [h1 b] eqn:E1. pose proof (sys_brk_ev _ _ _ _ E1).
  destruct (_ <=? _); [intros E; apply pair_inj in E as [<- _]; auto|]. intros E B. eapply sbrk_to_ev; eauto.
Qed.
Lemma one_block_bytem m a b s m' : one_block c m a b s = Some m' -> bytem m -> bytem m'.
Proof. unfold one_block. intros E B. walk E. Qed.
Lemma init_ev h h' : init c h = Some h' -> ev h h'.
Proof.
  unfold init. destruct (cport c) eqn:HL; intros E.
  3:{ destruct (sbrk c h 0) as [h1 s0] eqn:E1. pose proof (sbrk_ev _ _ _ _ E1). destruct (_ =? -1); [apply some_inj in E as <-; split; auto; intros _ N; congruence|].
      destruct (sbrk c h1 _) as [h2 r] eqn:E2. pose proof (sbrk_ev _ _ _ _ E2). destruct (_ =? -1); [apply some_inj in E as <-; split; auto; intros _ N; congruence|].
      step E. apply some_inj in E as <-. split; [|intros _ N; congruence]. intros B. cbn [ready hm]. eapply one_block_bytem; eauto. }
  all: cbv zeta in E; match type of E with (if ?b then _ else _) = _ => destruct b eqn:B end; [apply some_inj in E as <-; apply ev_refl|];
    step E; apply some_inj in E as <-; split; [intros BB; cbn [ready hm]; eapply one_block_bytem; eauto|];
    intros _ _ _; cbn [ready hstart hstop]; unfold dosok; rewrite HL, B; auto.
Qed.
Lemma find_bytem fuel m stop size : forall last blk r, find_fit c fuel m stop size last blk = Some r ->
  bytem m -> match r with inl (m', _) => bytem m' | _ => True end.
Proof.
  induction fuel as [|fuel IH]; intros last blk r E B; cbn [find_fit] in E; [discriminate|].
  cbv zeta in E. repeat step E; try (rewrite <- E; eauto 12 using stx_bytem; fail); try exact I. apply (IH _ _ _ E B).
Qed.
Lemma grow_ev h size last h' r : cport c = Linux -> grow c h size last = Some (h', r) -> ev h h'.
Proof.
  intros HL E. split; [|intros _ N; congruence]. intros B. unfold grow in E. cbv zeta in E.
  step E. step E. step E; [apply some_inj in E; apply pair_inj in E as [<- _]; auto|].
  destruct (sbrk c h _) as [h1 q] eqn:E2. pose proof (sbrk_ev _ _ _ _ E2). walk E.
Qed.
Lemma malloc_ev fuel h n h' r : malloc c fuel h n = Some (h', r) -> ev h h'.
Proof.
  unfold malloc. intros E. assert (G : exists h1, (if hinit h then Some h else init c h) = Some h1 /\ ev h h1).
  { destruct (hinit h); [eexists; split; eauto using ev_refl|]. destruct (init c h) as [h1|] eqn:E1; [|discriminate]. eexists. split; eauto. now apply init_ev. }
  destruct G as (h1 & E1 & V). rewrite E1 in E. cbn [obind] in E. apply ev_trans with h1; auto. clear E1 V h.
  step E; [apply some_inj in E; apply pair_inj in E as [<- _]; apply ev_refl|]. step E; [apply some_inj in E; apply pair_inj in E as [<- _]; apply ev_refl|].
  cbv zeta in E. step E. destruct s as [[m blk]|last].
  - apply some_inj in E. apply pair_inj in E as [<- _]. apply ev_mem. intros B. apply find_bytem in E0; auto.
  - destruct (cport c) eqn:HL; try (apply some_inj in E; apply pair_inj in E as [<- _]; apply ev_refl). eapply grow_ev; eauto.
Qed.
Lemma free_ev h p h' : free c h p = Some h' -> ev h h'.
Proof.
  unfold free. intros E. step E; [apply some_inj in E as <-; apply ev_refl|]. cbv zeta in E. step E. step E. step E.
  destruct (join_prev _ _ _ _ _ _) as [[[m2 b2] s2]|] eqn:JP; [|discriminate]. cbn [obind] in E. step E. apply some_inj in E as <-. apply ev_mem. intros B.
  assert (B2 : bytem m2).
  { unfold join_prev in JP. walk JP. }
  unfold join_next in E3. walk E3.
Qed.
Lemma realloc_ev fuel h p n h' r : realloc c fuel h p n = Some (h', r) -> ev h h'.
Proof.
  unfold realloc. intros E. step E; [apply some_inj in E; apply pair_inj in E as [<- _]; apply ev_refl|].
  step E; [eapply malloc_ev; eauto|]. cbv zeta in E. step E. step E.
  - walk E; [|apply ev_refl]. apply ev_mem. intros B. eauto 12 using stx_bytem.
  - destruct (malloc _ _ _ _) as [[h1 p2]|] eqn:E1; [|discriminate]. cbn [obind] in E. apply malloc_ev in E1.
    step E; [apply some_inj in E; apply pair_inj in E as [<- _]; auto|].
    unfold memcpy in E. destruct (StrModel.up _ _ _ _) eqn:E2; [|discriminate]. cbn [obind] in E.
    destruct (free _ _ _) eqn:E3; [|discriminate]. cbn [obind] in E. apply some_inj in E. apply pair_inj in E as [<- _].
    apply free_ev in E3. eapply ev_trans; [exact E1|]. eapply ev_trans; [|exact E3]. apply ev_mem. eapply up_bytem; eauto.
Qed.
Lemma calloc_ev fuel h k n h' r : calloc c fuel h k n = Some (h', r) -> ev h h'.
Proof.
  unfold calloc. intros E. cbv zeta in E. do 2 (step E; [apply some_inj in E; apply pair_inj in E as [<- _]; apply ev_refl|]).
  destruct (malloc _ _ _ _) as [[h1 p2]|] eqn:E1; [|discriminate]. cbn [obind] in E. apply malloc_ev in E1.
  step E; [apply some_inj in E; apply pair_inj in E as [<- _]; auto|].
  unfold memset in E. destruct (fill _ _ _ _) eqn:E2; [|discriminate]. cbn [obind] in E. apply some_inj in E. apply pair_inj in E as [<- _].
  eapply ev_trans; [exact E1|]. apply ev_mem. eapply fill_bytem; eauto.
Qed.
End W.
