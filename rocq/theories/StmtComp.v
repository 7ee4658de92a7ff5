(** The code of a statement has the layout that the simulation needs. *)
From Verif Require Import Base BaseLemmas X86 ExprSpec ExprLemmas CgModel CgTree CgFuse MachSpec CgMach CgEmit CgSim CgCorrect CgProps StmtSpec StmtPre StmtModel StmtLab StmtLay.

Fixpoint has_label (l : Z) (s : stmt) : bool :=
  match s with
  | SSeq a b | SIfElse _ a b => has_label l a || has_label l b
  | SBlock a | SIf _ a | SWhile _ a | SDo a _ | SFor _ _ _ a | SCase _ a | SDefault a | SSwitch _ a => has_label l a
  | SLabel n a => (n =? l) || has_label l a
  | _ => false
  end.
Lemma has_label_find W l s : has_label l s = true -> forall k, find W (ToLabel l) s k <> None.
Proof.
  induction s; cbn; intros H k; try discriminate; auto.
  - apply orb_prop in H as [H|H].
    + pose proof (IHs1 H (KSeq s2 k)). destruct (find W (ToLabel l) s1 (KSeq s2 k)); congruence.
    + destruct (find W (ToLabel l) s1 (KSeq s2 k)); [discriminate|auto].
  - apply orb_prop in H as [H|H].
    + pose proof (IHs1 H k). destruct (find W (ToLabel l) s1 k); congruence.
    + destruct (find W (ToLabel l) s1 k); [discriminate|auto].
  - destruct (l0 =? l); [discriminate|auto].
Qed.

Section Comp.
Variable W : Z.
Hypothesis HW : W = 2 \/ W = 4.
Notation word := (ExprSpec.word W).

Definition crel (i : Z) (h : bool) (labs : list Z) (cs cs' ext : list (Z * Z)) : Prop :=
  if h then exists a v b l, cs = a ++ (v, 0) :: b /\ zlen a = i - 1 /\ 0 < l /\ In l labs /\ cs' = a ++ (v, l) :: b ++ ext
  else cs' = cs ++ ext.

Lemma app_split {A} (a b c d : list A) : length a = length c -> a ++ b = c ++ d -> a = c /\ b = d.
Proof. revert c. induction a; intros [|y c] H E; cbn in *; try lia; auto. inversion E. destruct (IHa c) as [-> ->]; auto. Qed.

Lemma crel_app i h1 l1 h2 l2 cs c1 c2 e1 e2 : 0 <= i <= zlen cs ->
  crel i h1 l1 cs c1 e1 -> crel i h2 l2 c1 c2 e2 -> crel i (h1 || h2) (l1 ++ l2) cs c2 (e1 ++ e2).
Proof.
  unfold crel. destruct h1, h2; cbn [orb]; intros Hi H1 H2.
  - destruct H1 as (a & v & b & l & -> & Ha & Hl & Hin & ->). destruct H2 as (a' & v' & b' & l' & E & Ha' & _).
    apply app_split in E as [_ E]; [|unfold zlen in *; lia]. inversion E. lia.
  - destruct H1 as (a & v & b & l & -> & Ha & Hl & Hin & ->). exists a, v, b, l. subst c2.
    rewrite <- !app_assoc. cbn [app]. rewrite <- !app_assoc. repeat split; auto. apply in_or_app; auto.
  - subst c1. destruct H2 as (a & v & b & l & E & Ha & Hl & Hin & ->).
    assert (exists b0, cs = a ++ (v, 0) :: b0 /\ b = b0 ++ e1) as (b0 & -> & ->).
    { assert (Hc : cs = firstn (length a) cs ++ skipn (length a) cs) by now rewrite firstn_skipn.
      rewrite Hc, <- app_assoc in E. assert (Hla : (length a < length cs)%nat) by (unfold zlen in *; lia).
      apply app_split in E as [E1 E2]; [|rewrite firstn_length; lia].
      destruct (skipn (length a) cs) as [|[v1 l1'] b0] eqn:Hs.
      { pose proof (f_equal (@length _) Hs) as HH. rewrite skipn_length in HH. cbn in HH. lia. }
      cbn [app] in E2. injection E2 as -> -> <-. exists b0. split; auto. rewrite Hc, E1. reflexivity. }
    exists a, v, b0, l. repeat split; auto; [apply in_or_app; auto|]. now rewrite <- !app_assoc.
  - subst. now rewrite app_assoc.
Qed.
Lemma crel_skipn i h labs cs cs' ext : 0 <= i <= zlen cs -> crel i h labs cs cs' ext ->
  skipn (Z.to_nat i) cs' = skipn (Z.to_nat i) cs ++ ext.
Proof.
  unfold crel. destruct h; intros Hi H.
  - destruct H as (a & v & b & l & -> & Ha & _ & _ & ->). unfold zlen in *.
    rewrite !skipn_app. rewrite !skipn_all2 by lia.
    replace (Z.to_nat i - length a)%nat with 1%nat by lia. reflexivity.
  - subst. rewrite skipn_app. unfold zlen in *. replace (Z.to_nat i - length cs)%nat with 0%nat by lia. reflexivity.
Qed.
Lemma crel_len i h labs cs cs' ext : crel i h labs cs cs' ext -> zlen cs' = zlen cs + zlen ext.
Proof.
  unfold crel. destruct h; intros H.
  - destruct H as (a & v & b & l & -> & _ & _ & _ & ->). rewrite !zlen_app, !zlen_cons, zlen_app. lia.
  - subst. apply zlen_app.
Qed.
Lemma crel_incl i h l l' cs cs' ext : incl l l' -> crel i h l cs cs' ext -> crel i h l' cs cs' ext.
Proof. unfold crel. destruct h; auto. intros Hi (a & v & b & k & H1 & H2 & H3 & H4 & H5). exists a, v, b, k. auto 10. Qed.

(** What compiling a statement does to the tables: [hd], [hc], [hl] are its default, case and
    goto labels. *)
Definition ceff (i : Z) (hd : bool) (hc hl : Z -> bool) (labs : list Z) (c c' : cst) : Prop :=
  0 < lc c -> 0 <= i <= zlen (cases c) ->
  lc c <= lc c' /\ 
  (exists ext, crel i hd labs (cases c) (cases c') ext /\
    (forall v l, In (v, l) ext -> In l labs /\ hc (word v) = true /\ trunc_int W v = v) /\
    (NoDup (map fst (skipn (Z.to_nat i) (cases c))) -> NoDup (map fst (skipn (Z.to_nat i) (cases c'))))) /\
  (forall l k d, goto_find l (gotos c) = Some (k, d) -> exists d', goto_find l (gotos c') = Some (k, d')) /\
  (forall l k, goto_find l (gotos c') = Some (k, true) -> goto_find l (gotos c) = Some (k, true) \/ hl l = true /\ In k labs).

Definition none : Z -> bool := fun _ => false.
Lemma ceff_lc i n c : lc c <= n -> ceff i false none none [] c (set_lc n c).
Proof.
  intros Hn Hp Hi. cbn [lc set_lc cases gotos]. split; auto. split; [|split; eauto].
  exists []. unfold crel. rewrite app_nil_r. split; auto. split; auto. intros v l [].
Qed.
Lemma ceff_refl i c : ceff i false none none [] c c.
Proof.
  intros Hp Hi. split; [lia|]. split; [|split; eauto]. exists []. unfold crel. rewrite app_nil_r. split; auto. split; auto. intros v l [].
Qed.
Lemma ceff_app i d1 h1 g1 l1 d2 h2 g2 l2 c c1 c2 : ceff i d1 h1 g1 l1 c c1 -> ceff i d2 h2 g2 l2 c1 c2 ->
  ceff i (d1 || d2) (fun v => h1 v || h2 v) (fun l => g1 l || g2 l) (l1 ++ l2) c c2.
Proof.
  intros H1 H2 Hp Hi. destruct (H1 Hp Hi) as (A1 & (e1 & A2 & A3 & A4) & A5 & A6).
  pose proof (crel_len _ _ _ _ _ _ A2) as Hlen. pose proof (zlen_nonneg e1).
  destruct (H2 ltac:(lia) ltac:(lia)) as (B1 & (e2 & B2 & B3 & B4) & B5 & B6). split; [lia|]. split; [|split].
  - exists (e1 ++ e2). split; [eapply crel_app; eauto|]. split; [|auto].
    intros v l Hin. apply in_app_iff in Hin as [Hin|Hin].
    + apply A3 in Hin as (Q1 & Q2 & Q3). rewrite Q2. split; [apply in_or_app|]; auto.
    + apply B3 in Hin as (Q1 & Q2 & Q3). rewrite Q2, orb_true_r. split; [apply in_or_app|]; auto.
  - intros l k d Hg. apply A5 in Hg as [d' Hg]. eauto.
  - intros l k Hg. apply B6 in Hg as [Hg|[Hg Hk]]; [|rewrite Hg, orb_true_r; right; split; [auto|apply in_or_app; auto]].
    apply A6 in Hg as [Hg|[Hg Hk]]; [auto|]. rewrite Hg. right. split; [auto|apply in_or_app; auto].
Qed.
Lemma ceff_mono i d h h' g g' l l' c c' : ceff i d h g l c c' -> incl l l' -> (forall v, h v = true -> h' v = true) ->
  (forall v, g v = true -> g' v = true) -> ceff i d h' g' l' c c'.
Proof.
  intros H Hl Hh Hg Hp Hi. destruct (H Hp Hi) as (A1 & (e1 & A2 & A3 & A4) & A5 & A6). split; auto. split; [|split; auto].
  - exists e1. split; [eapply crel_incl; eauto|]. split; auto. intros v k Hin. apply A3 in Hin as (Q1 & Q2 & Q3). auto.
  - intros k j H1. apply A6 in H1 as [|[]]; auto.
Qed.

Lemma relabel_le e n : n <= snd (relabel e n).
Proof. destruct (relabel_ok e n) as [[H _] _]. exact H. Qed.
Lemma ceff_expr i e tail c code c' : comp_expr W e tail c = Some (code, c') -> ceff i false none none [] c c'.
Proof.
  unfold comp_expr. pose proof (relabel_le e (lc c)) as Hn. destruct (relabel e (lc c)) as [e' n].
  intros H. apply obind_Some in H as (cd & _ & H). apply some_inj, pair_inj in H as [_ <-]. now apply ceff_lc.
Qed.
Lemma ceff_ctl i t neg l c code c' : comp_ctl W t neg l c = Some (code, c') -> ceff i false none none [] c c'.
Proof.
  destruct t as [v|e]; cbn [comp_ctl]; intros H.
  - apply some_inj, pair_inj in H as [_ <-]. apply ceff_refl.
  - destruct e; try (apply obind_Some in H as ([c1 c2] & H1 & H); apply some_inj, pair_inj in H as [_ <-]; eapply ceff_expr; eauto).
    eapply ceff_expr; eauto.
Qed.
Lemma ceff_octl i t l c code c' : comp_octl W t l c = Some (code, c') -> ceff i false none none [] c c'.
Proof. destruct t; cbn; [apply ceff_ctl|]. intros H. apply some_inj, pair_inj in H as [_ <-]. apply ceff_refl. Qed.

Lemma goto_find_app l t u : goto_find l (t ++ u) = match goto_find l t with Some x => Some x | None => goto_find l u end.
Proof. induction t as [|[[n k] d] t IH]; cbn; auto. destruct (n =? l); auto. Qed.
Lemma goto_find_mark l n t : goto_find l (goto_mark n t) =
  match goto_find l t with Some (k, d) => Some (k, if l =? n then true else d) | None => None end.
Proof.
  induction t as [|[[m k] d] t IH]; cbn; auto. destruct (Z.eqb_spec m n) as [->|]; cbn.
  - rewrite (Z.eqb_sym l n). destruct (Z.eqb_spec n l); auto. rewrite Z.eqb_sym in IH. 
    destruct (goto_find l t) as [[k2 d2]|]; auto. 
  - destruct (Z.eqb_spec m l) as [->|]; auto. destruct (Z.eqb_spec l n); [lia|auto].
Qed.
Lemma goto_eff i l def c k c' : add_goto_label l def c = Some (k, c') ->
  (exists d, goto_find l (gotos c') = Some (k, d)) /\ ceff i false none (fun x => def && (l =? x)) (if def then [k] else []) c c'.
Proof.
  unfold add_goto_label. destruct (goto_find l (gotos c)) as [[k' d]|] eqn:Hf.
  - destruct (d && def) eqn:Hd; [discriminate|]. intros H. apply some_inj, pair_inj in H as [<- <-]. cbn [gotos]. split.
    { destruct def; [rewrite goto_find_mark, Hf|]; eauto. }
    intros Hp Hi. cbn [lc cases gotos]. split; [lia|]. split; [|split].
    + exists []. unfold crel. rewrite app_nil_r. split; auto. split; auto. intros v x [].
    + intros x k d' Hx. destruct def; [rewrite goto_find_mark, Hx|]; eauto.
    + intros x k Hx. destruct def; [|auto]. rewrite goto_find_mark in Hx. destruct (goto_find x (gotos c)) as [[k2 d2]|] eqn:Hf2; [|discriminate].
      rewrite (Z.eqb_sym l x). destruct (Z.eqb_spec x l) as [->|]; [|auto]. apply some_inj, pair_inj in Hx as [-> _].
      rewrite Hf in *. right. split; auto. cbn. left. congruence.
  - destruct (_ >=? _); [discriminate|]. intros H. apply some_inj, pair_inj in H as [<- <-]. cbn [gotos]. split.
    { rewrite goto_find_app, Hf. cbn. rewrite Z.eqb_refl. eauto. }
    intros Hp Hi. cbn [lc cases gotos]. split; [lia|]. split; [|split].
    + exists []. unfold crel. rewrite app_nil_r. split; auto. split; auto. intros v x [].
    + intros x k d' Hx. rewrite goto_find_app, Hx. eauto.
    + intros x k Hx. rewrite goto_find_app in Hx. destruct (goto_find x (gotos c)) as [[k2 d2]|]; [auto|].
      cbn in Hx. destruct (l =? x); [|discriminate]. apply some_inj, pair_inj in Hx as [-> ->]. cbn. auto.
Qed.

Lemma trunc_idem v : trunc_int W (trunc_int W v) = trunc_int W v.
Proof. unfold trunc_int. apply swrap_small; [lia|]. apply swrap_range. lia. Qed.
Lemma word_trunc v : word (trunc_int W v) = word v.
Proof. unfold ExprSpec.word, trunc_int. apply wrap_swrap. lia. Qed.
Lemma trunc_word_inj a b : trunc_int W a = a -> trunc_int W b = b -> word a = word b -> a = b.
Proof.
  intros <- <- H. rewrite !word_trunc in H. unfold ExprSpec.word, wrap in H. unfold trunc_int, swrap. now rewrite H.
Qed.

Ltac ob H x y Hx := apply obind_Some in H as ([x y] & Hx & H).
Ltac fin H := apply some_inj, pair_inj in H as [<- <-].
Ltac inc := let y := fresh in let Hy := fresh in intros y Hy; repeat (progress (rewrite ?labels_app, ?in_app_iff; cbn [labels In app]));
  repeat (progress (rewrite ?in_app_iff in Hy; cbn [In app] in Hy)); tauto.

Lemma ceff_use i d h g l c c' d' h' g' l' : ceff i d h g l c c' -> d = d' -> incl l l' -> (forall v, h v = true -> h' v = true) ->
  (forall v, g v = true -> g' v = true) -> ceff i d' h' g' l' c c'.
Proof. intros H <-. now apply ceff_mono. Qed.

Lemma existsb_fst v (t : list (Z * Z)) : existsb (fun y => fst y =? v) t = false -> ~ In v (map fst t).
Proof.
  intros H Hin. apply in_map_iff in Hin as (y & <- & Hy). 
  assert (existsb (fun z => fst z =? fst y) t = true) by (apply existsb_exists; exists y; split; [auto|apply Z.eqb_refl]). congruence.
Qed.
Lemma NoDup_snoc (l : list Z) x : NoDup l -> ~ In x l -> NoDup (l ++ [x]).
Proof. intros H1 H2. apply NoDup_app_intro; auto; [repeat constructor; intros []|]. intros y Hy [<-|[]]. auto. Qed.

Lemma comp_eff s : forall x lvl last C code c', comp W x lvl last s C = Some (code, c') ->
  ceff (cidx x) (has_default s) (fun v => has_case W v s) (fun l => has_label l s) (labels code) C c'.
Proof.
  induction s; intros X lvl last C code c' H; cbn [comp has_default has_case has_label] in *.
  - fin H. apply ceff_refl.
  - eapply ceff_use; [eapply ceff_expr; eauto|reflexivity|inc|discriminate|discriminate].
  - ob H ca c1 H1. ob H cb c2 H2. fin H. rewrite labels_app. apply IHs1 in H1. apply IHs2 in H2.
    exact (ceff_app _ _ _ _ _ _ _ _ _ _ _ _ H1 H2).
  - apply IHs in H. exact H.
  - ob H ct c1 H1. ob H ca c2 H2. fin H. apply (ceff_ctl (cidx X)) in H1. apply IHs in H2.
    eapply ceff_use; [eapply ceff_app; [apply (ceff_lc _ (lc C + 2)); lia|]; eapply ceff_app; [exact H1|exact H2]|..]; cbn; auto. inc.
  - ob H ct c1 H1. ob H ca c2 H2. ob H cb c3 H3. fin H. apply (ceff_ctl (cidx X)) in H1. apply IHs1 in H2. apply IHs2 in H3.
    eapply ceff_use; [eapply ceff_app; [apply (ceff_lc _ (lc C + 2)); lia|]; eapply ceff_app; [exact H1|]; eapply ceff_app; [exact H2|exact H3]|..]; cbn; auto. inc.
  - ob H ct c1 H1. ob H cb c2 H2. fin H. apply (ceff_ctl (cidx X)) in H1. apply IHs in H2. cbn [cidx] in H2.
    eapply ceff_use; [eapply ceff_app; [apply (ceff_lc _ (lc C + 2)); lia|]; eapply ceff_app; [exact H1|exact H2]|..]; cbn; auto. inc.
  - ob H cb c1 H1. ob H ct c2 H2. fin H. apply (ceff_ctl (cidx X)) in H2. apply IHs in H1. cbn [cidx] in H1.
    eapply ceff_use; [eapply ceff_app; [apply (ceff_lc _ (lc C + 3)); lia|]; eapply ceff_app; [exact H1|exact H2]|..]; cbn; auto; try (now rewrite orb_false_r).
    + inc.
    + intros v Hv. now rewrite orb_false_r in Hv.
    + intros v Hv. now rewrite orb_false_r in Hv.
  - ob H ci c1 H1. ob H ct c2 H2.
    assert (L1 : ceff (cidx X) false none none [] (set_lc (lc C + 4) C) c1).
    { destruct i; [eapply ceff_expr; eauto|]. fin H1. apply ceff_refl. }
    assert (L0 : ceff (cidx X) false none none [] C c2).
    { apply (ceff_octl (cidx X)) in H2. eapply ceff_use; [eapply ceff_app; [apply (ceff_lc _ (lc C + 4)); lia|]; eapply ceff_app; [exact L1|exact H2]|..]; cbn; auto. inc. }
    destruct x as [e|].
    + pose proof (relabel_le e (lc c2)) as Hle. destruct (relabel e (lc c2)) as [e' n]. cbn [snd] in Hle.
      destruct (_ && _).
      * ob H cb c3 H3. apply obind_Some in H as (cx & H4 & H). fin H. apply IHs in H3. cbn [cidx] in H3.
        eapply ceff_use; [eapply ceff_app; [exact L0|]; eapply ceff_app; [apply (ceff_lc _ n); lia|exact H3]|..]; cbn; auto. inc.
      * apply obind_Some in H as (cx & H4 & H). ob H cb c3 H3. fin H. apply IHs in H3. cbn [cidx] in H3.
        eapply ceff_use; [eapply ceff_app; [exact L0|]; eapply ceff_app; [apply (ceff_lc _ n); lia|exact H3]|..]; cbn; auto. inc.
    + ob H cb c3 H3. fin H. apply IHs in H3. cbn [cidx] in H3.
      eapply ceff_use; [eapply ceff_app; [exact L0|exact H3]|..]; cbn; auto. inc.
  - destruct (brk X); [|discriminate]. fin H. apply ceff_refl.
  - destruct (cnt X =? 0); [discriminate|]. fin H. apply ceff_refl.
  - ob H ce c1 H1. fin H. destruct e.
    + eapply ceff_use; [eapply ceff_expr; eauto|reflexivity|inc|discriminate|discriminate].
    + fin H1. eapply ceff_use; [apply ceff_refl|reflexivity|inc|discriminate|discriminate].
  - ob H ce c1 H1. apply obind_Some in H as (c2 & H2 & H). ob H cb c3 H3. ob H q d H4. fin H.
    assert (E1 : cases c1 = cases C /\ gotos c1 = gotos C /\ lc C <= lc c1).
    { revert H1. unfold comp_expr. pose proof (relabel_le e (lc (set_lc (lc C + 2) C))) as Hn. destruct (relabel e _) as [e' n].
      intros H1. apply obind_Some in H1 as (cd & _ & H1). apply some_inj, pair_inj in H1 as [_ <-]. cbn in *. split; auto. split; auto. lia. }
    destruct E1 as (E1 & E2 & E3). apply add_case_inv in H2. apply IHs in H3. cbn [cidx] in H3. subst c2.
    intros Hp Hi. pose proof (zlen_nonneg (cases C)). 
    destruct (H3 ltac:(cbn; lia) (conj (zlen_nonneg _) (Z.le_refl _))) as (A1 & (ext & A2 & A3 & _) & A5 & A6). cbn [lc cases gotos] in *.
    assert (EF : firstn (Z.to_nat (zlen (cases C))) (cases c3) = cases C).
    { unfold crel in A2. unfold zlen. rewrite Nat2Z.id. rewrite E1 in A2. destruct (has_default s).
      - destruct A2 as (a & v & b & l & Ea & Eb & _ & _ & ->). 
        rewrite zlen_app in Eb. change (zlen [(0, 0)]) with 1 in Eb. 
        apply app_split in Ea as [<- _]; [|unfold zlen in *; lia].
        rewrite firstn_app, Nat.sub_diag, firstn_all. cbn [firstn]. apply app_nil_r.
      - rewrite A2, <- app_assoc, firstn_app, Nat.sub_diag, firstn_all. cbn [firstn]. apply app_nil_r. }
    rewrite EF. split; [lia|]. split; [|rewrite <- E2; split; auto].
    { exists []. unfold crel. rewrite app_nil_r. split; auto. split; auto. intros v l []. }
    intros l k Hg. apply A6 in Hg as [Hg|[Hg Hk]]; [auto|right]. split; auto. rewrite !labels_app, !in_app_iff. auto.
  - destruct (cidx X =? 0); [discriminate|]. destruct (existsb _ _) eqn:Hex; [discriminate|].
    apply obind_Some in H as (c1 & H1 & H). ob H ca c2 H2. fin H. apply add_case_inv in H1. subst c1. apply IHs in H2.
    assert (H0 : ceff (cidx X) false (fun w => word v =? w) none [lc C] C (mkcst (lc C + 1) (cases C ++ [(trunc_int W v, lc C)]) (gotos C))).
    { intros Hp Hi. cbn [lc cases gotos]. split; [lia|]. split; [|split; eauto].
      exists [(trunc_int W v, lc C)]. split; [reflexivity|]. split.
      - intros w l [E|[]]. injection E as <- <-. rewrite word_trunc, Z.eqb_refl, trunc_idem. cbn; auto.
      - intros Hn. rewrite skipn_app, map_app. unfold zlen in *.
        replace (Z.to_nat (cidx X) - length (cases C))%nat with 0%nat by lia. apply NoDup_snoc; auto.
        now apply existsb_fst. }
    exact (ceff_app _ _ _ _ _ _ _ _ _ _ _ _ H0 H2).
  - destruct (cidx X =? 0); [discriminate|]. ob H v d H0. destruct (d =? 0) eqn:Hd; [|discriminate]. cbn [negb] in H. apply Z.eqb_eq in Hd. subst d.
    apply obind_Some in H as (cs & H1 & H). ob H ca c2 H2. fin H. apply IHs in H2.
    assert (H3 : ceff (cidx X) true none none [lc C] C (mkcst (lc C + 1) cs (gotos C))).
    { intros Hp Hi. cbn [lc cases gotos]. split; [lia|]. split; [|split; eauto].
      assert (HC : crel (cidx X) true [lc C] (cases C) cs []).
      { unfold crel. apply zset_inv in H1 as [H1 ->]. unfold zget in H0. destruct (_ <? 0); [discriminate|].
        apply nth_error_split in H0 as (a & b & E & Ha). exists a, v, b, (lc C). rewrite E, app_nil_r.
        split; auto. split; [unfold zlen; lia|]. split; auto. split; [cbn; auto|].
        rewrite <- Ha. clear. induction a; cbn; congruence. }
      exists []. split; [exact HC|]. split; [intros w l []|]. rewrite (crel_skipn _ _ _ _ _ _ Hi HC), app_nil_r. auto. }
    eapply ceff_use; [exact (ceff_app _ _ _ _ _ _ _ _ _ _ _ _ H3 H2)|..]; cbn; auto. apply incl_refl.
  - ob H k c1 H1. fin H. eapply ceff_use; [eapply goto_eff; eauto|..]; cbn; auto. apply incl_refl.
  - ob H k c1 H1. ob H ca c2 H2. fin H. apply (goto_eff (cidx X)) in H1 as [_ H1]. apply IHs in H2.
    eapply ceff_use; [exact (ceff_app _ _ _ _ _ _ _ _ _ _ _ _ H1 H2)|..]; cbn; auto. apply incl_refl.
Qed.
End Comp.

Lemma tail_ret_mono s : tail_ret true s = true -> tail_ret false s = true.
Proof. induction s; cbn; auto; discriminate. Qed.

Section CompLay.
Variable W : Z.
Hypothesis HW : W = 2 \/ W = 4.
Variables (addr : Z -> Z) (bp lo top : Z) (prot : Z -> Prop).
Hypothesis Hlo : 0 <= lo.
Hypothesis Htop : top < 2 ^ (8 * W).
Hypothesis Hprot : forall a, prot a -> ~ (lo <= a < top).
Variables (callee : Z -> st -> option st) (ext : Z -> list Z -> mem -> option (Z * mem)) (room : Z).
Hypothesis Hroom : 0 <= room.
Hypothesis Hcallee : callee_ok W bp lo top prot callee ext room.
Variable prog : list instr.
Hypothesis Huniq : forall l p, nth_error prog p = Some (Lab l) -> find_label l prog = Some p.
Variable D : Z.
Variable gF : list (Z * Z * bool).
Variable pE : nat.
Variable is_main : bool.
Hypothesis HgF : forall l k, goto_find l gF = Some (k, true) -> exists q, find_label k prog = Some q.
Definition G (l : Z) (q : nat) : Prop := exists k, goto_find l gF = Some (k, true) /\ find_label k prog = Some q.

Notation word := (ExprSpec.word W).
Notation mstep := (mstep W addr callee prog).
Notation mstar := (mstar W addr callee prog).
Notation msteps := (msteps W addr callee prog).
Notation regs := (regs W bp). Notation agree := (agree W lo top prot). Notation keeps := (keeps top prot).
Notation silent := (silent W addr callee prog). Notation hop := (hop W addr callee prog).
Notation ecode := (ecode W addr bp lo top prot callee ext room prog D).
Notation oecode := (oecode W addr bp lo top prot callee ext room prog D).
Notation ccode := (ccode W addr bp lo top prot callee ext room prog D).
Notation occode := (occode W addr bp lo top prot callee ext room prog D).
Notation dispatch := (dispatch W addr bp lo top prot callee prog).
Notation okk := (okk W bp lo top prot).
Notation lay := (lay W addr bp lo top prot callee ext room prog D G pE).
Notation loop := (loop W addr bp lo top prot callee ext room prog D).
Notation code_at := (code_at prog).
Notation space := (StmtLay.space W lo top room D).

Lemma hop_lab p l : code_at p [Lab l] -> hop p (S p).
Proof.
  intros H s. exists 0%nat. econstructor; [|constructor]. apply code_at_hd in H as [H _]. unfold X86.mstep. now rewrite H.
Qed.
Lemma hop_jump p l q : code_at p (gen_jump l) -> find_label l prog = Some q -> hop p q.
Proof.
  intros H Hq s. exists 0%nat. econstructor; [|constructor]. apply code_at_hd in H as [H _]. unfold X86.mstep. rewrite H. cbn [obind]. now rewrite Hq.
Qed.
Lemma lab_at p l : code_at p [Lab l] -> find_label l prog = Some p.
Proof. intros H. apply code_at_hd in H as [H _]. now apply Huniq. Qed.
Lemma find_in p code l : code_at p code -> In l (labels code) -> exists q, find_label l prog = Some q.
Proof.
  revert p. induction code as [|i code IH]; intros p H Hin; [destruct Hin|]. apply code_at_hd in H as [H0 H].
  destruct i; cbn [labels] in Hin; try (now apply (IH _ H)). destruct Hin as [<-|Hin]; [|now apply (IH _ H)]. eauto.
Qed.
Lemma okk_fl s f m : regs s -> agree m (M s) -> okk s m (set_fl f s).
Proof. intros. split; auto. split; auto. split; auto. Qed.

Lemma ecode_comp e tail c code c' p : wfx W e -> 0 < lc c -> tail = [] \/ tail = [TReturn] -> depth e <= D ->
  comp_expr W e tail c = Some (code, c') -> code_at p code -> ecode e p (p + length code)%nat.
Proof.
  intros Hw Hlc Ht Hd H Hat. destruct (comp_expr_inv _ _ _ _ _ _ H) as (e' & E & Hg & _).
  destruct (relabel_wf W e (lc c) Hlc Hw) as (W1 & W2 & _). rewrite E in W1, W2. cbn [fst] in *.
  destruct (expr_code W HW addr bp lo top prot Hlo Htop Hprot callee ext room Hroom Hcallee prog Huniq e' tail W1 Ht)
    as (cd & [E1|[E1 _]] & Sem); rewrite E1 in Hg; [|discriminate]. apply some_inj in Hg. subst cd.
  intros s m HR HA HS Hsp. rewrite <- W2 in HS. apply safe_strip in HS.
  assert (Hsp' : CgSim.space W lo top room (depth e') s).
  { rewrite <- (depth_strip e'), W2. unfold CgSim.space. unfold StmtLay.space in Hsp. nia. }
  destruct (Sem p s m Hat HR HA HS Hsp') as (v & m' & s' & Q1 & Q2 & Q3 & Q4 & Q5 & Q6 & _).
  exists v, m', s'. split; [|split; [exact Q2|split; [split; auto|auto]]].
  apply esteps_strip in Q1. cbn [fst snd strip] in Q1. rewrite W2 in Q1. exact Q1.
Qed.

Lemma ccode_comp t neg l c code c' p q : cwfx W t -> 0 < lc c -> cdepth t <= D ->
  comp_ctl W t neg l c = Some (code, c') -> code_at p code -> find_label l prog = Some q ->
  ccode t p (if neg then (p + length code)%nat else q) (if neg then q else (p + length code)%nat).
Proof.
  intros Hw Hlc Hd H Hat Hq s m HR HA HS Hsp. destruct t as [v|e].
  - cbn [comp_ctl] in H. apply some_inj, pair_inj in H as [<- <-]. rewrite trunc_zero in * by auto.
    exists (negb (word v =? 0)), m, s. split; [split; reflexivity|]. split; [|split; [auto|split; [auto|split; auto]]].
    destruct (word v =? 0), neg; cbn [Bool.eqb negb] in *; first [apply hop_silent; eapply hop_jump; eauto; fail | cbn [length]; rewrite Nat.add_0_r; constructor].
  - cbn [comp_ctl cwfx csafe cdepth] in *.
    assert (Gen : forall code1 c2, comp_expr W e [TReturn] c = Some (code1, c2) ->
       code = code1 ++ (if neg then gen_jump_if_zero W l else gen_jump_if_not_zero W l) ->
       exists b m' s', holds W addr bp ext (CExpr e) m b m' /\
         mstar (p, s) ((if b : bool then if neg then (p + length code)%nat else q else if neg then q else (p + length code)%nat), s') /\ okk s m' s').
    { intros code1 c2 H1 E. subst code. apply code_at_cat in Hat as [Hat1 Hat2].
      destruct (ecode_comp e [TReturn] c code1 c2 p Hw Hlc (or_intror eq_refl) Hd H1 Hat1 s m HR HA HS Hsp) as (v & m' & s' & Q1 & Q2 & (Q3 & Q4 & Q5) & Q6).
      exists (negb (v =? 0)), m', (set_fl (Some (ea s', 0)) s'). split; [exists v; auto|]. split; [|split; [auto|split; [auto|exact Q5]]].
      eapply mstar_trans; [exact Q2|].
      pose proof (jz_ok W HW addr bp lo top prot Htop Hprot callee room prog Huniq) as JZ.
      pose proof (jnz_ok W HW addr bp lo top prot Htop Hprot callee room prog Huniq) as JN.
      rewrite app_length, Nat.add_assoc.
      destruct neg.
      - specialize (JZ _ s' l q Hat2 Q3 Hq). rewrite Q6 in *. destruct (v =? 0); exact JZ.
      - specialize (JN _ s' l q Hat2 Q3 Hq). rewrite Q6 in *. destruct (v =? 0); exact JN. }
    destruct e as [| | | | | | | | | |o el er| | | | | | |];
      try (apply obind_Some in H as ([c1 c2] & H1 & H); apply some_inj, pair_inj in H as [<- <-]; eapply Gen; eauto; fail).
    clear Gen. destruct (comp_expr_inv _ _ _ _ _ _ H) as (e' & E & Hg & _).
    destruct (relabel_wf W (ECmp o el er) (lc c) Hlc Hw) as (W1 & W2 & _). rewrite E in W1, W2. cbn [fst] in *.
    destruct e'; cbn [strip] in W2; try discriminate.
    set (e' := ECmp c0 e'1 e'2) in *.
    destruct (cond_code W HW addr bp lo top prot Hlo Htop Hprot callee ext room Hroom Hcallee prog Huniq c0 e'1 e'2 neg l W1)
      as (cc & [E1|[E1 _]] & Sem); subst e'; cbv zeta in E1; rewrite E1 in Hg; [|discriminate]. apply some_inj in Hg. subst code.
    change (ECmp o (strip e'1) (strip e'2)) with (strip (ECmp o e'1 e'2)) in W2.
    assert (Ho : c0 = o) by congruence. subst c0.
    change (strip (ECmp o e'1 e'2) = ECmp o el er) in W2.
    rewrite <- W2 in HS. apply safe_strip in HS.
    assert (Hsp' : CgSim.space W lo top room (depth (ECmp o e'1 e'2)) s).
    { rewrite <- depth_strip, W2. unfold CgSim.space. unfold StmtLay.space in Hsp. nia. }
    apply code_at_cat in Hat as [Hat1 Hat2].
    destruct (Sem p s m Hat1 HR HA HS Hsp') as (a & b & m' & s' & Q1 & Q2 & Q3 & Q4 & Q5 & Ba & Bb & Fl).
    exists (cmp_val W o a b), m', s'. split; [|split; [|split; auto]].
    + exists (if cmp_val W o a b then 1 else 0). split; [|destruct (cmp_val W o a b); reflexivity].
      assert (Z1 : esteps W addr bp ext (ECmp o e'1 e'2, m) (EVal (if cmp_val W o a b then 1 else 0), m')).
      { eapply esteps_trans; [exact Q1|]. apply esteps_red. reflexivity. }
      apply esteps_strip in Z1. cbn [fst snd] in Z1. rewrite W2 in Z1. exact Z1.
    + eapply mstar_trans; [exact Q2|]. apply code_at_hd in Hat2 as [Hj _].
      rewrite app_length. cbn [length gen1]. econstructor; [|constructor]. unfold X86.mstep. rewrite Hj. cbn [obind].
      destruct neg; cbn [obind]; rewrite Fl; cbn [obind]; rewrite condv_cmp by auto; rewrite Hq;
        destruct (cmp_val W o a b); cbn [obind]; rewrite ?Nat.add_assoc, ?Nat.add_1_r; reflexivity.
Qed.

(** ** Switch tables *)
Definition tab (t : list (Z * Z)) (w : Z) : option nat :=
  match List.find (fun y => word (fst y) =? w) t with Some (_, l) => find_label l prog | None => None end.

Lemma chain_ok t : forall p s, code_at p (gen_chain W t) -> regs s -> (forall v l, In (v, l) t -> exists q, find_label l prog = Some q) ->
  exists f, mstar (p, s) (match tab t (ea s) with Some q => q | None => (p + length (gen_chain W t))%nat end, set_fl f s).
Proof.
  induction t as [|[v l] t IH]; intros p s Hat HR Hl.
  - exists (fl s). cbn. rewrite Nat.add_0_r. destruct s. constructor.
  - change (gen_chain W ((v, l) :: t)) with (gen_jump_if_equal W v l ++ gen_chain W t) in *.
    apply code_at_cat in Hat as [H1 H2]. apply code_at_hd in H1 as [Ha H1]. apply code_at_hd in H1 as [Hb _].
    destruct (Hl v l (or_introl eq_refl)) as [q Hq].
    assert (PB : 0 < 2 ^ (8 * W)) by (apply Z.pow_pos_nonneg; lia).
    assert (S2 : mstar (p, s) (if word v =? ea s then q else (p + 2)%nat, set_fl (Some (ea s, word v)) s)).
    { econstructor.
      { unfold X86.mstep. rewrite Ha. cbn [obind exec width2 width rd]. rewrite Z.eqb_refl. cbn [obind].
        replace (ub W (ea s)) with (ea s) by (unfold ub, wrap; rewrite Z.mod_small; [reflexivity|apply HR]). reflexivity. }
      econstructor; [|constructor]. unfold X86.mstep. rewrite Hb. cbn [obind set_fl fl condv].
      change (ub W v) with (word v). unfold uw. replace (wrap (8 * W) (ea s)) with (ea s) by (unfold wrap; rewrite Z.mod_small; [reflexivity|apply HR]).
      replace (wrap (8 * W) (word v)) with (word v) by (unfold ExprSpec.word, wrap; rewrite Z.mod_mod by lia; reflexivity).
      rewrite (Z.eqb_sym (word v)). destruct (ea s =? word v); cbn [obind]; [rewrite Hq; reflexivity|]. repeat f_equal. lia. }
    unfold tab. cbn [List.find fst]. destruct (word v =? ea s) eqn:E.
    + exists (Some (ea s, word v)). rewrite Hq. exact S2.
    + change (length (gen_jump_if_equal W v l)) with 2%nat in H2.
      destruct (IH (p + 2)%nat (set_fl (Some (ea s, word v)) s) H2 HR) as [f Hf]. { intros. apply (Hl v0). now right. }
      exists f. eapply mstar_trans; [exact S2|]. cbn [set_fl ea] in Hf. change (set_fl f (set_fl (Some (ea s, word v)) s)) with (set_fl f s) in Hf.
      unfold tab in Hf. destruct (List.find _ t) as [[v2 l2]|] eqn:Ef.
      * destruct (find_some _ _ Ef) as [Hin _]. destruct (Hl v2 l2 (or_intror Hin)) as [q2 Hq2]. rewrite Hq2 in *. exact Hf.
      * rewrite app_length. change (length (gen_jump_if_equal W v l)) with 2%nat. rewrite Nat.add_assoc. exact Hf.
Qed.
Lemma nodup_fst (t : list (Z * Z)) v l l' : NoDup (map fst t) -> In (v, l) t -> In (v, l') t -> l = l'.
Proof.
  induction t as [|[a b] t IH]; cbn; intros Hn H1 H2; [destruct H1|]. inversion Hn; subst.
  destruct H1 as [E1|H1], H2 as [E2|H2]; auto; try congruence.
  - injection E1 as -> ->. apply (in_map fst) in H2. cbn in H2. contradiction.
  - injection E2 as -> ->. apply (in_map fst) in H1. cbn in H1. contradiction.
Qed.
Lemma tab_in t v l q : NoDup (map fst t) -> (forall a b, In (a, b) t -> trunc_int W a = a) -> In (v, l) t -> find_label l prog = Some q ->
  tab t (word v) = Some q.
Proof.
  intros Hn Ht Hin Hq. unfold tab. destruct (List.find _ t) as [[v2 l2]|] eqn:Ef.
  - destruct (find_some _ _ Ef) as [Hin2 E]. cbn in E. apply Z.eqb_eq in E.
    apply (trunc_word_inj W HW) in E; eauto. subst v2. rewrite (nodup_fst t v l2 l Hn Hin2 Hin). exact Hq.
  - apply find_none with (x := (v, l)) in Ef; auto. cbn in Ef. rewrite Z.eqb_refl in Ef. discriminate.
Qed.

(** ** Layout of a compiled statement *)
Definition pre (i : Z) (c : cst) : Prop := ginv c /\ 0 <= i <= zlen (cases c).
Definition tabs (X : lctx) (i : Z) (c : cst) : Prop :=
  (forall v l q, In (v, l) (skipn (Z.to_nat i) (cases c)) -> i <> 0 -> find_label l prog = Some q -> tbl X (word v) = Some q) /\
  (forall v d q, i <> 0 -> zget (cases c) (i - 1) = Some (v, d) -> d <> 0 -> find_label d prog = Some q -> dfl X = Some q) /\
  (forall l k d, goto_find l (gotos c) = Some (k, d) -> goto_find l gF = Some (k, true)).
Definition stp (i : Z) (c c' : cst) : Prop := pre i c -> pre i c' /\ forall X, tabs X i c' -> tabs X i c.

Lemma stp_trans i c c1 c2 : stp i c c1 -> stp i c1 c2 -> stp i c c2.
Proof. intros H1 H2 Hp. destruct (H1 Hp) as [P1 T1]. destruct (H2 P1) as [P2 T2]. split; auto. Qed.
Lemma stp_lc i n c : lc c <= n -> stp i c (set_lc n c).
Proof.
  intros Hn [(I1 & I2 & I3 & I4) Hi]. split.
  - split; [|exact Hi]. split; [cbn; lia|]. split; [exact I2|]. split; [exact I3|]. intros x Hx. apply I4 in Hx. cbn. lia.
  - intros X H. exact H.
Qed.
Lemma stp_eff i d h g l l' c c' : L c l' c' -> ceff W i d h g l c c' -> stp i c c'.
Proof.
  intros HL H [Hp Hi]. destruct (HL Hp) as (P' & _). destruct (H (proj1 Hp) Hi) as (A1 & (e1 & A2 & A3 & A4) & A5 & A6).
  split.
  - split; auto. pose proof (crel_len _ _ _ _ _ _ A2). pose proof (zlen_nonneg e1). lia.
  - intros X (T1 & T2 & T3). split; [|split].
    + intros v k q Hin. apply T1. rewrite (crel_skipn _ _ _ _ _ _ Hi A2). apply in_or_app. auto.
    + intros v k q Hi0 Hg Hk. apply (T2 v k q Hi0); auto. unfold crel in A2. destruct d.
      * destruct A2 as (a & v' & b & k' & E & Ea & _ & _ & _). rewrite E in Hg. rewrite zget_app_r in Hg by lia.
        replace (i - 1 - zlen a) with 0 in Hg by lia. rewrite zget_cons_0 in Hg. congruence.
      * rewrite A2, zget_app_l; auto. apply zget_Some_range in Hg. lia.
    + intros k j e Hg. apply A5 in Hg as [d' Hg]. eauto.
Qed.
Lemma stp_expr i e tail c code c' : wfx W e -> tail_ok tail -> comp_expr W e tail c = Some (code, c') -> stp i c c'.
Proof. intros. eapply stp_eff; [eapply comp_expr_L; eauto|eapply ceff_expr; eauto]. Qed.
Lemma stp_ctl i t neg l c code c' : cwfx W t -> comp_ctl W t neg l c = Some (code, c') -> stp i c c'.
Proof. intros. eapply stp_eff; [eapply comp_ctl_L; eauto|eapply ceff_ctl; eauto]. Qed.
Lemma stp_octl i t l c code c' : ocwfx W t -> comp_octl W t l c = Some (code, c') -> stp i c c'.
Proof. intros. eapply stp_eff; [eapply comp_octl_L; eauto|eapply ceff_octl; eauto]. Qed.
Lemma stp_comp x lvl last s c code c' : swf W s -> comp W x lvl last s c = Some (code, c') -> stp (cidx x) c c'.
Proof. intros. eapply stp_eff; [eapply comp_L; eauto|eapply comp_eff; eauto]. Qed.
Lemma stp_goto i l def c k c' : add_goto_label l def c = Some (k, c') -> stp i c c'.
Proof. intros. eapply stp_eff; [eapply goto_L; eauto|eapply goto_eff; eauto]. Qed.

Record ctxok (x : ctx) (X : lctx) : Prop := {
  co_brk : forall l, brk x = Some l -> exists q, xb X = Some q /\ find_label l prog = Some q;
  co_cnt : cnt x <> 0 -> exists q, xc X = Some q /\ find_label (cnt x) prog = Some q;
  co_epi : find_label (epi x) prog = Some pE;
  co_main : main x = is_main
}.
Definition tailc (last : bool) (lvl : Z) (s : stmt) (p' : nat) : Prop :=
  last && (lvl =? 1) && negb is_main = true -> tail_ret true s = true \/ (silent p' pE /\ tail_ret false s = true).
Lemma silent_trans p q r : silent p q -> silent q r -> silent p r.
Proof. apply StmtLay.silent_trans. Qed.
Lemma lab_silent p l : code_at p [Lab l] -> silent p (S p).
Proof. intros. eapply hop_silent, hop_lab; eauto. Qed.
Lemma jump_silent p l q : code_at p (gen_jump l) -> find_label l prog = Some q -> silent p q.
Proof. intros. eapply hop_silent, hop_jump; eauto. Qed.
Lemma tailc_sub last lvl s s' p p' : tailc last lvl s p' -> (forall b, tail_ret b s = tail_ret b s') -> silent p p' -> tailc last lvl s' p.
Proof.
  intros H E Hs Hl. rewrite <- !E. destruct (H Hl) as [|[H1 H2]]; [auto|]. right. split; auto. eapply silent_trans; eauto.
Qed.
Lemma tailc_false lvl s p : tailc false lvl s p.
Proof. intros H. discriminate. Qed.
Lemma tailc_loop last lvl s s' p p' : tailc last lvl s p' -> (forall b, tail_ret b s = tail_ret true s') -> tailc last lvl s' p.
Proof. intros H E Hl. left. destruct (H Hl) as [Q|[_ Q]]; rewrite E in Q; exact Q. Qed.

Lemma never_jump t l c code c' p q : never W t = true -> comp_ctl W t true l c = Some (code, c') -> code_at p code -> find_label l prog = Some q ->
  silent p q.
Proof.
  destruct t; [|discriminate]. cbn [never comp_ctl]. intros -> H Hat Hq. cbn in H. apply some_inj, pair_inj in H as [<- <-].
  eapply jump_silent; eauto.
Qed.
Ltac ob H x y Hx := apply obind_Some in H as ([x y] & Hx & H).
Ltac fin H := apply some_inj, pair_inj in H as [<- <-].
Ltac cat H H1 H2 := apply code_at_cat in H as [H1 H2].

Lemma ctx_loop x X l1 l2 q1 q2 b2 : ctxok x X -> find_label l1 prog = Some q1 -> find_label l2 prog = Some q2 ->
  ctxok (mkctx (Some l1) l2 (cidx x) (epi x) (main x) b2) (inloop X q1 q2).
Proof.
  intros [H1 H2 H3 H4] E1 E2. split; cbn; auto.
  - intros l H. apply some_inj in H. subst l. eauto.
  - eauto.
Qed.
Lemma tabs_loop X q1 q2 i c : tabs X i c -> tabs (inloop X q1 q2) i c.
Proof. intros H. exact H. Qed.

Lemma pre_pos i c : pre i c -> 0 < lc c.
Proof. intros [[H _] _]. exact H. Qed.

Lemma comp_lay s : forall x lvl last C code c' p p' X, swf W s -> sdepth s <= D -> 1 <= lvl ->
  comp W x lvl last s C = Some (code, c') -> pre (cidx x) C -> code_at p code -> p' = (p + length code)%nat ->
  ctxok x X -> tabs X (cidx x) c' -> tailc last lvl s p' -> lay s X p p'.
Proof.
  induction s; intros Xc lvl last C code c' p p' X Hw Hd Hlv H HP Hat Hp' HX HT HTL; cbn [comp swf sdepth] in *.
  - fin H. rewrite Nat.add_0_r in Hp'. subst p'. constructor.
  - subst p'. constructor. eapply (ecode_comp e []); eauto using pre_pos.
  - ob H ca c1 H1. ob H cb c2 H2. fin H. destruct Hw as [Hw1 Hw2]. cat Hat A1 A2. rewrite app_length, Nat.add_assoc in Hp'.
    pose proof (stp_comp _ _ _ _ _ _ _ Hw1 H1 HP) as [P1 _]. pose proof (stp_comp _ _ _ _ _ _ _ Hw2 H2 P1) as [_ T2].
    eapply l_seq; [eapply IHs1|eapply IHs2]; eauto; try lia. apply tailc_false.
  - apply l_block. eapply (IHs Xc (lvl + 1)); eauto; [lia|]. intros Hl. apply andb_prop in Hl as [Hl _]. apply andb_prop in Hl as [_ Hl]. lia.
  - (* if *)
    ob H ct c1 H1. ob H ca c2 H2. fin H. destruct Hw as [Hw1 Hw2]. cat Hat A1 A2. cat A2 A2 A3.
    rewrite !app_length in Hp'. cbn [length] in Hp'.
    pose proof (stp_lc (cidx Xc) (lc C + 2) C ltac:(lia) HP) as [P0 _].
    pose proof (stp_ctl (cidx Xc) _ _ _ _ _ _ Hw1 H1 P0) as [P1 _]. pose proof (stp_comp _ _ _ _ _ _ _ Hw2 H2 P1) as [P2 T2].
    pose proof (lab_at _ _ A3) as F1.
    assert (S1 : silent (p + length ct + length ca) p') by (replace p' with (S (p + length ct + length ca)) by lia; eapply lab_silent; eauto).
    assert (CC : ccode c p (p + length ct) (p + length ct + length ca)) by (apply (ccode_comp c true _ _ _ _ p (p + length ct + length ca)%nat Hw1) in H1; auto; [eauto using pre_pos|lia]).
    eapply l_if; [exact CC|exact S1| |exact S1].
    eapply IHs; eauto; [lia|]. eapply tailc_sub; [exact HTL|reflexivity|exact S1].
  - (* if else *)
    ob H ct c1 H1. ob H ca c2 H2. ob H cb c3 H3. fin H. destruct Hw as (Hw1 & Hw2 & Hw3).
    cat Hat A1 A2. cat A2 A2 A3. cat A3 A3 A4. cat A4 A4 A5. cat A5 A5 A6.
    rewrite !app_length in Hp'. cbn [length gen_jump gen1] in *.
    pose proof (stp_lc (cidx Xc) (lc C + 2) C ltac:(lia) HP) as [P0 _].
    pose proof (stp_ctl (cidx Xc) _ _ _ _ _ _ Hw1 H1 P0) as [P1 _]. pose proof (stp_comp _ _ _ _ _ _ _ Hw2 H2 P1) as [P2 T2].
    pose proof (stp_comp _ _ _ _ _ _ _ Hw3 H3 P2) as [P3 T3].
    pose proof (lab_at _ _ A4) as F1. pose proof (lab_at _ _ A6) as F2.
    set (q1 := (p + length ct + length ca + 1)%nat) in *. set (q2 := (q1 + 1 + length cb)%nat) in *.
    assert (S1 : silent q2 p') by (replace p' with (S q2) by (subst q2 q1; lia); eapply lab_silent; eauto).
    assert (S0 : silent q1 (q1 + 1)) by (rewrite Nat.add_1_r; eapply lab_silent; eauto).
    apply l_ifelse with (p1 := (p + length ct)%nat) (p2 := (p + length ct + length ca)%nat) (pf := q1) (p3 := (q1 + 1)%nat) (p4 := q2).
    + apply (ccode_comp c true _ _ _ _ p q1 Hw1) in H1; auto; [eauto using pre_pos|lia].
    + exact S0.
    + eapply IHs1; eauto; [lia|]. apply tailc_false.
    + eapply silent_trans; [eapply jump_silent; eauto|exact S1].
    + eapply IHs2; eauto; [lia|]. eapply tailc_sub; [exact HTL|reflexivity|exact S1].
    + exact S1.
  - (* while *)
    ob H ct c1 H1. ob H cb c2 H2. fin H. destruct Hw as (Hw1 & Hw2).
    cat Hat A1 A2. cat A2 A2 A3. cat A3 A3 A4. cat A4 A4 A5.
    rewrite !app_length in Hp'. cbn [length] in *.
    pose proof (stp_lc (cidx Xc) (lc C + 2) C ltac:(lia) HP) as [P0 _].
    pose proof (stp_ctl (cidx Xc) _ _ _ _ _ _ Hw1 H1 P0) as [P1 _].
    pose proof (stp_comp _ _ _ _ _ _ _ Hw2 H2 P1) as [P2 T2]. cbn [cidx] in *.
    pose proof (lab_at _ _ A1) as F1. pose proof (lab_at _ _ A5) as F2.
    set (J := if never W c then [] else gen_jump (lc C)) in *.
    set (p1 := (p + 1)%nat) in *. set (p2 := (p1 + length ct)%nat) in *. set (p3 := (p2 + length cb)%nat) in *. set (p4 := (p3 + length J)%nat) in *.
    assert (E' : p' = S p4) by (subst p4 p3 p2 p1; lia).
    assert (S0 : hop p p1) by (subst p1; rewrite Nat.add_1_r; eapply hop_lab; eauto).
    assert (S4 : silent p4 p') by (rewrite E'; eapply lab_silent; eauto).
    assert (CC : ccode c p1 p2 p4) by (apply (ccode_comp c true _ _ _ _ p1 p4 Hw1) in H1; auto; [eauto using pre_pos|lia]).
    assert (HB : lay s (inloop X p4 p) p2 p3).
    { eapply IHs; [exact Hw2|lia|exact Hlv|exact H2|exact P1|exact A3|reflexivity| | |]; cbn [cidx].
      - now apply ctx_loop.
      - apply tabs_loop. exact HT.
      - eapply tailc_loop; [exact HTL|reflexivity]. }
    destruct (never W c) eqn:Hn; subst J.
    + assert (E3 : p4 = p3) by (subst p4; cbn; lia). rewrite <- E3 in HB.
      apply l_while with (p1 := p1) (p2 := p2) (p3 := p4) (px := p') (qb := p4) (qc := p); [|exact S4|exact HB]. split.
      * exact S0.
      * exists p2, p4. split; [exact CC|]. split; [apply silent_refl|exact S4].
      * reflexivity.
      * right. split; [exact Hn|apply silent_refl].
      * exact S4.
      * eapply silent_trans; [apply hop_silent; exact S0|]. eapply silent_trans; [|exact S4]. eapply never_jump; eauto.
    + assert (S3 : silent p3 p) by (eapply jump_silent; eauto).
      apply l_while with (p1 := p1) (p2 := p2) (p3 := p3) (px := p) (qb := p4) (qc := p); [|exact S3|exact HB]. split.
      * exact S0.
      * exists p2, p4. split; [exact CC|]. split; [apply silent_refl|exact S4].
      * reflexivity.
      * left. apply silent_refl.
      * exact S4.
      * apply silent_refl.
  - (* do *)
    ob H cb c1 H1. ob H ct c2 H2. fin H. destruct Hw as (Hw1 & Hw2).
    cat Hat A1 A2. cat A2 A2 A3. cat A3 A3 A4. cat A4 A4 A5.
    rewrite !app_length in Hp'. cbn [length] in *.
    pose proof (stp_lc (cidx Xc) (lc C + 3) C ltac:(lia) HP) as [P0 _].
    pose proof (stp_comp _ _ _ _ _ _ _ Hw2 H1 P0) as [P1 T1]. cbn [cidx] in *.
    pose proof (stp_ctl (cidx Xc) _ _ _ _ _ _ Hw1 H2 P1) as [P2 T2].
    pose proof (lab_at _ _ A1) as F1. pose proof (lab_at _ _ A3) as F2. pose proof (lab_at _ _ A5) as F3.
    set (p1 := (p + 1)%nat) in *. set (p2 := (p1 + length cb)%nat) in *. set (pw := (p2 + 1)%nat) in *. set (p4 := (pw + length ct)%nat) in *.
    assert (E' : p' = S p4) by (subst p4 pw p2 p1; lia).
    assert (S4 : silent p4 p') by (rewrite E'; eapply lab_silent; eauto).
    assert (S2 : silent p2 pw) by (subst pw; rewrite Nat.add_1_r; eapply lab_silent; eauto).
    apply l_do with (p1 := p1) (p2 := p2) (pw := pw) (pt := p) (pf := p4) (qb := p4) (qc := p2); auto.
    + subst p1. rewrite Nat.add_1_r. eapply hop_lab; eauto.
    + eapply IHs; [exact Hw2|lia|exact Hlv|exact H1|exact P0|exact A2|reflexivity| | |]; cbn [cidx].
      * now apply ctx_loop.
      * apply tabs_loop, T2, HT.
      * apply tailc_false.
    + apply (ccode_comp c false _ _ _ _ pw p Hw1) in H2; auto; [eauto using pre_pos|lia].
    + apply silent_refl.
  - (* for *)
    ob H ci c1 H1. ob H ct c2 H2. destruct Hw as (Wi & Wc & Wx & Wb).
    pose proof (stp_lc (cidx Xc) (lc C + 4) C ltac:(lia) HP) as [P0 _].
    assert (P1 : pre (cidx Xc) c1).
    { destruct i; [eapply (stp_expr _ _ []) in H1; eauto using tail_ok_nil; apply H1; exact P0|]. fin H1. exact P0. }
    pose proof (stp_octl (cidx Xc) _ _ _ _ _ Wc H2 P1) as [P2 _].
    assert (Hinit : forall q, lay (SFor None c x s) X (p + length ci) q -> code_at p ci -> lay (SFor i c x s) X p q).
    { intros q Hq Ha. destruct i as [e|].
      - eapply l_for; [|exact Hq]. eapply (ecode_comp e [] _ _ _ _ Wi (pre_pos _ _ P0) (or_introl eq_refl)); [cbn [odepth] in Hd; lia|exact H1|exact Ha].
      - apply some_inj, pair_inj in H1 as [<- _]. rewrite Nat.add_0_r in Hq. exact Hq. }
    assert (Hcond : forall q1 q2, code_at q1 ct -> find_label (lc C + 3) prog = Some q2 -> occode c q1 (q1 + length ct) q2).
    { intros q1 q2 Ha Hf. destruct c as [c|]; cbn [occode comp_octl StmtLay.occode] in *.
      - apply (ccode_comp c true _ _ _ _ q1 q2 Wc (pre_pos _ _ P1)) in H2; auto. cbn [ocdepth] in Hd. lia.
      - apply some_inj, pair_inj in H2 as [<- _]. cbn. lia. }
    assert (Hnev : onever W c = true -> forall q1 q2, code_at q1 ct -> find_label (lc C + 3) prog = Some q2 -> silent q1 q2).
    { intros Hn q1 q2 Ha Hf. destruct c as [c|]; [|discriminate]. eapply never_jump; eauto. }
    destruct x as [e|].
    + destruct (relabel e (lc c2)) as [e' n] eqn:Er.
      assert (Hle : lc c2 <= n) by (pose proof (relabel_le e (lc c2)) as Q; rewrite Er in Q; exact Q).
      pose proof (stp_lc (cidx Xc) n c2 Hle P2) as [P3 _].
      assert (Hx : forall cx q, gen_expr W (rpn W e') = Some cx -> code_at q cx -> oecode (Some e) q (q + length cx)).
      { intros cx q Hg Ha. cbn [StmtLay.oecode]. apply (ecode_comp e [] c2 cx (set_lc n c2) q Wx (pre_pos _ _ P2) (or_introl eq_refl)); auto.
        - cbn [odepth] in Hd. lia.
        - unfold comp_expr. rewrite Er, app_nil_r, Hg. reflexivity. }
      destruct (_ && _).
      * ob H cb c3 H3. apply obind_Some in H as (cx & H4 & H). fin H.
        cat Hat A0 A1. cat A1 A1 A2. cat A2 A2 A3. cat A3 A3 A4. cat A4 A4 A5. cat A5 A5 A6. cat A6 A6 A7.
        rewrite !app_length in Hp'. cbn [length] in *.
        pose proof (stp_comp _ _ _ _ _ _ _ Wb H3 P3) as [P4 T4]. cbn [cidx] in *.
        pose proof (lab_at _ _ A1) as F1. pose proof (lab_at _ _ A4) as F2. pose proof (lab_at _ _ A7) as F3.
        set (J := if onever W c then [] else gen_jump (lc C)) in *.
        set (q0 := (p + length ci)%nat) in *. set (p1 := (q0 + 1)%nat) in *. set (p2 := (p1 + length ct)%nat) in *. set (p3 := (p2 + length cb)%nat) in *.
        set (px := (p3 + 1)%nat) in *. set (py := (px + length cx)%nat) in *. set (p5 := (py + length J)%nat) in *.
        assert (E' : p' = S p5) by (subst p5 py px p3 p2 p1 q0; lia).
        assert (S5 : silent p5 p') by (rewrite E'; eapply lab_silent; eauto).
        assert (S3 : silent p3 px) by (subst px; rewrite Nat.add_1_r; eapply lab_silent; eauto).
        apply Hinit; auto.
        apply l_for0 with (p1 := p1) (p2 := p2) (p3 := p3) (px := px) (py := py) (qb := p5) (qc := p3); [|exact S3|].
        -- split; auto.
           ++ subst p1. rewrite Nat.add_1_r. eapply hop_lab; eauto.
           ++ exists p2, p5. split; [apply Hcond; auto|]. split; [apply silent_refl|exact S5].
           ++ exact (Hx cx px H4 A5).
           ++ destruct (onever W c) eqn:Hn; subst J.
              ** right. split; auto. replace py with p5 by (subst p5; cbn; lia). exact S5.
              ** left. eapply jump_silent; eauto.
        -- eapply IHs; [exact Wb|lia|exact Hlv|exact H3|exact P3|exact A3|reflexivity| | |]; cbn [cidx].
           ++ now apply ctx_loop.
           ++ apply tabs_loop, HT.
           ++ eapply tailc_loop; [exact HTL|reflexivity].
      * apply obind_Some in H as (cx & H4 & H). ob H cb c3 H3. fin H.
        cat Hat A0 A1. cat A1 A1 A2. cat A2 A2 A3. cat A3 A3 A4. cat A4 A4 A5. cat A5 A5 A6. cat A6 A6 A7. cat A7 A7 A8. cat A8 A8 A9. cat A9 A9 A10.
        rewrite !app_length in Hp'. cbn [length gen_jump gen1] in *.
        pose proof (stp_comp _ _ _ _ _ _ _ Wb H3 P3) as [P4 T4]. cbn [cidx] in *.
        pose proof (lab_at _ _ A1) as F1. pose proof (lab_at _ _ A4) as F2. pose proof (lab_at _ _ A7) as F3. pose proof (lab_at _ _ A10) as F4.
        set (q0 := (p + length ci)%nat) in *. set (p1 := (q0 + 1)%nat) in *. set (pt := (p1 + length ct)%nat) in *. set (qx := (pt + 1)%nat) in *.
        set (px := (qx + 1)%nat) in *. set (py := (px + length cx)%nat) in *. set (qd := (py + 1)%nat) in *. set (p2 := (qd + 1)%nat) in *.
        set (p3 := (p2 + length cb)%nat) in *. set (p5 := (p3 + 1)%nat) in *.
        assert (E' : p' = S p5) by (subst p5 p3 p2 qd py px qx pt p1 q0; lia).
        assert (S5 : silent p5 p') by (rewrite E'; eapply lab_silent; eauto).
        assert (Sx : silent qx px) by (subst px; rewrite Nat.add_1_r; eapply lab_silent; eauto).
        assert (S3 : silent p3 px) by (eapply silent_trans; [eapply jump_silent; eauto|exact Sx]).
        apply Hinit; auto.
        apply l_for0 with (p1 := p1) (p2 := p2) (p3 := p3) (px := px) (py := py) (qb := p5) (qc := qx); [|exact S3|].
        -- split; auto.
           ++ subst p1. rewrite Nat.add_1_r. eapply hop_lab; eauto.
           ++ exists pt, p5. split; [apply Hcond; auto|]. split; [|exact S5].
              eapply silent_trans; [eapply jump_silent; eauto|]. subst p2. rewrite Nat.add_1_r. eapply lab_silent; eauto.
           ++ exact (Hx cx px H4 A5).
           ++ left. eapply jump_silent; eauto.
        -- eapply IHs; [exact Wb|lia|exact Hlv|exact H3|exact P3|exact A8|reflexivity| | |]; cbn [cidx].
           ++ now apply ctx_loop.
           ++ apply tabs_loop, HT.
           ++ eapply tailc_loop; [exact HTL|reflexivity].
    + ob H cb c3 H3. fin H.
      cat Hat A0 A1. cat A1 A1 A2. cat A2 A2 A3. cat A3 A3 A4. cat A4 A4 A5.
      rewrite !app_length in Hp'. cbn [length] in *.
      pose proof (stp_comp _ _ _ _ _ _ _ Wb H3 P2) as [P4 T4]. cbn [cidx] in *.
      pose proof (lab_at _ _ A1) as F1. pose proof (lab_at _ _ A5) as F3.
      set (J := if onever W c then [] else gen_jump (lc C)) in *.
      set (q0 := (p + length ci)%nat) in *. set (p1 := (q0 + 1)%nat) in *. set (p2 := (p1 + length ct)%nat) in *. set (p3 := (p2 + length cb)%nat) in *.
      set (p5 := (p3 + length J)%nat) in *.
      assert (E' : p' = S p5) by (subst p5 p3 p2 p1 q0; lia).
      assert (S5 : silent p5 p') by (rewrite E'; eapply lab_silent; eauto).
      assert (S0 : hop q0 p1) by (subst p1; rewrite Nat.add_1_r; eapply hop_lab; eauto).
      apply Hinit; auto.
      assert (HB : lay s (inloop X p5 (if onever W c then p5 else q0)) p2 p3).
      { eapply IHs; [exact Wb|lia|exact Hlv|exact H3|exact P2|exact A3|reflexivity| | |]; cbn [cidx].
        - apply ctx_loop; auto. destruct (onever W c); auto.
        - apply tabs_loop, HT.
        - eapply tailc_loop; [exact HTL|reflexivity]. }
      assert (HC : exists pt pf, occode c p1 pt pf /\ silent pt p2 /\ silent pf p').
      { exists p2, p5. split; [apply Hcond; auto|]. split; [apply silent_refl|exact S5]. }
      destruct (onever W c) eqn:Hn; subst J.
      * replace p3 with p5 in * by (subst p5; cbn; lia).
        apply l_for0 with (p1 := p1) (p2 := p2) (p3 := p5) (px := p') (py := p') (qb := p5) (qc := p5); [|exact S5|exact HB].
        split; auto; [reflexivity|]. right. split; auto. apply silent_refl.
      * assert (S3 : silent p3 q0) by (eapply jump_silent; eauto).
        apply l_for0 with (p1 := p1) (p2 := p2) (p3 := p3) (px := q0) (py := q0) (qb := p5) (qc := q0); [|exact S3|exact HB].
        split; auto; [reflexivity| |apply silent_refl]. left. apply silent_refl.
  - destruct (brk Xc) eqn:Hb; [|discriminate]. fin H. destruct (co_brk _ _ HX _ Hb) as (q & Q1 & Q2). eapply l_break; eauto. eapply hop_jump; eauto.
  - destruct (Z.eqb_spec (cnt Xc) 0); [discriminate|]. fin H. destruct (co_cnt _ _ HX n) as (q & Q1 & Q2). eapply l_continue; eauto. eapply hop_jump; eauto.
  - (* return *)
    ob H ce c1 H1. fin H. cat Hat A1 A2. rewrite (co_main _ _ HX) in *.
    apply l_return with (p1 := (p + length ce)%nat).
    + destruct e as [e|].
      * cbn [StmtLay.oecode]. eapply (ecode_comp e [TReturn]); eauto using pre_pos.
      * apply some_inj, pair_inj in H1 as [<- _]. cbn. lia.
    + destruct (last && (lvl =? 1) && negb is_main) eqn:Hl.
      * rewrite app_length in Hp'. cbn [length] in Hp'. rewrite Nat.add_0_r in Hp'. subst p'. destruct (HTL Hl) as [Q|[Q _]]; [discriminate|exact Q].
      * eapply jump_silent; eauto. apply (co_epi _ _ HX).
  - (* switch *)
    ob H ce c1 H1. apply obind_Some in H as (c2 & H2 & H). ob H cb c3 H3. ob H q d H4. fin H. destruct Hw as (Hw1 & Hw2).
    cat Hat A0 A1. cat A1 A1 A2. cat A2 A2 A3. cat A3 A3 A4. cat A4 A4 A5. cat A5 A5 A6. cat A6 A6 A7.
    rewrite !app_length in Hp'. cbn [length gen_jump gen1] in *.
    pose proof (stp_lc (cidx Xc) (lc C + 2) C ltac:(lia) HP) as [P0 _].
    pose proof (stp_expr (cidx Xc) _ _ _ _ _ Hw1 tail_ok_ret H1 P0) as [P1 _].
    assert (E1 : cases c1 = cases C) by (destruct (comp_expr_inv _ _ _ _ _ _ H1) as (e' & _ & _ & ->); reflexivity).
    apply add_case_inv in H2. rewrite E1 in H2. subst c2.
    set (c2 := mkcst (lc c1) (cases C ++ [(0, 0)]) (gotos c1)) in *.
    assert (P2 : pre (zlen (cases c2)) c2).
    { split; [exact (proj1 P1)|]. split; [apply zlen_nonneg|lia]. }
    pose proof (comp_eff W HW s _ _ _ _ _ _ H3 (pre_pos _ _ P2) (proj2 P2)) as (B1 & (ext1 & B2 & B3 & B4) & B5 & B6). cbn [cidx] in *.
    assert (Z2 : zlen (cases c2) = zlen (cases C) + 1) by (subst c2; cbn [cases]; rewrite zlen_app; reflexivity).
    pose proof (crel_skipn _ _ _ _ _ _ (proj2 P2) B2) as B7.
    assert (Z3 : skipn (Z.to_nat (zlen (cases c2))) (cases c2) = []) by (unfold zlen; rewrite Nat2Z.id; apply skipn_all).
    rewrite Z3 in B7, B4. cbn [app map] in B7, B4. specialize (B4 (NoDup_nil _)). rewrite B7 in B4.
    assert (B8 : skipn (Z.to_nat (zlen (cases C) + 1)) (cases c3) = ext1) by (rewrite <- Z2; exact B7).
    rewrite B8 in A5, A6, A7, Hp'.
    pose proof (lab_at _ _ A4) as F1. pose proof (lab_at _ _ A7) as F2.
    set (p1 := (p + length ce)%nat) in *. set (p2 := (p1 + 1)%nat) in *. set (p3 := (p2 + length cb)%nat) in *. set (p4 := (p3 + 1)%nat) in *.
    set (p5 := (p4 + 1)%nat) in *. set (p6 := (p5 + length (gen_chain W ext1))%nat) in *.
    set (dl := if d =? 0 then lc C else d) in *.
    set (J := if dl =? lc C then [] else gen_jump dl) in *.
    assert (EJ : dl = lc C -> J = []) by (intros ->; subst J; now rewrite Z.eqb_refl).
    assert (EJ2 : dl <> lc C -> J = gen_jump dl) by (intros Hne; subst J; destruct (Z.eqb_spec dl (lc C)); congruence).
    clearbody J. set (p7 := (p6 + length J)%nat) in *.
    assert (Hdd : has_default s = false /\ d = 0 \/ has_default s = true /\ 0 < d /\ In d (labels cb)).
    { unfold crel in B2. subst c2. cbn [cases] in *. destruct (has_default s); [right|left]; split; auto.
      - destruct B2 as (a & v & b & l & E2 & Ea & Hl & Hin & E3). rewrite Z2 in Ea.
        assert (Ha : length (cases C) = length a) by (unfold zlen in Ea; lia).
        destruct (app_split _ _ _ _ Ha E2) as [<- _].
        rewrite E3, zget_app_r, Z.sub_diag, zget_cons_0 in H4 by lia. apply some_inj, pair_inj in H4 as [_ <-]. auto.
      - rewrite B2, <- app_assoc, zget_app_r, Z.sub_diag in H4 by lia. cbn [app] in H4. rewrite zget_cons_0 in H4. congruence. }
    assert (E' : p' = S p7) by (subst p7 p6 p5 p4 p3 p2 p1; lia).
    assert (S7 : silent p7 p') by (rewrite E'; eapply lab_silent; eauto).
    assert (S3 : silent p3 p') by (eapply silent_trans; [eapply jump_silent; eauto|exact S7]).
    assert (FL : forall v l, In (v, l) ext1 -> exists q, find_label l prog = Some q).
    { intros v l Hin. apply B3 in Hin as (Hin & _ & _). exact (find_in _ _ _ A2 Hin). }
    set (dopt := if d =? 0 then None else find_label d prog).
    assert (Hdn : d <> 0 -> exists qd, find_label d prog = Some qd).
    { intros Hd0. destruct Hdd as [[_ ?]|(_ & _ & Hin)]; [contradiction|]. exact (find_in _ _ _ A2 Hin). }
    apply l_switch with (p1 := p1) (p2 := p2) (p3 := p3) (T := tab ext1) (d := dopt) (qb := p7); auto.
    + eapply (ecode_comp e [TReturn] _ _ _ _ Hw1 (pre_pos _ _ P0) (or_intror eq_refl)); [lia|exact H1|exact A0].
    + (* dispatch *)
      intros st m HR HA.
      assert (J1 : hop p1 p5).
      { eapply hop_trans; [eapply hop_jump; eauto|]. subst p5. rewrite Nat.add_1_r. eapply lab_silent; eauto. }
      destruct (chain_ok ext1 p5 st A5 HR FL) as [f Hf]. destruct (J1 st) as [n Hn].
      assert (KK : forall q, mstar (p1, st) (p1, st) -> silent (match tab ext1 (ea st) with Some q => q | None => p6 end) q ->
        exists n s', msteps (S n) (p1, st) (q, s') /\ okk st m s').
      { intros qq _ Hs. assert (MM : mstar (p5, st) (qq, set_fl f st)) by (eapply mstar_trans; [exact Hf|apply Hs]).
        apply mstar_msteps in MM as [n2 M2]. exists (n + n2)%nat, (set_fl f st). split; [|now apply okk_fl].
        exact (msteps_trans _ _ _ _ (S n) n2 _ _ _ Hn M2). }
      destruct (tab ext1 (ea st)) as [qt|].
      * apply KK; [constructor|apply silent_refl].
      * assert (E67 : J = [] -> p6 = p7) by (intros ->; subst p7; cbn [length]; lia).
        subst dopt dl. destruct (Z.eqb_spec d 0) as [Hd0|Hd0].
        -- apply KK; [constructor|]. rewrite (E67 (EJ eq_refl)). exact S7.
        -- destruct (Hdn Hd0) as [qd Hqd]. rewrite Hqd. apply KK; [constructor|]. destruct (Z.eq_dec d (lc C)) as [Hd1|Hd1].
           ++ rewrite (E67 (EJ Hd1)). rewrite <- Hd1, Hqd in F2. apply some_inj in F2. rewrite F2. apply silent_refl.
           ++ rewrite (EJ2 Hd1) in A6. eapply jump_silent; eauto.
    + intros v Hv. unfold tab in Hv. destruct (List.find _ ext1) as [[v1 l1]|] eqn:Ef; [|contradiction].
      destruct (find_some _ _ Ef) as [Hin E2]. apply Z.eqb_eq in E2. cbn in E2. subst v. apply B3 in Hin. tauto.
    + intros Hn. destruct Hdd as [[_ Hd0]|[Hd0 _]]; [|exact Hd0]. exfalso. apply Hn. subst dopt. rewrite Hd0. reflexivity.
    + eapply IHs; [exact Hw2|lia|exact Hlv|exact H3|exact P2|exact A2|reflexivity| | |]; cbn [cidx].
      * destruct HX as [X1 X2 X3 X4]. split; cbn [brk cnt epi main xb xc]; auto. intros l Hl. apply some_inj in Hl. subst l. eauto.
      * split; [|split]; cbn [tbl dfl].
        -- intros v l q1 Hin _ Hq. rewrite B7 in Hin. eapply tab_in; eauto. intros a b Hab. apply B3 in Hab. tauto.
        -- intros v d1 q1 _ Hg Hd1 Hq. replace (zlen (cases c2) - 1) with (zlen (cases C)) in Hg by lia. rewrite H4 in Hg.
           apply some_inj, pair_inj in Hg as [_ <-]. subst dopt. destruct (Z.eqb_spec d 0); [contradiction|exact Hq].
        -- destruct HT as (_ & _ & T3). exact T3.
      * eapply tailc_sub; [exact HTL|reflexivity|exact S3].
  - (* case *)
    destruct (Z.eqb_spec (cidx Xc) 0); [discriminate|]. destruct (existsb _ _) eqn:Hex; [discriminate|].
    apply obind_Some in H as (c1 & H1 & H). ob H ca c2 H2. fin H. apply add_case_inv in H1. subst c1. cbn [lc] in *.
    cat Hat A1 A2. rewrite app_length in Hp'. cbn [length] in *. pose proof (lab_at _ _ A1) as F1.
    assert (P1 : pre (cidx Xc) (set_lc (lc C + 1) (mkcst (lc C) (cases C ++ [(trunc_int W v, lc C)]) (gotos C)))).
    { destruct (stp_lc (cidx Xc) (lc C + 1) C ltac:(lia) HP) as [[I1 _] _]. split; [exact I1|]. cbn [cases set_lc]. rewrite zlen_app.
      change (zlen [(trunc_int W v, lc C)]) with 1. destruct HP. lia. }
    pose proof (stp_comp _ _ _ _ _ _ _ Hw H2 P1) as [P2 T2]. destruct (T2 _ HT) as (T3 & _ & _).
    apply l_case with (p1 := (p + 1)%nat).
    + rewrite <- (word_trunc W HW v). apply (T3 _ (lc C)); auto. cbn [cases set_lc]. rewrite skipn_app. apply in_or_app. right.
      destruct HP as [_ HP]. unfold zlen in HP. replace (Z.to_nat (cidx Xc) - length (cases C))%nat with 0%nat by lia. cbn. auto.
    + rewrite Nat.add_1_r. eapply hop_lab; eauto.
    + eapply IHs; [exact Hw|exact Hd|exact Hlv|exact H2|exact P1|exact A2|lia|exact HX|exact HT|].
      eapply tailc_sub; [exact HTL|reflexivity|apply silent_refl].
  - (* default *)
    destruct (Z.eqb_spec (cidx Xc) 0); [discriminate|]. ob H v d H0. destruct (d =? 0) eqn:Hd0; [|discriminate]. cbn [negb] in H.
    apply obind_Some in H as (cs & H1 & H). ob H ca c2 H2. fin H.
    cat Hat A1 A2. rewrite app_length in Hp'. cbn [length] in *. pose proof (lab_at _ _ A1) as F1.
    assert (P1 : pre (cidx Xc) (mkcst (lc C + 1) cs (gotos C))).
    { destruct (stp_lc (cidx Xc) (lc C + 1) C ltac:(lia) HP) as [[I1 _] _]. split; [exact I1|]. cbn [cases]. apply zset_len in H1. rewrite H1. apply HP. }
    pose proof (stp_comp _ _ _ _ _ _ _ Hw H2 P1) as [P2 T2]. destruct (T2 _ HT) as (_ & T3 & _).
    apply l_default with (p1 := (p + 1)%nat).
    + apply (T3 v (lc C)); auto; [|pose proof (pre_pos _ _ HP); lia]. cbn [cases]. rewrite (zset_get _ _ _ _ _ H1), Z.eqb_refl. reflexivity.
    + rewrite Nat.add_1_r. eapply hop_lab; eauto.
    + eapply IHs; [exact Hw|exact Hd|exact Hlv|exact H2|exact P1|exact A2|lia|exact HX|exact HT|].
      eapply tailc_sub; [exact HTL|reflexivity|apply silent_refl].
  - (* goto *)
    ob H k c1 H1. fin H. destruct (goto_eff W (cidx Xc) _ _ _ _ _ H1) as [[d Hg] _]. destruct HT as (_ & _ & T3). apply T3 in Hg.
    destruct (HgF _ _ Hg) as [q Hq]. apply l_goto with (q := q); [exists k; auto|]. eapply hop_jump; eauto.
  - (* label *)
    ob H k c1 H1. ob H ca c2 H2. fin H. pose proof (goto_eff W (cidx Xc) _ _ _ _ _ H1) as [[d Hg] _].
    pose proof (stp_goto (cidx Xc) _ _ _ _ _ H1 HP) as [P1 _]. pose proof (stp_comp _ _ _ _ _ _ _ Hw H2 P1) as [P2 T2].
    destruct (T2 _ HT) as (_ & _ & T3). apply T3 in Hg.
    cat Hat A1 A2. rewrite app_length in Hp'. cbn [length] in *. pose proof (lab_at _ _ A1) as F1.
    apply l_label with (p1 := (p + 1)%nat).
    + exists k. auto.
    + rewrite Nat.add_1_r. eapply hop_lab; eauto.
    + eapply IHs; [exact Hw|exact Hd|exact Hlv|exact H2|exact P1|exact A2|lia|exact HX|exact HT|].
      eapply tailc_sub; [exact HTL|reflexivity|apply silent_refl].
Qed.
End CompLay.
