(** C16: the identifier table interns names; labels survive the end of a block. *)
From Verif Require Import Base BaseLemmas NumModel LexSpec LexModel LexProof IdentSpec IdentModel IdentProof.

(** Any history in which the labels of every block were first used in the order in which their
    names appeared ([Unordered] otherwise): the table does what the specification says, never
    reaches outside its arrays, and refuses exactly what the specification refuses. *)
Theorem C16_table_partial : forall next h, Forall okop h -> IdentSpec.steps (empty next) h <> Unordereds ->
  match IdentModel.steps (start next) h with
  | Ok (s, outs) => exists t, IdentSpec.steps (empty next) h = Dones t outs /\
      (forall n, nonzero n -> findIdent s n = Ok (match index (names t) n with Some i => i | None => -1 end)) /\
      (forall n i k, nonzero n -> nonzero k -> index (names t) n = Some i -> streq (tab s) i k = Ok (sameb n k))
  | Err => IdentSpec.steps (empty next) h = Refuseds
  | Oob => False
  end.
Proof.
  intros next h OK NU. destruct (steps_ok h (empty next) (start next) (start_Rep next) OK) as [U|H]; [contradiction|].
  destruct (IdentModel.steps (start next) h) as [[s outs]| |]; [|exact H|exact H]. destruct H as (t & E & R). exists t. split; [exact E|]. split.
  - intros n NZ. apply findIdent_ok; assumption.
  - intros n i k NZ NK I. exact (text_at t s n i R NZ I k NK).
Qed.

(** Names: one more occurrence of a name gives it its index, at which its text is found; other
    names keep theirs, which are different. *)
Theorem C16_intern_partial : forall next h s outs a, Forall okop h -> IdentSpec.steps (empty next) h <> Unordereds ->
  IdentModel.steps (start next) h = Ok (s, outs) -> nonzero a ->
  match addIdent s a with
  | Ok (s1, i) => 0 <= i /\ findIdent s1 a = Ok i /\ streq (tab s1) i a = Ok true /\ addIdent s1 a = Ok (s1, i) /\
      (forall j, findIdent s a = Ok j -> 0 <= j -> j = i) /\
      (forall b j, nonzero b -> b <> a -> findIdent s b = Ok j -> findIdent s1 b = Ok j /\ j <> i /\ (0 <= j -> streq (tab s1) j b = Ok true))
  | Err => 127 <= zlen a \/ 5632 < ilen s + zlen a + 2
  | Oob => False
  end.
Proof.
  intros next h s outs a OK NU E NZ. destruct (steps_ok h (empty next) (start next) (start_Rep next) OK) as [U|H]; [contradiction|]. rewrite E in H. destruct H as (t & _ & R).
  pose proof (mention_ok t s a R NZ) as M. destruct (addIdent s a) as [[s1 i]| |]; [| |exact M].
  - destruct M as (t1 & ME & R1 & _ & _ & _ & _ & _ & _ & IX & (k & NK)). pose proof (index_nonneg _ _ _ IX) as I0.
    assert (F1 : findIdent s1 a = Ok i) by (rewrite (findIdent_ok t1 s1 a R1 NZ), IX; reflexivity).
    split; [exact I0|]. split; [exact F1|]. split; [rewrite (text_at t1 s1 a i R1 NZ IX a NZ), sameb_refl; reflexivity|].
    split; [unfold addIdent; rewrite F1; cbn [rbind]; replace (0 <=? i) with true by lia; reflexivity|]. split.
    + intros j FJ J0. rewrite (findIdent_ok t s a R NZ) in FJ. destruct (index (names t) a) as [q|] eqn:IQ; [|injection FJ as <-; lia].
      injection FJ as ->. rewrite NK, index_app, IQ in IX. congruence.
    + intros b j NB NE FJ. rewrite (findIdent_ok t s b R NB) in FJ. rewrite (findIdent_ok t1 s1 b R1 NB).
      assert (IB : index (names t1) b = index (names t) b).
      { unfold mention in ME. destruct (index (names t) a) as [q|] eqn:IQ; [injection ME as <- _; reflexivity|]. destruct (_ || _); [discriminate ME|]. injection ME as <- _. cbn [names].
        rewrite index_app. cbn [index]. rewrite (sameb_neq a b) by congruence. cbn [obind]. destruct (index (names t) b); reflexivity. }
      rewrite IB. split; [exact FJ|]. destruct (index (names t) b) as [q|] eqn:IQ; injection FJ as <-; [|split; [lia|lia]].
      split; [|intros _; rewrite (text_at t1 s1 b q R1 NB IB b NB), sameb_refl; reflexivity].
      intros ->. destruct (index_split _ _ _ IX) as (x1 & y1 & E1 & S1 & _). destruct (index_split _ _ _ IB) as (x2 & y2 & E2 & S2 & _).
      pose proof (text_at t1 s1 a i R1 NZ IX b NB) as X1. pose proof (text_at t1 s1 b i R1 NB IB b NB) as X2. rewrite X1 in X2. rewrite sameb_refl in X2. injection X2 as X2. apply sameb_true in X2. congruence.
  - unfold mention in M. destruct (index (names t) a); [discriminate M|]. rewrite (r_len t s R). change 5632 with room.
    destruct ((127 <=? zlen a) || (room <? size (names t) + zlen a + 2)) eqn:C; [lia|discriminate M].
Qed.

(** The end of a block: every label keeps its text and its number; names that appeared in the
    block and are not labels are forgotten; names known before are not touched. *)
Theorem C16_close_partial : forall next h s outs s' x, Forall okop h -> IdentSpec.steps (empty next) (h ++ [OClose]) <> Unordereds ->
  IdentModel.steps (start next) h = Ok (s, outs) -> IdentModel.step s OClose = Ok (s', x) ->
  exists t u us, IdentSpec.steps (empty next) h = Dones t outs /\ undo s = u :: us /\
    map (fun e => snd (fst e)) (labs s') = map (fun e => snd (fst e)) (labs s) /\
    (forall l, In l (labels t) -> exists i, findIdent s' (lname l) = Ok i /\ 0 <= i) /\
    (forall l (d : bool), In l (labels t) -> findLabel (tab s') (labs s') (lname l) (if d then 1 else 0) = Err \/
       exists ls, findLabel (tab s') (labs s') (lname l) (if d then 1 else 0) = Ok (Some (ls, lnum l))) /\
    (forall n i, nonzero n -> findIdent s n = Ok i -> i < u -> findIdent s' n = Ok i) /\
    (forall n i, nonzero n -> findIdent s n = Ok i -> u <= i -> ~ In n (map lname (labels t)) -> findIdent s' n = Ok (-1)).
Proof.
  intros next h s outs s' x OK NU E CL. destruct (steps_ok h (empty next) (start next) (start_Rep next) OK) as [U|H].
  { exfalso. apply NU. clear -U. remember (empty next) as t0. clear Heqt0. revert t0 U. induction h as [|o h IH]; intros t0 U; [discriminate U|]. cbn [IdentSpec.steps app] in *.
    destruct (IdentSpec.step t0 o) as [t1 i| |]; [|discriminate U|reflexivity]. destruct (IdentSpec.steps t1 h) as [? ?| |] eqn:E1; [discriminate U|discriminate U|]. rewrite (IH t1 E1). reflexivity. }
  rewrite E in H. destruct H as (t & ES & R).
  assert (NU2 : IdentSpec.step t OClose <> Unordered).
  { intros U. apply NU. clear -ES U. remember (empty next) as t0. clear Heqt0. revert t0 outs ES. induction h as [|o h IH]; intros t0 outs ES.
    - cbn [IdentSpec.steps app] in *. injection ES as -> _. rewrite U. reflexivity.
    - cbn [IdentSpec.steps app] in *. destruct (IdentSpec.step t0 o) as [t1 i| |]; [|discriminate ES|discriminate ES]. destruct (IdentSpec.steps t1 h) as [t2 is| |] eqn:E1; [|discriminate ES|discriminate ES].
      injection ES as -> _. rewrite (IH t1 is E1). reflexivity. }
  destruct (close_ok t s R) as [U|F]; [contradiction|]. unfold follows in F. rewrite CL in F. destruct F as (t' & CS & R').
  cbn [IdentSpec.step] in CS. pose proof (r_undo t s R) as UN. destruct (opened t) as [|m ms] eqn:OP; [discriminate CS|]. inversion UN as [|m' u ms' us [LE EU] UN' X1 X2]; subst m' ms'.
  exists t, u, us. split; [exact ES|]. split; [congruence|].
  destruct (list_eq_dec (list_eq_dec Z.eq_dec) _ _) as [EQ|]; [|discriminate CS]. injection CS as ET _.
  assert (LT : labels t' = labels t) by (rewrite <- ET; reflexivity).
  assert (NT : names t' = firstn m (names t) ++ filter (islabel (labels t)) (skipn m (names t))) by (rewrite <- ET; reflexivity).
  assert (NZL : forall l, In l (labels t) -> In (lname l) (names t) /\ nonzero (lname l)).
  { intros l I. pose proof (r_labs t s R) as LB. clear -LB I R. induction LB as [|l0 e ls es (p & IX & ->) LB IH]; [destruct I|]. destruct I as [->|I]; [|auto].
    destruct (index_split _ _ _ IX) as (a & b & EE & _). assert (IN : In (lname l) (names t)) by (rewrite EE; apply in_or_app; right; left; reflexivity). split; [exact IN|].
    pose proof (r_ok t s R) as F. rewrite Forall_forall in F. apply F. exact IN. }
  split.
  { assert (G : forall ns ls es, Forall2 (labrep ns) ls es -> map (fun e : Z * Z * Z => snd (fst e)) es = map lnum ls) by (intros ns ls es F; induction F as [|l e ls es (p & _ & ->) F IH]; [reflexivity|]; cbn [map fst snd]; rewrite IH; reflexivity).
    rewrite (G _ _ _ (r_labs t' s' R')), (G _ _ _ (r_labs t s R)), LT. reflexivity. }
  split.
  { intros l I. destruct (NZL l I) as [_ NZ]. rewrite (findIdent_ok t' s' _ R' NZ). assert (IL : exists p, index (names t') (lname l) = Some p).
    { pose proof (r_labs t' s' R') as LB. rewrite LT in LB. clear -LB I. induction LB as [|l0 e ls es (p & IX & ->) LB IH]; [destruct I|]. destruct I as [->|I]; eauto. }
    destruct IL as [p P]. rewrite P. exists p. split; [reflexivity|]. exact (index_nonneg _ _ _ P). }
  split.
  { intros l d I. destruct (NZL l I) as [_ NZ]. pose proof (findLabel_ok t' s' (lname l) d R' NZ (labels t') (labs s') (r_labs t' s' R')) as FL. rewrite LT in FL.
    destruct (findLabel (tab s') (labs s') (lname l) (if d then 1 else 0)) as [[[es k]|]| |]; [|destruct FL as [_ FL]; exfalso; apply FL; apply in_map; exact I|left; reflexivity|contradiction].
    right. destruct FL as (ls' & MK & _ & _). exists es. do 3 f_equal. pose proof (r_lnd t s R) as LN. clear -MK LN I. revert ls' MK. induction (labels t) as [|l0 ls IH]; intros ls' MK; [destruct I|].
    cbn [mark] in MK. cbn [map] in LN. inversion LN as [|? ? NI LN']; subst. destruct I as [->|I].
    - rewrite sameb_refl in MK. destruct (d && defined l); [discriminate MK|]. congruence.
    - rewrite sameb_neq in MK by (intros EE; apply NI; rewrite EE; apply in_map; exact I). destruct (mark ls (lname l) d) as [[[ls2 k2]|]|]; [|discriminate MK|discriminate MK].
      assert (k2 = k) as -> by congruence. exact (IH I LN' ls2 eq_refl). }
  assert (AB : names t = firstn m (names t) ++ skipn m (names t)) by (symmetry; apply firstn_skipn).
  assert (CUT : forall n i, index (names t) n = Some i -> i < u <-> index (firstn m (names t)) n = Some i).
  { intros n i I. rewrite AB, index_app in I. destruct (index (firstn m (names t)) n) as [q|] eqn:Q.
    - assert (q = i) as -> by congruence. destruct (index_split _ _ _ Q) as (a & b & EA & -> & _). rewrite EU, EA. rewrite size_app. change (size (n :: b)) with (zlen n + 2 + size b). pose proof (zlen_nonneg n). pose proof (size_nonneg b). split; [reflexivity|lia].
    - destruct (index (skipn m (names t)) n) as [j|] eqn:J; [|discriminate I]. cbn [obind] in I. pose proof (index_nonneg _ _ _ J). rewrite EU. assert (i = size (firstn m (names t)) + j) as -> by congruence. split; [lia|discriminate]. }
  split.
  - intros n i NZ FI LT2. rewrite (findIdent_ok t s n R NZ) in FI. rewrite (findIdent_ok t' s' n R' NZ). rewrite NT, index_app. destruct (index (names t) n) as [q|] eqn:Q.
    + injection FI as ->. apply (CUT n i Q) in LT2. rewrite LT2. reflexivity.
    + injection FI as <-. assert (NI : index (firstn m (names t)) n = None /\ index (filter (islabel (labels t)) (skipn m (names t))) n = None).
      { apply index_In in Q. split; apply index_In; intros I; apply Q; rewrite AB; apply in_or_app; [left; exact I|right; apply filter_In in I; apply I]. }
      destruct NI as [-> ->]. reflexivity.
  - intros n i NZ FI LT2 NL. rewrite (findIdent_ok t s n R NZ) in FI. rewrite (findIdent_ok t' s' n R' NZ). rewrite NT, index_app. destruct (index (names t) n) as [q|] eqn:Q; [|injection FI as <-; rewrite EU in LT2; pose proof (size_nonneg (firstn m (names t))); lia].
    injection FI as ->. destruct (index (firstn m (names t)) n) as [q|] eqn:Q2.
    + rewrite AB, index_app, Q2 in Q. assert (q = i) as -> by congruence. assert (i < u) by (apply (CUT n i); [rewrite AB, index_app, Q2; exact Q|exact Q2]). lia.
    + assert (QN : index (filter (islabel (labels t)) (skipn m (names t))) n = None).
      { apply index_In. intros I. apply filter_In in I. destruct I as [_ I]. apply mem_In in I. contradiction. }
      rewrite QN. reflexivity.
Qed.

(** A sufficient condition: when a label is first mentioned, its name is new, or is the newest one
    (as it is when the label is defined, because the name is first read as an expression), and
    constant expressions mention no labels. *)
Fixpoint fresh (t : tables) (h : list op) : Prop :=
  match h with
  | [] => True
  | o :: h =>
      match o with
      | OLabel n _ => In n (map lname (labels t)) \/ ~ In n (names t) \/ exists ns, names t = ns ++ [n]
      | ODrop => match opened t with m :: _ => forall n, In n (skipn m (names t)) -> ~ In n (map lname (labels t)) | [] => True end
      | _ => True
      end /\
      match IdentSpec.step t o with Done t' _ => fresh t' h | _ => True end
  end.
Lemma filter_ext_In {X} (f g : X -> bool) l : (forall x, In x l -> f x = g x) -> filter f l = filter g l.
Proof. induction l as [|x l IH]; intros H; [reflexivity|]. cbn [filter]. rewrite (H x (or_introl eq_refl)), IH by (intros; apply H; right; assumption). reflexivity. Qed.
Lemma filter_idem {X} (f : X -> bool) l : filter f (filter f l) = filter f l.
Proof. induction l as [|x l IH]; [reflexivity|]. cbn [filter]. destruct (f x) eqn:F; cbn [filter]; rewrite ?F, IH; reflexivity. Qed.
Lemma mark_names ls n d ls' k : mark ls n d = Some (Some (ls', k)) -> map lname ls' = map lname ls.
Proof.
  revert ls'. induction ls as [|l ls IH]; intros ls' H; [discriminate H|]. cbn [mark] in H. destruct (sameb (lname l) n) eqn:S.
  - destruct (d && defined l); [discriminate H|]. injection H as <- _. cbn [map lname]. apply sameb_true in S. congruence.
  - destruct (mark ls n d) as [[[ls2 k2]|]|]; [|discriminate H|discriminate H]. injection H as <- <-. cbn [map]. rewrite (IH ls2 eq_refl). reflexivity.
Qed.
Lemma mark_in ls n d : In n (map lname ls) -> mark ls n d <> None.
Proof.
  induction ls as [|l ls IH]; cbn [map In mark]; [tauto|]. intros [E|I].
  - rewrite E, sameb_refl. destruct (d && defined l); discriminate.
  - destruct (sameb (lname l) n); [destruct (d && defined l); discriminate|]. specialize (IH I). destruct (mark ls n d) as [[[? ?]|]|]; [discriminate|discriminate|contradiction].
Qed.
(** the names of the labels, in the order of the table, are the labels in their order *)
Definition aligned (t : tables) : Prop := filter (islabel (labels t)) (names t) = map lname (labels t) /\ NoDup (names t) /\ NoDup (map lname (labels t)).
Theorem C16_fresh : forall h next, Forall okop h -> fresh (empty next) h -> IdentSpec.steps (empty next) h <> Unordereds.
Proof.
  assert (G : forall h t s, Rep t s -> Forall okop h -> aligned t -> fresh t h -> IdentSpec.steps t h <> Unordereds).
  { induction h as [|o h IH]; intros t s R OK (AL & ND & NDL) FR; [discriminate|]. apply Forall_cons_iff in OK. destruct OK as [OKO OK]. cbn [fresh] in FR. destruct FR as [FO FR]. cbn [IdentSpec.steps].
    assert (NUN : IdentSpec.step t o <> Unordered).
    { destruct o as [n|n d| | | |]; cbn [IdentSpec.step].
      - destruct (mention t n) as [[? ?]|]; discriminate.
      - destruct (mark (labels t) n d) as [[[? ?]|]|]; [discriminate|discriminate|]. destruct (_ <=? _); [discriminate|]. destruct (mention t n) as [[? ?]|]; discriminate.
      - discriminate.
      - destruct (opened t) as [|m ms]; [discriminate|]. destruct (list_eq_dec (list_eq_dec Z.eq_dec) _ _) as [EQ|NE]; [discriminate|]. exfalso. apply NE.
        rewrite <- AL. rewrite <- (firstn_skipn m (names t)) at 2. rewrite filter_app, filter_app.
        assert (AB : names t = firstn m (names t) ++ skipn m (names t)) by (symmetry; apply firstn_skipn).
        assert (H1 : filter (mem (skipn m (names t))) (filter (islabel (labels t)) (firstn m (names t))) = []).
        { rewrite AB in ND. clear -ND. assert (GG : forall x, In x (firstn m (names t)) -> mem (skipn m (names t)) x = false).
          { intros x I. destruct (mem (skipn m (names t)) x) eqn:M; [|reflexivity]. apply mem_In in M. exfalso. apply in_split in I. destruct I as (a & b & E). rewrite E in ND. rewrite <- app_assoc in ND. cbn [app] in ND. apply NoDup_remove_2 in ND. apply ND. apply in_or_app. right. apply in_or_app. right. exact M. }
          induction (firstn m (names t)) as [|y l IHl]; [reflexivity|]. cbn [filter]. destruct (islabel (labels t) y); cbn [filter].
          - rewrite (GG y (or_introl eq_refl)). apply IHl; [cbn [app] in ND; inversion ND; assumption|intros x I; apply GG; right; exact I].
          - apply IHl; [cbn [app] in ND; inversion ND; assumption|intros x I; apply GG; right; exact I]. }
        rewrite H1. cbn [app]. transitivity (filter (fun _ => true) (filter (islabel (labels t)) (skipn m (names t)))).
        + apply filter_ext_In. intros x I. apply filter_In in I. apply mem_In. apply I.
        + clear. induction (filter (islabel (labels t)) (skipn m (names t))) as [|y l IHl]; [reflexivity|]. cbn [filter]. rewrite IHl. reflexivity.
      - destruct (opened t) as [|m ms]; [discriminate|]. destruct (existsb (islabel (labels t)) (skipn m (names t))) eqn:EX; [|discriminate]. apply existsb_exists in EX. destruct EX as (x & I & M). apply mem_In in M. exfalso. exact (FO x I M).
      - destruct (opened t); [discriminate|]. destruct (existsb _ _); discriminate. }
    destruct (step_ok t s o R OKO) as [U|FW]; [contradiction|]. unfold follows in FW.
    destruct (IdentSpec.step t o) as [t1 i| |] eqn:ST; [|discriminate|contradiction].
    destruct (IdentModel.step s o) as [[s1 i1]| |]; [|discriminate FW|contradiction]. destruct FW as (t1' & E1 & R1). injection E1 as <- _.
    assert (AL1 : aligned t1).
    { split; [|split; [exact (r_nodup t1 s1 R1)|exact (r_lnd t1 s1 R1)]]. destruct o as [n|n d| | | |]; cbn [IdentSpec.step] in ST.
      - unfold mention in ST. destruct (index (names t) n) eqn:I; [injection ST as <- _; exact AL|]. destruct (_ || _); [discriminate ST|]. injection ST as <- _. cbn [labels names]. rewrite filter_app, AL. cbn [filter].
        apply index_In in I. destruct (islabel (labels t) n) eqn:M; [|apply app_nil_r]. apply mem_In in M. rewrite <- AL in M. apply filter_In in M. tauto.
      - destruct (mark (labels t) n d) as [[[ls k]|]|] eqn:MK; [|discriminate ST|].
        + injection ST as <- _. cbn [labels names]. pose proof (mark_names _ _ _ _ _ MK) as MN. unfold islabel. rewrite MN. exact AL.
        + destruct (_ <=? _); [discriminate ST|]. destruct (mention t n) as [[t2 i2]|] eqn:ME; [|discriminate ST]. injection ST as <- _. cbn [labels names].
          assert (NIL : ~ In n (map lname (labels t))) by (intros I; apply (mark_in _ _ d) in I; contradiction).
          assert (LB2 : labels t2 = labels t) by (unfold mention in ME; destruct (index (names t) n); [injection ME as <- _; reflexivity|]; destruct (_ || _); [discriminate ME|]; injection ME as <- _; reflexivity).
          rewrite LB2. rewrite map_app. cbn [map lname].
          assert (NN : exists ns, names t2 = ns ++ [n] /\ filter (islabel (labels t)) ns = map lname (labels t) /\ ~ In n ns).
          { unfold mention in ME. destruct (index (names t) n) as [q|] eqn:Q.
            - assert (t2 = t) as -> by congruence. destruct FO as [FO|[FO|[ns FO]]]; [contradiction|apply index_In in FO; congruence|]. exists ns. split; [exact FO|]. rewrite FO in AL, ND. rewrite filter_app in AL. cbn [filter] in AL.
              replace (islabel (labels t) n) with false in AL by (destruct (islabel (labels t) n) eqn:M; [apply mem_In in M; contradiction|reflexivity]). rewrite app_nil_r in AL. split; [exact AL|].
              apply NoDup_remove_2 in ND. rewrite app_nil_r in ND. exact ND.
            - destruct (_ || _); [discriminate ME|]. injection ME as <- _. exists (names t). split; [reflexivity|]. split; [exact AL|]. apply index_In. exact Q. }
          destruct NN as (ns & -> & FN & NI). rewrite filter_app. cbn [filter].
          assert (IL : forall x, islabel (labels t ++ [Lab n (next t2) (negb d) d]) x = islabel (labels t) x || sameb x n).
          { intros x. unfold islabel, mem. rewrite map_app, existsb_app. cbn [map lname existsb]. rewrite orb_false_r. reflexivity. }
          rewrite IL, sameb_refl, orb_true_r. f_equal. rewrite <- FN. apply filter_ext_In. intros x I. rewrite IL. rewrite (sameb_neq x n) by (intros ->; contradiction). apply orb_false_r.
      - injection ST as <- _. exact AL.
      - destruct (opened t) as [|m ms]; [discriminate ST|]. destruct (list_eq_dec (list_eq_dec Z.eq_dec) _ _); [|discriminate ST]. injection ST as <- _. cbn [labels names].
        rewrite filter_app, filter_idem, <- filter_app, firstn_skipn. exact AL.
      - destruct (opened t) as [|m ms]; [discriminate ST|]. destruct (existsb (islabel (labels t)) (skipn m (names t))) eqn:EX; [discriminate ST|]. injection ST as <- _. cbn [labels names].
        assert (H1 : filter (islabel (labels t)) (skipn m (names t)) = []).
        { clear -EX. induction (skipn m (names t)) as [|x l IHl]; [reflexivity|]. cbn [existsb filter] in *. destruct (islabel (labels t) x); [discriminate EX|]. apply IHl. exact EX. }
        rewrite <- AL. pose proof (filter_app (islabel (labels t)) (firstn m (names t)) (skipn m (names t))) as FA. rewrite H1, app_nil_r, firstn_skipn in FA. symmetry. exact FA.
      - destruct (opened t) as [|m ms]; [discriminate ST|]. destruct (existsb _ _); [discriminate ST|]. injection ST as <- _. cbn [labels names map]. clear. induction (firstn m (names t)) as [|x l IHl]; [reflexivity|]. cbn [filter]. exact IHl. }
    specialize (IH t1 s1 R1 OK AL1 FR). destruct (IdentSpec.steps t1 h); [discriminate|discriminate|contradiction]. }
  intros h next OK FR. apply (G h (empty next) (start next)); [apply start_Rep|exact OK|split; [reflexivity|split; constructor]|exact FR].
Qed.

(** ** When a label's name was already used in the block, labels are corrupted.  In
<<
  void f(void) { { int p, bcd; goto aaaab; goto bcd; } aaaab:; bcd:; ab:; }
>>
    [goto bcd] and the label [ab] get the same number, and [bcd] a different one: the program is
    accepted and jumps to the wrong place.  (The function's name and the one before it take 94
    bytes here; what happens next depends on them.) *)
Definition f1 : list Z := repeat 120 46.
Definition f2 : list Z := repeat 121 44.
Definition aaaab : list Z := [97; 97; 97; 97; 98].
Definition bcd : list Z := [98; 99; 100].
Definition ab : list Z := [97; 98].
Definition bad : list op :=
  [OName f1; OName f2; OOpen; OOpen; OName [112]; OName bcd; OLabel aaaab false; OLabel bcd false; OClose;
   OName aaaab; OLabel aaaab true; OName bcd; OLabel bcd true; OName ab; OLabel ab true; OEnd].
Theorem C16_refuted : exists s outs k, IdentModel.steps (start 1) bad = Ok (s, outs) /\
  nth_error bad 7 = Some (OLabel bcd false) /\ nth_error outs 7 = Some k /\
  nth_error bad 14 = Some (OLabel ab true) /\ nth_error outs 14 = Some k /\
  nth_error bad 12 = Some (OLabel bcd true) /\ nth_error outs 12 <> Some k.
Proof. eexists. eexists. eexists. split; [vm_compute; reflexivity|]. cbn. repeat split; discriminate. Qed.
(** Here a correct program is refused: [void f(void) { { int b; goto a; goto b; } a:; b:; }] *)
Theorem C16_refused_refuted : exists h, Forall okop h /\ IdentModel.steps (start 1) h = Err /\
  h = [OOpen; OOpen; OName [98]; OLabel [97] false; OLabel [98] false; OClose; OName [97]; OLabel [97] true; OName [98]; OLabel [98] true; OEnd].
Proof. eexists. split; [|split; [|reflexivity]]; [repeat constructor; discriminate|vm_compute; reflexivity]. Qed.

(** ** concrete histories *)
Definition ex : list op :=
  [OName [102]; OOpen; OName [120]; OOpen; OName [121]; OLabel [108] false; OOpen; OName [122]; OLabel [101; 110; 100] false; OClose; OName [120]; OClose;
   OName [108]; OLabel [108] true; OName [101; 110; 100]; OLabel [101; 110; 100] true; OName [121]; OEnd; OName [103]].
Example ex_ok : Forall okop ex /\ fresh (empty 7) ex /\ exists s, IdentModel.steps (start 7) ex = Ok (s, [0; 0; 3; 0; 6; 7; 0; 12; 8; 0; 3; 0; 6; 7; 9; 8; 14; 0; 3]).
Proof.
  split; [|split].
  - unfold ex. repeat constructor; discriminate.
  - vm_compute. intuition (try congruence; try (right; left; intuition discriminate)).
    all: first [left; left; reflexivity|left; right; left; reflexivity|right; left; intuition discriminate|idtac].
  - eexists. vm_compute. reflexivity.
Qed.
Print Assumptions C16_table_partial.
Print Assumptions C16_intern_partial.
Print Assumptions C16_close_partial.
Print Assumptions C16_fresh.
Print Assumptions C16_refuted.
Print Assumptions C16_refused_refuted.
