(** Symbol resolution (C42). *)
From Verif Require Import Base BaseLemmas LexModel LexSpec LexProof LinkModel LinkSpec.
From Coq Require Import String.
Close Scope string_scope.

Lemma eqs_true a b : eqs a b = true <-> a = b.
Proof. unfold eqs. destruct (list_eq_dec Z.eq_dec a b); split; congruence. Qed.

Lemma in_globals o y : In y (flat_map globals o) <->
  exists t k, In t o /\ sh_type t = 2 /\ sh_info t <= Z.of_nat k /\ nth_error (s_syms t) k = Some y.
Proof.
  rewrite in_flat_map. split.
  - intros (t & Ht & Hy). unfold globals, SHT_SYMTAB in Hy. destruct (sh_type t =? 2) eqn:E; [|destruct Hy].
    apply In_nth_error in Hy as [k Hk]. exists t, (Z.to_nat (sh_info t) + k)%nat. split; [auto|]. split; [lia|]. split; [lia|].
    rewrite <- Hk. clear. revert k. generalize (Z.to_nat (sh_info t)). intros n. generalize (s_syms t).
    induction n; intros [|z l] k; cbn; auto. destruct k; reflexivity.
  - intros (t & k & Ht & E & L & Hk). exists t. split; [auto|]. unfold globals, SHT_SYMTAB. rewrite (proj2 (Z.eqb_eq _ _) E).
    apply nth_error_In with (n := (k - Z.to_nat (sh_info t))%nat).
    assert (Z.to_nat (sh_info t) <= k)%nat by lia. rewrite <- Hk. clear - H. revert H. generalize (Z.to_nat (sh_info t)). intros n. generalize (s_syms t).
    revert k. induction n; intros k [|z l] H; cbn [skipn].
    + f_equal. lia.
    + f_equal. lia.
    + destruct (k - S n)%nat, k; reflexivity.
    + destruct k; [lia|]. cbn [Nat.sub nth_error]. apply IHn. lia.
Qed.

Lemma exports_defines o n : existsb (fun y => nameIs y n) (exports o) = true <-> defines o n.
Proof.
  rewrite existsb_exists. unfold exports, defines, globalOf. split.
  - intros (y & Hy & N). apply filter_In in Hy as [Hy E]. apply in_globals in Hy as (t & k & H).
    unfold exported, STB_GLOBAL in E. unfold nameIs in N. exists y. destruct (st_name y) eqn:S; [|discriminate].
    apply eqs_true in N. subst. repeat rewrite andb_true_iff in E. destruct E as [[E1 E2] _].
    split; [exists t, k; intuition lia|]. split; [lia|auto].
  - intros (y & (t & k & H1 & H2 & H3 & H4 & H5) & H6 & H7). exists y. split.
    + apply filter_In. split; [apply in_globals; eauto 6|]. unfold exported, STB_GLOBAL. rewrite H7. lia.
    + unfold nameIs. rewrite H7. apply eqs_true. reflexivity.
Qed.

Lemma imports_uses o n : In n (imports o) <-> uses o n.
Proof.
  unfold imports, uses, globalOf. rewrite in_map_iff. split.
  - intros (y & N & Hy). apply filter_In in Hy as [Hy E]. apply in_globals in Hy as (t & k & H).
    unfold imported, STB_GLOBAL in E. unfold symName in N. exists y. destruct (st_name y) eqn:S; [|lia].
    subst. repeat rewrite andb_true_iff in E. destruct E as [[E1 E2] _].
    split; [exists t, k; intuition lia|]. split; [lia|auto].
  - intros (y & (t & k & H1 & H2 & H3 & H4 & H5) & H6 & H7). exists y. split.
    + unfold symName. rewrite H7. reflexivity.
    + apply filter_In. split; [apply in_globals; eauto 6|]. unfold imported, STB_GLOBAL. rewrite H7. lia.
Qed.

Lemma prefixb_app p n : prefixb p n = true <-> exists m, n = p ++ m.
Proof.
  revert n; induction p as [|a p IH]; intros n; cbn.
  - split; eauto.
  - destruct n as [|b n].
    + split; [discriminate|]. intros [m H]. discriminate.
    + rewrite andb_true_iff, IH. split.
      * intros [E [m ->]]. exists m. f_equal. lia.
      * intros [m H]. injection H as -> ->. split; [lia|eauto].
Qed.

Lemma boundary_ok n : boundary n = true <-> isBoundary n.
Proof.
  unfold boundary, isBoundary. rewrite !orb_true_iff, !andb_true_iff, !prefixb_app.
  split.
  - intros [[H|[[m ->] H]]|[[m ->] H]].
    + apply existsb_exists in H as (x & Hx & E). apply eqs_true in E. subst x.
      destruct Hx as [<- |[<- |[<- |[<- |[]]]]].
      * exists (str "allcode__"). split; [vm_compute; discriminate|left; reflexivity].
      * exists (str "allcode__"). split; [vm_compute; discriminate|right; reflexivity].
      * exists (str "alldata__"). split; [vm_compute; discriminate|left; reflexivity].
      * exists (str "alldata__"). split; [vm_compute; discriminate|right; reflexivity].
    + exists m. split; [|left; reflexivity]. intros ->. vm_compute in H. discriminate.
    + exists m. split; [|right; reflexivity]. intros ->. vm_compute in H. discriminate.
  - intros (m & Hm & [-> | ->]).
    + left. right. split; [exists m; reflexivity|]. rewrite zlen_app. change (zlen (str "__start_")) with 8.
      destruct m; [congruence|]. rewrite zlen_cons. pose proof (zlen_nonneg m). lia.
    + right. split; [exists m; reflexivity|]. rewrite zlen_app. change (zlen (str "__stop_")) with 7.
      destruct m; [congruence|]. rewrite zlen_cons. pose proof (zlen_nonneg m). lia.
Qed.

Lemma findDef_spec objs n : forall k,
  match findDef objs k n with
  | Some i => (k <= i)%nat /\ bound objs n (i - k)
  | None => nobody objs n
  end.
Proof.
  induction objs as [|o objs IH]; intros k; cbn [findDef].
  - intros i o H. destruct i; discriminate.
  - destruct (existsb _ (exports o)) eqn:E.
    + split; [lia|]. rewrite Nat.sub_diag. split; [exists o; split; [reflexivity|apply exports_defines; auto]|]. lia.
    + assert (ND : ~ defines o n) by (rewrite <- exports_defines; congruence).
      specialize (IH (S k)). destruct (findDef objs (S k) n) as [i|].
      * destruct IH as [L [(o' & H1 & H2) H3]]. split; [lia|]. replace (i - k)%nat with (S (i - S k)) by lia.
        split; [exists o'; auto|]. intros [|j] o'' Hj Ho; cbn in Ho; [congruence|]. apply (H3 j o''); [lia|auto].
      * intros [|i] o' Ho; cbn in Ho; [congruence|]. eapply IH; eauto.
Qed.

Lemma bound_unique objs n i j : bound objs n i -> bound objs n j -> i = j.
Proof.
  intros [(o & A1 & A2) A3] [(o' & B1 & B2) B3]. destruct (Nat.lt_trichotomy i j) as [L|[L|L]]; [|auto|].
  - exfalso. eapply B3; eauto.
  - exfalso. eapply A3; eauto.
Qed.
Lemma bound_nobody objs n i : bound objs n i -> nobody objs n -> False.
Proof. intros [(o & A1 & A2) _] N. eapply N; eauto. Qed.

Section Resolve.
Variable objs : list obj.
Variable entry : list Z.
Notation reach := (reach objs entry).
Notation wanted := (wanted objs entry).

(** a name is settled *)
Definition settled (st : rst) (n : list Z) : Prop :=
  (exists i, bound objs n i /\ nth_error (needed st) i = Some true) \/
  (isBoundary n /\ nobody objs n /\ In n (deferred st)).
Record inv (st : rst) : Prop := {
  i_len : List.length (needed st) = List.length objs;
  i_need : forall i, nth_error (needed st) i = Some true -> reach i;
  i_def : forall n, In n (deferred st) -> wanted n /\ isBoundary n /\ nobody objs n }.
Definition le (st st' : rst) : Prop :=
  (forall i, nth_error (needed st) i = Some true -> nth_error (needed st') i = Some true) /\
  (forall n, In n (deferred st) -> In n (deferred st')).
Definition unresolved : Prop := exists n, wanted n /\ nobody objs n /\ ~ isBoundary n.
Definition count (l : list bool) : nat := List.length (filter (fun b => b) l).

Lemma le_refl st : le st st.
Proof. split; auto. Qed.
Lemma le_trans a b c : le a b -> le b c -> le a c.
Proof. intros [A1 A2] [B1 B2]. split; auto. Qed.
Lemma settled_le st st' n : le st st' -> settled st n -> settled st' n.
Proof. intros [A B] [(i & H1 & H2)|(H1 & H2 & H3)]; [left; eauto|right; auto]. Qed.

Lemma in_defer n d x : In x (defer n d) <-> x = n \/ In x d.
Proof.
  unfold defer. destruct (existsb (eqs n) d) eqn:E.
  - apply existsb_exists in E as (y & Hy & E). apply eqs_true in E. subst. split; [auto|]. intros [-> |]; auto.
  - rewrite in_app_iff. cbn. intuition.
Qed.

Lemma lset_count l i : nth_error l i = Some false -> count (lset l i true) = S (count l).
Proof.
  revert i; induction l as [|b l IH]; intros [|i]; cbn; try discriminate.
  - intros H. injection H as ->. reflexivity.
  - intros H. unfold count in *. cbn [lset filter]. destruct b; cbn [List.length]; rewrite IH; auto.
Qed.

(** [changed] : the number of needed objects has grown *)
Definition grown (st st' : rst) (b : bool) : Prop :=
  if b then (count (needed st) < count (needed st'))%nat else needed st' = needed st.

Lemma findByName_ok n st : inv st -> wanted n ->
  match findByName objs n st with
  | Ok (st', b) => inv st' /\ le st st' /\ settled st' n /\ grown st st' b
  | Err => unresolved
  | Oob => False
  end.
Proof.
  intros [L N D] W. unfold findByName. pose proof (findDef_spec objs n 0) as F.
  destruct (findDef objs 0 n) as [i|].
  - destruct F as [_ B]. rewrite Nat.sub_0_r in B.
    assert (Hi : (i < List.length objs)%nat). { destruct B as [(o & H & _) _]. apply nth_error_Some. congruence. }
    destruct (nth_error (needed st) i) as [[]|] eqn:E.
    + split; [split; auto|]. split; [apply le_refl|]. split; [left; eauto|reflexivity].
    + assert (R : reach i).
      { destruct W as [-> |(k & o & R & Ho & U)]; [apply reach_entry; auto|eapply reach_use; eauto]. }
      assert (G : forall k, nth_error (lset (needed st) i true) k = Some true <-> k = i \/ nth_error (needed st) k = Some true).
      { intros k. destruct (Nat.eq_dec i k) as [-> |NE].
        - rewrite lset_nth_same by lia. intuition.
        - rewrite lset_nth_other by lia. intuition congruence. }
      split; [split; cbn [needed deferred]|split; [split|split]]; cbn [needed deferred].
      * rewrite lset_length. auto.
      * intros k Hk. apply G in Hk as [-> |]; auto.
      * auto.
      * intros k Hk. apply G. auto.
      * auto.
      * left. exists i. split; [auto|]. apply G. auto.
      * unfold grown. cbn [needed]. rewrite lset_count by auto. lia.
    + apply nth_error_None in E. lia.
  - destruct (boundary n) eqn:Bn.
    + apply boundary_ok in Bn. split; [split; cbn [needed deferred]; auto|].
      { intros x Hx. apply in_defer in Hx as [-> |]; auto. }
      split; [split; cbn [needed deferred]; auto|]. { intros x Hx. apply in_defer. auto. }
      split; [right|reflexivity]. cbn [deferred]. split; [auto|]. split; [auto|]. apply in_defer. auto.
    + exists n. split; [auto|]. split; [auto|]. rewrite <- boundary_ok. congruence.
Qed.

Lemma grown_or st st' st'' a b : grown st st' a -> grown st' st'' b -> grown st st'' (a || b).
Proof. unfold grown. destruct a, b; cbn [orb]; intros A B; [lia|rewrite B; auto|rewrite <- A; auto|congruence]. Qed.

Lemma scanNames_ok ns : forall st0 st inc, inv st -> (forall n, In n ns -> wanted n) -> le st0 st -> grown st0 st inc ->
  match scanNames objs ns st inc with
  | Ok (st', b) => inv st' /\ le st st' /\ (forall n, In n ns -> settled st' n) /\ grown st0 st' b
  | Err => unresolved
  | Oob => False
  end.
Proof.
  induction ns as [|n ns IH]; intros st0 st inc HI W L G; cbn [scanNames].
  { split; [auto|]. split; [apply le_refl|]. split; [intros n []|auto]. }
  pose proof (findByName_ok n st HI (W n (or_introl eq_refl))) as F.
  destruct (findByName objs n st) as [[st1 b]| |]; cbn [rbind]; auto.
  destruct F as (I1 & L1 & S1 & G1).
  specialize (IH st0 st1 (inc || b) I1 (fun m Hm => W m (or_intror Hm)) (le_trans _ _ _ L L1) (grown_or _ _ _ _ _ G G1)).
  destruct (scanNames objs ns st1 (inc || b)) as [[st2 b2]| |]; auto.
  destruct IH as (I2 & L2 & S2 & G2). split; [auto|]. split; [eapply le_trans; eauto|]. split; [|auto].
  intros m [<- |Hm]; [eapply settled_le; eauto|auto].
Qed.

Lemma scanObjs_ok rest : forall i st0 st inc, inv st -> (forall k o, nth_error rest k = Some o -> nth_error objs (i + k) = Some o) ->
  (List.length rest + i)%nat = List.length objs -> le st0 st -> grown st0 st inc ->
  match scanObjs objs rest i st inc with
  | Ok (st', b) => inv st' /\ le st st' /\ grown st0 st' b /\
      (forall k o, nth_error rest k = Some o -> nth_error (needed st) (i + k) = Some true -> forall n, uses o n -> settled st' n)
  | Err => unresolved
  | Oob => False
  end.
Proof.
  induction rest as [|o rest IH]; intros i st0 st inc HI R Len L G; cbn [scanObjs].
  { split; [auto|]. split; [apply le_refl|]. split; [auto|]. intros [|k] o; discriminate. }
  assert (R' : forall k o0, nth_error rest k = Some o0 -> nth_error objs (S i + k) = Some o0).
  { intros k o0 H. replace (S i + k)%nat with (i + S k)%nat by lia. apply R. auto. }
  cbn [List.length] in Len.
  pose proof (R 0%nat o eq_refl) as Ho. rewrite Nat.add_0_r in Ho.
  destruct (nth_error (needed st) i) as [[]|] eqn:E.
  - pose proof (scanNames_ok (imports o) st0 st inc HI) as F.
    destruct (scanNames objs (imports o) st inc) as [[st1 b1]| |]; cbn [rbind].
    + destruct F as (I1 & L1 & S1 & G1); auto.
      { intros n Hn. apply imports_uses in Hn. right. exists i, o. split; [apply (i_need _ HI); auto|auto]. }
      specialize (IH (S i) st0 st1 b1 I1 R' ltac:(lia) (le_trans _ _ _ L L1) G1).
      destruct (scanObjs objs rest (S i) st1 b1) as [[st2 b2]| |]; auto.
      destruct IH as (I2 & L2 & G2 & S2). split; [auto|]. split; [eapply le_trans; eauto|]. split; [auto|].
      intros [|k] o' Hk Nk n Hn; cbn in Hk.
      * injection Hk as <-. eapply settled_le; [eauto|]. apply S1. apply imports_uses. auto.
      * eapply S2; eauto. replace (S i + k)%nat with (i + S k)%nat by lia. apply L1. auto.
    + apply F; auto. intros n Hn. apply imports_uses in Hn. right. exists i, o. split; [apply (i_need _ HI); auto|auto].
    + apply F; auto. intros n Hn. apply imports_uses in Hn. right. exists i, o. split; [apply (i_need _ HI); auto|auto].
  - specialize (IH (S i) st0 st inc HI R' ltac:(lia) L G).
    destruct (scanObjs objs rest (S i) st inc) as [[st2 b2]| |]; auto.
    destruct IH as (I2 & L2 & G2 & S2). split; [auto|]. split; [auto|]. split; [auto|].
    intros [|k] o' Hk Nk n Hn.
    + rewrite Nat.add_0_r in Nk. congruence.
    + cbn in Hk. eapply S2; eauto. replace (S i + k)%nat with (i + S k)%nat by lia. auto.
  - apply nth_error_None in E. pose proof (i_len _ HI). lia.
Qed.

Definition closed (st : rst) : Prop :=
  forall i o n, nth_error objs i = Some o -> nth_error (needed st) i = Some true -> uses o n -> settled st n.

Lemma count_le l : (count l <= List.length l)%nat.
Proof. unfold count. induction l as [|[] l IH]; cbn; lia. Qed.

Lemma findAll_ok fuel : forall st, inv st -> (List.length objs < fuel + count (needed st))%nat ->
  match findAll fuel objs st with
  | Ok st' => inv st' /\ le st st' /\ closed st'
  | Err => unresolved
  | Oob => False
  end.
Proof.
  induction fuel as [|fuel IH]; intros st HI F.
  { pose proof (count_le (needed st)). rewrite (i_len _ HI) in H. lia. }
  cbn [findAll]. pose proof (scanObjs_ok objs 0 st st false HI (fun k o H => H) ltac:(lia) (le_refl st) eq_refl) as S.
  destruct (scanObjs objs objs 0 st false) as [[st1 b]| |]; cbn [rbind]; auto.
  destruct S as (I1 & L1 & G1 & S1). destruct b.
  - cbn [grown] in G1. specialize (IH st1 I1 ltac:(lia)). destruct (findAll fuel objs st1); auto.
    destruct IH as (I2 & L2 & C2). split; [auto|]. split; [eapply le_trans; eauto|auto].
  - split; [auto|]. split; [auto|]. intros i o n Ho Hn U. cbn [grown] in G1. rewrite G1 in Hn. eapply S1; eauto.
Qed.

Lemma closed_reach st : closed st -> settled st entry -> forall i, reach i -> nth_error (needed st) i = Some true.
Proof.
  intros C S i R. assert (H : forall n i, bound objs n i -> settled st n -> nth_error (needed st) i = Some true).
  { intros n k B [(j & Bj & Nj)|(_ & NB & _)]; [rewrite (bound_unique _ _ _ _ B Bj); auto|exfalso; eapply bound_nobody; eauto]. }
  induction R as [i B|i o n j R IH Ho U B]; [eauto|]. eapply H; eauto.
Qed.

Lemma clash_ok o o2 : clash o o2 = true <-> exists n, defines o n /\ defines o2 n.
Proof.
  unfold clash. rewrite existsb_exists. split.
  - intros (y & Hy & E). apply existsb_exists in E as (y2 & Hy2 & E). apply eqs_true in E.
    assert (N : forall z, In z (exports o) \/ In z (exports o2) -> nameIs z (symName z) = true).
    { intros z Hz. unfold exports in Hz. rewrite !filter_In in Hz. unfold exported in Hz. unfold nameIs, symName.
      destruct (st_name z); [apply eqs_true; auto|]. destruct Hz as [[_ Hz]|[_ Hz]]; lia. }
    exists (symName y). split; apply exports_defines; apply existsb_exists; [exists y|exists y2]; split; auto.
    rewrite E. apply N. auto.
  - intros (n & D1 & D2). apply exports_defines in D1. apply exports_defines in D2.
    apply existsb_exists in D1 as (y & Hy & N1). apply existsb_exists in D2 as (y2 & Hy2 & N2).
    exists y. split; [auto|]. apply existsb_exists. exists y2. split; [auto|]. apply eqs_true.
    unfold nameIs, symName in *. destruct (st_name y), (st_name y2); try discriminate.
    apply eqs_true in N1. apply eqs_true in N2. congruence.
Qed.

Lemma checkDups_ok l :
  match checkDups l with
  | Ok _ => forall i j o o' n, i <> j -> nth_error l i = Some (o, true) -> nth_error l j = Some (o', true) -> defines o n -> defines o' n -> False
  | Err => exists i j o o' n, i <> j /\ nth_error l i = Some (o, true) /\ nth_error l j = Some (o', true) /\ defines o n /\ defines o' n
  | Oob => False
  end.
Proof.
  induction l as [|[o nd] l IH]; cbn [checkDups].
  { intros i j o o' n _ H. destruct i; discriminate. }
  destruct (nd && existsb (fun o2 => snd o2 && clash o (fst o2)) l) eqn:E.
  - apply andb_true_iff in E as [-> E]. apply existsb_exists in E as ([o2 nd2] & H2 & E). cbn in E.
    apply andb_true_iff in E as [-> E]. apply clash_ok in E as (n & D1 & D2). apply In_nth_error in H2 as [k Hk].
    exists 0%nat, (S k), o, o2, n. cbn. repeat split; auto.
  - assert (X : forall k o2 n, nd = true -> nth_error l k = Some (o2, true) -> defines o n -> defines o2 n -> False).
    { intros k o2 n -> Hk D1 D2. cbn in E. assert (existsb (fun o2 => snd o2 && clash o (fst o2)) l = true); [|congruence].
      apply existsb_exists. exists (o2, true). split; [eapply nth_error_In; eauto|]. cbn. apply clash_ok. eauto. }
    destruct (checkDups l) as [[]| |]; auto.
    + intros [|i] [|j] oi oj n NE Hi Hj D1 D2; cbn in Hi, Hj; [congruence| | |].
      * injection Hi as <- ->. eapply X; eauto.
      * injection Hj as <- ->. eapply X; eauto.
      * eapply (IH i j); eauto.
    + destruct IH as (i & j & oi & oj & n & NE & Hi & Hj & D). exists (S i), (S j), oi, oj, n. split; [congruence|auto].
Qed.

Lemma nth_combine {A B} (l : list A) (m : list B) i a b : nth_error l i = Some a -> nth_error m i = Some b -> nth_error (combine l m) i = Some (a, b).
Proof. revert m i; induction l; intros [|] [|i]; cbn; try discriminate; intros; [congruence|auto]. Qed.
Lemma nth_combine_inv {A B} (l : list A) (m : list B) i a b : nth_error (combine l m) i = Some (a, b) -> nth_error l i = Some a /\ nth_error m i = Some b.
Proof. revert m i; induction l; intros [|] [|i]; cbn; try discriminate; intros H; [split; congruence|auto]. Qed.

Theorem resolve_ok :
  match resolve objs entry with
  | Ok st => List.length (needed st) = List.length objs /\
      (forall i, nth_error (needed st) i = Some true <-> reach i) /\
      (forall n, wanted n -> settled st n) /\
      (forall n, In n (deferred st) <-> wanted n /\ isBoundary n /\ nobody objs n) /\
      ~ duplicate objs entry
  | Err => unresolved \/ duplicate objs entry
  | Oob => False
  end.
Proof.
  unfold resolve. set (st0 := mkRst (map (fun _ => false) objs) []).
  assert (I0 : inv st0).
  { split; cbn [needed deferred st0].
    - apply map_length.
    - intros i H. unfold st0 in H. cbn [needed] in H. rewrite nth_error_map in H. destruct (nth_error objs i); discriminate.
    - intros n []. }
  pose proof (findByName_ok entry st0 I0 (or_introl eq_refl)) as F.
  destruct (findByName objs entry st0) as [[st1 b]| |]; cbn [rbind]; auto.
  destruct F as (I1 & L1 & S1 & _).
  pose proof (findAll_ok (S (List.length objs)) st1 I1 ltac:(lia)) as A.
  destruct (findAll (S (List.length objs)) objs st1) as [st| |]; cbn [rbind]; auto.
  destruct A as (I2 & L2 & C2). assert (S2 : settled st entry) by (eapply settled_le; eauto).
  pose proof (closed_reach st C2 S2) as CR.
  pose proof (checkDups_ok (combine objs (needed st))) as D.
  destruct (checkDups (combine objs (needed st))) as [[]| |]; cbn [rbind].
  - split; [apply i_len; auto|]. split; [intros i; split; [apply (i_need _ I2)|apply CR]|].
    assert (SW : forall n, wanted n -> settled st n).
    { intros n [-> |(i & o & R & Ho & U)]; [auto|]. eapply C2; eauto. }
    split; [exact SW|]. split.
    + intros n. split; [apply (i_def _ I2)|]. intros (W & B & NB).
      destruct (SW n W) as [(i & Bi & _)|(_ & _ & H)]; [exfalso; eapply bound_nobody; eauto|auto].
    + intros (i & j & o & o' & n & NE & Ri & Rj & Hi & Hj & Di & Dj).
      eapply (D i j o o' n NE); auto using nth_combine.
  - right. destruct D as (i & j & o & o' & n & NE & Hi & Hj & D1 & D2).
    apply nth_combine_inv in Hi as [Hi Ni]. apply nth_combine_inv in Hj as [Hj Nj].
    exists i, j, o, o', n. repeat split; auto; apply (i_need _ I2); auto.
  - destruct D.
Qed.
End Resolve.
