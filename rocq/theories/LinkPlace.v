(** Where the sections end up (C40). *)
From Verif Require Import Base BaseLemmas LexModel LexSpec LexProof LinkModel LinkSpec LinkResolve LinkLayout LinkFind.
From Coq Require Import Sorted String Permutation.
Close Scope string_scope.

(** ** the sections of one name *)
Lemma itemsO_in name f o ss : forall k it, In it (itemsO name f o k ss) <->
  exists i s, it = (f, o, (k + i)%nat, s) /\ nth_error ss i = Some s /\ sh_name s = name.
Proof.
  induction ss as [|s ss IH]; intros k it; cbn [itemsO].
  { split; [intros []|]. intros (i & s & _ & C & _). destruct i; discriminate. }
  rewrite in_app_iff, IH. split.
  - intros [C|(i & s' & -> & H1 & H2)].
    + destruct (eqs name (sh_name s)) eqn:E; [|destruct C]. destruct C as [<- |[]]. apply eqs_true in E. exists O, s.
      rewrite Nat.add_0_r. auto.
    + exists (S i), s'. split; [f_equal; f_equal; lia|auto].
  - intros (i & s' & -> & H1 & H2). destruct i as [|i].
    + injection H1 as <-. left. rewrite Nat.add_0_r. rewrite (proj2 (eqs_true name (sh_name s))) by auto. left. reflexivity.
    + right. exists i, s'. split; [f_equal; f_equal; lia|auto].
Qed.
Lemma items_in name os : forall f0 it, In it (items name f0 os) <->
  exists f k o s, it = ((f0 + f)%nat, o, k, s) /\ incl os f k o s /\ sh_name s = name.
Proof.
  induction os as [|[o nd] os IH]; intros f0 it; cbn [items].
  { split; [intros []|]. intros (f & k & o & s & _ & [C _] & _). destruct f; discriminate. }
  rewrite in_app_iff, IH. split.
  - intros [C|(f & k & o' & s & -> & [H1 H2] & H3)].
    + destruct nd; [|destruct C]. apply itemsO_in in C as (i & s & -> & H1 & H2). exists O, i, o, s. rewrite Nat.add_0_r. cbn.
      repeat split; auto.
    + exists (S f), k, o', s. split; [f_equal; f_equal; f_equal; lia|]. repeat split; auto.
  - intros (f & k & o' & s & -> & [H1 H2] & H3). destruct f as [|f].
    + injection H1 as -> ->. left. rewrite Nat.add_0_r. apply itemsO_in. exists k, s. auto.
    + right. exists f, k, o', s. split; [f_equal; f_equal; f_equal; lia|]. repeat split; auto.
Qed.
Definition ikey (it : item) : nat * nat := (iobj it, isec it).
Lemma itemsO_nodup name f o ss : forall k, NoDup (map ikey (itemsO name f o k ss)) /\
  Forall (fun it => iobj it = f /\ (k <= isec it)%nat) (itemsO name f o k ss).
Proof.
  induction ss as [|s ss IH]; intros k; cbn [itemsO]; [split; constructor|].
  destruct (IH (S k)) as [N F].
  assert (F' : Forall (fun it => iobj it = f /\ (k <= isec it)%nat) (itemsO name f o (S k) ss)).
  { revert F. apply Forall_impl. intros it [? ?]. split; [auto|lia]. }
  destruct (eqs name (sh_name s)); cbn [app map]; [|auto]. split; [|constructor; [cbn; auto|auto]].
  constructor; auto. intros C. apply in_map_iff in C as (it & C1 & C2). rewrite Forall_forall in F. specialize (F it C2).
  unfold ikey in C1. cbn in C1. injection C1 as C1 C3. lia.
Qed.
Lemma NoDup_app {A} (a b : list A) : NoDup a -> NoDup b -> (forall x, In x a -> In x b -> False) -> NoDup (a ++ b).
Proof.
  intros NA NB D. induction NA as [|x a H NA IH]; cbn [app]; [auto|]. constructor.
  - intros C. apply in_app_or in C as [C|C]; [auto|]. apply (D x); [left; auto|auto].
  - apply IH. intros y I J. apply (D y); [right; auto|auto].
Qed.
Lemma items_nodup name os : forall f0, NoDup (map ikey (items name f0 os)) /\ Forall (fun it => (f0 <= iobj it)%nat) (items name f0 os).
Proof.
  induction os as [|[o nd] os IH]; intros f0; cbn [items]; [split; constructor|].
  destruct (IH (S f0)) as [N F]. destruct (itemsO_nodup name f0 o o 0) as [N0 F0]. destruct nd; cbn [app].
  - rewrite map_app. split.
    + apply NoDup_app; auto. intros x C1 C2. apply in_map_iff in C1 as (i1 & <- & I1). apply in_map_iff in C2 as (i2 & E & I2).
      rewrite Forall_forall in F, F0. specialize (F i2 I2). specialize (F0 i1 I1). unfold ikey in E. injection E as E1 E2. lia.
    + apply Forall_app. split; [revert F0|revert F]; apply Forall_impl; intros it; lia.
  - split; auto. revert F; apply Forall_impl; intros it; lia.
Qed.

Definition pkey (sq : sect * placed) : nat * nat := (pl_obj (snd sq), pl_sect (snd sq)).
Lemma placesFor_keys its g : placesFor its g -> map pkey g = map ikey its.
Proof. intros P. induction P as [|it sq its g (P1 & P2 & P3) P IH]; cbn [map]; [reflexivity|]. rewrite IH. f_equal. unfold pkey, ikey. congruence. Qed.
Lemma placesFor_in its g : placesFor its g -> forall sq, In sq g -> exists it, In it its /\ fst sq = isect it /\ pkey sq = ikey it.
Proof.
  intros P. induction P as [|it sq its g (P1 & P2 & P3) P IH]; intros sq' []; subst.
  - exists it. split; [left; auto|]. split; auto. unfold pkey, ikey. congruence.
  - destruct (IH sq' H) as (it' & I & J). exists it'. split; [right; auto|auto].
Qed.
Lemma placesFor_in2 its g : placesFor its g -> forall it, In it its -> exists sq, In sq g /\ fst sq = isect it /\ pkey sq = ikey it.
Proof.
  intros P. induction P as [|it sq its g (P1 & P2 & P3) P IH]; intros it' []; subst.
  - exists sq. split; [left; auto|]. split; auto. unfold pkey, ikey. congruence.
  - destruct (IH it' H) as (sq' & I & J). exists sq'. split; [right; auto|auto].
Qed.

(** ** all the names *)
Definition before (x y : sect * placed) : Prop := pl_addr (snd x) + sh_size (fst x) <= pl_addr (snd y).
Lemma run_before fmt a g b : Forall (fun sq => wfSect (fst sq)) g -> run fmt a g b ->
  StronglySorted before g /\ Forall (fun sq => a <= pl_addr (snd sq) /\ pl_addr (snd sq) + sh_size (fst sq) <= b) g /\ a <= b.
Proof.
  intros F R. induction R as [a|a s q l b R1 R2 R3 IH]; [repeat split; try constructor; lia|].
  inversion_clear F as [|? ? F1 F2]. destruct (IH F2) as (I1 & I2 & I3). cbn [fst] in F1. destruct F1 as [F1 _], R1 as [R1 _].
  split; [|split; [|lia]].
  - constructor; auto. revert I2. apply Forall_impl. intros sq [? ?]. unfold before. cbn [fst snd]. lia.
  - constructor; cbn [fst snd]; [lia|]. revert I2. apply Forall_impl. intros sq [? ?]. lia.
Qed.
Lemma SSorted_app {A} (R : A -> A -> Prop) a b : StronglySorted R a -> StronglySorted R b -> (forall x y, In x a -> In y b -> R x y) -> StronglySorted R (a ++ b).
Proof.
  intros SA SB D. induction SA as [|x a SA IH H]; cbn [app]; [auto|]. constructor.
  - apply IH. intros y z I J. apply D; [right; auto|auto].
  - apply Forall_app. split; auto. apply Forall_forall. intros y I. apply D; [left; auto|auto].
Qed.
Lemma runs_before fmt a gs c : Forall (Forall (fun sq => wfSect (fst sq))) gs -> runs fmt a gs c ->
  StronglySorted before (List.concat gs) /\ Forall (fun sq => a <= pl_addr (snd sq) /\ pl_addr (snd sq) + sh_size (fst sq) <= c) (List.concat gs) /\ a <= c.
Proof.
  intros F R. induction R as [a|a a' g b l c H1 H2 H3 IH|a gs b c R IH H]; [repeat split; try constructor; lia| |].
  - inversion_clear F as [|? ? F1 F2]. destruct (IH F2) as (I1 & I2 & I3). destruct (run_before _ _ _ _ F1 H2) as (J1 & J2 & J3).
    cbn [List.concat]. split; [|split; [|lia]].
    + apply SSorted_app; auto. intros x y X Y. rewrite Forall_forall in I2, J2. specialize (I2 y Y). specialize (J2 x X). unfold before. lia.
    + apply Forall_app. split; [revert J2|revert I2]; apply Forall_impl; intros sq; lia.
  - destruct (IH F) as (I1 & I2 & I3). split; auto. split; [|lia]. revert I2. apply Forall_impl. intros sq. lia.
Qed.
Lemma run_each fmt a g b : run fmt a g b -> Forall (fun sq => (alignment fmt (fst sq) <= 1 \/ (alignment fmt (fst sq) | pl_addr (snd sq))) /\
  pl_addr (snd sq) + sh_size (fst sq) <= limit fmt) g.
Proof. intros R. induction R as [a|a s q l b R1 R2 R3 IH]; constructor; auto. cbn [fst snd]. split; [apply R1|auto]. Qed.
Lemma runs_each fmt a gs b : runs fmt a gs b -> Forall (fun sq => (alignment fmt (fst sq) <= 1 \/ (alignment fmt (fst sq) | pl_addr (snd sq))) /\
  pl_addr (snd sq) + sh_size (fst sq) <= limit fmt) (List.concat gs).
Proof.
  intros R. induction R as [a|a a' g b l c H1 H2 H3 IH|a gs b c R IH H]; cbn [List.concat]; [constructor| |auto].
  apply Forall_app. split; [eapply run_each; eauto|auto].
Qed.
Lemma sorted_two {A} (R : A -> A -> Prop) l x y : StronglySorted R l -> In x l -> In y l -> x = y \/ R x y \/ R y x.
Proof.
  intros SS. induction SS as [|z l SS IH H]; intros I J; [destruct I|]. rewrite Forall_forall in H.
  destruct I as [<- |I], J as [<- |J]; auto.
Qed.

Section Groups.
  Variables (e : env) (ds : list descr) (gs : list (list (sect * placed))) (a c : Z).
  Let os := e_objs e.
  Let fmt := e_fmt e.
  Hypothesis GF : groupsFor e ds gs.
  Hypothesis RU : runs fmt a gs c.
  Hypothesis ND : NoDup (map d_name ds).
  Hypothesis WF : goodNames e ds.

  Lemma groups_wf : Forall (Forall (fun sq => wfSect (fst sq))) gs.
  Proof.
    clear RU ND. unfold goodNames in WF. revert WF. induction GF as [|d g l gs' H GF' IH]; intros W; constructor; inversion_clear W as [|? ? W1 W2]; auto.
    eapply placesFor_wf; [|exact H]. revert W1. apply Forall_impl. tauto.
  Qed.
  Lemma groups_in sq : In sq (List.concat gs) <-> exists d g, In (d, g) (combine ds gs) /\ In sq g.
  Proof.
    clear RU ND WF. induction GF as [|d g l gs' H GF' IH]; cbn [List.concat combine].
    - split; [intros []|intros (d & g & [] & _)].
    - rewrite in_app_iff, (IH GF'). split.
      + intros [I|(d' & g' & I & J)]; [exists d, g; split; [left; auto|auto]|exists d', g'; split; [right; auto|auto]].
      + intros (d' & g' & [E|I] & J); [injection E as <- <-; auto|right; eauto].
  Qed.
  Lemma group_of d g : In (d, g) (combine ds gs) -> In d ds /\ placesFor (items (d_name d) 0 os) g.
  Proof.
    clear RU ND WF. unfold os. induction GF as [|d' g' l gs' H GF' IH]; cbn [combine]; [intros []|].
    intros [E|I]; [injection E as <- <-; split; [left; auto|auto]|]. destruct (IH GF' I). split; [right; auto|auto].
  Qed.
  Lemma group_ex d : In d ds -> exists g, In (d, g) (combine ds gs).
  Proof.
    clear RU ND WF. induction GF as [|d' g' l gs' H GF' IH]; cbn [combine]; [intros []|].
    intros [<- |I]; [exists g'; left; auto|]. destruct (IH GF' I) as (g & J). exists g. right. auto.
  Qed.
  (** exactly the sections with these names *)
  Lemma groups_sections sq : In sq (List.concat gs) -> exists f k o d, In d ds /\ incl os f k o (fst sq) /\ sh_name (fst sq) = d_name d /\
    pl_obj (snd sq) = f /\ pl_sect (snd sq) = k.
  Proof.
    intros I. apply groups_in in I as (d & g & I & J). apply group_of in I as [D P].
    destruct (placesFor_in _ _ P sq J) as (it & I1 & I2 & I3). apply items_in in I1 as (f & k & o & s & -> & H1 & H2).
    exists f, k, o, d. cbn in I2. rewrite I2. repeat split; auto; try apply H1; unfold pkey, ikey in I3; cbn in I3; congruence.
  Qed.
  Lemma groups_all f k o s d : In d ds -> incl os f k o s -> sh_name s = d_name d ->
    exists q, In (s, q) (List.concat gs) /\ pl_obj q = f /\ pl_sect q = k.
  Proof.
    intros D H N. destruct (group_ex d D) as (g & I). destruct (group_of _ _ I) as [_ P].
    assert (IT : In (f, o, k, s) (items (d_name d) 0 os)) by (apply items_in; exists f, k, o, s; auto).
    destruct (placesFor_in2 _ _ P _ IT) as ([s' q] & J1 & J2 & J3). cbn in J2. subst s'. exists q. split.
    - apply groups_in. exists d, g. auto.
    - unfold pkey, ikey in J3. cbn in J3. split; congruence.
  Qed.
  Lemma groups_keys : NoDup (map pkey (List.concat gs)).
  Proof.
    clear RU WF. revert ND. induction GF as [|d g l gs' H GF' IH]; intros N; cbn [List.concat map]; [constructor|].
    inversion_clear N as [|? ? N1 N2]. rewrite map_app. apply NoDup_app; auto.
    - rewrite (placesFor_keys _ _ H). apply items_nodup.
    - intros x I J. apply in_map_iff in I as (x1 & <- & I). apply in_map_iff in J as (x2 & E & J).
      destruct (placesFor_in _ _ H x1 I) as (it & K1 & _ & K2). apply items_in in K1 as (f & k & o & s & -> & [A1 A2] & A3).
      assert (X2 : exists d2 it2, In d2 l /\ In it2 (items (d_name d2) 0 (e_objs e)) /\ pkey x2 = ikey it2).
      { clear - GF' J. induction GF' as [|d' g' l gs' H GF' IH]; cbn [List.concat] in J; [destruct J|].
        apply in_app_or in J as [J|J].
        - destruct (placesFor_in _ _ H x2 J) as (it & K1 & _ & K2). exists d', it. split; [left; auto|auto].
        - destruct (IH J) as (d2 & it2 & I1 & I2). exists d2, it2. split; [right; auto|auto]. }
      destruct X2 as (d2 & it2 & D2 & K3 & K4). apply items_in in K3 as (f2 & k2 & o2 & s2 & -> & [B1 B2] & B3).
      unfold ikey in *. cbn in K2, K4. rewrite K2, K4 in E. injection E as -> ->. rewrite A1 in B1. injection B1 as ->.
      rewrite A2 in B2. injection B2 as ->. apply N1. rewrite <- A3, B3. apply in_map. auto.
  Qed.
  (** in the order of the names *)
  Lemma groups_order (Q : descr -> descr -> Prop) x y : StronglySorted (fun d d' => ~ Q d' d) ds -> In x (List.concat gs) -> In y (List.concat gs) ->
    (forall d d', In d ds -> In d' ds -> sh_name (fst x) = d_name d -> sh_name (fst y) = d_name d' -> d <> d' /\ Q d d') ->
    before x y.
  Proof.
    intros SS I J QQ. apply groups_in in I as (d & g & I1 & I2). apply groups_in in J as (d' & g' & J1 & J2).
    destruct (group_of _ _ I1) as [D P]. destruct (group_of _ _ J1) as [D' P'].
    destruct (placesFor_in _ _ P x I2) as (it & K1 & K2 & _). destruct (placesFor_in _ _ P' y J2) as (it' & L1 & L2 & _).
    apply items_in in K1 as (f & k & o & s & -> & _ & N). apply items_in in L1 as (f' & k' & o' & s' & -> & _ & N'). cbn in K2, L2.
    destruct (QQ d d' D D') as [NE QD]; try congruence. pose proof groups_wf as GW. clear WF ND QQ D D' P P'.
    revert SS GW I1 J1. revert RU. generalize c. generalize a. revert GF. revert gs. induction ds as [|d1 l IH]; intros gs GF a0 c1 R SS GW I1 J1; [destruct I1|].
    inversion GF as [|? g1 ? gs1 G1 G2]; subst. cbn [combine] in I1, J1. inversion_clear SS as [|? ? S1 S2]. inversion_clear GW as [|? ? W1 W2].
    assert (RR : exists a' b, a0 <= a' /\ run fmt a' g1 b /\ exists c', runs fmt b gs1 c').
    { clear - R. remember (g1 :: gs1) as G eqn:EG. revert g1 gs1 EG. induction R as [x|x a' g b l c0 H1 H2 H3 IH|x gs0 b c0 R IH H]; intros g1 gs1 EG; [discriminate| |].
      - injection EG as -> ->. exists a', b. split; [auto|]. split; auto. exists c0. auto.
      - apply IH. auto. }
    destruct RR as (a' & b & R1 & R2 & c' & R3).
    destruct I1 as [E|I1], J1 as [E'|J1].
    - congruence.
    - injection E as -> ->. destruct (run_before _ _ _ _ W1 R2) as (_ & B1 & _). destruct (runs_before _ _ _ _ W2 R3) as (_ & B2 & _).
      rewrite Forall_forall in B1, B2. specialize (B1 x I2). unfold before.
      assert (Y : In y (List.concat gs1)). { apply in_concat. exists g'. split; [|auto]. apply in_combine_r in J1. auto. }
      specialize (B2 y Y). lia.
    - injection E' as -> ->. exfalso. rewrite Forall_forall in S2. apply in_combine_l in I1. apply (S2 d I1). auto.
    - eapply IH; eauto.
  Qed.
End Groups.

(** the latest placement of a section *)
Lemma outAddr_lookup out f k : outAddr out f k = match lookup out f k with Some q => pl_addr q | None => 0 end.
Proof. induction out as [|q out IH]; cbn [outAddr lookup]; [reflexivity|]. destruct (_ && _); auto. Qed.
Lemma lookup_app a b f k : lookup (a ++ b) f k = match lookup a f k with Some q => Some q | None => lookup b f k end.
Proof. induction a as [|q a IH]; cbn [app lookup]; [reflexivity|]. destruct (_ && _); auto. Qed.
Definition qkey (q : placed) : nat * nat := (pl_obj q, pl_sect q).
Lemma lookup_in l q : NoDup (map qkey l) -> In q l -> lookup l (pl_obj q) (pl_sect q) = Some q.
Proof.
  induction l as [|x l IH]; intros N I; [destruct I|]. cbn [map] in N. inversion_clear N as [|? ? N1 N2]. cbn [lookup].
  destruct I as [-> |I]; [rewrite !Nat.eqb_refl; reflexivity|].
  destruct (Nat.eqb (pl_obj x) (pl_obj q) && Nat.eqb (pl_sect x) (pl_sect q)) eqn:E; [|auto].
  apply andb_true_iff in E as [E1 E2]. apply Nat.eqb_eq in E1, E2. exfalso. apply N1. unfold qkey at 1. rewrite E1, E2. apply (in_map qkey l q I).
Qed.
Lemma lookup_some l f k q : lookup l f k = Some q -> In q l /\ pl_obj q = f /\ pl_sect q = k.
Proof.
  induction l as [|x l IH]; cbn [lookup]; [discriminate|]. destruct (_ && _) eqn:E.
  - intros H. injection H as <-. apply andb_true_iff in E as [E1 E2]. apply Nat.eqb_eq in E1, E2. split; [left; auto|auto].
  - intros H. destruct (IH H). split; [right; auto|auto].
Qed.
Lemma lookup_rev l out q : NoDup (map qkey l) -> In q l -> lookup (rev l ++ out) (pl_obj q) (pl_sect q) = Some q.
Proof.
  intros N I. rewrite lookup_app. rewrite lookup_in; auto.
  - rewrite map_rev. apply (Permutation_NoDup (Permutation_rev _)). auto.
  - apply in_rev in I. auto.
Qed.
Lemma qkeys (g : list (sect * placed)) : map qkey (map snd g) = map pkey g.
Proof. rewrite map_map. reflexivity. Qed.
