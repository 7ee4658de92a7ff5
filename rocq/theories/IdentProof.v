(** The identifier table refines its specification. *)
From Verif Require Import Base BaseLemmas NumModel LexSpec PrepSpec LexModel LexProof IdentSpec IdentModel.
From Coq Require Import Sorted.

Notation name := IdentSpec.name.
Notation sameb := IdentSpec.sameb.
Notation size := IdentSpec.size.
Notation room := IdentSpec.room.
Notation iop := IdentSpec.op.

Lemma Forall2_impl {A B} (P Q : A -> B -> Prop) l l' : (forall a b, P a b -> Q a b) -> Forall2 P l l' -> Forall2 Q l l'.
Proof. intros H F. induction F; constructor; auto. Qed.
Lemma NoDup_app_snoc {A} (l : list A) x : NoDup l -> ~ In x l -> NoDup (l ++ [x]).
Proof.
  induction l as [|a l IH]; intros ND NI; [constructor; [exact NI|constructor]|]. inversion ND; subst. cbn [app]. constructor.
  - intros H. apply in_app_or in H. destruct H as [H|[H|[]]]; [contradiction|subst; apply NI; left; reflexivity].
  - apply IH; [assumption|]. intros H. apply NI. right. exact H.
Qed.
Definition enc (n : name) : list Z := n ++ [0; zlen n + 1].
Definition encs (ns : list name) : list Z := flat_map enc ns.
Lemma enc_len n : zlen (enc n) = zlen n + 2.
Proof. unfold enc. rewrite zlen_app. reflexivity. Qed.
Lemma size_encs ns : size ns = zlen (encs ns).
Proof. induction ns as [|n ns IH]; [reflexivity|]. change (zlen n + 2 + size ns = zlen (enc n ++ encs ns)). rewrite zlen_app, enc_len, IH. reflexivity. Qed.
Lemma encs_app a b : encs (a ++ b) = encs a ++ encs b. Proof. apply flat_map_app. Qed.
Lemma size_app a b : size (a ++ b) = size a + size b. Proof. rewrite !size_encs, encs_app, zlen_app. reflexivity. Qed.
Lemma size_one n : size [n] = zlen n + 2. Proof. unfold size. cbn [fold_right]. lia. Qed.
Lemma size_nonneg ns : 0 <= size ns. Proof. rewrite size_encs. apply zlen_nonneg. Qed.
Lemma size_ge ns : 2 * Z.of_nat (length ns) <= size ns.
Proof. induction ns as [|n ns IH]; [cbn; lia|]. change (2 * Z.of_nat (S (length ns)) <= zlen n + 2 + size ns). pose proof (zlen_nonneg n). lia. Qed.
Lemma sameb_true a b : sameb a b = true <-> a = b.
Proof. unfold sameb. destruct (list_eq_dec Z.eq_dec a b); split; congruence. Qed.
Lemma sameb_refl n : sameb n n = true. Proof. apply sameb_true. reflexivity. Qed.
Lemma sameb_neq a b : a <> b -> sameb a b = false. Proof. intros H. destruct (sameb a b) eqn:E; [apply sameb_true in E; contradiction|reflexivity]. Qed.
Lemma mem_In ns n : mem ns n = true <-> In n ns.
Proof.
  unfold mem. rewrite existsb_exists. split; [intros (x & I & E); apply sameb_true in E; congruence|intros I; exists n; split; [exact I|apply sameb_refl]].
Qed.

(** positions *)
Lemma index_app a b n : index (a ++ b) n = match index a n with Some i => Some i | None => let? i := index b n in Some (size a + i) end.
Proof.
  induction a as [|k a IH]; cbn [app index].
  - destruct (index b n); reflexivity.
  - destruct (sameb k n); [reflexivity|]. rewrite IH. destruct (index a n); [reflexivity|]. cbn [obind]. destruct (index b n); [|reflexivity]. cbn [obind].
    change (size (k :: a)) with (zlen k + 2 + size a). f_equal. lia.
Qed.
Lemma index_In ns n : index ns n = None <-> ~ In n ns.
Proof.
  induction ns as [|k ns IH]; cbn [index In]; [tauto|]. destruct (sameb k n) eqn:E.
  - apply sameb_true in E. split; [discriminate|tauto].
  - assert (k <> n) by (intros ->; rewrite sameb_refl in E; discriminate). destruct (index ns n); cbn [obind]; split; intros; try tauto; try discriminate.
    exfalso. assert (HN : ~ In n ns) by tauto. apply IH in HN. discriminate HN.
Qed.
Lemma index_split ns n i : index ns n = Some i -> exists a b, ns = a ++ n :: b /\ i = size a /\ ~ In n a.
Proof.
  revert i. induction ns as [|k ns IH]; intros i H; [discriminate H|]. cbn [index] in H. destruct (sameb k n) eqn:E.
  - apply sameb_true in E. subst k. assert (i = 0) as -> by congruence. exists [], ns. auto.
  - destruct (index ns n) as [j|]; [|discriminate H]. destruct (IH j eq_refl) as (a & b & -> & -> & NI). exists (k :: a), b. split; [reflexivity|]. cbn [obind] in H.
    split; [change (size (k :: a)) with (zlen k + 2 + size a); congruence|]. intros [->|I]; [rewrite sameb_refl in E; discriminate E|tauto].
Qed.
Lemma index_mid a n b : ~ In n a -> index (a ++ n :: b) n = Some (size a).
Proof. intros H. rewrite index_app. apply index_In in H. rewrite H. cbn [index]. rewrite sameb_refl. cbn [obind]. f_equal. lia. Qed.

(** ** the representation *)
Definition stat (l : label) : Z := 2 * (if used l then 1 else 0) + (if defined l then 1 else 0).
Definition labrep (ns : list name) (l : label) (e : Z * Z * Z) : Prop :=
  exists p, index ns (lname l) = Some p /\ e = (p, lnum l, stat l).
Record Rep (t : tables) (s : ids) : Prop := {
  r_tab : exists junk, tab s = encs (names t) ++ junk;
  r_len : ilen s = size (names t);
  r_max : zlen (tab s) = MAXI;
  r_ok : Forall (fun n => nonzero n /\ zlen n < 127) (names t);
  r_nodup : NoDup (names t);
  r_labs : Forall2 (labrep (names t)) (labels t) (labs s);
  r_lnd : NoDup (map lname (labels t));
  r_next : lcnt s = next t;
  r_undo : Forall2 (fun m u => (m <= length (names t))%nat /\ u = size (firstn m (names t))) (opened t) (undo s);
  r_sorted : StronglySorted (fun a b => (b <= a)%nat) (opened t) }.

Lemma text_at t s n p : Rep t s -> nonzero n -> index (names t) n = Some p -> forall k, nonzero k -> streq (tab s) p k = Ok (sameb n k).
Proof.
  intros R NZ I k NK. destruct (r_tab t s R) as [junk T]. destruct (index_split _ _ _ I) as (a & b & E & -> & _).
  rewrite T, E, encs_app. change (encs (n :: b)) with (enc n ++ encs b). unfold enc.
  replace ((encs a ++ (n ++ [0; zlen n + 1]) ++ encs b) ++ junk) with (encs a ++ n ++ 0 :: (zlen n + 1) :: encs b ++ junk) by asc.
  apply streq_ok; [exact NZ|exact NK|]. apply size_encs.
Qed.

Lemma find_ok nm junk : nonzero nm -> forall (ns : list name) fuel post, Forall (fun n => nonzero n /\ zlen n < 127) ns -> NoDup ns -> (length ns < fuel)%nat ->
  find fuel (encs ns ++ post ++ junk) (size ns) nm = Ok (match index ns nm with Some i => i | None => -1 end).
Proof.
  intros NZ. induction ns as [|n ns IH] using rev_ind; intros fuel post F ND FU; (destruct fuel as [|fuel]; [cbn in FU; lia|]); cbn [find].
  - reflexivity.
  - rewrite size_app, size_one. pose proof (size_nonneg ns). pose proof (zlen_nonneg n).
    replace (0 <? size ns + (zlen n + 2)) with true by lia.
    apply Forall_app in F. destruct F as [F1 F2]. apply Forall_cons_iff in F2. destruct F2 as [[N1 N2] _].
    assert (T : encs (ns ++ [n]) ++ post ++ junk = (encs ns ++ n ++ [0]) ++ (zlen n + 1) :: (post ++ junk)).
    { rewrite encs_app. change (encs [n]) with (enc n ++ []). unfold enc. asc. }
    assert (G : inb (zget (encs (ns ++ [n]) ++ post ++ junk) (size ns + (zlen n + 2) - 1)) = Ok (zlen n + 1)).
    { rewrite T. apply inb_zget_mid. rewrite size_encs. zl. }
    rewrite G. cbn [rbind]. replace (size ns + (zlen n + 2) - (1 + (zlen n + 1))) with (size ns) by lia.
    assert (SE : streq (encs (ns ++ [n]) ++ post ++ junk) (size ns) nm = Ok (sameb n nm)).
    { replace (encs (ns ++ [n]) ++ post ++ junk) with (encs ns ++ n ++ 0 :: (zlen n + 1) :: post ++ junk) by (rewrite T; asc).
      apply streq_ok; [exact N1|exact NZ|apply size_encs]. }
    rewrite SE. cbn [rbind]. apply NoDup_remove in ND. rewrite app_nil_r in ND. destruct ND as [ND NI].
    destruct (sameb n nm) eqn:SB.
    + apply sameb_true in SB. subst nm. rewrite index_mid by exact NI. reflexivity.
    + assert (NE : n <> nm) by (intros ->; rewrite sameb_refl in SB; discriminate SB).
      replace (encs (ns ++ [n]) ++ post ++ junk) with (encs ns ++ (n ++ 0 :: (zlen n + 1) :: post) ++ junk) by (rewrite T; asc).
      rewrite IH; [|exact F1|exact ND|rewrite app_length in FU; cbn [length] in FU; lia].
      rewrite index_app. cbn [index]. rewrite SB. cbn [obind]. destruct (index ns nm); reflexivity.
Qed.
Lemma findIdent_ok t s nm : Rep t s -> nonzero nm -> findIdent s nm = Ok (match index (names t) nm with Some i => i | None => -1 end).
Proof.
  intros R NZ. unfold findIdent. destruct (r_tab t s R) as [junk T]. rewrite T, (r_len t s R).
  apply (find_ok nm junk NZ (names t) _ [] (r_ok t s R) (r_nodup t s R)). pose proof (size_ge (names t)). lia.
Qed.

Lemma index_nonneg ns n i : index ns n = Some i -> 0 <= i.
Proof. intros H. destruct (index_split _ _ _ H) as (a & _ & _ & -> & _). apply size_nonneg. Qed.
Lemma labrep_app ns k l e : labrep ns l e -> labrep (ns ++ k) l e.
Proof. intros (p & I & E). exists p. rewrite index_app, I. auto. Qed.
Lemma undo_app ns k (ms : list nat) us : Forall2 (fun m u => (m <= length ns)%nat /\ u = size (firstn m ns)) ms us ->
  Forall2 (fun m u => (m <= length (ns ++ k))%nat /\ u = size (firstn m (ns ++ k))) ms us.
Proof.
  intros F. eapply Forall2_impl; [|exact F]. cbn beta. intros m u [L ->]. rewrite app_length. split; [lia|]. rewrite firstn_app. replace (m - length ns)%nat with 0%nat by lia. cbn [firstn]. rewrite app_nil_r. reflexivity.
Qed.

Lemma mention_ok t s nm : Rep t s -> nonzero nm ->
  match addIdent s nm with
  | Ok (s', i) => exists t', mention t nm = Some (t', i) /\ Rep t' s' /\ labels t' = labels t /\ next t' = next t /\ opened t' = opened t /\ labs s' = labs s /\ lcnt s' = lcnt s /\ undo s' = undo s
                  /\ index (names t') nm = Some i /\ exists k, names t' = names t ++ k
  | Err => mention t nm = None
  | Oob => False
  end.
Proof.
  intros R NZ. unfold addIdent, mention. rewrite (findIdent_ok t s nm R NZ). cbn [rbind]. destruct (index (names t) nm) as [i|] eqn:I.
  - pose proof (index_nonneg _ _ _ I). replace (0 <=? i) with true by lia. exists t. repeat (split; [first [reflexivity|assumption]|]). exists []. rewrite app_nil_r. reflexivity.
  - change (0 <=? -1) with false. cbv iota. destruct R as [[junk T] L M F ND LB LN NX UN SO]. rewrite L.
    destruct (127 <=? zlen nm) eqn:C1; [reflexivity|]. cbn [orb]. change room with MAXI.
    destruct (MAXI - size (names t) <? zlen nm + 2) eqn:C2; [replace (MAXI <? size (names t) + zlen nm + 2) with true by lia; reflexivity|].
    replace (MAXI <? size (names t) + zlen nm + 2) with false by lia.
    assert (LJ : zlen junk = MAXI - size (names t)) by (rewrite <- M, T, zlen_app, size_encs; lia). pose proof (zlen_nonneg nm).
    destruct (copyStr_ok nm (encs (names t)) junk (size (names t)) (size_encs _) ltac:(lia)) as (j & E & LE). rewrite T, E. cbn [rbind].
    destruct j as [|y j]; [change (zlen (@nil Z)) with 0 in LE; lia|]. rewrite zlen_cons in LE.
    assert (Z1 : inb (zset (encs (names t) ++ nm ++ 0 :: y :: j) (size (names t) + (zlen nm + 1)) (zlen nm + 1)) = Ok ((encs (names t) ++ nm ++ [0]) ++ (zlen nm + 1) :: j)).
    { replace (encs (names t) ++ nm ++ 0 :: y :: j) with ((encs (names t) ++ nm ++ [0]) ++ y :: j) by asc. apply zset_mid. rewrite size_encs. zl. }
    rewrite Z1. cbn [rbind]. eexists. split; [reflexivity|]. pose proof (proj1 (index_In (names t) nm) I) as NI.
    split; [|cbn [labels next opened labs lcnt undo names]; repeat (split; [reflexivity|]); split; [rewrite index_app, I; cbn [index]; rewrite sameb_refl; cbn [obind]; f_equal; lia|exists [nm]; reflexivity]].
    split; cbn [names labels next opened tab ilen labs lcnt undo].
    + exists j. rewrite encs_app. change (encs [nm]) with (enc nm ++ []). unfold enc. asc.
    + rewrite size_app, size_one. lia.
    + rewrite zlen_app, zlen_cons, !zlen_app. rewrite <- size_encs. change (zlen [0]) with 1. lia.
    + apply Forall_app. split; [exact F|]. constructor; [|constructor]. split; [exact NZ|lia].
    + apply NoDup_app_snoc; assumption.
    + eapply Forall2_impl; [|exact LB]. intros l e. apply labrep_app.
    + exact LN.
    + exact NX.
    + apply undo_app. exact UN.
    + exact SO.
Qed.

(** ** labels *)
Lemma stat_land l (d : bool) : Z.land (stat l) (if d then 1 else 0) =? 0 = negb (d && defined l).
Proof. unfold stat. destruct (used l), (defined l), d; reflexivity. Qed.
Lemma stat_lor l (d : bool) : Z.lor (stat l) (2 * (if (if d then 1 else 0) =? 0 then 1 else 0) + (if d then 1 else 0)) =
  stat (Lab (lname l) (lnum l) (used l || negb d) (defined l || d)).
Proof. unfold stat. cbn [used defined]. destruct (used l), (defined l), d; reflexivity. Qed.
Lemma findLabel_ok t s nm (d : bool) : Rep t s -> nonzero nm -> forall ls es, Forall2 (labrep (names t)) ls es ->
  match findLabel (tab s) es nm (if d then 1 else 0) with
  | Ok (Some (es', k)) => exists ls', mark ls nm d = Some (Some (ls', k)) /\ Forall2 (labrep (names t)) ls' es' /\ map lname ls' = map lname ls
  | Ok None => mark ls nm d = None /\ ~ In nm (map lname ls)
  | Err => mark ls nm d = Some None
  | Oob => False
  end.
Proof.
  intros R NZ. induction ls as [|l ls IH]; intros es F; inversion F as [|l' e ls' es' H F']; subst.
  - cbn. auto.
  - destruct H as (p & I & ->). cbn [findLabel mark]. specialize (IH es' F').
    assert (NL : nonzero (lname l)).
    { destruct (index_split _ _ _ I) as (a & b & E & _). pose proof (r_ok t s R) as OK. rewrite E in OK. apply Forall_app in OK. destruct OK as [_ OK]. apply Forall_cons_iff in OK. apply OK. }
    rewrite (text_at t s (lname l) p R NL I nm NZ). cbn [rbind]. destruct (sameb (lname l) nm) eqn:SB.
    + apply sameb_true in SB. rewrite stat_land, negb_involutive. destruct (d && defined l) eqn:DD; [reflexivity|]. rewrite stat_lor. subst nm.
      eexists. split; [reflexivity|]. split; [|reflexivity]. constructor; [|exact F']. exists p. auto.
    + destruct (findLabel (tab s) es' nm (if d then 1 else 0)) as [[[es'' k]|]| |]; cbn [rbind].
      * destruct IH as (ls'' & -> & F'' & M). eexists. split; [reflexivity|]. split; [constructor; [exists p; auto|exact F'']|]. cbn [map]. rewrite M. reflexivity.
      * destruct IH as [-> NI]. split; [reflexivity|]. cbn [map In]. intros [E|I']; [rewrite E, sameb_refl in SB; discriminate SB|contradiction].
      * rewrite IH. reflexivity.
      * exact IH.
Qed.
Lemma Forall2_zlen {A B} (P : A -> B -> Prop) l l' : Forall2 P l l' -> zlen l = zlen l'.
Proof. intros F. unfold zlen. induction F; cbn [length]; lia. Qed.
Lemma label_ok t s nm (d : bool) : Rep t s -> nonzero nm ->
  match addGotoLabel s nm (if d then 1 else 0) with
  | Ok (s', k) => exists t', IdentSpec.step t (OLabel nm d) = Done t' k /\ Rep t' s'
  | Err => IdentSpec.step t (OLabel nm d) = Refused
  | Oob => False
  end.
Proof.
  intros R NZ. unfold addGotoLabel. cbn [IdentSpec.step]. pose proof (findLabel_ok t s nm d R NZ (labels t) (labs s) (r_labs t s R)) as H.
  destruct (findLabel (tab s) (labs s) nm (if d then 1 else 0)) as [[[es k]|]| |]; cbn [rbind].
  - destruct H as (ls' & -> & F & M). eexists. split; [reflexivity|]. destruct R. split; cbn; try assumption. rewrite M. assumption.
  - destruct H as [-> NI]. rewrite <- (Forall2_zlen _ _ _ (r_labs t s R)). change maxlabels with MAX_GOTO_LABELS. destruct (MAX_GOTO_LABELS <=? zlen (labels t)); [reflexivity|].
    pose proof (mention_ok t s nm R NZ) as MO. destruct (addIdent s nm) as [[s1 i]| |]; cbn [rbind]; [|rewrite MO; reflexivity|exact MO].
    destruct MO as (t1 & -> & R1 & L1 & N1 & O1 & LS1 & LC1 & U1 & IX & _). rewrite (r_next t1 s1 R1). eexists. split; [reflexivity|].
    destruct R1 as [T L M F ND LB LN NX UN SO]. split; cbn [names labels next opened tab ilen labs lcnt undo]; try assumption; [|rewrite map_app; cbn [map lname]; apply NoDup_app_snoc; [assumption|rewrite L1; exact NI]|reflexivity].
    apply Forall2_app; [exact LB|]. constructor; [|constructor]. exists i. split; [exact IX|]. unfold stat. cbn. destruct d; reflexivity.
  - rewrite H. reflexivity.
  - exact H.
Qed.

(** ** the end of a block *)
Lemma list_agree {A} (K t : list A) : (forall i, 0 <= i < zlen K -> zget t i = zget K i) -> zlen K <= zlen t -> exists j, t = K ++ j.
Proof.
  revert t. induction K as [|x K IH]; intros t H L; [exists t; reflexivity|]. destruct t as [|y t].
  - rewrite zlen_cons in L. change (zlen (@nil A)) with 0 in L. pose proof (zlen_nonneg K). lia.
  - rewrite !zlen_cons in *. pose proof (zlen_nonneg K). pose proof (H 0 ltac:(lia)) as HZ. rewrite !zget_cons_0 in HZ. injection HZ as ->.
    destruct (IH t) as [j ->]; [|lia|exists j; reflexivity].
    intros i I. specialize (H (1 + i) ltac:(lia)). rewrite !zget_cons_S in H by lia. replace (1 + i - 1) with i in H by lia. exact H.
Qed.

Lemma zget_firstn {A} (l : list A) n i : i < Z.of_nat n -> zget (firstn n l) i = zget l i.
Proof.
  intros H. destruct (le_lt_dec (length l) n) as [L|L]; [rewrite firstn_all2 by lia; reflexivity|].
  rewrite <- (firstn_skipn n l) at 2. rewrite zget_app_l; [reflexivity|]. unfold zlen. rewrite firstn_length. lia.
Qed.
Lemma zget_skipn {A} (l : list A) n i : 0 <= i -> zget (skipn n l) i = zget l (i + Z.of_nat n).
Proof.
  intros H. destruct (le_lt_dec (length l) n) as [L|L].
  - rewrite skipn_all2 by lia. rewrite zget_nil. symmetry. apply zget_None. right. unfold zlen. lia.
  - rewrite <- (firstn_skipn n l) at 2. assert (E : zlen (firstn n l) = Z.of_nat n) by (unfold zlen; rewrite firstn_length; lia).
    rewrite zget_app_r by lia. f_equal. lia.
Qed.
Lemma move_get t d p k : 0 <= d -> 0 <= p -> 0 <= k -> d + k <= zlen t -> p + k <= zlen t -> exists t', move t d p k = Ok t' /\ zlen t' = zlen t /\
  forall i, 0 <= i -> zget t' i = if (d <=? i) && (i <? d + k) then zget t (i - d + p) else zget t i.
Proof.
  intros D P K B1 B2. unfold move. replace ((0 <=? d) && (0 <=? p) && (0 <=? k) && (d + k <=? zlen t) && (p + k <=? zlen t)) with true by lia.
  eexists. split; [reflexivity|].
  assert (L1 : zlen (firstn (Z.to_nat d) t) = d) by (unfold zlen in *; rewrite firstn_length; lia).
  assert (L2 : zlen (firstn (Z.to_nat k) (skipn (Z.to_nat p) t)) = k) by (unfold zlen in *; rewrite firstn_length, skipn_length; lia).
  split; [rewrite !zlen_app, L1, L2; unfold zlen in *; rewrite skipn_length; lia|].
  intros i I. destruct (Z_lt_le_dec i d) as [C|C].
  - replace ((d <=? i) && (i <? d + k)) with false by lia. rewrite zget_app_l by lia. apply zget_firstn. lia.
  - rewrite zget_app_r by lia. rewrite L1. destruct (Z_lt_le_dec i (d + k)) as [C2|C2].
    + replace ((d <=? i) && (i <? d + k)) with true by lia. rewrite zget_app_l by lia. rewrite zget_firstn by lia. rewrite zget_skipn by lia. f_equal. lia.
    + replace ((d <=? i) && (i <? d + k)) with false by lia. rewrite zget_app_r by lia. rewrite zget_skipn by lia. f_equal. lia.
Qed.

Definition txt (t : list Z) (p : Z) (n : name) : Prop := 0 <= p /\ p + zlen n + 2 <= zlen t /\ forall i, 0 <= i < zlen (enc n) -> zget t (p + i) = zget (enc n) i.
Lemma txt_split a n b junk : txt (encs (a ++ n :: b) ++ junk) (size a) n.
Proof.
  rewrite encs_app. change (encs (n :: b)) with (enc n ++ encs b). pose proof (zlen_nonneg (encs b)). pose proof (zlen_nonneg junk). pose proof (zlen_nonneg (encs a)).
  split; [apply size_nonneg|]. split; [rewrite !zlen_app, enc_len, size_encs; lia|].
  intros i I. rewrite <- !app_assoc. rewrite size_encs. rewrite zget_app_r by lia. rewrite zget_app_l by lia. f_equal. lia.
Qed.
Lemma strlen_ok t : forall n p fuel, nonzero n -> txt t p n -> (length n < fuel)%nat -> strlen fuel t p = Ok (zlen n).
Proof.
  assert (G : forall n p fuel, nonzero n -> 0 <= p -> (forall i, 0 <= i < zlen n -> zget t (p + i) = zget n i) -> zget t (p + zlen n) = Some 0 -> (length n < fuel)%nat -> strlen fuel t p = Ok (zlen n)).
  { induction n as [|c n IH]; intros p fuel NZ P T E FU; (destruct fuel as [|fuel]; [cbn in FU; lia|]); cbn [strlen].
    - change (zlen (@nil Z)) with 0 in E. replace (p + 0) with p in E by lia. rewrite E. reflexivity.
    - apply Forall_cons_iff in NZ. destruct NZ as [NC NZ]. rewrite zlen_cons in *. pose proof (zlen_nonneg n). pose proof (T 0 ltac:(lia)) as T0. rewrite zget_cons_0 in T0. replace (p + 0) with p in T0 by lia.
      rewrite T0. cbn [inb rbind]. replace (c =? 0) with false by lia. cbn [length] in FU. rewrite (IH (p + 1) fuel); [reflexivity|exact NZ|lia| | |lia].
      + intros i I. replace (p + 1 + i) with (p + (1 + i)) by lia. rewrite T by lia. rewrite zget_cons_S by lia. f_equal. lia.
      + replace (p + 1 + zlen n) with (p + (1 + zlen n)) by lia. exact E. }
  intros n p fuel NZ (P & _ & T) FU. rewrite enc_len in T. pose proof (zlen_nonneg n). apply G; [exact NZ|exact P| | |exact FU].
  - intros i I. rewrite T by lia. unfold enc. apply zget_app_l. lia.
  - rewrite T by lia. unfold enc. rewrite zget_app_r by lia. replace (zlen n - zlen n) with 0 by lia. reflexivity.
Qed.

Section Close.
Variables (A B : list name) (u : Z).
Inductive good (t : list Z) : Z -> list label -> list (Z * Z * Z) -> Prop :=
| g_nil lo : good t lo [] []
| g_low lo l ls p es : p < u -> index A (lname l) = Some p -> ~ In (lname l) B -> good t lo ls es -> good t lo (l :: ls) ((p, lnum l, stat l) :: es)
| g_high lo l ls p es : u <= p -> lo <= p -> In (lname l) B -> nonzero (lname l) -> txt t p (lname l) -> good t (p + zlen (lname l) + 2) ls es ->
    good t lo (l :: ls) ((p, lnum l, stat l) :: es).
Lemma good_mono t t' : zlen t' = zlen t -> forall lo ls es, good t lo ls es -> forall lo', lo' <= lo -> (forall i, lo <= i -> 0 <= i -> zget t' i = zget t i) -> good t' lo' ls es.
Proof.
  intros LT lo ls es G. induction G as [lo|lo l ls p es L1 L2 L3 G IH|lo l ls p es L1 L2 L3 L4 (P & PL & L5) G IH]; intros lo' LL AG.
  - constructor.
  - apply g_low; auto.
  - pose proof (zlen_nonneg (lname l)). apply g_high; [exact L1|lia|exact L3|exact L4| |].
    + split; [exact P|]. split; [lia|]. intros i I. rewrite AG by lia. apply L5. exact I.
    + apply IH; [lia|]. intros i I I0. apply AG; lia.
Qed.
Definition high (ls : list label) : list name := filter (mem B) (map lname ls).
Lemma undoLoop_ok : forall ls es t d K, (exists j, t = encs (A ++ K) ++ j) -> d = size (A ++ K) -> good t d ls es -> NoDup (A ++ K ++ high ls) -> zlen t = MAXI ->
  exists t' es', undoLoop u t d es = Ok (t', size (A ++ K ++ high ls), es') /\ (exists j, t' = encs (A ++ K ++ high ls) ++ j) /\ zlen t' = MAXI /\
    Forall2 (labrep (A ++ K ++ high ls)) ls es'.
Proof.
  induction ls as [|l ls IH]; intros es t d K TX D G ND LT; inversion G as [lo|lo l' ls' p es' L1 L2 L3 G'|lo l' ls' p es' L1 L2 L3 L4 L5 G']; subst.
  - exists t, []. unfold high. cbn [map filter undoLoop]. rewrite app_nil_r. auto.
  - assert (E : high (l :: ls) = high ls).
    { unfold high. cbn [map filter]. destruct (mem B (lname l)) eqn:M; [apply mem_In in M; contradiction|reflexivity]. }
    rewrite E in *. cbn [undoLoop]. replace (u <=? p) with false by lia. destruct (IH es' t _ K TX eq_refl G' ND LT) as (t' & es'' & -> & T' & LT' & F). cbn [rbind].
    exists t', ((p, lnum l, stat l) :: es''). split; [reflexivity|]. split; [exact T'|]. split; [exact LT'|]. constructor; [|exact F]. exists p. split; [|reflexivity]. rewrite index_app, L2. reflexivity.
  - assert (E : high (l :: ls) = lname l :: high ls).
    { unfold high. cbn [map filter]. apply mem_In in L3. rewrite L3. reflexivity. }
    rewrite E in *. cbn [undoLoop]. replace (u <=? p) with true by lia. pose proof L5 as (P0 & PL & TX5). pose proof (zlen_nonneg (lname l)) as NN.
    rewrite (strlen_ok t (lname l) p (length t) L4 L5) by (unfold zlen in *; lia). cbn [rbind]. pose proof (size_nonneg (A ++ K)) as SN.
    destruct (move_get t (size (A ++ K)) p (zlen (lname l) + 2)) as (t1 & -> & LT1 & GT1); [lia..|]. cbn [rbind].
    assert (NE : A ++ K ++ lname l :: high ls = A ++ (K ++ [lname l]) ++ high ls) by asc.
    assert (SE : size (A ++ K) + (zlen (lname l) + 2) = size (A ++ K ++ [lname l])) by (rewrite app_assoc, (size_app (A ++ K)), size_one; reflexivity).
    assert (T1 : exists j, t1 = encs (A ++ K ++ [lname l]) ++ j).
    { apply list_agree; [|rewrite <- size_encs, <- SE; lia]. intros i I. rewrite GT1 by lia. rewrite <- size_encs, <- SE in I.
      rewrite app_assoc, encs_app. change (encs [lname l]) with (enc (lname l) ++ []). rewrite app_nil_r. destruct TX as [j ->].
      destruct (Z_lt_le_dec i (size (A ++ K))) as [C|C].
      - replace ((size (A ++ K) <=? i) && (i <? size (A ++ K) + (zlen (lname l) + 2))) with false by lia. rewrite size_encs in C. rewrite !zget_app_l by lia. reflexivity.
      - replace ((size (A ++ K) <=? i) && (i <? size (A ++ K) + (zlen (lname l) + 2))) with true by lia.
        replace (i - size (A ++ K) + p) with (p + (i - size (A ++ K))) by lia. rewrite TX5 by (rewrite enc_len; lia). rewrite zget_app_r by (rewrite <- size_encs; lia). rewrite <- size_encs. reflexivity. }
    assert (G1 : good t1 (size (A ++ K ++ [lname l])) ls es').
    { apply (good_mono t t1 LT1 _ _ _ G'); [lia|]. intros i I I0. rewrite GT1 by lia. replace ((size (A ++ K) <=? i) && (i <? size (A ++ K) + (zlen (lname l) + 2))) with false by lia. reflexivity. }
    rewrite SE. destruct (IH es' t1 _ (K ++ [lname l]) T1 eq_refl G1) as (t' & es'' & -> & T' & LT' & F); [rewrite <- NE; exact ND|lia|]. cbn [rbind].
    rewrite NE. exists t', ((size (A ++ K), lnum l, stat l) :: es''). split; [reflexivity|]. split; [exact T'|]. split; [exact LT'|]. constructor; [|exact F].
    exists (size (A ++ K)). split; [|reflexivity]. rewrite <- NE. rewrite app_assoc. apply index_mid. rewrite app_assoc in ND. apply NoDup_remove_2 in ND. intros H. apply ND. apply in_or_app. left. exact H.
Qed.
Lemma filter_cons_split {X} (f : X -> bool) : forall l x r, filter f l = x :: r -> exists c b, l = c ++ x :: b /\ filter f b = r /\ f x = true.
Proof.
  induction l as [|y l IH]; intros x r H; [discriminate H|]. cbn [filter] in H. destruct (f y) eqn:F.
  - injection H as <- <-. exists [], l. auto.
  - destruct (IH x r H) as (c & b & -> & E & FX). exists (y :: c), b. auto.
Qed.
Lemma good_ok junk (all : name -> bool) : u = size A -> Forall nonzero B -> NoDup (A ++ B) -> forall ls es B1 B2, Forall2 (labrep (A ++ B)) ls es -> B = B1 ++ B2 ->
  high ls = filter all B2 -> good (encs (A ++ B) ++ junk) (size (A ++ B1)) ls es.
Proof.
  intros U NZ ND. induction ls as [|l ls IH]; intros es B1 B2 F EB EF; inversion F as [|l' e ls' es' (p & I & ->) F']; subst; [constructor|].
  unfold high in EF. cbn [map filter] in EF. destruct (mem B (lname l)) eqn:M.
  - symmetry in EF. destruct (filter_cons_split _ _ _ _ EF) as (C & B3 & EB2 & EF' & _). apply mem_In in M.
    assert (EN : A ++ B = (A ++ B1 ++ C) ++ lname l :: B3) by (rewrite EB, EB2; asc).
    assert (NI : ~ In (lname l) (A ++ B1 ++ C)).
    { rewrite EN in ND. apply NoDup_remove_2 in ND. intros H. apply ND. apply in_or_app. left. exact H. }
    rewrite EN in I. rewrite index_mid in I by exact NI. assert (p = size (A ++ B1 ++ C)) as -> by congruence.
    pose proof (size_nonneg B1). pose proof (size_nonneg C). pose proof (size_nonneg A).
    apply g_high; [rewrite size_app, size_app; lia|rewrite (size_app A B1), (size_app A (B1 ++ C)), (size_app B1 C); lia|exact M| | |].
    + rewrite Forall_forall in NZ. apply NZ. exact M.
    + rewrite EN. apply txt_split.
    + replace (size (A ++ B1 ++ C) + zlen (lname l) + 2) with (size (A ++ (B1 ++ C ++ [lname l]))) by (rewrite !size_app, size_one; lia).
      apply (IH es' (B1 ++ C ++ [lname l]) B3); [exact F'|rewrite EB, EB2; asc|]. unfold high. symmetry. exact EF'.
  - assert (NB : ~ In (lname l) B) by (intros H; apply mem_In in H; congruence).
    rewrite index_app in I. destruct (index A (lname l)) as [q|] eqn:IA.
    2:{ apply index_In in NB. rewrite NB in I. discriminate I. }
    assert (q = p) as -> by congruence. destruct (index_split _ _ _ IA) as (a & b & EA & PE & _).
    apply g_low; [|exact IA|exact NB|apply (IH es' B1 B2); auto].
    rewrite U, EA, PE. rewrite size_app. change (size (lname l :: b)) with (zlen (lname l) + 2 + size b). pose proof (zlen_nonneg (lname l)). pose proof (size_nonneg b). lia.
Qed.
End Close.

(** ** all steps *)
Definition follows (t : tables) (s : ids) (o : iop) : Prop :=
  match IdentModel.step s o with
  | Ok (s', i) => exists t', IdentSpec.step t o = Done t' i /\ Rep t' s'
  | Err => IdentSpec.step t o = Refused
  | Oob => False
  end.
Lemma sorted_inv (m : nat) ms : StronglySorted (fun a b => (b <= a)%nat) (m :: ms) -> StronglySorted (fun a b => (b <= a)%nat) ms /\ Forall (fun k => (k <= m)%nat) ms.
Proof. intros H. inversion H; auto. Qed.
Lemma undo_cut ns k m (ms : list nat) us : (m <= length ns)%nat -> Forall (fun k => (k <= m)%nat) ms -> Forall2 (fun m u => (m <= length ns)%nat /\ u = size (firstn m ns)) ms us ->
  Forall2 (fun m u => (m <= length (firstn m (firstn m ns)) + length ns)%nat /\ u = size (firstn m ns)) ms us /\
  Forall2 (fun j u => (j <= length (firstn m ns ++ k))%nat /\ u = size (firstn j (firstn m ns ++ k))) ms us.
Proof.
  intros LM FM F. split; [eapply Forall2_impl; [|exact F]; cbn beta; intros a b [H1 H2]; split; [lia|exact H2]|].
  revert FM. induction F as [|j v ms us [LJ ->] F IH]; intros FM; constructor; apply Forall_cons_iff in FM; destruct FM as [JM FM].
  - rewrite app_length, firstn_length. split; [lia|]. rewrite firstn_app, firstn_firstn, firstn_length. replace (Nat.min j m) with j by lia. replace (j - Nat.min m (length ns))%nat with 0%nat by lia. cbn [firstn]. rewrite app_nil_r. reflexivity.
  - apply IH. exact FM.
Qed.
Lemma filter_NoDup {X} (f : X -> bool) l : NoDup l -> NoDup (filter f l).
Proof. induction l as [|x l IH]; intros H; [constructor|]. inversion H; subst. cbn [filter]. destruct (f x); [constructor; [|auto]|auto]. intros I. apply filter_In in I. tauto. Qed.
Lemma NoDup_app_l {X} (a b : list X) : NoDup (a ++ b) -> NoDup a.
Proof. induction a as [|x a IH]; intros H; [constructor|]. cbn [app] in H. inversion H; subst. constructor; [intros I; apply H2; apply in_or_app; auto|auto]. Qed.
Lemma NoDup_filter_r {X} (f : X -> bool) (a b : list X) : NoDup (a ++ b) -> NoDup (a ++ filter f b).
Proof.
  induction a as [|x a IH]; cbn [app]; intros H; [apply filter_NoDup; exact H|]. inversion H; subst. constructor; [|auto].
  intros I. apply H2. apply in_app_or in I. apply in_or_app. destruct I as [I|I]; [auto|]. apply filter_In in I. tauto.
Qed.
Lemma close_ok t s : Rep t s -> IdentSpec.step t OClose = Unordered \/ follows t s OClose.
Proof.
  intros R. unfold follows. cbn [IdentModel.step IdentSpec.step]. destruct R as [[junk T] L M F ND LB LN NX UN SO].
  destruct (opened t) as [|m ms] eqn:OP; inversion UN as [|m' v ms' us [LE EU] UN']; subst; [right; reflexivity|].
  destruct (list_eq_dec (list_eq_dec Z.eq_dec) _ _) as [EQ|]; [right|left; reflexivity].
  set (A := firstn m (names t)) in *. set (B := skipn m (names t)) in *.
  assert (AB : names t = A ++ B) by (symmetry; apply firstn_skipn).
  assert (FB : Forall nonzero B).
  { rewrite AB in F. apply Forall_app in F. destruct F as [_ F]. eapply Forall_impl; [|exact F]. intros n [H _]. exact H. }
  assert (G : good A B (size A) (tab s) (size (A ++ [])) (labels t) (labs s)).
  { rewrite T, AB. apply (good_ok A B (size A) junk (islabel (labels t)) eq_refl FB) with (B2 := B); [rewrite <- AB; exact ND|rewrite <- AB; exact LB|reflexivity|exact EQ]. }
  assert (ND2 : NoDup (A ++ [] ++ high B (labels t))).
  { unfold high. rewrite EQ. cbn [app]. apply NoDup_filter_r. rewrite <- AB. exact ND. }
  destruct (undoLoop_ok A B (size A) (labels t) (labs s) (tab s) (size (A ++ [])) []) as (t' & es' & U & [j T'] & L' & FL);
    [exists (encs B ++ junk); rewrite T, AB, app_nil_r, encs_app; asc|reflexivity|exact G|exact ND2|exact M|].
  rewrite app_nil_r in U. rewrite U. cbn [rbind]. cbn [app] in *. unfold high in *. rewrite EQ in *. apply sorted_inv in SO. destruct SO as [SO FM].
  eexists. split; [reflexivity|]. split; cbn [names labels next opened tab ilen labs lcnt undo].
  - exists j. exact T'.
  - reflexivity.
  - exact L'.
  - rewrite AB in F. apply Forall_app in F. destruct F as [FA FB']. apply Forall_app. split; [exact FA|]. rewrite Forall_forall in *. intros n I. apply filter_In in I. apply FB'. tauto.
  - exact ND2.
  - exact FL.
  - exact LN.
  - exact NX.
  - apply (undo_cut (names t) _ m ms us LE FM UN').
  - exact SO.
Qed.
Lemma drop_ok t s : Rep t s -> IdentSpec.step t ODrop = Unordered \/ follows t s ODrop.
Proof.
  intros R. unfold follows. cbn [IdentModel.step IdentSpec.step]. destruct R as [[junk T] L M F ND LB LN NX UN SO].
  destruct (opened t) as [|m ms] eqn:OP; inversion UN as [|m' v ms' us [LE EU] UN']; subst; [right; reflexivity|].
  destruct (existsb (islabel (labels t)) (skipn m (names t))) eqn:EX; [left; reflexivity|right].
  set (A := firstn m (names t)) in *. set (B := skipn m (names t)) in *.
  assert (AB : names t = A ++ B) by (symmetry; apply firstn_skipn). apply sorted_inv in SO. destruct SO as [SO FM].
  eexists. split; [reflexivity|]. split; cbn [names labels next opened tab ilen labs lcnt undo].
  - exists (encs B ++ junk). rewrite T, AB, encs_app. asc.
  - reflexivity.
  - exact M.
  - rewrite AB in F. apply Forall_app in F. apply F.
  - rewrite AB in ND. exact (NoDup_app_l _ _ ND).
  - assert (H : forall l, In l (labels t) -> ~ In (lname l) B).
    { intros l I J. assert (C : existsb (islabel (labels t)) B = true); [|congruence]. apply existsb_exists. exists (lname l). split; [exact J|]. apply mem_In. apply in_map. exact I. }
    clear -LB H AB. rewrite AB in LB. remember (labels t) as ls eqn:EL. clear EL. induction LB as [|l e ls es (p & I & ->) LB IH]; constructor.
    + exists p. split; [|reflexivity]. rewrite index_app in I. destruct (index A (lname l)); [exact I|]. specialize (H l (or_introl eq_refl)). apply index_In in H. rewrite H in I. discriminate I.
    + apply IH. intros l' I'. apply H. right. exact I'.
  - exact LN.
  - exact NX.
  - pose proof (proj2 (undo_cut (names t) [] m ms us LE FM UN')) as H. rewrite app_nil_r in H. exact H.
  - exact SO.
Qed.
Lemma undefd ns ls es : Forall2 (labrep ns) ls es -> existsb (fun e : Z * Z * Z => snd e =? 2) es = existsb (fun l => used l && negb (defined l)) ls.
Proof.
  intros F. induction F as [|l e ls es (p & _ & ->) F IH]; [reflexivity|]. cbn [existsb snd]. rewrite IH. f_equal. unfold stat. destruct (used l), (defined l); reflexivity.
Qed.
Lemma end_ok t s : Rep t s -> follows t s OEnd.
Proof.
  intros R. unfold follows. cbn [IdentModel.step IdentSpec.step]. destruct R as [[junk T] L M F ND LB LN NX UN SO].
  destruct (opened t) as [|m ms] eqn:OP; inversion UN as [|m' v ms' us [LE EU] UN']; subst; [reflexivity|].
  rewrite (undefd _ _ _ LB). destruct (existsb (fun l => used l && negb (defined l)) (labels t)); [reflexivity|].
  set (A := firstn m (names t)) in *. set (B := skipn m (names t)) in *.
  assert (AB : names t = A ++ B) by (symmetry; apply firstn_skipn). apply sorted_inv in SO. destruct SO as [SO FM].
  eexists. split; [reflexivity|]. split; cbn [names labels next opened tab ilen labs lcnt undo].
  - exists (encs B ++ junk). rewrite T, AB, encs_app. asc.
  - reflexivity.
  - exact M.
  - rewrite AB in F. apply Forall_app in F. apply F.
  - rewrite AB in ND. exact (NoDup_app_l _ _ ND).
  - constructor.
  - constructor.
  - exact NX.
  - pose proof (proj2 (undo_cut (names t) [] m ms us LE FM UN')) as H. rewrite app_nil_r in H. exact H.
  - exact SO.
Qed.
Theorem step_ok t s o : Rep t s -> okop o -> IdentSpec.step t o = Unordered \/ follows t s o.
Proof.
  intros R OK. unfold okop in OK. destruct o as [n|n d| | | |]; cbn [mentions] in OK; try (apply Forall_cons_iff in OK; destruct OK as [NZ _]).
  - right. unfold follows. cbn [IdentModel.step IdentSpec.step]. pose proof (mention_ok t s n R NZ) as H. destruct (addIdent s n) as [[s' i]| |]; [|rewrite H; reflexivity|exact H].
    destruct H as (t' & -> & R' & _). exists t'. auto.
  - right. exact (label_ok t s n d R NZ).
  - right. unfold follows. cbn [IdentModel.step IdentSpec.step]. eexists. split; [reflexivity|]. destruct R as [T L M F ND LB LN NX UN SO]. split; cbn; try assumption.
    + constructor; [|exact UN]. split; [lia|]. rewrite firstn_all. exact L.
    + constructor; [exact SO|]. clear -UN. induction UN as [|m u ms us [H _] F IH]; constructor; assumption.
  - apply close_ok. exact R.
  - apply drop_ok. exact R.
  - right. apply end_ok. exact R.
Qed.
Theorem steps_ok : forall h t s, Rep t s -> Forall okop h -> IdentSpec.steps t h = Unordereds \/
  match IdentModel.steps s h with
  | Ok (s', is) => exists t', IdentSpec.steps t h = Dones t' is /\ Rep t' s'
  | Err => IdentSpec.steps t h = Refuseds
  | Oob => False
  end.
Proof.
  induction h as [|o h IH]; intros t s R F.
  - right. exists t. auto.
  - apply Forall_cons_iff in F. destruct F as [OK F]. cbn [IdentSpec.steps IdentModel.steps]. destruct (step_ok t s o R OK) as [->|H]; [left; reflexivity|]. unfold follows in H.
    destruct (IdentModel.step s o) as [[s1 i]| |]; cbn [rbind]; [|right; rewrite H; reflexivity|contradiction].
    destruct H as (t1 & -> & R1). destruct (IH t1 s1 R1 F) as [->|H]; [left; reflexivity|right].
    destruct (IdentModel.steps s1 h) as [[s2 is]| |]; cbn [rbind]; [|rewrite H; reflexivity|exact H]. destruct H as (t2 & -> & R2). exists t2. auto.
Qed.
Lemma start_Rep next : Rep (empty next) (start next).
Proof.
  split; cbn; try constructor.
  - exists (repeat 0 (Z.to_nat MAXI)). reflexivity.
Qed.
