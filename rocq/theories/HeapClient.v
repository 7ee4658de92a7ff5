(** The calls in terms of the list of allocated blocks. *)
From Coq Require Import Permutation.
From Verif Require Import Base BaseLemmas StrSpec StrModel StrLemmas HeapModel HeapSpec HeapLemmas HeapOps HeapState.

Section W.
Context (c : cfg) (HC : cfg_ok c).
Let HW : cW c = 2 \/ cW c = 4 := cfg_W c HC.
Notation W := (cW c).
Notation HH := (HF c).
Notation top := (2 ^ WB c).
Notation blks := (list (Z * bool)).
Notation ext := (ext c).
Notation tiles := (tiles c).
Notation tile1 := (tile1 c).
Notation m2 := (m2 c).
Notation ok := (ok c).
Notation cutb := (cutb c).

Fixpoint allocs (a : Z) (bs : blks) : list (Z * Z) :=
  match bs with
  | [] => []
  | (sz, al) :: t => (if al then [(a + HH, sz)] else []) ++ allocs (a + 2 * HH + sz) t
  end.
Lemma allocs_app b1 : forall a b2, allocs a (b1 ++ b2) = allocs a b1 ++ allocs (a + ext b1) b2.
Proof.
  induction b1 as [|[sz al] b1 IH]; intros a b2; cbn [allocs app HeapLemmas.ext]; [now rewrite Z.add_0_r|].
  rewrite IH, <- app_assoc. do 3 f_equal. lia.
Qed.
Lemma allocs_range m bs : forall a p s, tiles m a bs -> In (p, s) (allocs a bs) ->
  a + HH <= p /\ 0 <= s /\ p + s + HH <= a + ext bs.
Proof.
  induction bs as [|[sz al] bs IH]; intros a p s T Hi; [destruct Hi|]. cbn [HeapLemmas.tiles allocs HeapLemmas.ext] in *. destruct T as (S & _ & _ & T).
  pose proof (tiles_ext_pos c HW _ _ _ T). pose proof (W_pos c HW). apply in_app_or in Hi as [Hi|Hi].
  - destruct al; [|destruct Hi]. destruct Hi as [Hi|[]]. apply pair_inj in Hi as [<- <-]. lia.
  - apply IH in Hi; auto. lia.
Qed.
Lemma allocs_split bs : forall a p s, In (p, s) (allocs a bs) -> exists pre post, bs = pre ++ (s, true) :: post /\ p = a + ext pre + HH.
Proof.
  induction bs as [|[sz al] bs IH]; intros a p s Hi; [destruct Hi|]. cbn [allocs] in Hi. apply in_app_or in Hi as [Hi|Hi].
  - destruct al; [|destruct Hi]. destruct Hi as [Hi|[]]. apply pair_inj in Hi as [<- <-]. exists [], bs. split; auto. cbn [HeapLemmas.ext]. lia.
  - apply IH in Hi as (pre & post & -> & ->). exists ((sz, al) :: pre), post. split; auto. cbn [HeapLemmas.ext]. lia.
Qed.
Lemma tiles_m2 m bs : forall a p s, tiles m a bs -> In (p, s) (allocs a bs) -> m2 (a + HH) -> m2 p /\ m2 s.
Proof.
  induction bs as [|[sz al] bs IH]; intros a p s T Hi M; [destruct Hi|]. cbn [HeapLemmas.tiles allocs] in *. destruct T as (_ & Ms & _ & T).
  apply in_app_or in Hi as [Hi|Hi].
  - destruct al; [|destruct Hi]. destruct Hi as [Hi|[]]. apply pair_inj in Hi as [<- <-]. auto.
  - apply IH in Hi; auto. replace (a + 2 * HH + sz + HH) with (a + HH + 2 * HH + sz) by lia. apply m2_add; auto. apply m2_add; auto. apply m2_2H.
Qed.

(** Blocks of a list do not overlap, not even their headers and footers. *)
Definition apart (b1 b2 : Z * Z) : Prop := fst b1 + snd b1 + HH <= fst b2 - HH \/ fst b2 + snd b2 + HH <= fst b1 - HH.
Lemma allocs_apart m bs : forall a, tiles m a bs -> ForallOrdPairs apart (allocs a bs).
Proof.
  induction bs as [|[sz al] bs IH]; intros a T; [constructor|]. cbn [allocs HeapLemmas.tiles] in *. destruct T as (S & _ & _ & T).
  destruct al; [|now apply IH]. cbn [app]. constructor; [|now apply IH]. apply Forall_forall. intros [p s] Hi.
  eapply allocs_range in Hi; eauto. left. cbn [fst snd]. lia.
Qed.
Lemma apart_sym x y : apart x y -> apart y x. Proof. unfold apart. tauto. Qed.
Lemma pairs_perm (l l' : list (Z * Z)) : Permutation l l' -> ForallOrdPairs apart l -> ForallOrdPairs apart l'.
Proof.
  induction 1 as [|x l l' P IH|x y l|l1 l2 l3 P1 IH1 P2 IH2]; intros F; auto.
  - inversion F; subst. constructor; auto. eapply Permutation_Forall; eauto.
  - inversion F as [|? ? F1 F2]; subst. inversion F2 as [|? ? F3 F4]; subst. inversion F1; subst.
    constructor; [constructor; auto using apart_sym|]. constructor; auto.
Qed.

(** ** Free blocks are never neighbours *)
Fixpoint coalf (pf : bool) (bs : blks) : bool :=
  match bs with [] => true | (_, al) :: t => negb (pf && negb al) && coalf (negb al) t end.
Fixpoint endf (pf : bool) (bs : blks) : bool :=
  match bs with [] => pf | (_, al) :: t => endf (negb al) t end.
Lemma coalf_app b1 : forall pf b2, coalf pf (b1 ++ b2) = coalf pf b1 && coalf (endf pf b1) b2.
Proof. induction b1 as [|[sz al] b1 IH]; intros pf b2; cbn [coalf endf app]; auto. now rewrite IH, andb_assoc. Qed.
Lemma endf_app b1 : forall pf b2, endf pf (b1 ++ b2) = endf (endf pf b1) b2.
Proof. induction b1 as [|[sz al] b1 IH]; intros pf b2; cbn [endf app]; auto. Qed.
Lemma coalf_weak pf bs : coalf pf bs = true -> coalf false bs = true.
Proof. destruct bs as [|[sz al] bs]; auto. cbn [coalf]. intros H. apply andb_prop in H as [_ H]. now rewrite H. Qed.

(** If free blocks are never neighbours, a gap between allocated blocks is one block. *)
Lemma gap m size lo bs : forall pf a, tiles m a bs -> coalf pf bs = true -> Forall (unfit size) bs ->
  a <= lo -> lo + 2 * HH + size <= a + ext bs -> 0 < size ->
  (forall p s, In (p, s) (allocs a bs) -> p + s + HH <= lo \/ lo + 2 * HH + size <= p - HH) -> False.
Proof.
  pose proof (W_pos c HW) as HP.
  induction bs as [|[sz al] bs IH]; intros pf a T C U Ha Hb Hs G; cbn [HeapLemmas.ext HeapLemmas.tiles coalf allocs] in *; [lia|].
  destruct T as (S & _ & _ & T). inversion U as [|? ? U1 U2]; subst. apply andb_prop in C as [_ C].
  destruct (Z.leb_spec (a + 2 * HH + sz) lo) as [L|L].
  - eapply IH; eauto; [lia|]. intros p s Hi. apply G. apply in_or_app. auto.
  - destruct al.
    + specialize (G (a + HH) sz (or_introl eq_refl)). lia.
    + destruct U1 as [U1|U1]; cbn in U1; [discriminate|]. destruct bs as [|[sz2 al2] bs]; cbn [HeapLemmas.ext] in *; [lia|].
      cbn [coalf negb andb] in C. destruct al2; [|discriminate]. cbn [HeapLemmas.tiles] in T. destruct T as (S2 & _ & _ & T).
      specialize (G (a + 2 * HH + sz + HH) sz2 (or_introl eq_refl)). pose proof (tiles_ext_pos c HW _ _ _ T). lia.
Qed.

(** ** malloc *)
Lemma fuel_ok h bs fuel : ok h bs -> top <= Z.of_nat fuel -> (length bs < fuel)%nat.
Proof. intros [] Hf. pose proof (tiles_len c HW _ _ _ ok_tiles). lia. Qed.

Definition freeish (bs : blks) : Prop := bs = [] \/ exists s, bs = [(s, false)].
Lemma freeish_allocs a bs : freeish bs -> allocs a bs = [].
Proof. intros [-> | [s ->]]; reflexivity. Qed.

Lemma malloc_core h bs n fuel : ok h bs -> 0 < n <= top - 2 * HH -> request c n -> top <= Z.of_nat fuel ->
  exists h' r, malloc c fuel h n = Some (h', r) /\
  ((r = 0 /\ ticked h h' /\ Forall (unfit (round c n)) bs) \/
   exists pre old rest post, bs = pre ++ old ++ post /\ r = hstart h + ext pre + HH /\
     ok h' (pre ++ (round c n, true) :: rest ++ post) /\ hstart h' = hstart h /\
     (old = [] /\ rest = [] \/ (exists s, old = [(s, false)]) /\ freeish rest) /\
     (post = [] \/ ext old = ext ((round c n, true) :: rest)) /\
     (forall x, hstart h <= x < hstart h + ext pre \/ hstart h + ext (pre ++ old) <= x < hstop h -> hm h' x = hm h x)).
Proof.
  intros O Hn Rq Hf. pose proof O as []. unfold malloc. rewrite ok_init. cbn [obind]. rewrite ok_init. cbn [negb].
  assert (Hn' : 0 <= n < top) by (pose proof (W_pos c HW); lia).
  rewrite (proj2 (bad_size_spec c HW n Hn') Hn). destruct (round_ok c HW n Hn) as (R1 & R2 & R3).
  destruct (find_ok c HW (round c n) (hm h) (hstop h) ltac:(lia) R2 ok_top bs (hstart h) (hstart h) fuel ok_tiles ltac:(lia) ok_map ltac:(lia) (fuel_ok _ _ _ O Hf))
    as [(m' & pre & sz & post & -> & Hle & E & T & F & MO)|(U & E)]; rewrite E; cbn [obind].
  - pose proof (proj1 (tiles_app c HW _ _ _ _) ok_tiles) as [Tp Tq]. pose proof (tiles_ext_pos c HW _ _ _ Tp).
    cbn [HeapLemmas.tiles] in Tq. destruct Tq as (S & _ & _ & Tq). pose proof (tiles_ext_pos c HW _ _ _ Tq).
    rewrite ext_app in *. cbn [HeapLemmas.ext] in *. pose proof (W_pos c HW).
    rewrite uw_id by lia. eexists _, _. split; [reflexivity|]. right.
    exists pre, [(sz, false)], (match cutb (round c n) sz with _ :: r => r | [] => [] end), post.
    split; auto. split; auto. cbn [set_mem hm hstart]. split; [|split; auto; split; [|split]].
    + eapply ok_set_mem; eauto.
      * replace (pre ++ (round c n, true) :: _) with (pre ++ cutb (round c n) sz ++ post); auto. unfold HeapOps.cutb. now destruct (sz =? round c n).
      * pose proof (ext_cut c (round c n) sz) as EC. rewrite !ext_app. cbn [HeapLemmas.ext]. rewrite ext_app.
        unfold HeapOps.cutb in *. destruct (sz =? round c n); cbn [HeapLemmas.ext] in *; lia.
      * intros E1. now apply app_eq_nil in E1 as [_ E1].
    + right. split; eauto. unfold HeapOps.cutb, freeish. destruct (sz =? round c n); eauto.
    + right. pose proof (ext_cut c (round c n) sz) as EC. unfold HeapOps.cutb in *. destruct (sz =? round c n); cbn [HeapLemmas.ext] in *; lia.
    + intros x Hx. rewrite ext_app in Hx. cbn [HeapLemmas.ext] in Hx. apply F. lia.
  - destruct (cport c) eqn:HL; try (exists h, 0; split; auto; left; repeat split; auto; fail).
    destruct (exists_last ok_ne) as (pre & [sz al] & ->). unfold lastof. rewrite removelast_last.
    replace (match pre ++ [(sz, al)] with [] => hstart h | _ :: _ => hstart h + ext pre end) with (hstart h + ext pre) by (destruct pre; reflexivity).
    pose proof U as U'. apply Forall_app in U' as [_ U']. inversion U'; subst.
    assert (RT : round c n < top / 2).
    { destruct Rq as [_ Rq]. specialize (Rq HL). pose proof HC as HC'. unfold cfg_ok in HC'. rewrite HL in HC'. destruct HC' as (EW & _).
      assert (Et : top = 2 ^ 32) by (unfold WB; now rewrite EW). rewrite Et. rewrite round_eq by auto. unfold HF. rewrite EW. lia. }
    destruct (grow_ok c HC h pre sz al (round c n) O HL) as (h' & r & E' & D); auto; [lia|].
    rewrite E'. exists h', r. split; auto. destruct D as [[-> D]|(pre' & -> & -> & O' & S' & F')]; [auto|].
    right. destruct al.
    + exists (pre ++ [(sz, true)]), [], [], []. rewrite !app_nil_r in *. split; auto. split; auto. split; auto. split; auto.
      split; auto. split; auto. intros x Hx. apply F'. lia.
    + exists pre, [(sz, false)], [], []. rewrite !app_nil_r in *. split; auto. split; auto. split; auto. split; auto.
      split; [right; unfold freeish; eauto|]. split; auto. intros x Hx. apply F'. lia.
Qed.

(** What holds between the blocks before and after a call.  [kp]: data kept. *)
Definition kp (m m' : mem) (l : list (Z * Z)) : Prop := forall p s x, In (p, s) l -> p <= x < p + s -> m' x = m x.
Lemma kp_incl m m' l l' : kp m m' l -> incl l' l -> kp m m' l'.
Proof. intros K I p s x Hi. apply K with (p := p). auto. Qed.
Lemma kp_trans m m1 m' l : kp m m1 l -> kp m1 m' l -> kp m m' l.
Proof. intros K1 K2 p s x Hi Hx. rewrite (K2 p s), (K1 p s); auto. Qed.

Lemma malloc_live h bs n fuel : ok h bs -> 0 < n <= top - 2 * HH -> request c n -> top <= Z.of_nat fuel ->
  exists h' r bs', malloc c fuel h n = Some (h', r) /\ ok h' bs' /\ hstart h' = hstart h /\
    kp (hm h) (hm h') (allocs (hstart h) bs) /\ (coalf false bs = true -> coalf false bs' = true) /\
    ((r = 0 /\ bs' = bs /\ Forall (unfit (round c n)) bs) \/ (0 < r /\ Permutation (allocs (hstart h) bs') ((r, round c n) :: allocs (hstart h) bs))).
Proof.
  intros O Hn Rq Hf. destruct (malloc_core h bs n fuel O Hn Rq Hf) as (h' & r & E & [(-> & TK & U)|(pre & old & rest & post & -> & -> & O' & S & D & X & F)]).
  - exists h', 0, bs. split; auto. split; [eapply ok_ticked; eauto|]. pose proof TK as (T1 & T2 & _). split; auto.
    split; [intros p s x _ _; now rewrite T1|]. split; auto.
  - exists h', (hstart h + ext pre + HH), (pre ++ (round c n, true) :: rest ++ post). split; auto. split; auto. split; auto.
    pose proof O as []. pose proof (proj1 (tiles_app c HW _ _ _ _) ok_tiles) as [Tp Tq]. apply (tiles_app c HW) in Tq as [To Tq].
    assert (Fo : freeish old) by (destruct D as [[-> _]|[[s ->] _]]; unfold freeish; eauto).
    assert (Fr : freeish rest) by (destruct D as [[_ ->]|[_ D]]; unfold freeish in *; eauto).
    assert (EA : allocs (hstart h) (pre ++ old ++ post) = allocs (hstart h) pre ++ allocs (hstart h + ext pre + ext old) post).
    { rewrite !allocs_app, (freeish_allocs _ old Fo). reflexivity. }
    split; [|split].
    + intros p s x Hi Hx. rewrite EA in Hi. apply F. pose proof (W_pos c HW). rewrite ok_stop, !ext_app. apply in_app_or in Hi as [Hi|Hi]; eapply allocs_range in Hi; eauto; lia.
    + rewrite !coalf_app. cbn [coalf]. rewrite !coalf_app. intros C. apply andb_prop in C as [C1 C]. apply andb_prop in C as [C2 C3].
      rewrite C1. rewrite andb_false_r. cbn [andb negb].
      destruct D as [[-> ->]|[[s ->] [-> | [s' ->]]]]; cbn [coalf endf negb andb] in *; eauto using coalf_weak.
    + right. split; [pose proof (tiles_ext_pos c HW _ _ _ Tp); pose proof (W_pos c HW); lia|].
      rewrite EA, allocs_app. cbn [allocs app]. rewrite allocs_app, (freeish_allocs _ rest Fr). cbn [app].
      destruct X as [-> | X]; [cbn [allocs app]; rewrite !app_nil_r; apply Permutation_sym, Permutation_cons_append|].
      cbn [HeapLemmas.ext] in X. replace (hstart h + ext pre + 2 * HH + round c n + ext rest) with (hstart h + ext pre + ext old) by lia.
      apply Permutation_sym, Permutation_middle.
Qed.

(** ** free *)
Lemma joinL_alloc pre sz p s a : joinL c pre sz = (p, s) -> allocs a pre = allocs a p /\ (coalf false pre = true -> coalf false p = true /\ endf false p = false).
Proof.
  intros J. destruct (joinL_cases c pre sz) as [[J' D]|(p' & psz & -> & J')]; rewrite J in J'; apply pair_inj in J' as [-> ->].
  - split; auto. intros C. split; auto. destruct D as [-> | (q & ps & ->)]; auto. now rewrite endf_app.
  - rewrite allocs_app. cbn [allocs app]. rewrite app_nil_r. split; auto. rewrite coalf_app. cbn [coalf]. intros C.
    destruct (endf false p'); [rewrite andb_comm in C; discriminate|]. apply andb_prop in C as [C _]. auto.
Qed.
Lemma joinR_alloc post s s' q a b : joinR c post s = (s', q) -> b = a + (s' - s) -> allocs a post = allocs b q /\ (coalf false post = true -> coalf true q = true).
Proof.
  intros J ->. destruct post as [|[n [|]] post]; cbn [joinR] in J; apply pair_inj in J as [<- <-].
  - split; auto.
  - rewrite Z.sub_diag, Z.add_0_r. split; auto.
  - cbn [allocs app]. split; [f_equal; lia|]. cbn [coalf negb andb]. auto.
Qed.
Lemma free_live h bs p s : ok h bs -> In (p, s) (allocs (hstart h) bs) ->
  exists h' bs', free c h p = Some h' /\ ok h' bs' /\ hstart h' = hstart h /\
    Permutation (allocs (hstart h) bs) ((p, s) :: allocs (hstart h) bs') /\
    kp (hm h) (hm h') (allocs (hstart h) bs') /\ (coalf false bs = true -> coalf false bs' = true).
Proof.
  intros O Hi. apply allocs_split in Hi as (pre & post & -> & ->).
  destruct (joinL c pre s) as [p' s1] eqn:JL. destruct (joinR c post s1) as [s2 q] eqn:JR.
  destruct (free_ok c HC h pre s post p' s1 s2 q O JL JR) as (m' & E & O' & F & MO & EX).
  destruct (joinL_alloc pre s p' s1 (hstart h) JL) as [A1 C1].
  assert (ES : ext p' + s1 = ext pre + s).
  { destruct (joinL_cases c pre s) as [[J' _]|(p2 & psz & -> & J')]; rewrite JL in J'; apply pair_inj in J' as [-> ->]; [lia|]. rewrite ext_app. cbn [HeapLemmas.ext]. lia. }
  destruct (joinR_alloc post s1 s2 q (hstart h + ext pre + 2 * HH + s) (hstart h + ext p' + 2 * HH + s2) JR ltac:(lia)) as [A2 C2].
  exists (set_mem h m'), (p' ++ (s2, false) :: q). split; auto. split; auto. split; auto.
  rewrite !allocs_app. cbn [allocs app]. rewrite A1, A2. split; [|split].
  - apply Permutation_sym, Permutation_middle.
  - intros b sb x Hb Hx. apply F. pose proof O' as []. cbn [set_mem hm hstart] in *. apply (tiles_app c HW) in ok_tiles as [Tp Tq].
    cbn [HeapLemmas.tiles] in Tq. destruct Tq as (_ & _ & _ & Tq). pose proof (W_pos c HW).
    apply in_app_or in Hb as [Hb|Hb]; eapply allocs_range in Hb; eauto; lia.
  - rewrite !coalf_app. cbn [coalf negb]. rewrite !andb_false_r. cbn [negb andb]. intros C. apply andb_prop in C as [D1 D2].
    destruct (C1 D1) as [-> ->]. now rewrite C2.
Qed.

(** ** Stores by the program *)
Lemma data_tiles m m' bs : forall a, tiles m a bs -> (forall x, a <= x < a + ext bs -> m' x <> m x -> exists p s, In (p, s) (allocs a bs) /\ p <= x < p + s) ->
  (forall x, {m' x = m x} + {m' x <> m x}) -> tiles m' a bs.
Proof.
  induction bs as [|[sz al] bs IH]; intros a T F Dc; cbn [HeapLemmas.tiles HeapLemmas.ext allocs] in *; auto.
  destruct T as (S & M & T1 & T). pose proof (tiles_ext_pos c HW _ _ _ T). pose proof (W_pos c HW). split; auto. split; auto. split.
  - eapply (tile1_data c HW); eauto. intros x Hx. destruct (Dc x) as [|Ne]; auto. exfalso. destruct (F x ltac:(lia) Ne) as (p & s & Hi & Hp).
    apply in_app_or in Hi as [Hi|Hi]; [destruct al; [|destruct Hi]; destruct Hi as [Hi|[]]; apply pair_inj in Hi as [<- <-]; lia|].
    eapply allocs_range in Hi; eauto. lia.
  - apply IH; auto. intros x Hx Ne. destruct (F x ltac:(lia) Ne) as (p & s & Hi & Hp).
    apply in_app_or in Hi as [Hi|Hi]; [|eauto]. exfalso. destruct al; [|destruct Hi]; destruct Hi as [Hi|[]]; apply pair_inj in Hi as [<- <-]; lia.
Qed.
Lemma opt_dec (a b : option Z) : {a = b} + {a <> b}.
Proof. decide equality. apply Z.eq_dec. Qed.
Lemma data_live h bs m : ok h bs -> mono (hm h) m ->
  (forall x, hstart h <= x < hstop h -> m x <> hm h x -> exists p s, In (p, s) (allocs (hstart h) bs) /\ p <= x < p + s) ->
  ok (set_mem h m) bs.
Proof.
  intros O MO F. pose proof O as []. eapply ok_set_mem; eauto. apply (data_tiles (hm h)); auto; [|intros; apply opt_dec].
  intros x Hx. apply F. lia.
Qed.
End W.
