(** Whole programs (C40, C41). *)
From Verif Require Import Base BaseLemmas LexModel LexSpec LexProof LinkModel LinkSpec LinkReloc LinkResolve LinkLayout LinkFind LinkPlace LinkImage LinkSpan.
From Coq Require Import Sorted String Permutation.
Close Scope string_scope.

Lemma relSect_of o k rs : relSect o k = Some rs <-> relocationsOf o k rs.
Proof.
  unfold relSect, relocationsOf. set (P := fun s => (sh_type s =? SHT_REL) && (sh_info s =? Z.of_nat k)).
  assert (PP : forall s, P s = true <-> sh_type s = 9 /\ sh_info s = Z.of_nat k) by (intros s; unfold P, SHT_REL; rewrite andb_true_iff, !Z.eqb_eq; tauto).
  induction o as [|s o IH]; cbn [find].
  - split; [discriminate|]. intros (i & H & _). destruct i; discriminate.
  - destruct (P s) eqn:E.
    + split.
      * intros H. injection H as <-. exists O. apply PP in E as [E1 E2]. split; [reflexivity|]. split; [auto|]. split; [auto|]. intros; lia.
      * intros (i & H1 & H2 & H3 & H4). destruct i as [|i]; [exact H1|]. exfalso. apply (H4 O s); [lia|reflexivity|]. apply PP. auto.
    + rewrite IH. split; intros (i & H1 & H2 & H3 & H4).
      * exists (S i). split; [auto|]. split; [auto|]. split; [auto|]. intros [|i'] s' L N; [injection N as <-; intros C; apply PP in C; congruence|].
        apply (H4 i'); auto. lia.
      * destruct i as [|i]; [injection H1 as ->; rewrite (proj2 (PP rs)) in E by auto; discriminate|].
        exists i. split; [auto|]. split; [auto|]. split; [auto|]. intros i' s' L N. apply (H4 (S i')); auto. lia.
Qed.
Lemma relSect_none o k : relSect o k = None -> forall rs, ~ relocationsOf o k rs.
Proof. intros H rs C. apply relSect_of in C. congruence. Qed.

(** ** the linker's input *)
Section Prepared.
  Variables (op : opts) (objs : list obj) (st : rst) (e0 : env) (ds : list descr).
  Hypothesis PR : prepare op objs = Ok (st, e0, ds).
  Hypothesis WF : wellFormed objs.
  Let entry := op_entry op.

  Lemma prep_resolve : resolve objs entry = Ok st /\ e_objs e0 = combine objs (needed st) /\ e_fmt e0 = op_fmt op /\ e_useBss e0 = op_useBss op /\
    findSections (op_fmt op) (combine objs (needed st)) (deferred st) = Ok (ds, e_bs e0, e_relod e0) /\ e_cnt e0 = (List.length ds - 3)%nat /\ e_hdrsz e0 = 0.
  Proof.
    unfold prepare in PR. fold entry in PR. destruct (resolve objs entry) as [st1| |] eqn:E; try discriminate. cbn [rbind] in PR.
    destruct (findSections (op_fmt op) (combine objs (needed st1)) (deferred st1)) as [[[ds1 bs1] r1]| |] eqn:E2; try discriminate. cbn [rbind] in PR.
    injection PR as <- <- <-. cbn. auto 10.
  Qed.
  Lemma prep_incl f k o s : incl (e_objs e0) f k o s <-> reach objs entry f /\ sectionOf objs f k o s.
  Proof.
    destruct prep_resolve as (R & EO & _). pose proof (resolve_ok objs entry) as RO. rewrite R in RO. destruct RO as (L & NR & _).
    rewrite EO. unfold incl, sectionOf. split.
    - intros [H1 H2]. apply nth_combine_inv in H1 as [H3 H4]. apply NR in H4. auto.
    - intros [H1 [H2 H3]]. split; [|auto]. apply nth_combine; auto. apply NR. auto.
  Qed.
  Lemma prep_any s : inAny (e_objs e0) s <-> exists f k o, reach objs entry f /\ sectionOf objs f k o s.
  Proof.
    unfold inAny. split.
    - intros (o & I & J). apply In_nth_error in I as [f I]. apply In_nth_error in J as [k J]. exists f, k, o. apply prep_incl. split; auto.
    - intros (f & k & o & H). apply prep_incl in H as [H1 H2]. exists o. split; eapply nth_error_In; eauto.
  Qed.

  (** the names *)
  Lemma prep_names : (op_fmt op = FormatDosExeUnreal -> forall f k o s, sectionOf objs f k o s -> sh_name s <> RELOD) ->
    exists l hidden, ds = l ++ hidden /\ e_cnt e0 = List.length l /\ List.length hidden = 3%nat /\ l <> [] /\ Forall okD l /\ NoDup (map d_name l) /\ StronglySorted rankLe l /\
    (forall hs, Forall (okDescr (mkEnv (e_objs e0) (e_fmt e0) (e_useBss e0) (e_bs e0) (e_relod e0) (e_cnt e0) hs)) l) /\
    (op_fmt op <> FormatDosExeUnreal -> e_relod e0 = 0) /\ goodRelod e0 /\
    (forall f k o s, included objs entry f k o s -> exists d, In d l /\ d_name d = sh_name s /\ d_attrs d = attrs s) /\
    (forall d, In d l -> e_relod e0 = 0 -> exists f k o s, included objs entry f k o s /\ d_name d = sh_name s) /\
    (forall f k o s d, In d l -> reach objs entry f -> sectionOf objs f k o s -> sh_name s = d_name d -> alloc s /\ d_attrs d = attrs s) /\
    (forall d, hd_error l = Some d -> isCode d = true) /\
    (forall d, In d l -> isCode d = true -> d_attrs d = 4) /\
    linkDeferred ds (deferred st) = Ok (e_bs e0) /\
    hidden = [mkDescr (str "allcode__") 0 0 0;
        mkDescr (if has SHF_EXECINSTR (d_attrs (last l (mkDescr [] 0 0 0))) then [] else str "alldata__") 0 0 0;
        mkDescr (if (op_fmt op =? FormatDosComTiny) || (op_fmt op =? FormatDosExeSmall) then str "stack__" else []) 0 0 0].
  Proof.
    intros NRL. destruct prep_resolve as (R & EO & EF & EU & FS & EC & EH).
    apply findSections_ok in FS as (l & hidden & EDS & LH & NE & OKl & ND & SS & FROM & FOR & R0 & RR & RL & HD & X4 & LD & HID).
    rewrite <- EO in FROM, FOR, RL.
    assert (ANY : forall s, inAny (e_objs e0) s -> alloc s -> exists d, In d l /\ d_name d = sh_name s /\ d_attrs d = attrs s).
    { intros s (o & I & J) A. destruct (FOR o s I J A) as (d & D). exists d. auto. }
    assert (UNI : forall f k o s d, In d l -> reach objs entry f -> sectionOf objs f k o s -> sh_name s = d_name d -> alloc s /\ d_attrs d = attrs s).
    { intros f k o s d I RE SE N. destruct (FROM d I) as [(s0 & S1 & S2 & S3 & S4)|[-> NZ]].
      - apply prep_any in S1 as (f0 & k0 & o0 & RE0 & SE0).
        assert (A : alloc s) by (apply (proj2 WF) with (1 := SE0) (2 := SE); auto; congruence).
        split; [auto|]. destruct (ANY s) as (d' & D1 & D2 & D3); [apply prep_any; eauto|auto|].
        assert (d' = d) as <-; [|auto].
        { assert (NN : d_name d' = d_name d) by congruence. clear - ND D1 I NN. induction l as [|x l IH]; [destruct I|]. cbn [map] in ND. inversion_clear ND as [|? ? N1 N2].
          destruct D1 as [-> |D1], I as [-> |I]; auto.
          - exfalso. apply N1. rewrite NN. apply in_map. auto.
          - exfalso. apply N1. rewrite <- NN. apply in_map. auto. }
      - exfalso. cbn [d_name] in N. assert (EU2 : op_fmt op = FormatDosExeUnreal) by (destruct (Z.eq_dec (op_fmt op) FormatDosExeUnreal); [auto|exfalso; apply NZ, R0; auto]).
        eapply NRL; eauto. }
    exists l, hidden. split; [auto|]. split; [rewrite EC, EDS, app_length, LH; lia|]. split; [auto|]. split; [auto|]. split; [auto|]. split; [auto|]. split; [auto|]. split.
    { intros hs. apply Forall_forall. intros d I.
      assert (IT : forall it, In it (items (d_name d) 0 (e_objs e0)) -> exists f k o s, it = (f, o, k, s) /\ reach objs entry f /\ sectionOf objs f k o s /\ sh_name s = d_name d).
      { intros it IN. apply items_in in IN as (f & k & o & s & -> & IC & N). apply prep_incl in IC as [IC1 IC2]. exists f, k, o, s. auto. }
      split; [|split; [|split]].
      - apply Forall_forall. cbn [e_objs]. intros it IN. destruct (IT it IN) as (f & k & o & s & -> & RE & SE & N). destruct (UNI f k o s d I RE SE N) as [A AT].
        destruct (proj1 WF f k o s SE A) as (W1 & W2 & W3 & W4 & W5 & W6). unfold okItem. split; [split; auto|]. split; [|split].
        + split; [auto|]. intros rs RS. apply relSect_of in RS. destruct (W6 rs RS) as (V1 & V2 & _). auto.
        + cbn [e_objs]. apply prep_incl. auto.
        + f_equal. rewrite AT, attrs_eq. change SHF_EXECINSTR with (2 ^ 2). rewrite !has_testbit by lia.
          destruct (Z.testbit (sh_flags s) 0), (Z.testbit (sh_flags s) 2), (Z.testbit (sh_type s) 3); reflexivity.
      - apply Forall_forall. cbn [e_objs]. intros it IN. destruct (IT it IN) as (f & k & o & s & -> & RE & SE & N). destruct (UNI f k o s d I RE SE N) as [A AT].
        destruct (proj1 WF f k o s SE A) as (W1 & W2 & W3 & W4 & W5 & W6). unfold bits. cbn [isect]. rewrite AT, attrs_eq.
        destruct W4 as [-> | ->]; destruct (Z.testbit (sh_flags s) 0), (Z.testbit (sh_flags s) 2); reflexivity.
      - intros X. apply X4; auto.
      - cbn [e_relod]. intros NZ N. destruct (FROM d I) as [(s0 & S1 & S2 & S3 & S4)|[-> _]]; [|reflexivity].
        exfalso. destruct (RL NZ) as [_ RL2]. eapply RL2; eauto. congruence. }
    split; [auto|]. split.
    { split; [auto|]. intros NZ. rewrite EF. assert (op_fmt op = FormatDosExeUnreal) as -> by (destruct (Z.eq_dec (op_fmt op) FormatDosExeUnreal); [auto|exfalso; apply NZ, R0; auto]). reflexivity. }
    split. { intros f k o s (RE & SE & A). apply ANY; [apply prep_any; eauto|auto]. }
    split. { intros d I RZ. destruct (FROM d I) as [(s0 & S1 & S2 & S3 & S4)|[_ NZ]]; [|contradiction].
      apply prep_any in S1 as (f0 & k0 & o0 & RE0 & SE0). exists f0, k0, o0, s0. split; [split; auto|auto]. }
    split; [exact UNI|]. split; [auto|]. split; [auto|]. split; [auto|exact HID].
  Qed.
End Prepared.

Lemma itemsO_sorted name f o ss : forall k, StronglySorted keyLt (map ikey (itemsO name f o k ss)).
Proof.
  induction ss as [|s ss IH]; intros k; cbn [itemsO]; [constructor|]. destruct (eqs name (sh_name s)); cbn [app map]; [|auto]. constructor; [auto|].
  destruct (itemsO_nodup name f o ss (S k)) as [_ F]. apply Forall_forall. intros x I. apply in_map_iff in I as (it & <- & I).
  rewrite Forall_forall in F. destruct (F it I). unfold keyLt, ikey. cbn. right. lia.
Qed.
Lemma items_sorted name os : forall f0, StronglySorted keyLt (map ikey (items name f0 os)).
Proof.
  induction os as [|[o nd] os IH]; intros f0; cbn [items]; [constructor|]. destruct nd; cbn [app]; [|auto]. rewrite map_app. apply SSorted_app; auto; [apply itemsO_sorted|].
  intros x y I J. apply in_map_iff in I as (i1 & <- & I). apply in_map_iff in J as (i2 & <- & J).
  destruct (itemsO_nodup name f0 o o 0) as [_ F]. destruct (items_nodup name os (S f0)) as [_ F']. rewrite Forall_forall in F, F'.
  destruct (F i1 I). specialize (F' i2 J). unfold keyLt, ikey. cbn. left. lia.
Qed.
Lemma StronglySorted_impl {A} (R R' : A -> A -> Prop) l : (forall x y, In x l -> In y l -> R x y -> R' x y) -> StronglySorted R l -> StronglySorted R' l.
Proof.
  intros H SS. induction SS as [|x l SS IH F]; constructor.
  - apply IH. intros; apply H; auto; right; auto.
  - rewrite Forall_forall in *. intros y I. apply H; auto; [left; auto|right; auto].
Qed.
Lemma has_exec_attrs s : has SHF_EXECINSTR (attrs s) = isExec s.
Proof.
  unfold isExec. rewrite attrs_eq. change SHF_EXECINSTR with (2 ^ 2). rewrite has_testbit by lia.
  destruct (Z.testbit (sh_flags s) 0), (Z.testbit (sh_flags s) 2), (Z.testbit (sh_type s) 3); reflexivity.
Qed.
Lemma kind_rank s s' : (sh_type s = 1 \/ sh_type s = 8) -> (sh_type s' = 1 \/ sh_type s' = 8) ->
  (isExec s = true -> attrs s = 4) -> (isExec s' = true -> attrs s' = 4) -> kind s < kind s' -> rank (attrs s) < rank (attrs s').
Proof.
  unfold kind, isExec. rewrite !attrs_eq. intros [-> | ->] [-> | ->];
    destruct (Z.testbit (sh_flags s) 0), (Z.testbit (sh_flags s) 2), (Z.testbit (sh_flags s') 0), (Z.testbit (sh_flags s') 2); cbn; try lia;
    intros H1 H2; try (specialize (H1 eq_refl); discriminate); try (specialize (H2 eq_refl); discriminate).
Qed.

Definition withHdr (e0 : env) (hs : Z) : env := mkEnv (e_objs e0) (e_fmt e0) (e_useBss e0) (e_bs e0) (e_relod e0) (e_cnt e0) hs.

(** ** from groups of placements to a good layout *)
Section Layout.
  Variables (op : opts) (objs : list obj) (st : rst) (e0 : env) (ds : list descr).
  Hypothesis PR : prepare op objs = Ok (st, e0, ds).
  Hypothesis WF : wellFormed objs.
  Let entry := op_entry op.
  Hypothesis NRL : op_fmt op = FormatDosExeUnreal -> forall f k o s, sectionOf objs f k o s -> sh_name s <> RELOD.
  Variables (e : env) (l : list descr) (gs : list (list (sect * placed))) (a c : Z) (out0 : list placed).
  Hypothesis EO : e_objs e = e_objs e0.
  Hypothesis EF : e_fmt e = op_fmt op.
  Hypothesis GF : groupsFor e l gs.
  Hypothesis RU : runs (e_fmt e) a gs c.
  Hypothesis ND : NoDup (map d_name l).
  Hypothesis GN : goodNames e l.
  Hypothesis SS : StronglySorted rankLe l.
  (** the sections with these names *)
  Variable Q : sect -> Prop.
  Hypothesis QL : forall f k o s, included objs entry f k o s -> Q s -> exists d, In d l /\ d_name d = sh_name s /\ d_attrs d = attrs s.
  Hypothesis LQ : forall f k o s d, In d l -> reach objs entry f -> sectionOf objs f k o s -> sh_name s = d_name d -> alloc s /\ d_attrs d = attrs s /\ Q s.
  Hypothesis X4 : forall d, In d l -> isCode d = true -> d_attrs d = 4.
  Variable out : list placed.
  Hypothesis OUT : forall q, In q (map snd (List.concat gs)) -> lookup out (pl_obj q) (pl_sect q) = Some q.

  Lemma lay_find f k o s : included objs entry f k o s -> Q s -> exists q, In (s, q) (List.concat gs) /\ pl_obj q = f /\ pl_sect q = k /\ lookup out f k = Some q.
  Proof.
    intros I QS. destruct (QL f k o s I QS) as (d & D1 & D2 & _). destruct I as (RE & SE & A).
    destruct (groups_all e l gs GF f k o s d D1) as (q & J & <- & <-); auto.
    - rewrite EO. apply (prep_incl op objs st e0 ds PR). auto.
    - exists q. split; [auto|]. split; [auto|]. split; [auto|]. apply OUT. apply in_map_iff. exists (s, q). auto.
  Qed.
  Lemma lay_back s q : In (s, q) (List.concat gs) -> exists o d, included objs entry (pl_obj q) (pl_sect q) o s /\ In d l /\ d_name d = sh_name s /\ d_attrs d = attrs s /\ Q s /\
    lookup out (pl_obj q) (pl_sect q) = Some q.
  Proof.
    intros I. destruct (groups_sections e l gs GF (s, q) I) as (f & k & o & d & D & IC & N & <- & <-). cbn [fst snd] in *.
    rewrite EO in IC. apply (prep_incl op objs st e0 ds PR) in IC as [RE SE]. destruct (LQ _ _ _ _ d D RE SE N) as (A & AT & QS).
    exists o, d. split; [split; auto|]. split; [auto|]. split; [auto|]. split; [auto|]. split; [auto|]. apply OUT. apply in_map_iff. exists (s, q). auto.
  Qed.
  Let GW := groups_wf e l gs GF GN.

  Lemma lay_every : everyPlaced objs entry (op_fmt op) (lookup out) a Q.
  Proof.
    intros f k o s I QS. destruct (lay_find f k o s I QS) as (q & J & _ & _ & LK). exists q. split; [auto|].
    destruct (runs_before _ _ _ _ GW RU) as (_ & B & _). rewrite Forall_forall in B. specialize (B _ J). cbn [fst snd] in B.
    pose proof (runs_each _ _ _ _ RU) as E. rewrite Forall_forall in E. specialize (E _ J). cbn [fst snd] in E. rewrite EF in E. unfold end_.
    split; [lia|]. split; [lia|]. intros L1. destruct E as [[E|E] _]; [lia|auto].
  Qed.
  Lemma lay_end f k o s q : included objs entry f k o s -> Q s -> lookup out f k = Some q -> end_ s q <= c.
  Proof.
    intros I QS LQ'. destruct (lay_find f k o s I QS) as (q' & J & _ & _ & LK). rewrite LQ' in LK. injection LK as <-.
    destruct (runs_before _ _ _ _ GW RU) as (_ & B & _). rewrite Forall_forall in B. specialize (B _ J). cbn [fst snd] in B. unfold end_. lia.
  Qed.
  Lemma lay_overlap : noOverlap objs entry (lookup out) (fun s s' => Q s /\ Q s').
  Proof.
    intros f k o s q f' k' o' s' q' I I' NE [QS QS'] L1 L2. destruct (lay_find f k o s I QS) as (x & J & X1 & X2 & LK). rewrite L1 in LK. injection LK as <-.
    destruct (lay_find f' k' o' s' I' QS') as (x & J' & X1' & X2' & LK). rewrite L2 in LK. injection LK as <-.
    destruct (runs_before _ _ _ _ GW RU) as (B & _ & _). destruct (sorted_two _ _ _ _ B J J') as [C|[C|C]].
    - injection C as -> ->. exfalso. apply NE. congruence.
    - left. exact C.
    - right. exact C.
  Qed.
  Lemma lay_order : inOrder objs entry (lookup out) (fun s s' => Q s /\ Q s').
  Proof.
    intros f k o s q f' k' o' s' q' I I' KL [QS QS'] L1 L2. destruct (lay_find f k o s I QS) as (x & J & X1 & X2 & LK). rewrite L1 in LK. injection LK as <-.
    destruct (lay_find f' k' o' s' I' QS') as (x & J' & X1' & X2' & LK). rewrite L2 in LK. injection LK as <-.
    destruct (QL f k o s I QS) as (d & D1 & D2 & D3). destruct (QL f' k' o' s' I' QS') as (d' & D1' & D2' & D3').
    assert (RK : rank (attrs s) < rank (attrs s')).
    { destruct I as (_ & SE & A), I' as (_ & SE' & A'). destruct (proj1 WF _ _ _ _ SE A) as (_ & _ & _ & T & _). destruct (proj1 WF _ _ _ _ SE' A') as (_ & _ & _ & T' & _).
      apply kind_rank; auto.
      - intros X. rewrite <- D3. apply X4; auto. unfold isCode. rewrite D3, has_exec_attrs. auto.
      - intros X. rewrite <- D3'. apply X4; auto. unfold isCode. rewrite D3', has_exec_attrs. auto. }
    apply (groups_order e l gs a c GF RU GN (fun d d' => rank (d_attrs d) < rank (d_attrs d')) (s, q) (s', q')); auto.
    - eapply StronglySorted_impl; [|exact SS]. unfold rankLe. intros. lia.
    - cbn [fst]. intros x x' X X' N N'.
      assert (NDN : forall x d, In x l -> In d l -> d_name x = d_name d -> x = d).
      { clear - ND. induction l as [|z l' IH]; intros x d X D N; [destruct X|]. cbn [map] in ND. inversion_clear ND as [|? ? N1 N2].
        destruct X as [-> |X], D as [-> |D]; auto.
        - exfalso. apply N1. rewrite N. apply in_map. auto.
        - exfalso. apply N1. rewrite <- N. apply in_map. auto. }
      assert (x = d) as -> by (apply NDN; auto; congruence). assert (x' = d') as -> by (apply NDN; auto; congruence).
      rewrite D3, D3'. split; [|auto]. intros ->. rewrite D3 in D3'. rewrite D3' in RK. lia.
  Qed.
  Lemma run_in : forall d g, In (d, g) (combine l gs) -> exists a' b, run (e_fmt e) a' g b.
  Proof.
    clear - RU. intros d g I. apply in_combine_r in I. induction RU as [x|x a' g0 b l0 c0 H1 H2 H3 IH|x gs0 b c0 R IH H]; [destruct I| |auto].
    destruct I as [<- |I]; eauto.
  Qed.
  Lemma lay_together f k o s : included objs entry f k o s -> Q s ->
    exists g a' b, run (op_fmt op) a' g b /\ StronglySorted keyLt (map (fun sq => (pl_obj (snd sq), pl_sect (snd sq))) g) /\
      forall s' q, In (s', q) g <-> (exists o', included objs entry (pl_obj q) (pl_sect q) o' s') /\ sh_name s' = sh_name s /\
        lookup out (pl_obj q) (pl_sect q) = Some q.
  Proof.
    intros I QS. destruct (QL f k o s I QS) as (d & D1 & D2 & D3). destruct (group_ex e l gs GF d D1) as (g & G).
    destruct (run_in d g G) as (a' & b & R). destruct (group_of e l gs GF d g G) as [_ P].
    exists g, a', b. split; [rewrite <- EF; auto|]. split.
    { change (fun sq : sect * placed => (pl_obj (snd sq), pl_sect (snd sq))) with pkey. rewrite (placesFor_keys _ _ P). apply items_sorted. }
    intros s' q. split.
    - intros J. destruct (lay_back s' q) as (o' & d' & J1 & J2 & J3 & J4 & J5 & J6).
      { apply (groups_in e l gs GF). exists d, g. auto. }
      split; [eauto|]. split; [|auto]. destruct (placesFor_in _ _ P _ J) as (it & I1 & I2 & _). apply items_in in I1 as (f1 & k1 & o1 & s1 & -> & _ & N). cbn in I2. congruence.
    - intros ((o' & RE & SE & A) & N & LK).
      assert (IT : In (pl_obj q, o', pl_sect q, s') (items (d_name d) 0 (e_objs e))).
      { apply items_in. exists (pl_obj q), (pl_sect q), o', s'. split; [reflexivity|]. split; [rewrite EO; apply (prep_incl op objs st e0 ds PR); auto|congruence]. }
      destruct (placesFor_in2 _ _ P _ IT) as ([s2 q2] & J1 & J2 & J3). cbn in J2. subst s2.
      assert (q2 = q) as <-; [|auto]. unfold pkey, ikey in J3. cbn in J3. injection J3 as K1 K2.
      assert (L2 : lookup out (pl_obj q2) (pl_sect q2) = Some q2).
      { apply OUT. apply in_map_iff. exists (s', q2). split; [auto|]. apply (groups_in e l gs GF). exists d, g. auto. }
      rewrite K1, K2, LK in L2. congruence.
  Qed.
End Layout.

Lemma na_names (l l' : list descr) : map na l = map na l' -> forall d, In d l -> exists d', In d' l' /\ d_name d' = d_name d /\ d_attrs d' = d_attrs d.
Proof.
  intros E d I. assert (J : In (na d) (map na l')) by (rewrite <- E; apply in_map; auto). apply in_map_iff in J as (d' & J & K).
  exists d'. unfold na in J. injection J as J1 J2. auto.
Qed.
Lemma firstn_na (dsX l hidden : list descr) : map na dsX = map na (l ++ hidden) -> map na (firstn (List.length l) dsX) = map na l.
Proof. intros H. rewrite <- firstn_map, H, map_app. rewrite <- (map_length na l). rewrite firstn_app, Nat.sub_diag. cbn. rewrite firstn_all, app_nil_r. reflexivity. Qed.

Lemma code_split (l : list descr) : StronglySorted rankLe l -> Forall okD l -> (forall d, In d l -> isCode d = true -> d_attrs d = 4) ->
  exists code data, l = code ++ data /\ Forall (fun d => isCode d = true) code /\ Forall (fun d => isCode d = false) data.
Proof.
  intros SS. induction SS as [|d l SS IH F]; intros OK X; [exists [], []; repeat split; constructor|].
  inversion_clear OK as [|? ? O1 O2]. destruct (isCode d) eqn:E.
  - destruct IH as (code & data & -> & C & D); auto. { intros; apply X; auto. right; auto. }
    exists (d :: code), data. split; [reflexivity|]. split; [constructor; auto|auto].
  - exists [], (d :: l). split; [reflexivity|]. split; [constructor|]. constructor; auto. apply Forall_forall. intros d' I. rewrite Forall_forall in F. specialize (F d' I).
    destruct (isCode d') eqn:E'; [|auto]. exfalso. rewrite (X d' (or_intror I) E') in F || (unfold rankLe in F; rewrite (X d' (or_intror I) E') in F).
    unfold okD in O1. unfold isCode in E.
    assert (T : forallb (fun x => has SHF_EXECINSTR x || negb (rank x <=? rank 4)) attrSet = true) by (vm_compute; reflexivity).
    rewrite forallb_forall in T. specialize (T _ O1). rewrite E in T. cbn [orb] in T. lia.
Qed.

Section Layouts.
  Variables (op : opts) (objs : list obj) (st : rst) (e0 : env) (ds : list descr).
  Hypothesis PR : prepare op objs = Ok (st, e0, ds).
  Hypothesis WF : wellFormed objs.
  Hypothesis NRL : op_fmt op = FormatDosExeUnreal -> forall f k o s, sectionOf objs f k o s -> sh_name s <> str ".relod".
  Let entry := op_entry op.
  Let all (s : sect) : Prop := True.
  Let all2 (s s' : sect) : Prop := True.

  Theorem layout_general hs pass origin dsX out0 buf file p :
    op_fmt op <> FormatDosExeSmall -> 0 <= origin <= limit (op_fmt op) -> map na dsX = map na ds ->
    Pass (withHdr e0 hs) pass origin dsX out0 buf file = Ok p ->
    everyPlaced objs entry (op_fmt op) (lookup (p_out p)) origin all /\ noOverlap objs entry (lookup (p_out p)) all2 /\
    inOrder objs entry (lookup (p_out p)) all2 /\ together objs entry (op_fmt op) (lookup (p_out p)) /\
    forall f k o s q, included objs entry f k o s -> lookup (p_out p) f k = Some q -> pl_off q = (hs + (pl_addr q - origin)) mod 2 ^ 32.
  Proof.
    intros NS OR NA H.
    destruct (prep_names op objs st e0 ds PR WF NRL) as (l & hidden & EDS & CNT & LH & NE & OKl & ND & SS & OKD & R0 & GR & FOR & FROM & UNI & HD & X4 & LD & HID).
    destruct (prep_resolve op objs st e0 ds PR) as (R & EO & EF & EU & FS & EC & EH).
    unfold Pass in H. cbn [withHdr e_cnt] in H. rewrite CNT in H. rewrite EDS in NA.
    rewrite (passLoop_na _ _ _ l) in H by (apply (firstn_na dsX l hidden); auto).
    set (p0 := mkPst origin origin 0 _ out0 buf file) in H. set (e := withHdr e0 hs) in *.
    destruct (passLoop_run e pass l 0 p0 p) as (gs & H1 & H2 & H3 & H4 & H5 & H6 & H7); auto.
    { unfold okState, p0, e. cbn. rewrite EF. auto. }
    { apply okDescr_good. apply OKD. }
    { intros C. unfold e in C. cbn in C. rewrite EF in C. contradiction. }
    assert (OUT : forall q, In q (map snd (List.concat gs)) -> lookup (p_out p) (pl_obj q) (pl_sect q) = Some q).
    { intros q I. rewrite H3. apply lookup_rev; auto. rewrite qkeys. apply (groups_keys e l gs H1 ND). }
    assert (QL : forall f k o s, included objs entry f k o s -> all s -> exists d, In d l /\ d_name d = sh_name s /\ d_attrs d = attrs s) by (intros; eapply FOR; eauto).
    assert (LQ : forall f k o s d, In d l -> reach objs entry f -> sectionOf objs f k o s -> sh_name s = d_name d -> alloc s /\ d_attrs d = attrs s /\ all s).
    { intros f k o s d I RE SE N. destruct (UNI f k o s d I RE SE N). repeat split; auto. }
    assert (GN : goodNames e l) by (apply okDescr_good; apply OKD).
    split; [|split; [|split; [|split]]].
    - eapply (lay_every op objs st e0 ds PR NRL e l gs _ _ eq_refl EF H1 H2 GN all QL); eauto.
    - intros f k o s q f' k' o' s' q' I I' N _ L1 L2.
      eapply (lay_overlap op objs st e0 ds PR e l gs _ _ eq_refl H1 H2 GN all QL); eauto. split; exact Logic.I.
    - intros f k o s q f' k' o' s' q' I I' N _ L1 L2.
      eapply (lay_order op objs st e0 ds PR WF NRL e l gs _ _ eq_refl H1 H2 ND GN SS all QL); eauto. split; exact Logic.I.
    - intros f k o s I. eapply (lay_together op objs st e0 ds PR e l gs _ _ eq_refl EF H1 H2 all QL); eauto. exact Logic.I.
    - intros f k o s q I LK. destruct (lay_find op objs st e0 ds PR e l gs eq_refl H1 all QL (p_out p) OUT f k o s I Logic.I) as (q' & J & _ & _ & LK').
      rewrite LK in LK'. injection LK' as <-. apply in_concat in J as (g & G1 & G2). rewrite Forall_forall in H4. specialize (H4 g G1).
      rewrite Forall_forall in H4. specialize (H4 _ G2). cbn [snd] in H4. rewrite H4. unfold offOf, p0, e. cbn. unfold u32, wrap. f_equal. lia.
  Qed.

  Theorem layout_small hs pass origin dsX out0 buf file p :
    op_fmt op = FormatDosExeSmall -> 0 <= origin <= limit (op_fmt op) -> map na dsX = map na ds ->
    Pass (withHdr e0 hs) pass origin dsX out0 buf file = Ok p ->
    everyPlaced objs entry (op_fmt op) (lookup (p_out p)) origin (fun s => isExec s = true) /\
    everyPlaced objs entry (op_fmt op) (lookup (p_out p)) 4 (fun s => isExec s = false) /\
    noOverlap objs entry (lookup (p_out p)) (fun s s' => isExec s = isExec s') /\
    inOrder objs entry (lookup (p_out p)) (fun s s' => isExec s = isExec s') /\
    together objs entry (op_fmt op) (lookup (p_out p)) /\
    exists csize, 0 <= csize /\ (16 | origin + csize) /\ forall f k o s q, included objs entry f k o s -> lookup (p_out p) f k = Some q ->
      (isExec s = true -> end_ s q <= origin + csize /\ pl_off q = (hs + (pl_addr q - origin)) mod 2 ^ 32) /\
      (isExec s = false -> pl_off q = (hs + csize + pl_addr q) mod 2 ^ 32).
  Proof.
    intros ES OR NA H.
    destruct (prep_names op objs st e0 ds PR WF NRL) as (l & hidden & EDS & CNT & LH & NE & OKl & ND & SS & OKD & R0 & GR & FOR & FROM & UNI & HD & X4 & LD & HID).
    destruct (prep_resolve op objs st e0 ds PR) as (R & EO & EF & EU & FS & EC & EH).
    unfold Pass in H. cbn [withHdr e_cnt] in H. rewrite CNT in H. rewrite EDS in NA.
    rewrite (passLoop_na _ _ _ l) in H by (apply (firstn_na dsX l hidden); auto).
    set (p0 := mkPst origin origin 0 _ out0 buf file) in H. set (e := withHdr e0 hs) in *.
    destruct (code_split l SS OKl X4) as (code & data & EL & FC & FD).
    assert (GN : goodNames e l) by (apply okDescr_good; apply OKD).
    assert (NC : code <> []).
    { destruct code; [|discriminate]. cbn in EL. subst data. destruct l as [|d l']; [contradiction|]. specialize (HD d eq_refl). inversion FD. congruence. }
    rewrite EL in H, GN. assert (EFs : e_fmt e = FormatDosExeSmall) by (unfold e; cbn; congruence).
    destruct (passLoop_small e pass data code 0 p0 p) as (gc & gd & c & p1 & H1 & H2 & H3 & H4 & H5 & H6 & H7 & H8 & H9); auto.
    { unfold okState, p0, e. cbn. rewrite EF. auto. }
    { unfold p0. cbn. lia. }
    apply Forall_app in GN as [GNc GNd].
    assert (NDl := ND). rewrite EL, map_app in NDl.
    assert (NDc : NoDup (map d_name code)) by (clear - NDl; induction code; cbn in *; [constructor|]; inversion_clear NDl; constructor; auto; intros C; apply H; apply in_or_app; auto).
    assert (NDd : NoDup (map d_name data)) by (clear - NDl; induction code; cbn in *; auto; inversion_clear NDl; auto).
    assert (SSc : StronglySorted rankLe code /\ StronglySorted rankLe data).
    { rewrite EL in SS. clear - SS. induction code as [|d code IH]; cbn in *; [split; [constructor|auto]|]. inversion_clear SS as [|? ? S1 S2]. destruct (IH S1).
      split; [|auto]. constructor; auto. apply Forall_app in S2. apply S2. }
    destruct SSc as [SSc SSd].
    assert (OUT : forall q, In q (map snd (List.concat (gc ++ gd))) -> lookup (p_out p) (pl_obj q) (pl_sect q) = Some q).
    { intros q I. rewrite H7. apply lookup_rev; auto. rewrite qkeys. apply (groups_keys e (code ++ data) (gc ++ gd)); [|rewrite map_app; auto].
      apply Forall2_app; auto. }
    rewrite concat_app, map_app in OUT.
    assert (OUTc : forall q, In q (map snd (List.concat gc)) -> lookup (p_out p) (pl_obj q) (pl_sect q) = Some q) by (intros; apply OUT, in_or_app; auto).
    assert (OUTd : forall q, In q (map snd (List.concat gd)) -> lookup (p_out p) (pl_obj q) (pl_sect q) = Some q) by (intros; apply OUT, in_or_app; auto).
    set (QC := fun s => isExec s = true). set (QD := fun s => isExec s = false).
    assert (QLc : forall f k o s, included objs entry f k o s -> QC s -> exists d, In d code /\ d_name d = sh_name s /\ d_attrs d = attrs s).
    { intros f k o s I QS. destruct (FOR f k o s I) as (d & D1 & D2 & D3). exists d. split; [|auto]. rewrite EL in D1. apply in_app_or in D1 as [D1|D1]; [auto|].
      exfalso. rewrite Forall_forall in FD. specialize (FD d D1). unfold isCode in FD. rewrite D3, has_exec_attrs, QS in FD. discriminate. }
    assert (QLd : forall f k o s, included objs entry f k o s -> QD s -> exists d, In d data /\ d_name d = sh_name s /\ d_attrs d = attrs s).
    { intros f k o s I QS. destruct (FOR f k o s I) as (d & D1 & D2 & D3). exists d. split; [|auto]. rewrite EL in D1. apply in_app_or in D1 as [D1|D1]; [|auto].
      exfalso. rewrite Forall_forall in FC. specialize (FC d D1). unfold isCode in FC. rewrite D3, has_exec_attrs, QS in FC. discriminate. }
    assert (LQc : forall f k o s d, In d code -> reach objs entry f -> sectionOf objs f k o s -> sh_name s = d_name d -> alloc s /\ d_attrs d = attrs s /\ QC s).
    { intros f k o s d I RE SE N. destruct (UNI f k o s d) as [U1 U2]; auto; [rewrite EL; apply in_or_app; auto|]. split; [auto|]. split; [auto|].
      rewrite Forall_forall in FC. specialize (FC d I). unfold QC. rewrite <- has_exec_attrs, <- U2. auto. }
    assert (LQd : forall f k o s d, In d data -> reach objs entry f -> sectionOf objs f k o s -> sh_name s = d_name d -> alloc s /\ d_attrs d = attrs s /\ QD s).
    { intros f k o s d I RE SE N. destruct (UNI f k o s d) as [U1 U2]; auto; [rewrite EL; apply in_or_app; auto|]. split; [auto|]. split; [auto|].
      rewrite Forall_forall in FD. specialize (FD d I). unfold QD. rewrite <- has_exec_attrs, <- U2. auto. }
    assert (X4c : forall d, In d code -> isCode d = true -> d_attrs d = 4) by (intros; apply X4; auto; rewrite EL; apply in_or_app; auto).
    assert (X4d : forall d, In d data -> isCode d = true -> d_attrs d = 4) by (intros; apply X4; auto; rewrite EL; apply in_or_app; auto).
    split; [|split; [|split; [|split; [|split]]]].
    - eapply (lay_every op objs st e0 ds PR NRL e code gc _ _ eq_refl EF H1 H3 GNc QC QLc); eauto.
    - eapply (lay_every op objs st e0 ds PR NRL e data gd _ _ eq_refl EF H2 H6 GNd QD QLd); eauto.
    - intros f k o s q f' k' o' s' q' I I' N XE L1 L2. destruct (isExec s) eqn:X.
      + eapply (lay_overlap op objs st e0 ds PR e code gc _ _ eq_refl H1 H3 GNc QC QLc); eauto. split; unfold QC; congruence.
      + eapply (lay_overlap op objs st e0 ds PR e data gd _ _ eq_refl H2 H6 GNd QD QLd); eauto. split; unfold QD; congruence.
    - intros f k o s q f' k' o' s' q' I I' N XE L1 L2. destruct (isExec s) eqn:X.
      + eapply (lay_order op objs st e0 ds PR WF NRL e code gc _ _ eq_refl H1 H3 NDc GNc SSc QC QLc); eauto. split; unfold QC; congruence.
      + eapply (lay_order op objs st e0 ds PR WF NRL e data gd _ _ eq_refl H2 H6 NDd GNd SSd QD QLd); eauto. split; unfold QD; congruence.
    - intros f k o s I. destruct (isExec s) eqn:X.
      + eapply (lay_together op objs st e0 ds PR e code gc _ _ eq_refl EF H1 H3 QC QLc); eauto.
      + eapply (lay_together op objs st e0 ds PR e data gd _ _ eq_refl EF H2 H6 QD QLd); eauto.
    - destruct (runs_before _ _ _ _ (groups_wf e code gc H1 GNc) H3) as (_ & _ & AC). unfold p0 in H4. cbn [p_startOfs] in H4. cbn [p_ofs] in AC.
      exists (p_written p1). destruct H4 as (A1 & _ & A2). split; [unfold p0 in AC; cbn in AC; lia|]. split; [destruct A2 as [A2|A2]; [lia|auto]|].
      intros f k o s q I LK. split; intros X.
      + split. { assert (end_ s q <= c); [|lia]. eapply (lay_end op objs st e0 ds PR NRL e code gc _ _ eq_refl H1 H3 GNc QC QLc); eauto. }
        destruct (lay_find op objs st e0 ds PR e code gc eq_refl H1 QC QLc (p_out p) OUTc f k o s I X) as (q' & J & _ & _ & LK').
        rewrite LK in LK'. injection LK' as <-. apply in_concat in J as (g & G1 & G2). rewrite Forall_forall in H8. specialize (H8 g G1).
        rewrite Forall_forall in H8. specialize (H8 _ G2). cbn [snd] in H8. rewrite H8. unfold offOf, p0, e. cbn. unfold u32, wrap. f_equal. lia.
      + destruct (lay_find op objs st e0 ds PR e data gd eq_refl H2 QD QLd (p_out p) OUTd f k o s I X) as (q' & J & _ & _ & LK').
        rewrite LK in LK'. injection LK' as <-. apply in_concat in J as (g & G1 & G2). rewrite Forall_forall in H9. specialize (H9 g G1).
        rewrite Forall_forall in H9. specialize (H9 _ G2). cbn [snd] in H9. rewrite H9. unfold offOf, e. rewrite H5. cbn. unfold u32, wrap. f_equal. lia.
  Qed.
End Layouts.
