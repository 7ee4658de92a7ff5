(** The rewritten expression means what the source expression means: one lemma per operator. *)
From Verif Require Import Base BaseLemmas ExprSpec FoldSpec FoldModel FoldProof.

Section M.
Variable W : Z.
Hypothesis HW : W = 2 \/ W = 4.
Context {A St : Type}.
Variable opq : A -> St -> option (Z * St).
Variable bp : Z.
Variable rtl : bool.
Variable strict : bool.
Notation wd := (word W).
Notation seval := (seval W opq bp rtl strict).
Notation teval := (teval W opq bp rtl).

(** the tree [t] computes, as words, the numbers [f] computes *)
Definition sem (f : St -> option (Z * St)) (t : te A) : Prop :=
  forall st z st', f st = Some (z, st') -> teval t st = Some (wd z, st').

Definition Den (f : St -> option (Z * St)) (y : ty) (r : te A * ty * option Z) : Prop :=
  let '(t, y', c) := r in
  y' = y /\ wf_ty W y = true /\
  (forall s, c = Some s -> (exists u n, t = TNum u n) /\ (isptr y = true -> strict = true)) /\
  (forall st z st', f st = Some (z, st') -> cv W y z = z) /\
  sem f t /\
  (forall s, c = Some s -> forall st z st', f st = Some (z, st') ->
     st' = st /\ wd s = wd z /\ (isptr y = true -> z = 0)).

Lemma Den_ext f g y r : (forall st, f st = g st) -> Den f y r -> Den g y r.
Proof.
  intros E. destruct r as [[t y'] c]. unfold Den, sem. intros (D1 & D2 & D3 & D4 & D5 & D6).
  repeat (split; [assumption|]).
  split; [|split]; intros; rewrite <- E in *; eauto.
Qed.

Lemma Den_simp f y t c : wf_ty W y = true ->
  (forall s, c = Some s -> isptr y = true -> strict = true) ->
  (forall st z st', f st = Some (z, st') -> cv W y z = z) ->
  sem f t ->
  (forall s, c = Some s -> forall st z st', f st = Some (z, st') ->
     st' = st /\ wd s = wd z /\ (isptr y = true -> z = 0)) ->
  Den f y (simp t y c, y, c).
Proof.
  intros D2 D3 D4 D5 D6. unfold Den.
  split; [reflexivity|]. split; [exact D2|]. split; [|split; [exact D4|split; [|exact D6]]].
  - intros s ->. split; [|eauto]. unfold simp. destruct t; eexists; eexists; reflexivity.
  - unfold simp. destruct c as [s|]; [|exact D5].
    destruct t; try exact D5; intros st z st' E;
    destruct (D6 s eq_refl _ _ _ E) as (-> & Ew & _); cbn; rewrite Ew; reflexivity.
Qed.

Lemma Den_void f y t c : wf_ty W y = true -> isptr y = false -> (forall st, f st = None) ->
  Den f y (simp t y c, y, c).
Proof.
  intros Wy Py N. apply Den_simp; try assumption.
  - intros; congruence.
  - intros st z st' E. rewrite N in E. discriminate.
  - intros st z st' E. rewrite N in E. discriminate.
  - intros s _ st z st' E. rewrite N in E. discriminate.
Qed.

(** ** two operands *)
Lemma both_inv {X Y} (f : St -> option (X * St)) (g : St -> option (Y * St)) st x y st' :
  both rtl f g st = Some (x, y, st') ->
  exists st1, (rtl = false /\ f st = Some (x, st1) /\ g st1 = Some (y, st')) \/
              (rtl = true /\ g st = Some (y, st1) /\ f st1 = Some (x, st')).
Proof.
  unfold both. destruct rtl.
  - destruct (g st) as [[y0 s1]|] eqn:G; [|discriminate]. cbn.
    destruct (f s1) as [[x0 s2]|] eqn:F; [|discriminate]. cbn.
    intros E. apply some_inj in E. apply pair_inj in E. destruct E as [E ->].
    apply pair_inj in E. destruct E as [-> ->]. exists s1. right. auto.
  - destruct (f st) as [[x0 s1]|] eqn:F; [|discriminate]. cbn.
    destruct (g s1) as [[y0 s2]|] eqn:G; [|discriminate]. cbn.
    intros E. apply some_inj in E. apply pair_inj in E. destruct E as [E ->].
    apply pair_inj in E. destruct E as [-> ->]. exists s1. left. auto.
Qed.

Lemma both_l b {X Y} (f : St -> option (X * St)) (g : St -> option (Y * St)) st st1 x y st' :
  b = false -> f st = Some (x, st1) -> g st1 = Some (y, st') -> both b f g st = Some (x, y, st').
Proof. intros -> F G. unfold both. rewrite F. cbn [obind]. rewrite G. reflexivity. Qed.
Lemma both_r b {X Y} (f : St -> option (X * St)) (g : St -> option (Y * St)) st st1 x y st' :
  b = true -> g st = Some (y, st1) -> f st1 = Some (x, st') -> both b f g st = Some (x, y, st').
Proof. intros -> G F. unfold both. rewrite G. cbn [obind]. rewrite F. reflexivity. Qed.

Lemma sem_both f g tl tr st x y st' : sem f tl -> sem g tr ->
  both rtl f g st = Some (x, y, st') ->
  both rtl (teval tl) (teval tr) st = Some (wd x, wd y, st').
Proof.
  intros Sf Sg H. apply both_inv in H. destruct H as [st1 [(R & F & G)|(R & G & F)]].
  - exact (both_l rtl _ _ _ st1 _ _ _ R (Sf _ _ _ F) (Sg _ _ _ G)).
  - exact (both_r rtl _ _ _ st1 _ _ _ R (Sg _ _ _ G) (Sf _ _ _ F)).
Qed.

Lemma both_den f g yf yg tl tr yl yr cl cr st x y st' :
  Den f yf (tl, yl, cl) -> Den g yg (tr, yr, cr) ->
  both rtl f g st = Some (x, y, st') ->
  cv W yf x = x /\ cv W yg y = y /\
  (forall s, cl = Some s -> wd s = wd x /\ teval tr st = Some (wd y, st') /\ (isptr yf = true -> x = 0)) /\
  (forall s, cr = Some s -> wd s = wd y /\ teval tl st = Some (wd x, st') /\ (isptr yg = true -> y = 0)) /\
  (isc cl && isc cr = true -> st' = st).
Proof.
  intros (L1 & L2 & L3 & L4 & L5 & L6) (R1 & R2 & R3 & R4 & R5 & R6) H.
  apply both_inv in H. destruct H as [st1 [(R & F & G)|(R & G & F)]].
  - split; [eauto|]. split; [eauto|]. split; [|split].
    + intros s ->. destruct (L6 s eq_refl _ _ _ F) as (E1 & E2 & E3). subst st1.
      split; [exact E2|]. split; [apply R5, G|exact E3].
    + intros s ->. destruct (R6 s eq_refl _ _ _ G) as (E1 & E2 & E3). subst st1.
      split; [exact E2|]. split; [apply L5, F|exact E3].
    + destruct cl as [s1|]; [|discriminate]. destruct cr as [s2|]; [|discriminate]. intros _.
      destruct (L6 s1 eq_refl _ _ _ F) as (E1 & _). destruct (R6 s2 eq_refl _ _ _ G) as (E2 & _).
      congruence.
  - split; [eauto|]. split; [eauto|]. split; [|split].
    + intros s ->. destruct (L6 s eq_refl _ _ _ F) as (E1 & E2 & E3). subst st1.
      split; [exact E2|]. split; [apply R5, G|exact E3].
    + intros s ->. destruct (R6 s eq_refl _ _ _ G) as (E1 & E2 & E3). subst st1.
      split; [exact E2|]. split; [apply L5, F|exact E3].
    + destruct cl as [s1|]; [|discriminate]. destruct cr as [s2|]; [|discriminate]. intros _.
      destruct (L6 s1 eq_refl _ _ _ F) as (E1 & _). destruct (R6 s2 eq_refl _ _ _ G) as (E2 & _).
      congruence.
Qed.

Definition bin f g (h : Z -> Z -> option Z) : St -> option (Z * St) :=
  fun st => let? (x, y, st) := both rtl f g st in let? z := h x y in Some (z, st).

Lemma bin_inv f g h st z st' : bin f g h st = Some (z, st') ->
  exists x y, both rtl f g st = Some (x, y, st') /\ h x y = Some z.
Proof.
  unfold bin. destruct (both rtl f g st) as [[[x y] s1]|]; [|discriminate]. cbn.
  destruct (h x y) as [z0|] eqn:E; [|discriminate]. cbn. intros G. apply some_inj in G.
  apply pair_inj in G. destruct G as [-> ->]. eauto.
Qed.

(** Generic rule for a binary operator whose result is a number. *)
Lemma Den_bin f g yf yg tl tr yl yr cl cr (h : Z -> Z -> option Z) o y (s : Z) (b : bool) :
  Den f yf (tl, yl, cl) -> Den g yg (tr, yr, cr) ->
  wf_ty W y = true -> isptr y = false ->
  (forall x v z, cv W yf x = x -> cv W yg v = v -> h x v = Some z ->
     cv W y z = z /\ arith_val W o (wd x) (wd v) = Some (wd z)) ->
  (forall sl sr x v z, cl = Some sl -> cr = Some sr -> wd sl = wd x -> wd sr = wd v ->
     cv W yf x = x -> cv W yg v = v -> h x v = Some z -> b = true -> wd s = wd z) ->
  let c := if isc cl && isc cr && b then Some s else None in
  Den (bin f g h) y (simp (TBin o tl tr) y c, y, c).
Proof.
  intros Df Dg Wy Py Hs Hc c. apply Den_simp; try assumption.
  - intros; congruence.
  - intros st z st' H. apply bin_inv in H. destruct H as (x & v & B & H).
    destruct (both_den _ _ _ _ _ _ _ _ _ _ _ _ _ _ Df Dg B) as (E1 & E2 & _).
    apply (Hs x v z E1 E2 H).
  - intros st z st' H. apply bin_inv in H. destruct H as (x & v & B & H).
    destruct (both_den _ _ _ _ _ _ _ _ _ _ _ _ _ _ Df Dg B) as (E1 & E2 & _).
    cbn [FoldModel.teval].
    destruct Df as (_ & _ & _ & _ & Sf & _). destruct Dg as (_ & _ & _ & _ & Sg & _).
    rewrite (sem_both f g tl tr st x v st' Sf Sg B). cbn [obind].
    rewrite (proj2 (Hs x v z E1 E2 H)). reflexivity.
  - unfold c. intros s0 Es st z st' H. apply bin_inv in H. destruct H as (x & v & B & H).
    destruct (both_den _ _ _ _ _ _ _ _ _ _ _ _ _ _ Df Dg B) as (E1 & E2 & E3 & E4 & E5).
    destruct cl as [sl|]; [|discriminate]. destruct cr as [sr|]; [|discriminate].
    cbn [isc andb] in *. destruct b; [|discriminate]. apply some_inj in Es. subst s0.
    split; [apply E5; reflexivity|]. split; [|congruence].
    destruct (E3 sl eq_refl) as (W1 & _). destruct (E4 sr eq_refl) as (W2 & _).
    exact (Hc sl sr x v z eq_refl eq_refl W1 W2 E1 E2 H eq_refl).
Qed.

(** ** ~ + - *)
Definition un1 (f : St -> option (Z * St)) (h : Z -> Z) : St -> option (Z * St) :=
  fun st => let? (v, st) := f st in Some (h v, st).
Lemma un1_inv f h st z st' : un1 f h st = Some (z, st') ->
  exists v, f st = Some (v, st') /\ z = h v.
Proof.
  unfold un1. destruct (f st) as [[v s1]|]; [|discriminate]. cbn. intros G. apply some_inj in G.
  apply pair_inj in G. destruct G as [<- <-]. eauto.
Qed.

Definition unval (u : sunop) (v : Z) : Z :=
  match u with UCompl => -1 - v | UPlus => v | UMinus => - v end.

Lemma foldUn_ok u f y r r' : Den f y r -> foldUn u r = Some r' ->
  Den (un1 f (fun v => cv W (prom y) (unval u v))) (prom y) r'.
Proof.
  destruct r as [[t y0] c]. intros D H. pose proof D as (E0 & D2 & D3 & D4 & D5 & D6). subst y0.
  unfold foldUn in H. destruct (isptr y) eqn:P; [discriminate|].
  apply some_inj in H. subst r'. rewrite (proj1 (promote_prom y P)).
  assert (NP : isptr (prom y) = false) by (destruct y; cbn in *; congruence).
  assert (NEG : forall s v, wd s = wd v -> wd (s32 (-1 - s32 (s - 1))) = wd (- v)).
  { intros s v E. rewrite (w_s32 W HW).
    transitivity (wd (-1 - (s - 1))).
    - apply (csub W); [reflexivity|apply (w_s32 W HW)].
    - replace (-1 - (s - 1)) with (0 - s) by ring. replace (- v) with (0 - v) by ring.
      apply (csub W); [reflexivity|exact E]. }
  apply Den_simp.
  - apply wf_prom, D2.
  - intros; congruence.
  - intros st z st' H. apply un1_inv in H. destruct H as (v & F & ->).
    apply (cv_idem W HW), wf_prom, D2.
  - intros st z st' H. apply un1_inv in H. destruct H as (v & F & ->). cbn [FoldModel.teval].
    rewrite (D5 _ _ _ F). cbn [obind]. f_equal. f_equal.
    rewrite (wd_cv W HW) by apply wordy_prom.
    destruct u; cbn [unop_val unval].
    + change (wd (-1 - wd v) = wd (-1 - v)). apply (csub W); [reflexivity|apply (wd_wd W HW)].
    + reflexivity.
    + change (wd (- wd v) = wd (- v)). replace (- wd v) with (0 - wd v) by ring.
      replace (- v) with (0 - v) by ring. apply (csub W); [reflexivity|apply (wd_wd W HW)].
  - intros s Es st z st' H. apply un1_inv in H. destruct H as (v & F & ->).
    destruct c as [s0|]; [|discriminate]. cbn [option_map] in Es. apply some_inj in Es.
    destruct (D6 s0 eq_refl _ _ _ F) as (E1 & E2 & E3). split; [exact E1|]. split; [|congruence].
    rewrite (wd_cv W HW) by apply wordy_prom. subst s. destruct u; cbn [unval].
    + apply (csub W); [reflexivity|exact E2].
    + exact E2.
    + apply NEG, E2.
Qed.

(** ** * / % << >> & ^ | *)
Lemma foldMul_ok o f g yf yg l r r' :
  o <> BAdd -> o <> BSub -> Den f yf l -> Den g yg r -> foldMul W o l r = Some r' ->
  Den (bin f g (binary W strict o yf yg))
      (match o with BShl | BShr => prom yf | _ => common yf yg end) r'.
Proof.
  destruct l as [[tl yl] cl], r as [[tr yr] cr]. intros N1 N2 Df Dg H.
  pose proof Df as (El & Wl & Tl & _). pose proof Dg as (Er & Wr & Tr & _). subst yl yr.
  unfold foldMul in H.
  destruct (isptr yf) eqn:Pl; [discriminate|]. destruct (isptr yg) eqn:Pr; [discriminate|].
  cbn [orb] in H.
  assert (NC : isptr (common yf yg) = false) by (unfold common; destruct (_ || _); reflexivity).
  assert (NPr : isptr (prom yf) = false) by (destruct yf; cbn in *; congruence).
  rewrite (promote_common yf yg Pl Pr), (proj2 (promote_prom yf Pl)) in H.
  assert (G : forall o', o' = o -> o <> BShl -> o <> BShr ->
              forall x v z, cv W yf x = x -> cv W yg v = v -> binary W strict o yf yg x v = Some z ->
              cv W (common yf yg) z = z /\
              arith_val W (un_arith o (isuns yf || isuns yg)) (wd x) (wd v) = Some (wd z)).
  { intros o' _ S1 S2 x v z _ _ B. apply (arith_word W HW); try assumption.
    destruct o; try congruence; exact B. }
  assert (SIMPLE : forall s, (o = BMul \/ o = BAnd \/ o = BXor \/ o = BOr) ->
     (forall sl sr x v, cl = Some sl -> cr = Some sr -> wd sl = wd x -> wd sr = wd v ->
        forall z, binary W strict o yf yg x v = Some z -> wd s = wd z) ->
     let c := if isc cl && isc cr then Some s else None in
     Den (bin f g (binary W strict o yf yg)) (common yf yg)
       (simp (TBin (un_arith o (isuns yf || isuns yg)) tl tr) (common yf yg) c, common yf yg, c)).
  { intros s Ho Hc c.
    pose proof (Den_bin f g yf yg tl tr yf yg cl cr (binary W strict o yf yg)
                  (un_arith o (isuns yf || isuns yg)) (common yf yg) s true Df Dg
                  (wf_common W yf yg) NC) as L. cbv zeta in L. rewrite andb_true_r in L.
    apply L.
    - intros x v z X V B. apply (G o eq_refl); try assumption; destruct Ho as [-> | [-> | [-> | ->]]]; discriminate.
    - intros; eapply Hc; eauto. }
  assert (RNG : forall v, 0 <= v < 8 * W -> wd v = v).
  { intros v R. apply (wd_id W). pose proof (Z.pow_gt_lin_r 2 (8 * W)). lia. }
  assert (SHL : forall x v z, cv W yf x = x -> cv W yg v = v -> binary W strict BShl yf yg x v = Some z ->
     cv W (prom yf) z = z /\ arith_val W EShl (wd x) (wd v) = Some (wd z)).
  { intros x v z X V B. cbn [binary] in B.
    destruct ((0 <=? v) && (v <? 8 * W)) eqn:R; [|discriminate]. apply some_inj in B. subst z.
    split; [apply (cv_idem W HW), wf_prom, Wl|]. cbn [arith_val]. rewrite (RNG v) by lia.
    replace (v <? 8 * W) with true by lia. f_equal. rewrite (wd_cv W HW) by apply wordy_prom.
    apply (cmul W); [apply (wd_wd W HW)|reflexivity]. }
  assert (SHR : forall x v z, cv W yf x = x -> cv W yg v = v -> binary W strict BShr yf yg x v = Some z ->
     cv W (prom yf) z = z /\
     arith_val W (if isuns yf then EUShr else EShr) (wd x) (wd v) = Some (wd z)).
  { intros x v z X V B. cbn [binary] in B.
    destruct ((0 <=? v) && (v <? 8 * W)) eqn:R; [|discriminate]. apply some_inj in B. subst z.
    split; [apply (cv_idem W HW), wf_prom, Wl|]. rewrite (wd_cv W HW) by apply wordy_prom.
    destruct (isuns yf) eqn:U; cbn [arith_val]; rewrite (RNG v) by lia;
    replace (v <? 8 * W) with true by lia; f_equal.
    - destruct yf; try discriminate U. cbn [cv] in X. change (wrap (8 * W) x) with (wd x) in X.
      rewrite X. symmetry. apply (wd_id W). pose proof (wd_range W HW x) as B. rewrite X in B.
      pose proof (Z.pow_pos_nonneg 2 v). split; [apply Z.div_pos; lia|].
      apply Z.div_lt_upper_bound; [lia|]. nia.
    - rewrite (sint_wd W HW). pose proof (prom_id W HW yf x Wl X) as PX.
      assert (PT : prom yf = TInt) by (destruct yf; cbn in *; congruence).
      rewrite PT in PX. cbn [cv] in PX. change (sint W x = x) in PX. rewrite PX. reflexivity. }
  destruct o; try congruence; cbv zeta in H.
  - (* mul *)
    apply some_inj in H. subst r'. apply (SIMPLE _ (or_introl eq_refl)).
    intros sl sr x v -> -> E1 E2 z B. cbn [host]. cbn [binary arith] in B. apply some_inj in B. subst z.
    rewrite (wd_cv W HW) by apply wordy_common. apply (mul_const W HW);
    rewrite (wd_cv W HW) by apply wordy_common; assumption.
  - (* div *)
    destruct (divCalc W false (host cl) (host cr) (isuns yf || isuns yg) (isc cl) (isc cr)) as [ok s] eqn:DC.
    apply some_inj in H. subst r'.
    pose proof (Den_bin f g yf yg tl tr yf yg cl cr (binary W strict BDiv yf yg)
                  (un_arith BDiv (isuns yf || isuns yg)) (common yf yg) s ok Df Dg
                  (wf_common W yf yg) NC) as L. cbv zeta in L.
    replace (match isuns yf || isuns yg with true => EUDiv | false => EDiv end)
      with (un_arith BDiv (isuns yf || isuns yg)) by reflexivity.
    apply L.
    + intros x v z X V B. apply (G BDiv eq_refl); try assumption; discriminate.
    + intros sl sr x v z -> -> E1 E2 _ _ B _. cbn [host isc] in DC.
      cbn [binary] in B. unfold common in B.
      destruct (div_const W HW false (isuns yf || isuns yg) sl sr x v z E1 E2) as (s' & D1 & D2).
      { destruct (isuns yf || isuns yg); exact B. }
      rewrite D1 in DC. apply pair_inj in DC. destruct DC as [_ <-]. exact D2.
  - (* mod *)
    destruct (divCalc W true (host cl) (host cr) (isuns yf || isuns yg) (isc cl) (isc cr)) as [ok s] eqn:DC.
    apply some_inj in H. subst r'.
    pose proof (Den_bin f g yf yg tl tr yf yg cl cr (binary W strict BMod yf yg)
                  (un_arith BMod (isuns yf || isuns yg)) (common yf yg) s ok Df Dg
                  (wf_common W yf yg) NC) as L. cbv zeta in L.
    replace (match isuns yf || isuns yg with true => EUMod | false => EMod end)
      with (un_arith BMod (isuns yf || isuns yg)) by reflexivity.
    apply L.
    + intros x v z X V B. apply (G BMod eq_refl); try assumption; discriminate.
    + intros sl sr x v z -> -> E1 E2 _ _ B _. cbn [host isc] in DC.
      cbn [binary] in B. unfold common in B.
      destruct (div_const W HW true (isuns yf || isuns yg) sl sr x v z E1 E2) as (s' & D1 & D2).
      { destruct (isuns yf || isuns yg); exact B. }
      rewrite D1 in DC. apply pair_inj in DC. destruct DC as [_ <-]. exact D2.
  - (* shl *)
    destruct cr as [sr|].
    + cbn [isc host] in H. set (n0 := if isuns yg then s32 (truncUint W sr) else truncInt W sr) in H.
      destruct (shiftCount W (isuns yg) n0) as [n rep] eqn:SC.
      assert (CNT : forall v, wd sr = wd v -> 0 <= v < 8 * W -> n = v /\ rep = false /\ wd v = v).
      { intros v E B. destruct (count_const W HW (isuns yg) sr v E B) as (C1 & C2 & C3).
        fold n0 in C1, C2. rewrite C2 in SC. apply pair_inj in SC. destruct SC as [-> ->]. auto. }
      apply some_inj in H. subst r'.
      destruct rep.
      * apply Den_void; [apply wf_prom, Wl|exact NPr|]. intros st.
        unfold bin. destruct (both rtl f g st) as [[[x v] s1]|] eqn:B; [|reflexivity]. cbn [obind].
        destruct (both_den _ _ _ _ _ _ _ _ _ _ _ _ _ _ Df Dg B) as (_ & _ & _ & E4 & _).
        destruct (E4 sr eq_refl) as (E & _). cbn [binary].
        destruct ((0 <=? v) && (v <? 8 * W)) eqn:R; [|reflexivity].
        destruct (CNT v E) as (_ & F & _); [lia|discriminate F].
      * pose proof (Den_bin f g yf yg tl tr yf yg cl (Some sr) (binary W strict BShl yf yg)
                  EShl (prom yf) (s32 (u32 (host cl) * 2 ^ n)) true Df Dg (wf_prom W _ Wl) NPr) as L.
        cbv zeta in L. rewrite andb_true_r in L. apply L.
        -- apply SHL.
        -- intros sl sr' x v z -> Es E1 E2 X V B _. apply some_inj in Es. subst sr'.
           cbn [binary] in B. destruct ((0 <=? v) && (v <? 8 * W)) eqn:R; [|discriminate].
           apply some_inj in B. subst z. destruct (CNT v E2) as (-> & _ & _); [lia|]. cbn [host].
           rewrite (w_s32 W HW), (wd_cv W HW) by apply wordy_prom.
           apply (cmul W); [rewrite (w_u32 W HW); exact E1|reflexivity].
    + cbn [isc] in H. apply some_inj in H. subst r'. rewrite andb_false_r.
      pose proof (Den_bin f g yf yg tl tr yf yg cl None (binary W strict BShl yf yg)
                  EShl (prom yf) 0 true Df Dg (wf_prom W _ Wl) NPr) as L.
      cbv zeta in L. cbn [isc] in L. rewrite andb_false_r in L. apply L; [apply SHL|congruence].
  - (* shr *)
    set (o' := if isuns yf then EUShr else EShr) in *.
    destruct cr as [sr|].
    + cbn [isc host] in H. set (n0 := if isuns yg then s32 (truncUint W sr) else truncInt W sr) in H.
      destruct (shiftCount W (isuns yg) n0) as [n rep] eqn:SC.
      assert (CNT : forall v, wd sr = wd v -> 0 <= v < 8 * W -> n = v /\ rep = false /\ wd v = v).
      { intros v E B. destruct (count_const W HW (isuns yg) sr v E B) as (C1 & C2 & C3).
        fold n0 in C1, C2. rewrite C2 in SC. apply pair_inj in SC. destruct SC as [-> ->]. auto. }
      apply some_inj in H. subst r'.
      destruct rep.
      * apply Den_void; [apply wf_prom, Wl|exact NPr|]. intros st.
        unfold bin. destruct (both rtl f g st) as [[[x v] s1]|] eqn:B; [|reflexivity]. cbn [obind].
        destruct (both_den _ _ _ _ _ _ _ _ _ _ _ _ _ _ Df Dg B) as (_ & _ & _ & E4 & _).
        destruct (E4 sr eq_refl) as (E & _). cbn [binary].
        destruct ((0 <=? v) && (v <? 8 * W)) eqn:R; [|reflexivity].
        destruct (CNT v E) as (_ & F & _); [lia|discriminate F].
      * match goal with |- Den _ _ (simp _ _ (if _ then Some ?s else _), _, _) =>
          pose proof (Den_bin f g yf yg tl tr yf yg cl (Some sr) (binary W strict BShr yf yg)
                  o' (prom yf) s true Df Dg (wf_prom W _ Wl) NPr) as L end.
        cbv zeta in L. rewrite andb_true_r in L. apply L.
        -- apply SHR.
        -- intros sl sr' x v z -> Es E1 E2 X V B _. apply some_inj in Es. subst sr'.
           cbn [binary] in B. destruct ((0 <=? v) && (v <? 8 * W)) eqn:R; [|discriminate].
           apply some_inj in B. subst z. destruct (CNT v E2) as (-> & _ & _); [lia|]. cbn [host].
           rewrite (wd_cv W HW) by apply wordy_prom.
           destruct (isuns yf) eqn:U.
           ++ destruct yf; try discriminate U. cbn [cv] in X. change (wrap (8 * W) x) with (wd x) in X.
              rewrite (w_s32 W HW), (tU W HW), E1, X. reflexivity.
           ++ destruct (v =? 0) eqn:V0.
              ** apply Z.eqb_eq in V0. subst v. change (2 ^ 0) with 1. rewrite Z.div_1_r. exact E1.
              ** rewrite (tU W HW), (tI W HW), (sint_eq W HW _ _ E1).
                 pose proof (prom_id W HW yf x Wl X) as PX.
                 assert (PT : prom yf = TInt) by (destruct yf; cbn in *; congruence).
                 rewrite PT in PX. cbn [cv] in PX. change (sint W x = x) in PX. rewrite PX.
                 apply (shr_const W HW); [|lia]. rewrite <- PX. apply (sint_range W HW).
    + cbn [isc] in H. apply some_inj in H. subst r'. rewrite andb_false_r.
      pose proof (Den_bin f g yf yg tl tr yf yg cl None (binary W strict BShr yf yg)
                  o' (prom yf) 0 true Df Dg (wf_prom W _ Wl) NPr) as L.
      cbv zeta in L. cbn [isc] in L. rewrite andb_false_r in L. apply L; [apply SHR|congruence].
  - apply some_inj in H. subst r'. apply SIMPLE; [tauto|].
    intros sl sr x v -> -> E1 E2 z B. cbn [host]. cbn [binary arith] in B. apply some_inj in B. subst z.
    rewrite (wd_cv W HW) by apply wordy_common. apply (cland W HW);
    rewrite (wd_cv W HW) by apply wordy_common; assumption.
  - apply some_inj in H. subst r'. apply SIMPLE; [tauto|].
    intros sl sr x v -> -> E1 E2 z B. cbn [host]. cbn [binary arith] in B. apply some_inj in B. subst z.
    rewrite (wd_cv W HW) by apply wordy_common. apply (clxor W HW);
    rewrite (wd_cv W HW) by apply wordy_common; assumption.
  - apply some_inj in H. subst r'. apply SIMPLE; [tauto|].
    intros sl sr x v -> -> E1 E2 z B. cbn [host]. cbn [binary arith] in B. apply some_inj in B. subst z.
    rewrite (wd_cv W HW) by apply wordy_common. apply (clor W HW);
    rewrite (wd_cv W HW) by apply wordy_common; assumption.
Qed.

(** ** + and - *)
Lemma teval_num_r o a u n st x st' z :
  teval a st = Some (x, st') -> arith_val W o x (wd n) = Some z ->
  teval (TBin o a (TNum u n)) st = Some (z, st').
Proof.
  intros E Z0. cbn [FoldModel.teval].
  replace (both rtl (teval a) (fun st0 => Some (wd n, st0)) st) with (Some (x, wd n, st')).
  - cbn [obind]. rewrite Z0. reflexivity.
  - symmetry. destruct rtl eqn:R; unfold both; cbn [obind]; rewrite E; reflexivity.
Qed.
Lemma teval_num_l o a u n st x st' z :
  teval a st = Some (x, st') -> arith_val W o (wd n) x = Some z ->
  teval (TBin o (TNum u n) a) st = Some (z, st').
Proof.
  intros E Z0. cbn [FoldModel.teval].
  replace (both rtl (fun st0 => Some (wd n, st0)) (teval a) st) with (Some (wd n, x, st')).
  - cbn [obind]. rewrite Z0. reflexivity.
  - symmetry. destruct rtl eqn:R; unfold both; cbn [obind]; rewrite E; reflexivity.
Qed.

Lemma sem_scale g tr inc : sem g tr ->
  sem (un1 g (fun v => v * inc)) (if inc =? 1 then tr else TBin EMul tr (TNum false inc)).
Proof.
  intros S st z st' H. apply un1_inv in H. destruct H as (v & G & ->).
  destruct (inc =? 1) eqn:I.
  - apply Z.eqb_eq in I. subst inc. rewrite Z.mul_1_r. apply S, G.
  - eapply teval_num_r; [apply S, G|]. cbn [arith_val]. f_equal. apply (wd_mul W).
Qed.
Lemma both_scale_r {X} (f : St -> option (X * St)) g h st x v st' :
  both rtl f g st = Some (x, v, st') -> both rtl f (un1 g h) st = Some (x, h v, st').
Proof.
  intros H. apply both_inv in H. destruct H as [st1 [(R & F & G)|(R & G & F)]].
  - apply (both_l rtl _ _ _ st1 _ _ _ R F). unfold un1. rewrite G. reflexivity.
  - apply (both_r rtl _ _ _ st1 _ _ _ R); [|exact F]. unfold un1. rewrite G. reflexivity.
Qed.
Lemma both_scale_l {Y} (g : St -> option (Y * St)) f h st x v st' :
  both rtl f g st = Some (x, v, st') -> both rtl (un1 f h) g st = Some (h x, v, st').
Proof.
  intros H. apply both_inv in H. destruct H as [st1 [(R & F & G)|(R & G & F)]].
  - apply (both_l rtl _ _ _ st1 _ _ _ R); [|exact G]. unfold un1. rewrite F. reflexivity.
  - apply (both_r rtl _ _ _ st1 _ _ _ R G). unfold un1. rewrite F. reflexivity.
Qed.

Lemma merge_sem t s t' st x st' : mergeAdd t s = Some t' ->
  teval t st = Some (x, st') -> teval t' st = Some (wd (x + s), st').
Proof.
  revert t' st x st'. induction t as [u n|n|y a|u a IH|o a IHa b IHb|c a IHa b IHb|a IHa b IHb|a IHa b IHb|c IHc a IHa b IHb|a IHa b IHb];
  intros t' st x st' M E; cbn [mergeAdd] in M; try discriminate M.
  - apply some_inj in M. subst t'. cbn in E |- *. apply some_inj in E. apply pair_inj in E.
    destruct E as [<- <-]. f_equal. f_equal. change (wrap (8 * W)) with wd.
    rewrite (w_s32 W HW). apply (cadd W); [symmetry; apply (wd_wd W HW)|reflexivity].
  - apply some_inj in M. subst t'. cbn in E |- *. apply some_inj in E. apply pair_inj in E.
    destruct E as [<- <-]. f_equal. f_equal. 
    transitivity (wd (bp + (n + s))).
    + apply (cadd W); [reflexivity|apply (w_s32 W HW)].
    + rewrite Z.add_assoc. apply (cadd W); [symmetry; apply (wd_wd W HW)|reflexivity].
  - destruct u; try discriminate M. destruct (mergeAdd a s) as [a'|] eqn:Ma; [|discriminate M].
    apply some_inj in M. subst t'. cbn [FoldModel.teval] in E |- *.
    destruct (teval a st) as [[v st1]|] eqn:Ea; [|discriminate]. cbn in E.
    apply some_inj in E. apply pair_inj in E. destruct E as [<- <-].
    rewrite (IH _ _ _ _ eq_refl Ea). reflexivity.
  - destruct o; try discriminate M. destruct (mergeAdd b s) as [b'|] eqn:Mb; [|discriminate M].
    apply some_inj in M. subst t'. cbn [FoldModel.teval] in E |- *.
    destruct (both rtl (teval a) (teval b) st) as [[[p q] st1]|] eqn:B; [|discriminate].
    cbn [obind arith_val] in E. apply some_inj in E. apply pair_inj in E. destruct E as [<- <-].
    replace (both rtl (teval a) (teval b') st) with (Some (p, wd (q + s), st1)).
    + cbn [obind arith_val]. f_equal. f_equal.
      transitivity (wd (p + (q + s))).
      * apply (cadd W); [reflexivity|apply (wd_wd W HW)].
      * rewrite Z.add_assoc. apply (cadd W); [symmetry; apply (wd_wd W HW)|reflexivity].
    + symmetry. apply both_inv in B. destruct B as [st2 [(R & F & G)|(R & G & F)]].
      * apply (both_l rtl _ _ _ st2 _ _ _ R F). eapply IHb; [reflexivity|exact G].
      * apply (both_r rtl _ _ _ st2 _ _ _ R); [|exact F]. eapply IHb; [reflexivity|exact G].
Qed.

Lemma neg_const s : wd (s32 (-1 - s32 (s - 1))) = wd (- s).
Proof.
  rewrite (w_s32 W HW). transitivity (wd (-1 - (s - 1))).
  - apply (csub W); [reflexivity|apply (w_s32 W HW)].
  - f_equal. ring.
Qed.
Lemma scaled_const s v inc : wd s = wd v -> wd (s32 (s * inc)) = wd (v * inc).
Proof. intros E. rewrite (w_s32 W HW). apply (cmul W); [exact E|reflexivity]. Qed.

Lemma foldAdd_ok (sub : bool) f g yf yg l r r' :
  Den f yf l -> Den g yg r -> foldAdd sub l r = Some r' ->
  Den (bin f g (binary W strict (if sub then BSub else BAdd) yf yg)) (sumty yf yg) r'.
Proof.
  destruct l as [[tl yl] cl], r as [[tr yr] cr]. intros Df Dg H.
  pose proof Df as (El & Wl & Tl & Vl & Sl & Cl). pose proof Dg as (Er & Wr & Tr & Vr & Sr & Cr).
  subst yl yr. unfold foldAdd in H. cbv zeta in H.
  set (c := if isc cl && isc cr then Some _ else None) in H.
  assert (CB : forall s, c = Some s -> exists sl sr, cl = Some sl /\ cr = Some sr).
  { intros s. unfold c. destruct cl as [sl|]; [|discriminate]. destruct cr as [sr|]; [|discriminate].
    intros _. eauto. }
  destruct (isptr yf) eqn:Pl; destruct (isptr yg) eqn:Pr; cbn [andb negb orb] in H.
  - (* pointer, pointer *)
    destruct sub; cbn [andb negb] in H; [|discriminate].
    destruct (esize yf =? esize yg) eqn:Es; [|discriminate]. apply some_inj in H. subst r'.
    assert (Y : sumty yf yg = TInt) by (unfold sumty; rewrite Pl, Pr; reflexivity). rewrite Y.
    assert (INC : 1 <= esize yf < 2 ^ (8 * W - 1)) by (destruct yf; try discriminate Pl; cbn [wf_ty esize] in *; lia).
    assert (V : forall x v z, binary W strict BSub yf yg x v = Some z ->
              sint W (x - v) = z * esize yf /\ sint W z = z).
    { intros x v z B. cbn [binary] in B. rewrite Pl, Pr in B. cbv zeta in B. cbn [cv] in B.
      change (swrap (8 * W) (x - v)) with (sint W (x - v)) in B.
      destruct (sint W (x - v) mod esize yf =? 0) eqn:D; [|discriminate]. apply some_inj in B.
      apply Z.eqb_eq in D. apply Z.mod_divide in D; [|lia]. destruct D as [q Q].
      rewrite Q in B. rewrite Z.div_mul in B by lia. subst q. split; [exact Q|].
      apply (sint_id W HW). pose proof (sint_range W HW (x - v)) as R. nia. }
    apply Den_simp.
    + reflexivity.
    + intros s _ P. discriminate P.
    + intros st z st' H. apply bin_inv in H. destruct H as (x & v & B & H). apply V in H. apply H.
    + intros st z st' H. apply bin_inv in H. destruct H as (x & v & B & H). apply V in H.
      destruct H as [Q R].
      assert (E : teval (TBin ESub tl tr) st = Some (wd (x - v), st')).
      { cbn [FoldModel.teval]. rewrite (sem_both f g tl tr st x v st' Sl Sr B). cbn [obind arith_val].
        f_equal. f_equal. apply (wd_sub W). }
      destruct (esize yf =? 1) eqn:I.
      * apply Z.eqb_eq in I. rewrite I, Z.mul_1_r in Q. rewrite E. f_equal. f_equal.
        rewrite <- (wd_sint W HW), Q. reflexivity.
      * eapply teval_num_r; [exact E|]. cbn [arith_val]. rewrite !(sint_wd W HW), Q.
        rewrite (sint_id W HW (esize yf)) by lia.
        replace (esize yf =? 0) with false by lia. replace (esize yf =? -1) with false by lia.
        rewrite andb_false_r. cbn [orb]. f_equal. f_equal. apply Z.quot_mul. lia.
    + intros s Ec st z st' H. apply bin_inv in H. destruct H as (x & v & B & H).
      destruct (CB s Ec) as (sl & sr & -> & ->).
      destruct (both_den _ _ _ _ _ _ _ _ _ _ _ _ _ _ Df Dg B) as (_ & _ & E3 & E4 & E5).
      destruct (E3 sl eq_refl) as (W1 & _ & X0). destruct (E4 sr eq_refl) as (W2 & _ & V0).
      split; [apply E5; reflexivity|]. split; [|discriminate].
      unfold c in Ec. cbn [isc andb host] in Ec. apply some_inj in Ec. subst s.
      apply V in H. destruct H as [Q R]. rewrite X0, V0 in * by assumption.
      change (0 - 0) with 0 in Q. rewrite (sint_id W HW 0) in Q by lia.
      assert (z = 0) by nia. subst z.
      rewrite (w_s32 W HW). change 0 with (0 - 0). apply (csub W); [rewrite (w_u32 W HW); exact W1|exact W2].
  - (* pointer, number *)
    assert (Y : sumty yf yg = yf) by (unfold sumty; rewrite Pl, Pr; reflexivity). rewrite Y.
    assert (WY : wordy yf = true) by (destruct yf; try discriminate; reflexivity).
    apply some_inj in H. subst r'.
    set (inc := esize yf) in *.
    assert (V : forall x v z, binary W strict (if sub then BSub else BAdd) yf yg x v = Some z ->
              z = cv W yf (if sub then x - v * inc else x + v * inc) /\ (strict = true -> x <> 0)).
    { intros x v z B. destruct sub; cbn [binary] in B; rewrite ?Pl, ?Pr in B;
      (destruct (strict && (x =? 0)) eqn:SX; [discriminate|]); apply some_inj in B;
      (split; [symmetry; exact B|]); intros St0; rewrite St0 in SX; cbn in SX; lia. }
    apply Den_simp.
    + exact Wl.
    + intros s Ec _. destruct (CB s Ec) as (sl & sr & -> & ->). apply (Tl sl eq_refl), eq_refl.
    + intros st z st' H. apply bin_inv in H. destruct H as (x & v & B & H). apply V in H.
      destruct H as [-> _]. apply (cv_idem W HW), Wl.
    + intros st z st' H. apply bin_inv in H. destruct H as (x & v & B & H). apply V in H.
      destruct H as [-> _]. rewrite (wd_cv W HW) by exact WY.
      destruct (both_den _ _ _ _ _ _ _ _ _ _ _ _ _ _ Df Dg B) as (_ & _ & E3 & E4 & E5).
      destruct cr as [sr|].
      * destruct (E4 sr eq_refl) as (W2 & ET & _).
        pose proof (scaled_const sr v inc W2) as SC.
        destruct (mergeAdd tl _) as [t'|] eqn:M.
        -- rewrite (merge_sem _ _ _ _ _ _ M ET). f_equal. f_equal.
           destruct sub.
           ++ replace (x - v * inc) with (x + - (v * inc)) by ring.
              apply (cadd W); [apply (wd_wd W HW)|]. rewrite neg_const.
              rewrite <- (Z.sub_0_l (s32 (sr * inc))), <- (Z.sub_0_l (v * inc)).
              apply (csub W); [reflexivity|exact SC].
           ++ apply (cadd W); [apply (wd_wd W HW)|exact SC].
        -- destruct (Tr sr eq_refl) as ((u & n & ->) & _). cbn [setNum].
           eapply teval_num_r; [exact ET|]. destruct sub; cbn [arith_val]; f_equal.
           ++ rewrite (wd_sub W). apply (csub W); [reflexivity|exact SC].
           ++ rewrite (wd_add W). apply (cadd W); [reflexivity|exact SC].
      * cbn [FoldModel.teval].
        rewrite (sem_both f (un1 g (fun v => v * inc)) tl _ st x (v * inc) st' Sl (sem_scale g tr inc Sr)
                  (both_scale_r f g _ _ _ _ _ B)). cbn [obind].
        destruct sub; cbn [arith_val]; [rewrite (wd_sub W)|rewrite (wd_add W)]; reflexivity.
    + intros s Ec st z st' H. exfalso. apply bin_inv in H. destruct H as (x & v & B & H).
      destruct (CB s Ec) as (sl & sr & -> & ->).
      destruct (both_den _ _ _ _ _ _ _ _ _ _ _ _ _ _ Df Dg B) as (_ & _ & E3 & _).
      destruct (E3 sl eq_refl) as (_ & _ & X0).
      apply V in H. apply H; [apply (Tl sl eq_refl); reflexivity|apply X0; exact Pl].
  - (* number, pointer *)
    destruct sub; cbn [andb negb] in H; [discriminate|]. apply some_inj in H. subst r'.
    assert (Y : sumty yf yg = yg) by (unfold sumty; rewrite Pl, Pr; reflexivity). rewrite Y.
    assert (WY : wordy yg = true) by (destruct yg; try discriminate; reflexivity).
    set (inc := esize yg) in *.
    assert (V : forall x v z, binary W strict BAdd yf yg x v = Some z ->
              z = cv W yg (x * inc + v) /\ (strict = true -> v <> 0)).
    { intros x v z B. cbn [binary] in B. rewrite Pl, Pr in B.
      destruct (strict && (v =? 0)) eqn:SX; [discriminate|]. apply some_inj in B.
      split; [symmetry; exact B|]. intros St0; rewrite St0 in SX; cbn in SX; lia. }
    apply Den_simp.
    + exact Wr.
    + intros s Ec _. destruct (CB s Ec) as (sl & sr & -> & ->). apply (Tr sr eq_refl), eq_refl.
    + intros st z st' H. apply bin_inv in H. destruct H as (x & v & B & H). apply V in H.
      destruct H as [-> _]. apply (cv_idem W HW), Wr.
    + intros st z st' H. apply bin_inv in H. destruct H as (x & v & B & H). apply V in H.
      destruct H as [-> _]. rewrite (wd_cv W HW) by exact WY.
      destruct (both_den _ _ _ _ _ _ _ _ _ _ _ _ _ _ Df Dg B) as (_ & _ & E3 & E4 & E5).
      destruct cl as [sl|].
      * destruct (E3 sl eq_refl) as (W2 & ET & _).
        pose proof (scaled_const sl x inc W2) as SC.
        destruct (mergeAdd tr _) as [t'|] eqn:M.
        -- rewrite (merge_sem _ _ _ _ _ _ M ET). f_equal. f_equal. rewrite (Z.add_comm (x * inc)).
           apply (cadd W); [apply (wd_wd W HW)|exact SC].
        -- destruct (Tl sl eq_refl) as ((u & n & ->) & _). cbn [setNum].
           eapply teval_num_l; [exact ET|]. cbn [arith_val]; f_equal.
           rewrite (wd_add W). apply (cadd W); [exact SC|reflexivity].
      * cbn [FoldModel.teval].
        rewrite (sem_both (un1 f (fun v => v * inc)) g _ tr st (x * inc) v st' (sem_scale f tl inc Sl) Sr
                  (both_scale_l g f _ _ _ _ _ B)). cbn [obind].
        cbn [arith_val]. rewrite (wd_add W). reflexivity.
    + intros s Ec st z st' H. exfalso. apply bin_inv in H. destruct H as (x & v & B & H).
      destruct (CB s Ec) as (sl & sr & -> & ->).
      destruct (both_den _ _ _ _ _ _ _ _ _ _ _ _ _ _ Df Dg B) as (_ & _ & _ & E4 & _).
      destruct (E4 sr eq_refl) as (_ & _ & X0).
      apply V in H. apply H; [apply (Tr sr eq_refl); reflexivity|apply X0; exact Pr].
  - (* number, number *)
    assert (NC : isptr (common yf yg) = false) by (unfold common; destruct (_ || _); reflexivity).
    assert (Y : sumty yf yg = common yf yg) by (unfold sumty; rewrite Pl, Pr; reflexivity). rewrite Y.
    rewrite (promote_common yf yg Pl Pr) in H. apply some_inj in H. subst r'.
    pose proof (Den_bin f g yf yg tl tr yf yg cl cr (binary W strict (if sub then BSub else BAdd) yf yg)
                  (if sub then ESub else EAdd) (common yf yg)
                  (if sub then s32 (u32 (host cl) - host cr) else s32 (u32 (host cl) + host cr))
                  true Df Dg (wf_common W yf yg) NC) as L. cbv zeta in L. rewrite andb_true_r in L.
    fold c in L. apply L.
    + intros x v z X V B.
      destruct (arith_word W HW (if sub then BSub else BAdd) yf yg x v z) as [Q1 Q2].
      * destruct sub; discriminate.
      * destruct sub; discriminate.
      * destruct sub; cbn [binary] in B; rewrite ?Pl, ?Pr in B; exact B.
      * split; [exact Q1|]. destruct sub; exact Q2.
    + intros sl sr x v z -> -> E1 E2 _ _ B _. cbn [host].
      destruct sub; cbn [binary arith] in B; rewrite ?Pl, ?Pr in B; apply some_inj in B; subst z;
      rewrite (w_s32 W HW), (wd_cv W HW) by apply wordy_common;
      [apply (csub W)|apply (cadd W)]; rewrite ?(w_u32 W HW), (wd_cv W HW) by apply wordy_common; assumption.
Qed.

(** ** comparisons *)
Definition cmpty (ya yb : ty) : ty :=
  if isptr ya then ya else if isptr yb then yb else common ya yb.
Definition cmp2 f g (h : Z -> Z -> bool) : St -> option (Z * St) :=
  fun st => let? (x, y, st) := both rtl f g st in Some (b2z (h x y), st).
Lemma cmp2_inv f g h st z st' : cmp2 f g h st = Some (z, st') ->
  exists x y, both rtl f g st = Some (x, y, st') /\ z = b2z (h x y).
Proof.
  unfold cmp2. destruct (both rtl f g st) as [[[x y] s1]|]; [|discriminate]. cbn [obind].
  intros G. apply some_inj in G. apply pair_inj in G. destruct G as [<- <-]. eauto.
Qed.
Lemma b2z_id b : cv W TInt (b2z b) = b2z b.
Proof. apply (sint_id W HW). destruct HW; subst W; destruct b; vm_compute; split; congruence. Qed.
Lemma b2z_wd b : wd (b2z b) = b2z b.
Proof. apply (wd_id W). destruct HW; subst W; destruct b; vm_compute; split; congruence. Qed.

Lemma foldCmp_ok c f g yf yg l r r' :
  Den f yf l -> Den g yg r -> foldCmp W c l r = Some r' ->
  Den (cmp2 f g (fun x y => compare c (cv W (cmpty yf yg) x) (cv W (cmpty yf yg) y))) TInt r' /\
  (forall s, snd r' = Some s -> s = 0 \/ s = 1).
Proof.
  destruct l as [[tl yl] cl], r as [[tr yr] cr]. intros Df Dg H.
  pose proof Df as (El & Wl & Tl & Vl & Sl & Cl). pose proof Dg as (Er & Wr & Tr & Vr & Sr & Cr).
  subst yl yr. unfold foldCmp in H. cbv zeta in H.
  match type of H with (if ?b then _ else _) = _ => destruct b eqn:K; [discriminate|] end.
  apply some_inj in H. subst r'.
  split.
  2: { cbn [snd]. intros s. destruct (isc cl && isc cr); [|discriminate]. intros E. apply some_inj in E.
       subst s. match goal with |- b2z ?b = 0 \/ _ => destruct b; cbn; auto end. }
  set (t := cmpty yf yg) in *.
  assert (WT : wordy t = true).
  { unfold t, cmpty. destruct (isptr yf) eqn:P; [destruct yf; try discriminate; reflexivity|].
    destruct (isptr yg) eqn:Q; [destruct yg; try discriminate; reflexivity|]. apply wordy_common. }
  set (u := isptr yf || isptr yg || (isuns yf || isuns yg)) in *.
  assert (UT : cv W t = if u then wd else sint W).
  { unfold t, u, cmpty. destruct yf, yg; reflexivity. }
  apply Den_simp.
  - reflexivity.
  - intros s _ P. discriminate P.
  - intros st z st' H. apply cmp2_inv in H. destruct H as (x & v & B & ->). apply b2z_id.
  - intros st z st' H. apply cmp2_inv in H. destruct H as (x & v & B & ->). cbn [FoldModel.teval].
    rewrite (sem_both f g tl tr st x v st' Sl Sr B). cbn [obind]. rewrite b2z_wd. f_equal. f_equal. f_equal.
    rewrite UT. unfold cmpv.
    destruct c, u; cbn [cmp_val compare]; rewrite ?(sint_wd W HW), ?Z.gtb_ltb, ?Z.geb_leb, ?(sint_inj W HW); reflexivity.
  - intros s Ec st z st' H. apply cmp2_inv in H. destruct H as (x & v & B & ->).
    destruct (both_den _ _ _ _ _ _ _ _ _ _ _ _ _ _ Df Dg B) as (_ & _ & E3 & E4 & E5).
    destruct cl as [sl|]; [|discriminate]. destruct cr as [sr|]; [|discriminate].
    cbn [isc andb host] in *. apply some_inj in Ec. subst s.
    destruct (E3 sl eq_refl) as (W1 & _ & X0). destruct (E4 sr eq_refl) as (W2 & _ & V0).
    split; [apply E5; reflexivity|]. split; [|discriminate]. f_equal. f_equal.
    assert (U : forall a, u32 (s32 (wd a)) = wd a).
    { intros a. unfold u32, s32. rewrite swrap_wrap by reflexivity. unfold wrap.
      apply Z.mod_small. pose proof (wd_range W HW a) as R. clear - HW R.
      destruct HW; subst W; [change (2 ^ (8 * 2)) with 65536 in R|change (2 ^ (8 * 4)) with (2 ^ 32) in R];
      [change (2 ^ 32) with 4294967296|]; lia. }
    assert (SI : forall a b, (s32 (wd a) =? s32 (wd b)) = (wd a =? wd b)).
    { intros a b. apply eq_true_iff_eq. rewrite !Z.eqb_eq. split; intros G; [|congruence].
      rewrite <- (U a), G. apply U. }
    rewrite UT, !(tU W HW), !(tI W HW), !U, SI, !W1, !W2, !(sint_eq W HW _ _ W1), !(sint_eq W HW _ _ W2).
    unfold u. destruct (isuns yf || isuns yg) eqn:UN; cbn [negb].
    + rewrite orb_true_r. destruct c; reflexivity.
    + rewrite orb_false_r. destruct (isptr yf) eqn:Pl; destruct (isptr yg) eqn:Pr; cbn [orb].
      * rewrite X0, V0 by reflexivity. destruct c; cbn [compare]; rewrite ?Z.ltb_irrefl, ?Z.leb_refl, ?Z.eqb_refl; reflexivity.
      * destruct c; cbn in K; try discriminate K; cbn [compare]; rewrite (sint_inj W HW); reflexivity.
      * destruct c; cbn in K; try discriminate K; cbn [compare]; rewrite (sint_inj W HW); reflexivity.
      * destruct c; reflexivity.
Qed.

(** ** casts *)
Lemma small_wd sz v : wf_ty W (TSm sz) = true -> cv W (TSm sz) (wd v) = cv W (TSm sz) v.
Proof.
  intros H. cbn [cv wf_ty] in *.
  assert (C : sz = 1 \/ sz = -1 \/ (W = 4 /\ (sz = 2 \/ sz = -2))) by lia. clear H.
  assert (M : forall k, (k = 256 \/ (W = 4 /\ k = 65536)) -> wd v mod k = v mod k).
  { intros k Hk. unfold word, wrap. destruct HW as [-> | ->]; destruct Hk as [-> | [E ->]]; try discriminate E.
    - exact (mod_mod_mul 256 256 v eq_refl eq_refl).
    - exact (mod_mod_mul 256 16777216 v eq_refl eq_refl).
    - exact (mod_mod_mul 65536 65536 v eq_refl eq_refl). }
  destruct C as [-> | [-> | [Q [-> | ->]]]]; cbn [Z.ltb Z.compare]; unfold swrap, wrap.
  - change (2 ^ (8 * 1)) with 256. apply M. auto.
  - change (2 ^ (8 * - -1)) with 256. rewrite M by auto. reflexivity.
  - change (2 ^ (8 * 2)) with 65536. apply M. auto.
  - change (2 ^ (8 * - -2)) with 65536. rewrite M by auto. reflexivity.
Qed.
Lemma small_eq sz a b : wf_ty W (TSm sz) = true -> wd a = wd b -> cv W (TSm sz) a = cv W (TSm sz) b.
Proof. intros H E. rewrite <- (small_wd sz a), E by exact H. apply small_wd, H. Qed.

Lemma foldCast_ok y f yf r r' : wf_ty W y = true -> Den f yf r -> foldCast y r = Some r' ->
  Den (un1 f (cv W y)) y r'.
Proof.
  destruct r as [[t yl] c0]. intros Wy D H. pose proof D as (E0 & D2 & D3 & D4 & D5 & D6). subst yl.
  unfold foldCast in H. cbv zeta in H.
  set (c := match c0, t with None, TNum _ n => Some n | _, _ => c0 end) in H.
  assert (C : forall s, c = Some s -> forall st z st', f st = Some (z, st') -> st' = st /\ wd s = wd z).
  { intros s Es st z st' F. unfold c in Es. destruct c0 as [s0|].
    - destruct t; apply some_inj in Es; subst s0; destruct (D6 s eq_refl _ _ _ F) as (Q1 & Q2 & _); auto.
    - destruct t; try discriminate Es. apply some_inj in Es. subst n.
      pose proof (D5 _ _ _ F) as T. cbn in T. apply some_inj in T. apply pair_inj in T.
      destruct T as [T1 T2]. split; [congruence|exact T1]. }
  match type of H with (let '(_, _) := ?q in _) = _ => destruct q as [t1 c1] eqn:Q end.
  apply some_inj in H. subst r'.
  assert (G : sem (un1 f (cv W y)) t1 /\
              (forall s, c1 = Some s -> forall st z st', un1 f (cv W y) st = Some (z, st') -> st' = st /\ wd s = wd z)).
  { destruct y as [| |sz|esz].
    - apply pair_inj in Q. destruct Q as [Q1 Q2]. subst c1. split.
      + intros st z st' H. apply un1_inv in H. destruct H as (v & F & ->).
        rewrite (wd_cv W HW) by reflexivity. pose proof (D5 _ _ _ F) as T. subst t1.
        destruct t; try exact T. cbn [FoldModel.teval] in *. rewrite T. reflexivity.
      + intros s Es st z st' H. apply un1_inv in H. destruct H as (v & F & ->).
        rewrite (wd_cv W HW) by reflexivity. exact (C s Es _ _ _ F).
    - apply pair_inj in Q. destruct Q as [Q1 Q2]. subst c1. split.
      + intros st z st' H. apply un1_inv in H. destruct H as (v & F & ->).
        rewrite (wd_cv W HW) by reflexivity. pose proof (D5 _ _ _ F) as T. subst t1.
        destruct t; try exact T. cbn [FoldModel.teval] in *. rewrite T. reflexivity.
      + intros s Es st z st' H. apply un1_inv in H. destruct H as (v & F & ->).
        rewrite (wd_cv W HW) by reflexivity. exact (C s Es _ _ _ F).
    - assert (SM : forall u m sg, (forall v, unop_val W u v = wd (cv W (TSm sz) v)) ->
                (forall s, small m sg s = cv W (TSm sz) s) ->
                (TUn u t, option_map (small m sg) c) = (t1, c1) ->
                sem (un1 f (cv W (TSm sz))) t1 /\
                (forall s, c1 = Some s -> forall st z st', un1 f (cv W (TSm sz)) st = Some (z, st') ->
                   st' = st /\ wd s = wd z)).
      { intros u m sg U S P. apply pair_inj in P. destruct P as [<- P2]. split.
        - intros st z st' H. apply un1_inv in H. destruct H as (v & F & ->). cbn [FoldModel.teval].
          rewrite (D5 _ _ _ F). cbn [obind]. rewrite U. rewrite small_wd by exact Wy. reflexivity.
        - intros s Es st z st' H. apply un1_inv in H. destruct H as (v & F & ->).
          destruct c as [s0|]; [|subst c1; discriminate]. cbn [option_map] in P2. subst c1.
          apply some_inj in Es. destruct (C s0 eq_refl _ _ _ F) as [C1 C2]. split; [exact C1|].
          rewrite <- Es, S. f_equal. apply small_eq; assumption. }
      assert (CS : sz = 1 \/ sz = -1 \/ (W = 4 /\ (sz = 2 \/ sz = -2))) by (cbn [wf_ty] in Wy; lia).
      assert (UN : forall n v, 0 < n -> n < W -> wrap (8 * n) v = wd (wrap (8 * n) v)).
      { intros n v N1 N2. symmetry. apply (wd_id W). unfold wrap.
        pose proof (Z.mod_pos_bound v (2 ^ (8 * n)) (Z.pow_pos_nonneg 2 (8 * n) eq_refl ltac:(lia))).
        assert (2 ^ (8 * n) <= 2 ^ (8 * W)) by (apply Z.pow_le_mono_r; lia). lia. }
      assert (W2 : 2 <= W) by (destruct HW; lia).
      destruct CS as [-> | [-> | [W4 [-> | ->]]]]; cbn [Z.eqb Pos.eqb] in Q; refine (SM _ _ _ _ _ Q).
      + intros v. cbn [unop_val cv Z.ltb Z.compare]. unfold conv.
        replace (1 =? W) with false by lia. apply UN; lia.
      + intros s. unfold small. cbn. reflexivity.
      + intros v. cbn [unop_val cv Z.ltb Z.compare]. unfold conv.
        replace (-1 =? W) with false by lia. reflexivity.
      + intros s. unfold small, cv, swrap. cbv zeta. change (0 <? 128) with true. cbn [Z.ltb Z.compare].
        change (2 ^ (8 * - -1)) with 256. change (2 ^ (8 * - -1 - 1)) with 128.
        destruct (128 <=? s mod 256) eqn:L; destruct (s mod 256 <? 128) eqn:L2; cbn [andb]; lia.
      + intros v. cbn [unop_val cv Z.ltb Z.compare]. unfold conv.
        replace (2 =? W) with false by lia. apply UN; lia.
      + intros s. unfold small. cbn. reflexivity.
      + intros v. cbn [unop_val cv Z.ltb Z.compare]. unfold conv.
        replace (-2 =? W) with false by lia. reflexivity.
      + intros s. unfold small, cv, swrap. cbv zeta. change (0 <? 32768) with true. cbn [Z.ltb Z.compare].
        change (2 ^ (8 * - -2)) with 65536. change (2 ^ (8 * - -2 - 1)) with 32768.
        destruct (32768 <=? s mod 65536) eqn:L; destruct (s mod 65536 <? 32768) eqn:L2; cbn [andb]; lia.
    - apply pair_inj in Q. destruct Q as [Q1 Q2]. subst c1. split.
      + intros st z st' H. apply un1_inv in H. destruct H as (v & F & ->).
        rewrite (wd_cv W HW) by reflexivity. pose proof (D5 _ _ _ F) as T. subst t1.
        destruct t; try exact T. cbn [FoldModel.teval] in *. rewrite T. reflexivity.
      + intros s Es st z st' H. apply un1_inv in H. destruct H as (v & F & ->).
        rewrite (wd_cv W HW) by reflexivity. exact (C s Es _ _ _ F). }
  destruct G as [G1 G2]. unfold Den.
  split; [reflexivity|]. split; [exact Wy|]. split; [|split; [|split]].
  - intros s. destruct (isptr y); [discriminate|]. intros ->. split; [eauto|discriminate].
  - intros st z st' H. apply un1_inv in H. destruct H as (v & F & ->). apply (cv_idem W HW), Wy.
  - destruct c1 as [s|]; [|exact G1]. intros st z st' H. destruct (G2 s eq_refl _ _ _ H) as [-> E].
    cbn. change (wrap (8 * W) s) with (wd s). rewrite E. reflexivity.
  - intros s Es st z st' H. destruct (isptr y) eqn:P; [discriminate|].
    destruct (G2 s Es _ _ _ H) as [E1 E2]. split; [exact E1|]. split; [exact E2|discriminate].
Qed.

(** ** && and || *)
Definition truth (f : St -> option (Z * St)) : St -> option (Z * St) :=
  un1 f (fun v => b2z (negb (v =? 0))).

Lemma foldBool_ok f yf r : Den f yf r ->
  Den (truth f) TInt (foldBool W r) /\ (forall s, snd (foldBool W r) = Some s -> s = 0 \/ s = 1).
Proof.
  destruct r as [[t yl] c]. intros (E0 & D2 & D3 & D4 & D5 & D6). subst yl. unfold foldBool. cbv zeta.
  split.
  - apply Den_simp.
    + reflexivity.
    + intros s _ P. discriminate P.
    + intros st z st' H. apply un1_inv in H. destruct H as (v & F & ->). apply b2z_id.
    + intros st z st' H. apply un1_inv in H. destruct H as (v & F & ->). cbn [FoldModel.teval].
      rewrite (D5 _ _ _ F). cbn [obind unop_val]. rewrite b2z_wd.
      rewrite (nz W HW yf v D2 (D4 _ _ _ F)). destruct (v =? 0); reflexivity.
    + intros s Es st z st' H. apply un1_inv in H. destruct H as (v & F & ->).
      destruct c as [s0|]; [|discriminate]. cbn [option_map] in Es. apply some_inj in Es. subst s.
      destruct (D6 s0 eq_refl _ _ _ F) as (E1 & E2 & _). split; [exact E1|]. split; [|discriminate].
      rewrite (tI W HW), (sint_eq W HW _ _ E2). f_equal. f_equal. f_equal.
      rewrite <- (nz W HW yf v D2 (D4 _ _ _ F)).
      apply eq_true_iff_eq. rewrite !Z.eqb_eq. apply (sint_0 W HW).
  - cbn [snd]. intros s Es. destruct c as [s0|]; [|discriminate]. cbn [option_map] in Es.
    apply some_inj in Es. subst s. destruct (truncInt W s0 =? 0); cbn; auto.
Qed.

Definition logand (f g : St -> option (Z * St)) : St -> option (Z * St) :=
  fun st => let? (x, st) := f st in if x =? 0 then Some (0, st) else g st.
Definition logor (f g : St -> option (Z * St)) : St -> option (Z * St) :=
  fun st => let? (x, st) := f st in if x =? 0 then g st else Some (1, st).
Definition is01 (f : St -> option (Z * St)) : Prop :=
  forall st z st', f st = Some (z, st') -> z = 0 \/ z = 1.

Lemma wd01 z : z = 0 \/ z = 1 -> wd z = z.
Proof. intros [-> | ->]; [exact (b2z_wd false)|exact (b2z_wd true)]. Qed.

Lemma foldLog_ok (isor : bool) f g l r : Den f TInt l -> Den g TInt r -> is01 f -> is01 g ->
  (forall s, snd l = Some s -> s = 0 \/ s = 1) -> (forall s, snd r = Some s -> s = 0 \/ s = 1) ->
  Den ((if isor then logor else logand) f g) TInt (foldLog isor l r).
Proof.
  destruct l as [[tl yl] cl], r as [[tr yr] cr]. cbn [snd].
  intros (El & Wl & Tl & Vl & Sl & Cl) (Er & Wr & Tr & Vr & Sr & Cr) Bf Bg Kl Kr.
  unfold foldLog. cbv zeta.
  assert (VAL : forall st z st', (if isor then logor else logand) f g st = Some (z, st') ->
     exists x st1, f st = Some (x, st1) /\ (x = 0 \/ x = 1) /\ (z = 0 \/ z = 1) /\
     ((x = b2z isor /\ z = x /\ st' = st1) \/ (x <> b2z isor /\ g st1 = Some (z, st')))).
  { intros st z st' H. destruct isor; unfold logor, logand in H;
    (destruct (f st) as [[x st1]|] eqn:F; [|discriminate]); cbn [obind] in H;
    exists x, st1; (split; [reflexivity|]); pose proof (Bf _ _ _ F) as X; (split; [exact X|]);
    destruct (x =? 0) eqn:X0.
    - split; [eapply Bg; exact H|]. right. split; [cbn; lia|exact H].
    - apply some_inj in H. apply pair_inj in H. destruct H as [<- <-]. split; [auto|].
      left. split; [cbn; lia|split; [lia|reflexivity]].
    - apply some_inj in H. apply pair_inj in H. destruct H as [<- <-]. split; [auto|].
      left. split; [cbn; lia|split; [lia|reflexivity]].
    - split; [eapply Bg; exact H|]. right. split; [cbn; lia|exact H]. }
  apply Den_simp.
  - reflexivity.
  - intros s _ P. discriminate P.
  - intros st z st' H. apply VAL in H. destruct H as (x & st1 & _ & _ & [-> | ->] & _);
    [exact (b2z_id false)|exact (b2z_id true)].
  - intros st z st' H. apply VAL in H. destruct H as (x & st1 & F & X & Z0 & R).
    rewrite (wd01 z Z0). pose proof (Sl _ _ _ F) as T. rewrite (wd01 x X) in T.
    destruct isor; cbn [FoldModel.teval]; rewrite T; cbn [obind b2z] in *.
    + destruct R as [(-> & -> & ->)|[N G]]; [reflexivity|].
      replace (x =? 0) with true by lia. rewrite (Sr _ _ _ G), (wd01 z Z0). reflexivity.
    + destruct R as [(-> & -> & ->)|[N G]]; [reflexivity|].
      replace (x =? 0) with false by lia. rewrite (Sr _ _ _ G), (wd01 z Z0). reflexivity.
  - intros s Es st z st' H. apply VAL in H. destruct H as (x & st1 & F & X & Z0 & R).
    destruct cl as [sl|]; [|cbn in Es; discriminate]. cbn [isc andb host] in Es.
    destruct (Cl sl eq_refl _ _ _ F) as (-> & E2 & _).
    assert (EX : sl = x).
    { pose proof (Kl sl eq_refl) as K. rewrite (wd01 sl K), (wd01 x X) in E2. exact E2. }
    subst sl. rewrite (wd01 z Z0).
    destruct R as [(-> & -> & ->)|[N G]].
    + split; [reflexivity|]. split; [|discriminate].
      destruct isor; cbn in Es; apply some_inj in Es; subst s; [exact (b2z_wd true)|exact (b2z_wd false)].
    + destruct cr as [sr|]; cbn [isc host] in Es.
      * destruct (Cr sr eq_refl _ _ _ G) as (-> & E3 & _). split; [reflexivity|]. split; [|discriminate].
        assert (EZ : sr = z).
        { pose proof (Kr sr eq_refl) as K. rewrite (wd01 sr K), (wd01 z Z0) in E3. exact E3. }
        subst sr. destruct isor; cbn [b2z] in *;
        [replace x with 0 in Es by lia|replace x with 1 in Es by lia]; cbn in Es; apply some_inj in Es;
        subst s; destruct Z0 as [-> | ->]; cbn; first [exact (b2z_wd true)|exact (b2z_wd false)].
      * destruct isor; cbn [b2z] in *;
        [replace x with 0 in Es by lia|replace x with 1 in Es by lia]; cbn in Es; discriminate Es.
Qed.

(** ** ?: *)
Definition cond3 (c f g : St -> option (Z * St)) (y : ty) : St -> option (Z * St) :=
  fun st =>
    let? (x, st) := c st in
    let? (v, st) := (if x =? 0 then g st else f st) in Some (cv W y v, st).

Definition isnum_strict (ya yb : ty) : Prop :=
  isptr ya = isptr yb \/ strict = true.

Lemma foldCond_ok c f g yc yf yg k l r r' :
  Den c yc k -> Den f yf l -> Den g yg r -> isnum_strict yf yg ->
  foldCond W k l r = Some r' -> Den (cond3 c f g (cmpty yf yg)) (cmpty yf yg) r'.
Proof.
  destruct k as [[tc y0] cc], l as [[tl yl] cl], r as [[tr yr] cr].
  intros (Ec & Wc & Tc & Vc & Sc & Cc) (El & Wl & Tl & Vl & Sl & Cl) (Er & Wr & Tr & Vr & Sr & Cr) NM H.
  subst y0 yl yr. unfold foldCond in H.
  assert (WT : wordy (cmpty yf yg) = true).
  { unfold cmpty. destruct (isptr yf) eqn:P; [destruct yf; try discriminate; reflexivity|].
    destruct (isptr yg) eqn:Q; [destruct yg; try discriminate; reflexivity|]. apply wordy_common. }
  assert (WF : wf_ty W (cmpty yf yg) = true).
  { unfold cmpty. destruct (isptr yf); [exact Wl|]. destruct (isptr yg); [exact Wr|]. apply wf_common. }
  assert (ZERO : forall s, truncInt W s = 0 -> wd s = 0).
  { intros s E. rewrite (tI W HW) in E. apply (sint_0 W HW), E. }
  destruct (compat W _ _ cl cr) as [y|] eqn:CM; [|discriminate].
  assert (CY : y = cmpty yf yg /\
    (isptr yf = true -> isptr yg = false -> forall s, cr = Some s -> wd s = 0) /\
    (isptr yf = false -> isptr yg = true -> forall s, cl = Some s -> wd s = 0)).
  { destruct yf, yg; cbn in CM |- *;
    try (apply some_inj in CM; subst y; split; [reflexivity|split; discriminate]);
    try (destruct cl as [s0|]; [|discriminate CM]; destruct (truncInt W s0 =? 0) eqn:Q; [|discriminate CM];
         apply some_inj in CM; subst y; split; [reflexivity|split; [discriminate|]]; intros _ _ s Es;
         apply some_inj in Es; subst s0; apply ZERO; lia);
    try (destruct cr as [s0|]; [|discriminate CM]; destruct (truncInt W s0 =? 0) eqn:Q; [|discriminate CM];
         apply some_inj in CM; subst y; split; [reflexivity|split; [|discriminate]]; intros _ _ s Es;
         apply some_inj in Es; subst s0; apply ZERO; lia).
    destruct (esz =? esz0); [|discriminate CM]. apply some_inj in CM. subst y.
    split; [reflexivity|split; discriminate]. }
  destruct CY as (-> & NUL1 & NUL2). clear CM. set (y := cmpty yf yg) in *.
  assert (INV : forall st z st', cond3 c f g y st = Some (z, st') ->
     exists x st1 v, c st = Some (x, st1) /\ z = cv W y v /\
       ((x = 0 /\ g st1 = Some (v, st')) \/ (x <> 0 /\ f st1 = Some (v, st')))).
  { intros st z st' E. unfold cond3 in E. destruct (c st) as [[x st1]|] eqn:C0; [|discriminate].
    cbn [obind] in E. destruct (x =? 0) eqn:X0.
    - destruct (g st1) as [[v st2]|] eqn:G; [|discriminate]. cbn in E. apply some_inj in E.
      apply pair_inj in E. destruct E as [<- <-]. exists x, st1, v. split; [reflexivity|].
      split; [reflexivity|]. left. split; [lia|exact G].
    - destruct (f st1) as [[v st2]|] eqn:G; [|discriminate]. cbn in E. apply some_inj in E.
      apply pair_inj in E. destruct E as [<- <-]. exists x, st1, v. split; [reflexivity|].
      split; [reflexivity|]. right. split; [lia|exact G]. }
  assert (CVI : forall st z st', cond3 c f g y st = Some (z, st') -> cv W y z = z).
  { intros st z st' E. apply INV in E. destruct E as (x & st1 & v & _ & -> & _). apply (cv_idem W HW), WF. }
  assert (PLUS : forall t st p, teval t st = Some p ->
     teval (match t with TOpq _ _ => TUn EPlus t | _ => t end) st = Some p).
  { intros t st [a b] E. destruct t; try exact E. cbn [FoldModel.teval] in *. rewrite E. reflexivity. }
  assert (STR : forall s, (cl = Some s \/ cr = Some s) -> isptr y = true -> strict = true).
  { intros s Hs P. unfold y, cmpty in P. destruct NM as [NM|NM]; [|exact NM].
    destruct (isptr yf) eqn:P1; destruct (isptr yg) eqn:P2; try discriminate NM.
    - destruct Hs as [Hs|Hs]; [apply (Tl s Hs), eq_refl|apply (Tr s Hs), eq_refl].
    - unfold common in P. destruct (_ || _); discriminate P. }
  assert (ISW : forall v, wd (cv W y v) = wd v) by (intros v; apply (wd_cv W HW), WT).
  destruct cc as [s|].
  2: { apply some_inj in H. subst r'.
    split; [reflexivity|]. split; [exact WF|]. split; [discriminate|]. split; [exact CVI|]. split; [|discriminate].
    intros st z st' E. apply INV in E. destruct E as (x & st1 & v & C0 & -> & R). rewrite ISW.
    cbn [FoldModel.teval]. rewrite (Sc _ _ _ C0). cbn [obind].
    rewrite (nz W HW yc x Wc (Vc _ _ _ C0)).
    destruct R as [[-> G]|[N G]]; [cbn; apply Sr, G|]. replace (x =? 0) with false by lia. apply Sl, G. }
  assert (CND : forall st x st1, c st = Some (x, st1) -> st1 = st /\ (truncUint W s =? 0) = (x =? 0)).
  { intros st x st1 C0. destruct (Cc s eq_refl _ _ _ C0) as (E1 & E2 & _). split; [exact E1|].
    rewrite (tU W HW), E2. apply (nz W HW yc x Wc (Vc _ _ _ C0)). }
  destruct (truncUint W s =? 0) eqn:S0; cbn [negb] in H.
  - destruct cr as [s1|]; apply some_inj in H; subst r'.
    + split; [reflexivity|]. split; [exact WF|]. split; [|split; [exact CVI|]].
      { intros q Eq. split; [eauto|]. apply (STR s1). right. reflexivity. }
      assert (K : forall st z st', cond3 c f g y st = Some (z, st') ->
                st' = st /\ wd s1 = wd z /\ (isptr y = true -> z = 0)).
      { intros st z st' E. apply INV in E. destruct E as (x & st1 & v & C0 & -> & R).
        destruct (CND _ _ _ C0) as [-> X0]. destruct R as [[-> G]|[N G]]; [|lia].
        destruct (Cr s1 eq_refl _ _ _ G) as (-> & E2 & E3). split; [reflexivity|]. rewrite ISW.
        split; [exact E2|]. intros P.
        assert (V0 : wd v = 0).
        { unfold y, cmpty in P. destruct (isptr yg) eqn:P2; [rewrite (E3 eq_refl); apply (wd_id W); pose proof (w_pos W HW); lia|].
          destruct (isptr yf) eqn:P1; [rewrite <- E2; apply (NUL1 eq_refl eq_refl s1 eq_refl)|].
          unfold common in P. destruct (_ || _); discriminate P. }
        rewrite (cv_eq W HW y v 0 WT); [|rewrite V0; symmetry; apply (wd_id W); pose proof (w_pos W HW); lia].
        destruct y; try discriminate P. exact (b2z_wd false). }
      split; [|intros q Eq; apply some_inj in Eq; subst q; exact K].
      intros st z st' E. destruct (K _ _ _ E) as (-> & E2 & _). cbn. change (wrap (8 * W) s1) with (wd s1).
      rewrite E2. reflexivity.
    + split; [reflexivity|]. split; [exact WF|]. split; [discriminate|]. split; [exact CVI|]. split; [|discriminate].
      intros st z st' E. apply INV in E. destruct E as (x & st1 & v & C0 & -> & R). rewrite ISW.
      destruct (CND _ _ _ C0) as [-> X0]. destruct R as [[-> G]|[N G]]; [|lia].
      apply PLUS, Sr, G.
  - destruct cl as [s1|]; apply some_inj in H; subst r'.
    + split; [reflexivity|]. split; [exact WF|]. split; [|split; [exact CVI|]].
      { intros q Eq. split; [eauto|]. apply (STR s1). left. reflexivity. }
      assert (K : forall st z st', cond3 c f g y st = Some (z, st') ->
                st' = st /\ wd s1 = wd z /\ (isptr y = true -> z = 0)).
      { intros st z st' E. apply INV in E. destruct E as (x & st1 & v & C0 & -> & R).
        destruct (CND _ _ _ C0) as [-> X0]. destruct R as [[-> G]|[N G]]; [discriminate|].
        destruct (Cl s1 eq_refl _ _ _ G) as (-> & E2 & E3). split; [reflexivity|]. rewrite ISW.
        split; [exact E2|]. intros P.
        assert (V0 : wd v = 0).
        { unfold y, cmpty in P. destruct (isptr yf) eqn:P1; [rewrite (E3 eq_refl); apply (wd_id W); pose proof (w_pos W HW); lia|].
          destruct (isptr yg) eqn:P2; [rewrite <- E2; apply (NUL2 eq_refl eq_refl s1 eq_refl)|].
          unfold common in P. destruct (_ || _); discriminate P. }
        rewrite (cv_eq W HW y v 0 WT); [|rewrite V0; symmetry; apply (wd_id W); pose proof (w_pos W HW); lia].
        destruct y; try discriminate P. exact (b2z_wd false). }
      split; [|intros q Eq; apply some_inj in Eq; subst q; exact K].
      intros st z st' E. destruct (K _ _ _ E) as (-> & E2 & _). cbn. change (wrap (8 * W) s1) with (wd s1).
      rewrite E2. reflexivity.
    + split; [reflexivity|]. split; [exact WF|]. split; [discriminate|]. split; [exact CVI|]. split; [|discriminate].
      intros st z st' E. apply INV in E. destruct E as (x & st1 & v & C0 & -> & R). rewrite ISW.
      destruct (CND _ _ _ C0) as [-> X0]. destruct R as [[-> G]|[N G]]; [discriminate|].
      apply PLUS, Sl, G.
Qed.

(** ** the comma operator *)
Definition seq2 (f g : St -> option (Z * St)) : St -> option (Z * St) :=
  fun st => let? (_, st) := f st in g st.
Lemma foldComma_ok f g yf yg l r : Den f yf l -> Den g yg r -> Den (seq2 f g) yg (foldComma l r).
Proof.
  destruct l as [[tl yl] cl], r as [[tr yr] cr].
  intros (El & Wl & Tl & Vl & Sl & Cl) (Er & Wr & Tr & Vr & Sr & Cr). subst yl yr.
  assert (INV : forall st z st', seq2 f g st = Some (z, st') ->
     exists x st1, f st = Some (x, st1) /\ g st1 = Some (z, st')).
  { intros st z st' E. unfold seq2 in E. destruct (f st) as [[x st1]|]; [|discriminate]. cbn in E. eauto. }
  assert (V : forall st z st', seq2 f g st = Some (z, st') -> cv W yg z = z).
  { intros st z st' E. apply INV in E. destruct E as (x & st1 & F & G). eapply Vr, G. }
  unfold foldComma. destruct cl as [sl|]; [destruct cr as [sr|]|].
  - assert (K : forall st z st', seq2 f g st = Some (z, st') ->
              st' = st /\ wd sr = wd z /\ (isptr yg = true -> z = 0)).
    { intros st z st' E. apply INV in E. destruct E as (x & st1 & F & G).
      destruct (Cl sl eq_refl _ _ _ F) as (-> & _). apply (Cr sr eq_refl _ _ _ G). }
    split; [reflexivity|]. split; [exact Wr|]. split; [|split; [exact V|split]].
    + intros s Es. split; [eauto|]. apply (Tr sr eq_refl).
    + intros st z st' E. destruct (K _ _ _ E) as (-> & E2 & _). cbn. change (wrap (8 * W) sr) with (wd sr).
      rewrite E2. reflexivity.
    + intros s Es. apply some_inj in Es. subst s. exact K.
  - split; [reflexivity|]. split; [exact Wr|]. split; [discriminate|]. split; [exact V|]. split; [|discriminate].
    intros st z st' E. apply INV in E. destruct E as (x & st1 & F & G).
    destruct (Cl sl eq_refl _ _ _ F) as (-> & _). cbn [FoldModel.teval]. rewrite (Sr _ _ _ G). reflexivity.
  - split; [reflexivity|]. split; [exact Wr|]. split; [discriminate|]. split; [exact V|]. split; [|discriminate].
    intros st z st' E. apply INV in E. destruct E as (x & st1 & F & G).
    cbn [FoldModel.teval]. rewrite (Sl _ _ _ F). cbn [obind]. apply Sr, G.
Qed.

(** ** operands of && and || *)
Lemma foldCmp_01 c (l r r' : te A * ty * option Z) : foldCmp W c l r = Some r' -> forall s, snd r' = Some s -> s = 0 \/ s = 1.
Proof.
  destruct l as [[tl yl] cl], r as [[tr yr] cr]. unfold foldCmp. cbv zeta.
  match goal with |- (if ?b then _ else _) = _ -> _ => destruct b; [discriminate|] end.
  intros H. apply some_inj in H. subst r'. cbn [snd]. intros s.
  destruct (isc cl && isc cr); [|discriminate]. intros E. apply some_inj in E.
  subst s. match goal with |- b2z ?b = 0 \/ _ => destruct b; cbn; auto end.
Qed.
Lemma b2z_01 b : b2z b = 0 \/ b2z b = 1.
Proof. destruct b; auto. Qed.
Lemma truth_01 f : is01 (truth f).
Proof. intros st z st' H. apply un1_inv in H. destruct H as (v & _ & ->). apply b2z_01. Qed.
Lemma iscmp_01 e : iscmp e = true -> is01 (seval e) /\ tyof e = TInt.
Proof.
  destruct e; try discriminate; intros _; (split; [|reflexivity]); intros st z st' H; cbn [FoldSpec.seval] in H.
  - destruct (seval e st) as [[v s1]|]; [|discriminate]. cbn [obind] in H. apply some_inj in H.
    apply pair_inj in H. destruct H as [<- _]. apply b2z_01.
  - destruct (both rtl _ _ st) as [[[x v] s1]|]; [|discriminate]. cbn [obind] in H. apply some_inj in H.
    apply pair_inj in H. destruct H as [<- _]. apply b2z_01.
Qed.
Lemma operand e r : Den (seval e) (tyof e) r -> fold W e = Some r ->
  let r' := if iscmp e then r else foldBool W r in
  Den (truth (seval e)) TInt r' /\ (forall s, snd r' = Some s -> s = 0 \/ s = 1).
Proof.
  intros D F r'. unfold r'. destruct (iscmp e) eqn:C.
  - destruct (iscmp_01 e C) as [B T]. rewrite T in D. split.
    + eapply Den_ext; [|exact D]. intros st. unfold truth, un1.
      destruct (seval e st) as [[v s1]|] eqn:E; [|reflexivity]. cbn [obind].
      destruct (B _ _ _ E) as [-> | ->]; reflexivity.
    + destruct e; try discriminate C; cbn [fold] in F.
      * destruct (fold W e) as [ra|]; [|discriminate]. exact (foldCmp_01 _ _ _ _ F).
      * destruct (fold W e2) as [rb|]; [|discriminate]. destruct (fold W e1) as [ra|]; [|discriminate].
        exact (foldCmp_01 _ _ _ _ F).
  - apply (foldBool_ok _ _ _ D).
Qed.

(** ** whole expressions *)
Lemma fold_den e r : wf W e = true -> nomix e = true \/ strict = true -> fold W e = Some r ->
  Den (seval e) (tyof e) r.
Proof.
  revert r. induction e as [u n|t x|esz o|u a IH|a IH|o a IHa b IHb|c a IHa b IHb|t a IH|a IHa b IHb|a IHa b IHb|c IHc a IHa b IHb|a IHa b IHb];
  intros r Wf NM H; cbn [wf nomix fold] in *.
  - apply some_inj in H. subst r.
    assert (WY : wordy (if u then TUint else TInt) = true) by (destruct u; reflexivity).
    split; [reflexivity|]. split; [destruct u; reflexivity|]. split.
    { intros s E. split; [eauto|]. destruct u; discriminate. }
    split; [|split].
    + intros st z st' E. cbn in E. apply some_inj in E. apply pair_inj in E. destruct E as [<- _].
      apply (cv_idem W HW). destruct u; reflexivity.
    + intros st z st' E. cbn [FoldSpec.seval] in E. apply some_inj in E. apply pair_inj in E.
      destruct E as [<- <-]. cbn [FoldModel.teval tyof]. rewrite (wd_cv W HW) by exact WY. reflexivity.
    + intros s Es st z st' E. apply some_inj in Es. subst s. cbn [FoldSpec.seval] in E.
      apply some_inj in E. apply pair_inj in E. destruct E as [<- <-]. split; [reflexivity|].
      cbn [tyof]. rewrite (wd_cv W HW) by exact WY. split; [reflexivity|]. destruct u; discriminate.
  - apply some_inj in H. subst r.
    split; [reflexivity|]. split; [exact Wf|]. split; [discriminate|]. split; [|split; [|discriminate]].
    + intros st z st' E. cbn [FoldSpec.seval] in E. destruct (opq x st) as [[v st1]|]; [|discriminate].
      cbn [obind] in E. apply some_inj in E. apply pair_inj in E. destruct E as [<- _].
      apply (cv_idem W HW), Wf.
    + intros st z st' E. cbn [FoldSpec.seval FoldModel.teval] in *. destruct (opq x st) as [[v st1]|]; [|discriminate].
      cbn [obind] in E |- *. apply some_inj in E. apply pair_inj in E. destruct E as [<- <-]. reflexivity.
  - apply some_inj in H. subst r.
    split; [reflexivity|]. apply andb_prop in Wf. destruct Wf as [Wf _]. apply andb_prop in Wf. destruct Wf as [Wf _].
    split; [exact Wf|]. split; [discriminate|]. split; [|split; [|discriminate]].
    + intros st z st' E. cbn [FoldSpec.seval] in E. apply some_inj in E. apply pair_inj in E. destruct E as [<- _].
      apply (cv_idem W HW), Wf.
    + intros st z st' E. cbn [FoldSpec.seval FoldModel.teval tyof] in *. apply some_inj in E. apply pair_inj in E.
      destruct E as [<- <-]. rewrite (wd_cv W HW) by reflexivity. reflexivity.
  - destruct (fold W a) as [ra|] eqn:Fa; [|discriminate]. cbn [obind] in H.
    pose proof (foldUn_ok u _ _ _ _ (IH _ Wf NM eq_refl) H) as D.
    eapply Den_ext; [|exact D]. intros st. unfold un1. cbn [FoldSpec.seval tyof]. destruct u; reflexivity.
  - destruct (fold W a) as [ra|] eqn:Fa; [|discriminate]. cbn [obind] in H.
    assert (D0 : Den (fun st => Some (0, st)) TInt (TNum false 0, TInt, Some 0)).
    { split; [reflexivity|]. split; [reflexivity|]. split; [intros s _; split; [eauto|discriminate]|].
      split; [|split].
      - intros st z st' E. apply some_inj in E. apply pair_inj in E. destruct E as [<- _]. exact (b2z_id false).
      - intros st z st' E. apply some_inj in E. apply pair_inj in E. destruct E as [<- <-]. reflexivity.
      - intros s Es st z st' E. apply some_inj in Es. apply some_inj in E. apply pair_inj in E.
        destruct E as [<- <-]. subst s. split; [reflexivity|]. split; [reflexivity|discriminate]. }
    pose proof (IH _ Wf NM eq_refl) as DA.
    destruct (foldCmp_ok CEq _ _ _ _ _ _ _ DA D0 H) as [D _].
    destruct ra as [[ta ya] ca]. destruct DA as (_ & DW & _ & DV & _).
    cbn [tyof]. destruct r as [[t yt] cr]. destruct D as (D1 & D2 & D3 & D4 & D5 & D6).
    assert (EQ : forall st, FoldSpec.seval W opq bp rtl strict (SNot a) st =
              cmp2 (seval a) (fun st => Some (0, st)) (fun x y => compare CEq (cv W (cmpty (tyof a) TInt) x) (cv W (cmpty (tyof a) TInt) y)) st).
    { intros st. cbn [FoldSpec.seval]. unfold cmp2, both. destruct (seval a st) as [[v st1]|] eqn:E.
      - assert (Q : (v =? 0) = (cv W (cmpty (tyof a) TInt) v =? cv W (cmpty (tyof a) TInt) 0)).
        { pose proof (DV _ _ _ E) as V. apply (prom_id W HW _ _ DW) in V.
          assert (CT : cmpty (tyof a) TInt = prom (tyof a)) by (destruct (tyof a); reflexivity).
          rewrite CT, V. f_equal. pose proof (wf_prom W _ DW) as WP.
          destruct (prom (tyof a)) eqn:PP; cbn.
          - symmetry. exact (b2z_id false).
          - symmetry. exact (b2z_wd false).
          - destruct (tyof a); discriminate PP.
          - symmetry. exact (b2z_wd false). }
        cbn [compare]. destruct rtl; cbn [obind]; rewrite ?E; cbn [obind]; rewrite Q; reflexivity.
      - destruct rtl; cbn [obind]; rewrite ?E; reflexivity. }
    eapply Den_ext; [intros st; symmetry; apply EQ|].
    repeat (split; [assumption|]). assumption.
  - destruct (fold W b) as [rb|] eqn:Fb; [|discriminate]. destruct (fold W a) as [ra|] eqn:Fa; [|discriminate].
    cbn [obind] in H. apply andb_prop in Wf. destruct Wf as [Wa Wb].
    assert (Na : nomix a = true \/ strict = true) by (destruct NM as [NM|NM]; [left; apply andb_prop in NM; apply NM|right; exact NM]).
    assert (Nb : nomix b = true \/ strict = true) by (destruct NM as [NM|NM]; [left; apply andb_prop in NM; apply NM|right; exact NM]).
    pose proof (IHa _ Wa Na eq_refl) as Da. pose proof (IHb _ Wb Nb eq_refl) as Db.
    destruct o; cbn [tyof];
    first [ exact (foldAdd_ok false _ _ _ _ _ _ _ Da Db H)
          | exact (foldAdd_ok true _ _ _ _ _ _ _ Da Db H)
          | match goal with |- Den (FoldSpec.seval _ _ _ _ _ (SBin ?o _ _)) _ _ =>
              exact (foldMul_ok o _ _ _ _ _ _ _ ltac:(discriminate) ltac:(discriminate) Da Db H) end ].
  - destruct (fold W b) as [rb|] eqn:Fb; [|discriminate]. destruct (fold W a) as [ra|] eqn:Fa; [|discriminate].
    cbn [obind] in H. apply andb_prop in Wf. destruct Wf as [Wa Wb].
    assert (Na : nomix a = true \/ strict = true) by (destruct NM as [NM|NM]; [left; apply andb_prop in NM; apply NM|right; exact NM]).
    assert (Nb : nomix b = true \/ strict = true) by (destruct NM as [NM|NM]; [left; apply andb_prop in NM; apply NM|right; exact NM]).
    exact (proj1 (foldCmp_ok c _ _ _ _ _ _ _ (IHa _ Wa Na eq_refl) (IHb _ Wb Nb eq_refl) H)).
  - destruct (fold W a) as [ra|] eqn:Fa; [|discriminate]. cbn [obind] in H.
    apply andb_prop in Wf. destruct Wf as [Wt Wa].
    exact (foldCast_ok t _ _ _ _ Wt (IH _ Wa NM eq_refl) H).
  - destruct (fold W b) as [rb|] eqn:Fb; [|discriminate]. destruct (fold W a) as [ra|] eqn:Fa; [|discriminate].
    cbn [obind] in H. apply andb_prop in Wf. destruct Wf as [Wa Wb]. apply some_inj in H. subst r.
    assert (Na : nomix a = true \/ strict = true) by (destruct NM as [NM|NM]; [left; apply andb_prop in NM; apply NM|right; exact NM]).
    assert (Nb : nomix b = true \/ strict = true) by (destruct NM as [NM|NM]; [left; apply andb_prop in NM; apply NM|right; exact NM]).
    destruct (operand a ra (IHa _ Wa Na eq_refl) Fa) as [Da Ka].
    destruct (operand b rb (IHb _ Wb Nb eq_refl) Fb) as [Db Kb].
    eapply Den_ext; [|exact (foldLog_ok false _ _ _ _ Da Db (truth_01 _) (truth_01 _) Ka Kb)].
    intros st. cbn [FoldSpec.seval]. unfold logand, truth, un1.
    destruct (seval a st) as [[v s1]|]; [|reflexivity]. cbn [obind]. destruct (v =? 0); reflexivity.
  - destruct (fold W b) as [rb|] eqn:Fb; [|discriminate]. destruct (fold W a) as [ra|] eqn:Fa; [|discriminate].
    cbn [obind] in H. apply andb_prop in Wf. destruct Wf as [Wa Wb]. apply some_inj in H. subst r.
    assert (Na : nomix a = true \/ strict = true) by (destruct NM as [NM|NM]; [left; apply andb_prop in NM; apply NM|right; exact NM]).
    assert (Nb : nomix b = true \/ strict = true) by (destruct NM as [NM|NM]; [left; apply andb_prop in NM; apply NM|right; exact NM]).
    destruct (operand a ra (IHa _ Wa Na eq_refl) Fa) as [Da Ka].
    destruct (operand b rb (IHb _ Wb Nb eq_refl) Fb) as [Db Kb].
    eapply Den_ext; [|exact (foldLog_ok true _ _ _ _ Da Db (truth_01 _) (truth_01 _) Ka Kb)].
    intros st. cbn [FoldSpec.seval]. unfold logor, truth, un1.
    destruct (seval a st) as [[v s1]|]; [|reflexivity]. cbn [obind]. destruct (v =? 0); reflexivity.
  - destruct (fold W a) as [ra|] eqn:Fa; [|discriminate]. destruct (fold W b) as [rb|] eqn:Fb; [|discriminate].
    destruct (fold W c) as [rc|] eqn:Fc; [|discriminate]. cbn [obind] in H.
    apply andb_prop in Wf. destruct Wf as [Wf Wb]. apply andb_prop in Wf. destruct Wf as [Wc Wa].
    assert (NN : (nomix c = true \/ strict = true) /\ (nomix a = true \/ strict = true) /\
                 (nomix b = true \/ strict = true) /\ isnum_strict (tyof a) (tyof b)).
    { unfold isnum_strict. destruct NM as [NM|NM]; [|auto 8].
      apply andb_prop in NM. destruct NM as [NM N4]. apply andb_prop in NM. destruct NM as [NM N3].
      apply andb_prop in NM. destruct NM as [N1 N2]. repeat split; try (left; assumption).
      left. destruct (isptr (tyof a)), (isptr (tyof b)); try discriminate N4; reflexivity. }
    destruct NN as (Nc & Na & Nb & NS).
    exact (foldCond_ok _ _ _ _ _ _ _ _ _ _ (IHc _ Wc Nc eq_refl) (IHa _ Wa Na eq_refl) (IHb _ Wb Nb eq_refl) NS H).
  - destruct (fold W b) as [rb|] eqn:Fb; [|discriminate]. destruct (fold W a) as [ra|] eqn:Fa; [|discriminate].
    cbn [obind] in H. apply andb_prop in Wf. destruct Wf as [Wa Wb]. apply some_inj in H. subst r.
    assert (Na : nomix a = true \/ strict = true) by (destruct NM as [NM|NM]; [left; apply andb_prop in NM; apply NM|right; exact NM]).
    assert (Nb : nomix b = true \/ strict = true) by (destruct NM as [NM|NM]; [left; apply andb_prop in NM; apply NM|right; exact NM]).
    exact (foldComma_ok _ _ _ _ _ _ (IHa _ Wa Na eq_refl) (IHb _ Wb Nb eq_refl)).
Qed.
End M.
