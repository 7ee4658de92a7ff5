(** Proofs about constant folding: word arithmetic, then one lemma per operator. *)
From Verif Require Import Base BaseLemmas ExprSpec FoldSpec FoldModel.

Section P.
Variable W : Z.
Hypothesis HW : W = 2 \/ W = 4.
Notation wd := (word W).

Lemma w_pos : 0 < 2 ^ (8 * W).
Proof. destruct HW; subst; reflexivity. Qed.


Lemma mod_mod_mul a b z : 0 < a -> 0 < b -> (z mod (a * b)) mod a = z mod a.
Proof.
  intros Ha Hb. rewrite Z.rem_mul_r by lia.
  rewrite Z.mul_comm, Z.mod_add by lia. apply Z.mod_mod. lia.
Qed.

Lemma w_u32 z : wd (u32 z) = wd z.
Proof.
  unfold word, u32, wrap. destruct HW; subst W.
  - exact (mod_mod_mul (2 ^ 16) (2 ^ 16) z eq_refl eq_refl).
  - apply Z.mod_mod. discriminate.
Qed.

Lemma swrap_wrap w z : 0 < w -> wrap w (swrap w z) = wrap w z.
Proof.
  intros Hw. unfold wrap, swrap. cbv zeta.
  destruct (_ <? _).
  - apply Z.mod_mod. pose proof (Z.pow_pos_nonneg 2 w). lia.
  - replace (z mod 2 ^ w - 2 ^ w) with (z mod 2 ^ w + (-1) * 2 ^ w) by ring.
    pose proof (Z.pow_pos_nonneg 2 w).
    rewrite Z.mod_add by lia. apply Z.mod_mod. lia.
Qed.
Lemma swrap_of_wrap w z : 0 < w -> swrap w (wrap w z) = swrap w z.
Proof.
  intros Hw. unfold wrap, swrap. pose proof (Z.pow_pos_nonneg 2 w).
  rewrite Z.mod_mod by lia. reflexivity.
Qed.
Lemma w_s32 z : wd (s32 z) = wd z.
Proof.
  rewrite <- (w_u32 (s32 z)). unfold u32, s32. rewrite swrap_wrap by reflexivity. apply w_u32.
Qed.
Lemma wd_wd z : wd (wd z) = wd z.
Proof. unfold word, wrap. apply Z.mod_mod. pose proof w_pos; lia. Qed.
Lemma wd_range z : 0 <= wd z < 2 ^ (8 * W).
Proof. unfold word, wrap. apply Z.mod_pos_bound, w_pos. Qed.
Lemma wd_sint z : wd (sint W z) = wd z.
Proof. unfold word, sint. apply swrap_wrap. destruct HW; lia. Qed.
Lemma sint_wd z : sint W (wd z) = sint W z.
Proof. unfold word, sint. apply swrap_of_wrap. destruct HW; lia. Qed.
Lemma sint_eq a b : wd a = wd b -> sint W a = sint W b.
Proof. intros H. rewrite <- (sint_wd a), H. apply sint_wd. Qed.

Lemma tU n : truncUint W n = wd n.
Proof.
  rewrite <- (w_u32 n). unfold truncUint, word, wrap, u32. destruct HW; subst W.
  - reflexivity.
  - cbn [Z.eqb Pos.eqb]. unfold wrap. change (8 * 4) with 32. rewrite Z.mod_mod; [reflexivity|discriminate].
Qed.
Lemma tI n : truncInt W n = sint W n.
Proof.
  rewrite <- (sint_wd n). unfold truncInt. rewrite <- (w_u32 n).
  unfold word, sint, wrap, u32. destruct HW; subst W.
  - cbn [Z.eqb Pos.eqb]. cbv zeta. change (8 * 2) with 16.
    unfold wrap. set (u := (n mod 2 ^ 32) mod 2 ^ 16).
    assert (Hu : 0 <= u < 2 ^ 16) by (apply Z.mod_pos_bound; reflexivity).
    unfold s32, swrap. rewrite (Z.mod_small u) by exact Hu.
    change (2 ^ (16 - 1)) with 32768. change (2 ^ 15) with 32768. change (2 ^ 16) with 65536 in *.
    change (2 ^ 32) with 4294967296. change (2 ^ (32 - 1)) with 2147483648. clearbody u. clear n.
    destruct (u <? 32768) eqn:E.
    + replace (u / 32768 mod 2) with 0 by lia.
      rewrite Z.mod_small by lia. destruct (_ <? 2147483648) eqn:E2; lia.
    + replace (u / 32768 mod 2) with 1 by lia.
      rewrite Z.mod_small by lia. destruct (_ <? 2147483648) eqn:E2; lia.
  - cbn [Z.eqb Pos.eqb]. change (8 * 4) with 32. unfold s32. unfold wrap.
    unfold swrap. rewrite !Z.mod_mod by discriminate. reflexivity.
Qed.

(** congruence modulo the word *)
Lemma wd_add a b : wd (wd a + wd b) = wd (a + b).
Proof. unfold word, wrap. symmetry. apply Zplus_mod. Qed.
Lemma wd_sub a b : wd (wd a - wd b) = wd (a - b).
Proof. unfold word, wrap. symmetry. apply Zminus_mod. Qed.
Lemma wd_mul a b : wd (wd a * wd b) = wd (a * b).
Proof. unfold word, wrap. symmetry. apply Zmult_mod. Qed.
Lemma cadd a b a' b' : wd a = wd a' -> wd b = wd b' -> wd (a + b) = wd (a' + b').
Proof. intros H1 H2. rewrite <- wd_add, H1, H2. apply wd_add. Qed.
Lemma csub a b a' b' : wd a = wd a' -> wd b = wd b' -> wd (a - b) = wd (a' - b').
Proof. intros H1 H2. rewrite <- wd_sub, H1, H2. apply wd_sub. Qed.
Lemma cmul a b a' b' : wd a = wd a' -> wd b = wd b' -> wd (a * b) = wd (a' * b').
Proof. intros H1 H2. rewrite <- wd_mul, H1, H2. apply wd_mul. Qed.

Lemma wd_land a b : Z.land (wd a) (wd b) = wd (Z.land a b).
Proof.
  unfold word, wrap. rewrite <- !Z.land_ones by (destruct HW; lia).
  apply Z.bits_inj'. intros n Hn. rewrite !Z.land_spec.
  destruct (Z.testbit a n), (Z.testbit b n), (Z.testbit (Z.ones (8 * W)) n); reflexivity.
Qed.
Lemma wd_lxor a b : Z.lxor (wd a) (wd b) = wd (Z.lxor a b).
Proof.
  unfold word, wrap. rewrite <- !Z.land_ones by (destruct HW; lia).
  apply Z.bits_inj'. intros n Hn. rewrite ?Z.land_spec, ?Z.lxor_spec, ?Z.land_spec.
  destruct (Z.testbit a n), (Z.testbit b n), (Z.testbit (Z.ones (8 * W)) n); reflexivity.
Qed.
Lemma wd_lor a b : Z.lor (wd a) (wd b) = wd (Z.lor a b).
Proof.
  unfold word, wrap. rewrite <- !Z.land_ones by (destruct HW; lia).
  apply Z.bits_inj'. intros n Hn. rewrite ?Z.land_spec, ?Z.lor_spec, ?Z.land_spec.
  destruct (Z.testbit a n), (Z.testbit b n), (Z.testbit (Z.ones (8 * W)) n); reflexivity.
Qed.
Lemma cland a b a' b' : wd a = wd a' -> wd b = wd b' -> wd (Z.land a b) = wd (Z.land a' b').
Proof. intros H1 H2. rewrite <- wd_land, H1, H2. apply wd_land. Qed.
Lemma clxor a b a' b' : wd a = wd a' -> wd b = wd b' -> wd (Z.lxor a b) = wd (Z.lxor a' b').
Proof. intros H1 H2. rewrite <- wd_lxor, H1, H2. apply wd_lxor. Qed.
Lemma clor a b a' b' : wd a = wd a' -> wd b = wd b' -> wd (Z.lor a b) = wd (Z.lor a' b').
Proof. intros H1 H2. rewrite <- wd_lor, H1, H2. apply wd_lor. Qed.

(** conversions *)
Definition wordy (t : ty) : bool := match t with TSm _ => false | _ => true end.
Lemma wd_cv t z : wordy t = true -> wd (cv W t z) = wd z.
Proof. destruct t; cbn; intros H; try discriminate; [apply wd_sint|apply wd_wd|apply wd_wd]. Qed.
Lemma cv_wd t z : wordy t = true -> cv W t (wd z) = cv W t z.
Proof. destruct t; cbn; intros H; try discriminate; [apply sint_wd|apply wd_wd|apply wd_wd]. Qed.
Lemma cv_eq t a b : wordy t = true -> wd a = wd b -> cv W t a = cv W t b.
Proof. intros H E. rewrite <- (cv_wd t a), E by exact H. apply cv_wd, H. Qed.
Lemma swrap_idem w z : 0 < w -> swrap w (swrap w z) = swrap w z.
Proof. intros H. rewrite <- (swrap_of_wrap w (swrap w z)), swrap_wrap by exact H. apply swrap_of_wrap, H. Qed.
Lemma cv_idem t z : wf_ty W t = true -> cv W t (cv W t z) = cv W t z.
Proof.
  destruct t; cbn [cv wf_ty]; intros H.
  - apply swrap_idem. destruct HW; lia.
  - apply wd_wd.
  - destruct (sz <? 0) eqn:E.
    + apply swrap_idem. lia.
    + unfold wrap. apply Z.mod_mod. pose proof (Z.pow_pos_nonneg 2 (8 * sz)). lia.
  - apply wd_wd.
Qed.
Lemma sint_range z : - 2 ^ (8 * W - 1) <= sint W z < 2 ^ (8 * W - 1).
Proof.
  unfold sint, swrap. cbv zeta. pose proof (Z.mod_pos_bound z (2 ^ (8 * W)) w_pos) as B.
  destruct HW; subst W;
  [change (2 ^ (8 * 2)) with 65536 in *; change (2 ^ (8 * 2 - 1)) with 32768 in *
  |change (2 ^ (8 * 4)) with 4294967296 in *; change (2 ^ (8 * 4 - 1)) with 2147483648 in *];
  match goal with |- context [ ?a mod ?b ] => generalize dependent (a mod b); intros u B end;
  destruct (_ <? _) eqn:E; lia.
Qed.
Lemma sint_id z : - 2 ^ (8 * W - 1) <= z < 2 ^ (8 * W - 1) -> sint W z = z.
Proof.
  intros H. pose proof (sint_range z) as R. pose proof (wd_sint z) as E.
  unfold word, wrap in E. set (s := sint W z) in *. clearbody s.
  assert (D : (s - z) mod 2 ^ (8 * W) = 0) by (rewrite Zminus_mod, E, Z.sub_diag; reflexivity).
  apply Z.mod_divide in D; [|pose proof w_pos; lia]. destruct D as [q Q].
  destruct HW; subst W;
  [change (2 ^ (8 * 2)) with 65536 in *; change (2 ^ (8 * 2 - 1)) with 32768 in *
  |change (2 ^ (8 * 4)) with 4294967296 in *; change (2 ^ (8 * 4 - 1)) with 2147483648 in *]; lia.
Qed.
Lemma wd_id z : 0 <= z < 2 ^ (8 * W) -> wd z = z.
Proof. intros H. unfold word, wrap. apply Z.mod_small, H. Qed.

(** a narrower value is representable in int, whatever its sign *)
Lemma swrap_range w z : 0 < w -> - 2 ^ (w - 1) <= swrap w z < 2 ^ (w - 1).
Proof.
  intros H. unfold swrap. cbv zeta.
  pose proof (Z.mod_pos_bound z (2 ^ w) (Z.pow_pos_nonneg 2 w eq_refl (Z.lt_le_incl _ _ H))) as B.
  assert (E : 2 ^ w = 2 * 2 ^ (w - 1)).
  { rewrite <- Z.pow_succ_r by lia. f_equal. lia. }
  rewrite E in *. clear E. destruct (_ <? _) eqn:E; lia.
Qed.
Lemma small_int sz z : wf_ty W (TSm sz) = true ->
  - 2 ^ (8 * W - 1) <= cv W (TSm sz) z < 2 ^ (8 * W - 1).
Proof.
  cbn [cv wf_ty]. intros H.
  assert (C : sz = 1 \/ sz = -1 \/ (W = 4 /\ (sz = 2 \/ sz = -2))) by lia. clear H.
  assert (L : 2 ^ 15 <= 2 ^ (8 * W - 1)) by (destruct HW; subst W; discriminate).
  assert (G : - 2 ^ 15 <= (if sz <? 0 then swrap (8 * - sz) z else wrap (8 * sz) z) < 2 ^ 15 \/
              (W = 4 /\ - 2 ^ 31 <= (if sz <? 0 then swrap (8 * - sz) z else wrap (8 * sz) z) < 2 ^ 31)).
  { destruct C as [-> | [-> | [-> [-> | ->]]]]; cbn [Z.ltb Z.compare].
    - left. unfold wrap. pose proof (Z.mod_pos_bound z (2 ^ (8 * 1)) eq_refl) as B.
      change (2 ^ (8 * 1)) with 256 in *. change (2 ^ 15) with 32768. lia.
    - left. pose proof (swrap_range 8 z eq_refl) as B. change (8 * - -1) with 8.
      change (2 ^ (8 - 1)) with 128 in B. change (2 ^ 15) with 32768. lia.
    - right. split; [reflexivity|]. unfold wrap. pose proof (Z.mod_pos_bound z (2 ^ (8 * 2)) eq_refl) as B.
      change (2 ^ (8 * 2)) with 65536 in *. change (2 ^ 31) with 2147483648. lia.
    - left. pose proof (swrap_range 16 z eq_refl) as B. exact B. }
  destruct G as [G|[-> G]]; [lia|exact G].
Qed.
Lemma prom_id t z : wf_ty W t = true -> cv W t z = z -> cv W (prom t) z = z.
Proof.
  destruct t; cbn [prom]; intros H E; try exact E.
  cbn [cv]. apply sint_id. rewrite <- E. apply small_int, H.
Qed.

(** ** Single operators on words *)
Lemma wf_common a b : wf_ty W (common a b) = true.
Proof. unfold common. destruct (_ || _); reflexivity. Qed.
Lemma wordy_common a b : wordy (common a b) = true.
Proof. unfold common. destruct (_ || _); reflexivity. Qed.
Lemma promote_common a b : isptr a = false -> isptr b = false ->
  promoteType a b = common a b.
Proof. destruct a, b; cbn; intros; try discriminate; reflexivity. Qed.
Lemma promote_prom a : isptr a = false -> promoteType a a = prom a /\ promoteType a TInt = prom a.
Proof. destruct a; cbn; intros; try discriminate; split; reflexivity. Qed.
Lemma wordy_prom a : wordy (prom a) = true.
Proof. destruct a; reflexivity. Qed.
Lemma wf_prom a : wf_ty W a = true -> wf_ty W (prom a) = true.
Proof. destruct a; cbn; auto. Qed.

Lemma sint_0 a : sint W a = 0 <-> wd a = 0.
Proof.
  split; intros H.
  - rewrite <- wd_sint, H. apply wd_id. pose proof w_pos. lia.
  - rewrite <- sint_wd, H. apply sint_id. destruct HW; subst; vm_compute; split; congruence.
Qed.
Lemma sint_inj a b : (sint W a =? sint W b) = (wd a =? wd b).
Proof.
  apply eq_true_iff_eq. rewrite !Z.eqb_eq. split; intros H.
  - rewrite <- (wd_sint a), H. apply wd_sint.
  - apply sint_eq, H.
Qed.
Lemma nz t v : wf_ty W t = true -> cv W t v = v -> (wd v =? 0) = (v =? 0).
Proof.
  intros H E. apply eq_true_iff_eq. rewrite !Z.eqb_eq. split; intros G.
  - pose proof (prom_id t v H E) as P. rewrite <- P, <- cv_wd by apply wordy_prom. rewrite G.
    destruct (prom t) eqn:PT; cbn; try (apply (wd_id 0); pose proof w_pos; lia).
    + apply (proj2 (sint_0 0)), (wd_id 0). pose proof w_pos; lia.
    + destruct t; discriminate PT.
  - subst v. apply wd_id. pose proof w_pos; lia.
Qed.

Lemma quot_range x y : y <> 0 -> Z.abs (Z.quot x y) <= Z.abs x.
Proof.
  intros H. rewrite <- Z.quot_abs by exact H.
  destruct (Z.eq_dec (Z.abs y) 1) as [E|E].
  - rewrite E, Z.quot_1_r. lia.
  - destruct (Z.eq_dec x 0) as [->|X]; [reflexivity|].
    apply Z.lt_le_incl, Z.quot_lt; lia.
Qed.
Lemma rem_range x y : y <> 0 -> Z.abs (Z.rem x y) < Z.abs y /\ Z.abs (Z.rem x y) <= Z.abs x.
Proof.
  intros H. rewrite <- Z.rem_abs by exact H. split.
  - apply Z.rem_bound_pos; lia.
  - destruct (Z_lt_le_dec (Z.abs x) (Z.abs y)).
    + rewrite Z.rem_small by lia. lia.
    + pose proof (Z.rem_bound_pos (Z.abs x) (Z.abs y)). lia.
Qed.

(** signed division on words *)
Lemma sdiv x y (Hq : Z.quot (sint W x) (sint W y) = sint W (Z.quot (sint W x) (sint W y))) :
  sint W y <> 0 ->
  (sint W y =? 0) || ((sint W x =? - 2 ^ (8 * W - 1)) && (sint W y =? -1)) = false.
Proof.
  intros H. apply orb_false_iff. split; [lia|].
  apply andb_false_iff. destruct (sint W y =? -1) eqn:E; [left|now right].
  apply Z.eqb_eq in E. rewrite E in Hq. apply Z.eqb_neq. intros G. rewrite G in Hq.
  destruct HW; subst W; discriminate Hq.
Qed.

Definition un_arith (o : sbinop) (uns : bool) : earith :=
  match o with
  | BAdd => EAdd | BSub => ESub | BMul => EMul
  | BDiv => if uns then EUDiv else EDiv
  | BMod => if uns then EUMod else EMod
  | BAnd => EAnd | BXor => EXor | BOr => EOr
  | BShl => EShl | BShr => EShr
  end.

Lemma arith_word o ta tb x y z : o <> BShl -> o <> BShr ->
  arith W o (common ta tb) (cv W (common ta tb) x) (cv W (common ta tb) y) = Some z ->
  cv W (common ta tb) z = z /\
  arith_val W (un_arith o (isuns ta || isuns tb)) (wd x) (wd y) = Some (wd z).
Proof.
  intros N1 N2. set (t := common ta tb).
  pose proof (wf_common ta tb) as Wf. pose proof (wordy_common ta tb) as Wd.
  change (common ta tb) with t in Wf, Wd.
  destruct o; try congruence; clear N1 N2; cbn [arith un_arith arith_val].
  1,2,3,6,7,8: intros E; apply some_inj in E; subst z; split; [apply cv_idem, Wf|];
    f_equal; rewrite wd_cv by exact Wd.
  - rewrite wd_add. apply cadd; symmetry; apply wd_cv, Wd.
  - rewrite wd_sub. apply csub; symmetry; apply wd_cv, Wd.
  - rewrite wd_mul. apply cmul; symmetry; apply wd_cv, Wd.
  - rewrite wd_land. apply cland; symmetry; apply wd_cv, Wd.
  - rewrite wd_lxor. apply clxor; symmetry; apply wd_cv, Wd.
  - rewrite wd_lor. apply clor; symmetry; apply wd_cv, Wd.
  - destruct (cv W t y =? 0) eqn:Y; [discriminate|].
    destruct (_ =? cv W t _) eqn:Q; [|discriminate]. intros E; apply some_inj in E; subst z.
    apply Z.eqb_eq in Q. split; [symmetry; exact Q|].
    subst t. unfold common in *. destruct (isuns ta || isuns tb); cbn [cv] in *.
    + change (wrap (8 * W)) with wd in *. cbn [arith_val]. rewrite Y. f_equal. rewrite <- Q.
      symmetry; apply Z.quot_div_nonneg; [apply wd_range|]. pose proof (wd_range y). lia.
    + change (swrap (8 * W)) with (sint W) in *. cbn [arith_val]. rewrite !sint_wd.
      rewrite sdiv by (exact Q || lia). reflexivity.
  - destruct (cv W t y =? 0) eqn:Y; [discriminate|].
    destruct (_ =? cv W t _) eqn:Q; [|discriminate]. intros E; apply some_inj in E; subst z.
    apply Z.eqb_eq in Q.
    subst t. unfold common in *. destruct (isuns ta || isuns tb); cbn [cv] in *.
    + change (wrap (8 * W)) with wd in *. cbn [arith_val]. rewrite Y.
      pose proof (wd_range y). pose proof (wd_range x).
      rewrite Z.rem_mod_nonneg by lia.
      pose proof (Z.mod_pos_bound (wd x) (wd y)).
      rewrite wd_id by lia. split; reflexivity.
    + change (swrap (8 * W)) with (sint W) in *. cbn [arith_val]. rewrite !sint_wd.
      rewrite sdiv by (exact Q || lia). split; [|reflexivity].
      pose proof (rem_range (sint W x) (sint W y)). pose proof (sint_range x).
      pose proof (sint_range y).
      apply sint_id. clear Q. lia.
Qed.

(** the value the compiler computes for two constants *)
Lemma mul_const sl sr x y : wd sl = wd x -> wd sr = wd y ->
  wd (s32 (u32 sl * u32 sr)) = wd (x * y).
Proof. intros H1 H2. rewrite w_s32. apply cmul; rewrite w_u32; assumption. Qed.

Lemma div_const (m uns : bool) sl sr x y z :
  let t := if uns then TUint else TInt in
  wd sl = wd x -> wd sr = wd y ->
  arith W (if m then BMod else BDiv) t (cv W t x) (cv W t y) = Some z ->
  exists s, divCalc W m sl sr uns true true = (true, s) /\ wd s = wd z.
Proof.
  cbv zeta. intros H1 H2 E. unfold divCalc. cbn [negb].
  destruct uns; cbn [cv] in E.
  - change (wrap (8 * W)) with wd in E.
    rewrite !tU, H1, H2.
    assert (U : forall a, u32 (s32 (wd a)) = wd a).
    { intros a. unfold u32, s32. rewrite swrap_wrap by reflexivity. unfold wrap.
      apply Z.mod_small. pose proof (wd_range a). clear - HW H.
      destruct HW; subst W; [change (2 ^ (8 * 2)) with 65536 in H|change (2 ^ (8 * 4)) with (2 ^ 32) in H];
      [change (2 ^ 32) with 4294967296|]; lia. }
    assert (E' : exists q, z = q /\ wd y <> 0 /\ q = if m then Z.rem (wd x) (wd y) else Z.quot (wd x) (wd y)).
    { destruct m; cbn [arith] in E; (destruct (wd y =? 0) eqn:Y; [discriminate|]);
      (destruct (_ =? _) in E; [|discriminate]); apply some_inj in E; exists z;
      (split; [reflexivity|split; [lia|subst z; reflexivity]]). }
    destruct E' as (q & -> & Y & ->).
    destruct (s32 (wd y) =? 0) eqn:Z0.
    { apply Z.eqb_eq in Z0. pose proof (U y) as Uy. rewrite Z0 in Uy. change (u32 0) with 0 in Uy. congruence. }
    cbn [negb andb]. rewrite !U. pose proof (wd_range x). pose proof (wd_range y).
    destruct m; eexists; (split; [reflexivity|]); rewrite w_s32; f_equal; symmetry;
    [apply Z.rem_mod_nonneg|apply Z.quot_div_nonneg]; lia.
  - change (swrap (8 * W)) with (sint W) in E. rewrite !tI, (sint_eq _ _ H1), (sint_eq _ _ H2).
    assert (E' : sint W y <> 0 /\ Z.quot (sint W x) (sint W y) = sint W (Z.quot (sint W x) (sint W y)) /\
                 z = if m then Z.rem (sint W x) (sint W y) else Z.quot (sint W x) (sint W y)).
    { destruct m; cbn [arith] in E; (destruct (sint W y =? 0) eqn:Y; [discriminate|]);
      (destruct (_ =? _) eqn:Q in E; [|discriminate]); apply some_inj in E; apply Z.eqb_eq in Q;
      (split; [lia|split; [exact Q|subst z; reflexivity]]). }
    destruct E' as (Y & Q & ->). rewrite <- Q, Z.eqb_refl.
    apply Z.eqb_neq in Y. rewrite Y. cbn [negb andb orb]. rewrite orb_false_r.
    assert (N : (sint W x =? - 2 ^ 31) && (sint W y =? -1) = false).
    { apply andb_false_iff. destruct (sint W y =? -1) eqn:E1; [left|now right].
      apply Z.eqb_eq in E1. rewrite E1 in Q. apply Z.eqb_neq. intros G. rewrite G in Q.
      destruct HW; subst W; discriminate Q. }
    rewrite N. destruct m; eexists; (split; reflexivity).
Qed.

(** shifts *)
Lemma lor_high a m : 0 <= m -> 0 <= a < 2 ^ m -> Z.lor a (- 2 ^ m) = a - 2 ^ m.
Proof.
  intros Hm Ha.
  assert (L : Z.land a (- 2 ^ m) = 0).
  { apply Z.bits_inj'. intros n Hn. rewrite Z.land_spec, Z.bits_0.
    destruct (Z_lt_le_dec n m).
    - replace (- 2 ^ m) with (-1 * 2 ^ m) by ring. rewrite Z.mul_pow2_bits_low by assumption.
      apply andb_false_r.
    - replace a with (a mod 2 ^ m) by (apply Z.mod_small; exact Ha).
      rewrite Z.mod_pow2_bits_high by lia. reflexivity. }
  replace (a - 2 ^ m) with (a + - 2 ^ m) by ring.
  rewrite <- Z.lxor_lor by exact L. symmetry. apply Z.add_nocarry_lxor, L.
Qed.

Lemma shr_const x n : - 2 ^ (8 * W - 1) <= x < 2 ^ (8 * W - 1) -> 0 < n < 8 * W ->
  wd (s32 (Z.lor (wd x / 2 ^ n)
                 (if x <? 0 then u32 ((2 ^ 32 - 1) * 2 ^ (8 * W - n)) else 0))) = wd (x / 2 ^ n).
Proof.
  intros Hx Hn. rewrite w_s32.
  assert (P2 : 2 ^ (8 * W) = 2 * 2 ^ (8 * W - 1)).
  { rewrite <- Z.pow_succ_r by lia. f_equal. lia. }
  destruct (x <? 0) eqn:S.
  - set (m := 8 * W - n).
    assert (Pm : 2 ^ (8 * W) = 2 ^ m * 2 ^ n).
    { rewrite <- Z.pow_add_r by lia. f_equal. unfold m. lia. }
    pose proof (Z.pow_pos_nonneg 2 n eq_refl) as Pn.
    assert (Ex : wd x = x + 2 ^ (8 * W)).
    { rewrite <- (wd_id (x + 2 ^ (8 * W))) by lia. unfold word, wrap.
      replace (x + 2 ^ (8 * W)) with (x + 1 * 2 ^ (8 * W)) by ring.
      rewrite Z.mod_add; [reflexivity|]. lia. }
    assert (Ed : wd x / 2 ^ n = x / 2 ^ n + 2 ^ m).
    { rewrite Ex, Pm, Z.div_add by lia. reflexivity. }
    transitivity (wd (Z.lor (wd x / 2 ^ n) (- 2 ^ m))).
    + apply clor; [reflexivity|]. rewrite w_u32.
      replace ((2 ^ 32 - 1) * 2 ^ m) with (2 ^ 32 * 2 ^ m - 2 ^ m) by ring.
      rewrite <- wd_sub.
      replace (wd (2 ^ 32 * 2 ^ m)) with 0.
      2: { rewrite <- wd_mul. replace (wd (2 ^ 32)) with 0; [rewrite Z.mul_0_l; symmetry; apply wd_id; pose proof w_pos; lia|].
           destruct HW; subst W; reflexivity. }
      rewrite <- (wd_id 0) by (pose proof w_pos; lia). rewrite wd_sub. f_equal.
    + rewrite lor_high.
      * f_equal. lia.
      * unfold m. lia.
      * split; [apply Z.div_pos; [apply wd_range|lia]|].
        apply Z.div_lt_upper_bound; [lia|]. rewrite Z.mul_comm, <- Pm. apply wd_range.
  - rewrite Z.lor_0_r. f_equal. rewrite (wd_id x) by lia. reflexivity.
Qed.

Lemma count_const (u : bool) sr y : wd sr = wd y -> 0 <= y < 8 * W ->
  let c := if u then s32 (truncUint W sr) else truncInt W sr in
  c = y /\ shiftCount W u c = (y, false) /\ wd y = y.
Proof.
  cbv zeta. intros H Hy.
  assert (Ey : wd y = y).
  { apply wd_id. destruct HW; subst W; cbn -[Z.pow] in *;
    [change (2 ^ 16) with 65536|change (2 ^ 32) with 4294967296]; lia. }
  assert (E : (if u then s32 (truncUint W sr) else truncInt W sr) = y).
  { destruct u.
    - rewrite tU, H, Ey. unfold s32, swrap. cbv zeta.
      rewrite Z.mod_small by (change (2 ^ 32) with 4294967296; destruct HW; lia).
      change (2 ^ (32 - 1)) with 2147483648.
      destruct (y <? 2147483648) eqn:L; [reflexivity|]. destruct HW; lia.
    - rewrite tI, (sint_eq _ _ H). apply sint_id.
      destruct HW; subst W; cbn -[Z.pow] in *;
      [change (2 ^ 15) with 32768|change (2 ^ 31) with 2147483648]; lia. }
  rewrite E. split; [reflexivity|]. split; [|exact Ey].
  unfold shiftCount.
  replace (u32 y) with y.
  2: { unfold u32, wrap. symmetry. apply Z.mod_small. change (2 ^ 32) with 4294967296. destruct HW; lia. }
  replace (y <? 0) with false by lia. replace (32 <=? y) with false by (destruct HW; lia).
  replace (8 * W <=? y) with false by lia. rewrite andb_false_r. reflexivity.
Qed.
End P.
