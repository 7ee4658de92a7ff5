(** The calls and the invariant. *)
From Coq Require Import Permutation.
From Verif Require Import Base BaseLemmas StrSpec StrModel StrLemmas HeapModel HeapSpec HeapLemmas HeapOps HeapState HeapClient HeapInv.

Section W.
Context (c : cfg) (HC : cfg_ok c).
Let HW : cW c = 2 \/ cW c = 4 := cfg_W c HC.
Notation W := (cW c).
Notation HH := (HF c).
Notation top := (2 ^ WB c).
Notation ok := (ok c).
Notation allocs := (allocs c).

Definition rl (lv : live) : list (Z * Z) := map (fun b => (fst b, round c (snd b))) lv.
Definition good (n : Z) : Prop := 0 < n <= top - 2 * HH.
Definition okl (shr : Prop) (h : heap) (lv : live) (bs : list (Z * bool)) : Prop :=
  ok h bs /\ Permutation (allocs (hstart h) bs) (rl lv) /\ Forall (fun b => good (snd b)) lv /\ (shr \/ coalf false bs = true).
Definition inv (shr : Prop) (h : heap) (lv : live) : Prop :=
  bytem (hm h) /\ dosinv c h /\ ((pre c h /\ lv = []) \/ exists bs, okl shr h lv bs).

Definition keeps (m m' : mem) (lv : live) : Prop := forall p n, In (p, n) lv -> kept m m' p n.
Lemma kp_keeps m m' l lv : Permutation l (rl lv) -> Forall (fun b => good (snd b)) lv -> kp m m' l -> keeps m m' lv.
Proof.
  intros P F K p n Hi x Hx. rewrite Forall_forall in F. specialize (F _ Hi). cbn [snd] in F. destruct (round_ok c HW n F) as (R & _).
  apply (K p (round c n)); [|lia]. eapply Permutation_in; [apply Permutation_sym, P|]. apply in_map_iff. exists (p, n). auto.
Qed.
Lemma kp_perm m m' l l' : Permutation l l' -> kp m m' l -> kp m m' l'.
Proof. intros P K p s x Hi. apply K. eapply Permutation_in; [apply Permutation_sym, P|exact Hi]. Qed.

Lemma malloc_init fuel h h1 n : hinit h = false -> init c h = Some h1 -> hinit h1 = true -> malloc c fuel h n = malloc c fuel h1 n.
Proof. intros E1 E2 E3. unfold malloc. rewrite E1, E2, E3. reflexivity. Qed.

(** [h1]: the state after the initialisation, if any *)
Lemma malloc_inv shr fuel h lv n : inv shr h lv -> request c n -> top <= Z.of_nat fuel ->
  exists h' r, malloc c fuel h n = Some (h', r) /\ keeps (hm h) (hm h') lv /\ 0 <= r /\
    inv shr h' (if r =? 0 then lv else (r, n) :: lv) /\
    (hinit h' = true -> r = 0 -> good n -> exists bs, okl shr h' lv bs /\ Forall (unfit (round c n)) bs).
Proof.
  intros (BM & DI & D) Rq Hf.
  assert (K : forall h', keeps (hm h') (hm h') lv) by (intros h' p k _ x _; reflexivity).
  assert (MAIN : forall h bs, bytem (hm h) -> dosinv c h -> okl shr h lv bs -> exists h' r, malloc c fuel h n = Some (h', r) /\ keeps (hm h) (hm h') lv /\ 0 <= r /\
    inv shr h' (if r =? 0 then lv else (r, n) :: lv) /\
    (hinit h' = true -> r = 0 -> good n -> exists bs, okl shr h' lv bs /\ Forall (unfit (round c n)) bs)).
  { clear h BM DI D. intros h bs BM DI (O & P & G & C).
    assert (Hn : 0 <= n < top) by apply Rq.
    destruct (bad_size c n) eqn:BS.
    - exists h, 0. split; [|split; auto; split; [lia|]; split; [cbn [Z.eqb]; split; auto; split; auto; right; exists bs; unfold okl; auto|]].
      + unfold malloc. pose proof O as []. rewrite ok_init. cbn [obind]. now rewrite ok_init, BS.
      + intros _ _ Hg. unfold good in Hg. apply (bad_size_spec c HW n Hn) in Hg. congruence.
    - apply (bad_size_spec c HW n Hn) in BS. destruct (malloc_live c HC h bs n fuel O BS Rq Hf) as (h' & r & bs' & E & O' & S & KP & CO & D).
      pose proof (malloc_ev c fuel h n h' r E) as [V1 V2].
      exists h', r. split; auto. split; [eapply kp_keeps; eauto|]. split; [destruct D as [D|D]; lia|].
      assert (CO' : shr \/ coalf false bs' = true) by (destruct C; auto). destruct D as [(-> & -> & U)|(Hr & P')].
      + cbn [Z.eqb]. assert (OL : okl shr h' lv bs) by (unfold okl; rewrite S; auto). split; [|eauto]. split; auto. split; auto. right. eauto.
      + replace (r =? 0) with false by lia. split; [|lia]. split; auto. split; auto. right. exists bs'. unfold okl. rewrite S. split; auto.
        split; [|split; auto; constructor; auto]. cbn [rl map fst snd]. eapply Permutation_trans; [exact P'|]. now constructor. }
  destruct D as [[P ->]|[bs OL]]; [|eapply MAIN; eauto].
  destruct (init_ok c HC h P) as (h1 & E & D). pose proof (init_ev c h h1 E) as [V1 V2]. destruct D as [P1|[sz O1]].
  - exists h1, 0. split; [|split; [intros p k []|split; [lia|split]]].
    + unfold malloc. destruct P as []. rewrite pre_init, E. cbn [obind]. destruct P1 as []. now rewrite pre_init0.
    + cbn [Z.eqb]. split; auto. 
    + destruct P1 as []. congruence.
  - pose proof O1 as []. rewrite (malloc_init fuel h h1) by (auto; apply P).
    destruct (MAIN h1 [(sz, false)]) as (h' & r & E' & K' & R' & I' & U'); auto.
    { split; auto. }
    exists h', r. split; auto. split; [intros p k []|]. auto.
Qed.

Lemma perm_mid {A} (l : list A) a l1 l2 l' : Permutation l (l1 ++ a :: l2) -> Permutation l (a :: l') -> Permutation l' (l1 ++ l2).
Proof.
  intros P1 P2. apply Permutation_cons_inv with a. eapply Permutation_trans; [apply Permutation_sym, P2|].
  eapply Permutation_trans; [exact P1|]. apply Permutation_sym, Permutation_middle.
Qed.
Lemma rl_app l1 l2 : rl (l1 ++ l2) = rl l1 ++ rl l2. Proof. apply map_app. Qed.

Lemma live_in shr h l1 p n l2 bs : okl shr h (l1 ++ (p, n) :: l2) bs -> In (p, round c n) (allocs (hstart h) bs) /\ good n.
Proof.
  intros (O & P & G & _). split.
  - eapply Permutation_in; [apply Permutation_sym, P|]. rewrite rl_app. apply in_or_app. right. left. reflexivity.
  - rewrite Forall_forall in G. apply (G (p, n)). apply in_or_app. right. left. reflexivity.
Qed.
Lemma inv_live shr h lv : inv shr h lv -> lv <> [] -> exists bs, okl shr h lv bs.
Proof. intros (_ & _ & [[_ ->]|D]) N; [congruence|auto]. Qed.

Lemma free_inv shr h l1 p n l2 : inv shr h (l1 ++ (p, n) :: l2) ->
  exists h', free c h p = Some h' /\ keeps (hm h) (hm h') (l1 ++ l2) /\ inv shr h' (l1 ++ l2).
Proof.
  intros I. destruct (inv_live _ _ _ I) as [bs OL]; [destruct l1; discriminate|]. destruct (live_in _ _ _ _ _ _ _ OL) as [Hi Hg].
  destruct I as (BM & DI & _). destruct OL as (O & P & G & C).
  destruct (free_live c HC h bs p _ O Hi) as (h' & bs' & E & O' & S & P' & K & CO).
  assert (P2 : Permutation (allocs (hstart h) bs') (rl (l1 ++ l2))). { rewrite rl_app in *. eapply perm_mid; eauto. }
  assert (G2 : Forall (fun b => good (snd b)) (l1 ++ l2)). { apply Forall_app in G as [G1 G2]. inversion G2; subst. apply Forall_app; auto. }
  pose proof (free_ev c h p h' E) as [V1 V2]. exists h'. split; auto. split; [eapply kp_keeps; eauto|].
  split; auto. split; auto. right. exists bs'. unfold okl. rewrite S. split; auto. split; auto. split; auto. destruct C; auto.
Qed.

(** Blocks of a live block *)
Lemma apart_in h bs l a b : ok h bs -> Permutation (allocs (hstart h) bs) (a :: l) -> In b l -> apart c a b.
Proof.
  intros [] P Hi. pose proof (pairs_perm c HC _ _ P (allocs_apart c HC _ _ _ ok_tiles)) as F. inversion F; subst. rewrite Forall_forall in *. auto.
Qed.

Lemma store_inv shr h lv x v m : inv shr h lv -> (exists p n, In (p, n) lv /\ p <= x < p + n) \/ x < clo c \/ chi c <= x ->
  st (hm h) x v = Some m -> inv shr (set_mem h m) lv.
Proof.
  intros (BM & DI & D) Hx E. split; [eapply st_bytem; eauto|]. split; auto.
  assert (MO : mono (hm h) m /\ forall y, y <> x -> m y = hm h y).
  { unfold st in E. destruct (hm h x) eqn:Ex; [|discriminate]. cbn [obind] in E. apply some_inj in E. subst m. split.
    - intros y Hy. destruct (y =? x); [discriminate|auto].
    - intros y Hy. now replace (y =? x) with false by lia. }
  destruct MO as [MO F]. destruct D as [[P ->]|[bs (O & P & G & C)]].
  - left. split; auto. destruct P as []. constructor; auto. intros y Hy. apply MO. now apply pre_map.
  - right. exists bs. split; auto. pose proof O as []. apply (data_live c HC); auto. intros y Hy Ne. assert (y = x) as -> by (destruct (Z.eq_dec y x); auto; exfalso; auto).
    destruct Hx as [(p & n & Hi & Hp)|Hx]; [|lia]. exists p, (round c n). rewrite Forall_forall in G. specialize (G _ Hi). cbn [snd] in G.
    destruct (round_ok c HW n G) as (R & _). split; [|lia]. eapply Permutation_in; [apply Permutation_sym, P|]. apply in_map_iff. exists (p, n). auto.
Qed.

(** Changes inside of one live block *)
Lemma data_inv shr h p n lv m : inv shr h ((p, n) :: lv) -> mono (hm h) m -> bytem m -> only (hm h) m p (round c n) ->
  inv shr (set_mem h m) ((p, n) :: lv) /\ keeps (hm h) m lv.
Proof.
  intros I MO BM' F. destruct (inv_live _ _ _ I) as [bs OL]; [discriminate|].
  destruct (live_in shr h [] p n lv bs OL) as [Hi Hg]. destruct I as (BM & DI & _).
  split.
  - split; auto. split; auto. right. exists bs. destruct OL as (O & P & G & C). split; auto. pose proof O as []. apply (data_live c HC); auto.
    intros x Hx Ne. exists p, (round c n). split; auto. destruct (Z.leb_spec p x); [destruct (Z.ltb_spec x (p + round c n)); [lia|]|]; exfalso; apply Ne, F; lia.
  - destruct OL as (O & P & G & C). inversion G; subst. intros q k Hq x Hx. apply F.
    assert (A : apart c (p, round c n) (q, round c k)). { eapply apart_in; eauto. apply in_map_iff. exists (q, k). auto. }
    rewrite Forall_forall in H2. specialize (H2 _ Hq). cbn [snd] in H2. destruct (round_ok c HW k H2) as (R & _). pose proof (W_pos c HW).
    unfold apart in A. cbn [fst snd] in A. lia.
Qed.
Lemma live_writable shr h p n lv : inv shr h ((p, n) :: lv) -> writable (hm h) p (round c n) /\ good n /\ 0 < p.
Proof.
  intros I. destruct (inv_live _ _ _ I) as [bs OL]; [discriminate|].
  destruct (live_in shr h [] p n lv bs OL) as [Hi Hg]. destruct OL as (O & _). pose proof O as [].
  eapply allocs_range in Hi; eauto. pose proof (W_pos c HW). split; [|split; auto; lia]. intros x Hx. apply ok_map. lia.
Qed.

Lemma calloc_inv shr fuel h lv k n : inv shr h lv -> 0 <= k < top -> 0 <= n < top -> request c (uw c (k * n)) -> top <= Z.of_nat fuel ->
  exists h' r, calloc c fuel h k n = Some (h', r) /\ keeps (hm h) (hm h') lv /\ 0 <= r /\
    inv shr h' (if r =? 0 then lv else (r, k * n) :: lv) /\
    (r <> 0 -> k * n < top /\ forall x, r <= x < r + k * n -> hm h' x = Some 0).
Proof.
  intros I Hk Hn Rq Hf. unfold calloc. assert (K : keeps (hm h) (hm h) lv) by (intros p q _ x _; reflexivity).
  assert (Z0 : exists h' r, Some (h, 0) = Some (h', r) /\ keeps (hm h) (hm h') lv /\ 0 <= r /\ inv shr h' (if r =? 0 then lv else (r, k * n) :: lv) /\
    (r <> 0 -> k * n < top /\ forall x, r <= x < r + k * n -> hm h' x = Some 0)) by (exists h, 0; split; auto; split; auto; split; [lia|]; split; [exact I|congruence]).
  cbv zeta. destruct (Z.eqb_spec (uw c (k * n)) 0) as [|N0]; auto. destruct (Z.eqb_spec (uw c (k * n) / n) k) as [Ek|]; cbn [negb]; auto.
  assert (Es : uw c (k * n) = k * n).
  { apply uw_id. pose proof (uw_range c HW (k * n)) as UR. destruct (Z.eq_dec n 0) as [->|Nn]; [rewrite Z.mul_0_r in *; unfold uw, wrap in N0; now rewrite Z.mod_0_l in N0 by lia|].
    pose proof (Z.mul_div_le (uw c (k * n)) n ltac:(lia)). rewrite Ek in *. nia. }
  rewrite Es in *. clear Ek. destruct (malloc_inv shr fuel h lv (k * n) I Rq Hf) as (h1 & r & E & K1 & R & I1 & _). rewrite E. cbn [obind].
  destruct (Z.eqb_spec r 0) as [->|Nr]; [exists h1, 0; split; auto; split; auto; split; auto; split; [exact I1|intros N; now destruct N]|].
  destruct (live_writable _ _ _ _ _ I1) as (Wr & Hg & _). destruct (round_ok c HW _ Hg) as (RR & _).
  unfold memset. destruct (fill_ok (Z.to_nat (k * n)) (hm h1) r 0) as (m & Em & Bm & Om); [intros a Ha; apply Wr; unfold good in Hg; lia|].
  rewrite Em. cbn [obind]. rewrite Z2Nat.id in Om by (unfold good in Hg; lia).
  assert (BZ : forall x, r <= x < r + k * n -> m x = Some 0).
  { intros x Hx. specialize (Bm (Z.to_nat (x - r)) 0). replace (r + Z.of_nat (Z.to_nat (x - r))) with x in Bm by lia. apply Bm.
    change (u8 0) with 0. rewrite nth_error_repeat; auto. lia. }
  assert (DI : inv shr (set_mem h1 m) ((r, k * n) :: lv) /\ keeps (hm h1) m lv).
  { apply data_inv; auto.
    - intros x Hx. destruct (Z.leb_spec r x); [destruct (Z.ltb_spec x (r + k * n))|]; [rewrite BZ by lia; discriminate|rewrite Om by lia; auto|rewrite Om by lia; auto].
    - eapply fill_bytem; eauto. apply I1.
    - intros x Hx. apply Om. lia. }
  destruct DI as [DI K2]. exists (set_mem h1 m), r. split; auto. cbn [set_mem hm].
  split; [intros q b Hq x Hx; rewrite (K2 q b Hq x Hx); apply (K1 q b Hq x Hx)|]. split; auto. replace (r =? 0) with false by lia. split; auto.
  intros _. split; auto. unfold good in Hg. lia.
Qed.

Lemma round_mono a b : good a -> good b -> a <= b -> round c a <= round c b.
Proof.
  intros Ha Hb L. rewrite !(round_eq c HW) by auto. pose proof (W_pos c HW). apply Z.mul_le_mono_nonneg_r; [lia|]. apply Z.div_le_mono; lia.
Qed.

Lemma inv_perm shr h l l' : inv shr h l -> Permutation l l' -> inv shr h l'.
Proof.
  intros (A & B & D) P. split; auto. split; auto. destruct D as [[D ->]|[bs (O & P' & G & C)]].
  - left. split; auto. now apply Permutation_nil.
  - right. exists bs. split; auto. split; [eapply Permutation_trans; [exact P'|]; now apply Permutation_map|]. split; auto. eapply Permutation_Forall; eauto.
Qed.

(** realloc.c:115-125 *)
Lemma move_inv shr h lv p n q n' l1 l2 m2 : inv shr h ((q, n') :: l1 ++ (p, n) :: l2) -> 0 <= n -> round c n < round c n' ->
  memcpy (hm h) q p (round c n) = m2 ->
  lv = l1 ++ l2 ->
  exists m, m2 = Some (q, m) /\ exists h', free c (set_mem h m) p = Some h' /\ inv shr h' ((q, n') :: lv) /\ keeps (hm h) (hm h') lv /\
    forall i, 0 <= i < n -> hm h' (q + i) = hm h (p + i).
Proof.
  intros I Hn L Em ->.
  assert (I2 : inv shr h ((p, n) :: (q, n') :: l1 ++ l2)).
  { eapply inv_perm; [exact I|]. eapply Permutation_trans; [|apply perm_swap]. apply perm_skip. apply Permutation_sym, Permutation_middle. }
  destruct (live_writable _ _ _ _ _ I) as (Wq & Gq & Pq). destruct (live_writable _ _ _ _ _ I2) as (Wp & Gp & Pp).
  destruct (round_ok c HW _ Gq) as (Rq & Mq & _). destruct (round_ok c HW _ Gp) as (Rp & Mp & _).
  pose proof (m2_gap c HW _ _ Mp Mq L) as GAP.
  destruct (inv_live _ _ _ I2) as [bs (O & P & G & C)]; [discriminate|].
  assert (A : apart c (p, round c n) (q, round c n')) by (eapply apart_in; eauto; left; reflexivity).
  unfold apart in A. cbn [fst snd] in A. pose proof (W_pos c HW) as HP.
  (* the bytes of the block *)
  assert (BL : exists l, zlen l = round c n /\ bytes (hm h) p l /\ Forall byte l).
  { destruct I as (BM & _). clear - Wp BM Rp HC Gp. unfold good in Gp. assert (R0 : 0 <= round c n) by lia. revert Wp. rewrite <- (Z2Nat.id (round c n)) by lia.
    generalize (Z.to_nat (round c n)) as k. clear - BM. induction k as [|k IH]; intros Wp.
    - exists []. split; auto. split; [intros i b Hi; destruct i; discriminate|constructor].
    - destruct IH as (l & E & B & F); [intros x Hx; apply Wp; lia|]. destruct (hm h (p + Z.of_nat k)) as [b|] eqn:Eb; [|exfalso; apply (Wp (p + Z.of_nat k)); [lia|auto]].
      exists (l ++ [b]). split; [rewrite zlen_app, E; cbn; lia|]. split; [|apply Forall_app; split; auto; constructor; auto; eapply BM; eauto].
      assert (EL : length l = k) by (unfold zlen in E; lia). intros i y Hi. destruct (Nat.lt_ge_cases i k) as [Li|Li].
      + apply B. now rewrite nth_error_app1 in Hi by lia.
      + rewrite nth_error_app2 in Hi by lia. rewrite EL in Hi. destruct (i - k)%nat as [|j] eqn:Ej; [|destruct j; discriminate]. cbn in Hi.
        assert (i = k) as -> by lia. congruence. }
  destruct BL as (l & El & Bl & Fl). 
  destruct (up_ok l (hm h) q p) as (m & E & B & Om); auto; [rewrite El; intros x Hx; apply Wq; lia|lia|].
  rewrite El in Om. unfold memcpy in Em. replace (Z.to_nat (round c n)) with (length l) in Em by (unfold zlen in El; lia). rewrite E in Em. cbn [obind] in Em. subst m2.
  exists m. split; auto.
  assert (Cp : forall i, 0 <= i < round c n -> m (q + i) = hm h (p + i)).
  { intros i Hi. destruct (nth_error l (Z.to_nat i)) as [b|] eqn:En; [|apply nth_error_None in En; unfold zlen in El; lia].
    pose proof (B _ _ En) as B1. pose proof (Bl _ _ En) as B2. rewrite Z2Nat.id in * by lia. congruence. }
  assert (DI : inv shr (set_mem h m) ((q, n') :: l1 ++ (p, n) :: l2) /\ keeps (hm h) m (l1 ++ (p, n) :: l2)).
  { apply data_inv; auto.
    - intros x Hx. destruct (Z.leb_spec q x); [destruct (Z.ltb_spec x (q + round c n))|]; [|rewrite Om by lia; auto|rewrite Om by lia; auto].
      replace x with (q + (x - q)) by lia. rewrite Cp by lia. apply Wp. lia.
    - eapply up_bytem; eauto. apply I.
    - intros x Hx. apply Om. lia. }
  destruct DI as [DI K1]. destruct (free_inv shr (set_mem h m) ((q, n') :: l1) p n l2 DI) as (h' & E' & K' & I').
  exists h'. split; auto. split; auto. split.
  - intros b s Hb x Hx. rewrite (K' b s) by (auto; right; exact Hb). cbn [set_mem hm]. apply (K1 b s); auto.
    apply in_app_or in Hb as [Hb|Hb]; apply in_or_app; [auto|right; right; auto].
  - intros i Hi. rewrite (K' q n' (or_introl eq_refl)) by lia. cbn [set_mem hm]. apply Cp. lia.
Qed.

Lemma round_request n : good n -> request c n -> request c (round c n) /\ good (round c n) /\ round c (round c n) = round c n.
Proof.
  intros Hg [Hr HL]. destruct (round_ok c HW n Hg) as (R1 & R2 & R3). split; [|split].
  - split; [fold (WB c); pose proof (W_pos c HW); lia|]. intros L. specialize (HL L). pose proof HC as HC'. unfold cfg_ok in HC'. rewrite L in HC'. destruct HC' as (EW & _).
    rewrite round_eq by auto. unfold HF. rewrite EW. lia.
  - exact R3.
  - now apply round_id.
Qed.
Lemma inv_round shr h r n l : good n -> inv shr h ((r, round c n) :: l) -> inv shr h ((r, n) :: l).
Proof.
  intros Hg (A & B & D). split; auto. split; auto. destruct D as [[_ D]|[bs (O & P & G & C)]]; [discriminate|]. right. exists bs.
  destruct (round_ok c HW n Hg) as (R1 & R2 & R3). split; auto. split; [|split; auto].
  - cbn [rl map fst snd] in P. rewrite (round_id c HW _ R2 R3) in P. exact P.
  - inversion G; subst. constructor; auto.
Qed.
Lemma perm_swap_mid {A} (x y : A) l1 l2 : Permutation (x :: l1 ++ y :: l2) (y :: l1 ++ x :: l2).
Proof.
  eapply Permutation_trans; [apply perm_skip, Permutation_sym, Permutation_middle|].
  eapply Permutation_trans; [apply perm_swap|]. apply perm_skip, Permutation_middle.
Qed.

Lemma realloc_inv shr fuel h l1 p n l2 n' : inv shr h (l1 ++ (p, n) :: l2) -> request c n' -> shr \/ n <= n' -> top <= Z.of_nat fuel ->
  exists h' r, realloc c fuel h p n' = Some (h', r) /\ 0 <= r /\ keeps (hm h) (hm h') (l1 ++ l2) /\
    inv shr h' (if r =? 0 then l1 ++ (p, n) :: l2 else l1 ++ (r, n') :: l2) /\
    (r = 0 -> keeps (hm h) (hm h') [(p, n)]) /\
    (r <> 0 -> forall i, 0 <= i < n -> i < n' -> hm h' (r + i) = hm h (p + i)).
Proof.
  intros I Rq Sh Hf. unfold realloc.
  assert (K0 : forall l, keeps (hm h) (hm h) l) by (intros l q k _ x _; reflexivity).
  assert (Hn' : 0 <= n' < top) by apply Rq.
  destruct (bad_size c n') eqn:BS.
  { exists h, 0. split; auto. split; [lia|]. split; auto. split; [exact I|]. split; [auto|]. intros N; now destruct N. }
  apply (bad_size_spec c HW n' Hn') in BS. fold (good n') in BS.
  destruct (inv_live _ _ _ I) as [bs OL]; [destruct l1; discriminate|]. destruct (live_in _ _ _ _ _ _ _ OL) as [Hi Hg].
  destruct (round_ok c HW n Hg) as (Rn1 & Rn2 & Rn3). destruct (round_ok c HW n' BS) as (R1 & R2 & R3).
  destruct OL as (O & P & G & C). apply allocs_split in Hi as (pre & post & -> & ->). pose proof O as [].
  pose proof (proj1 (tiles_app c HW _ _ _ _) ok_tiles) as [Tp Tq]. pose proof (tiles_ext_pos c HW _ _ _ Tp) as EP.
  cbn [tiles] in Tq. destruct Tq as (S & _ & T1 & Tq). pose proof (tiles_ext_pos c HW _ _ _ Tq) as EQ. pose proof (W_pos c HW) as HP.
  rewrite ext_app in *. cbn [ext] in *.
  set (p := hstart h + ext c pre + HH) in *. replace (p =? 0) with false by lia. cbv zeta.
  rewrite (uw_id c (p - HH)) by lia. replace (p - HH) with (hstart h + ext c pre) by lia.
  destruct T1 as (A & _). rewrite (ldx_ok c _ _ 0 (round c n)); [|lia|now rewrite Z.add_0_r]. cbn [obind].
  destruct (Z.leb_spec (round c n') (round c n)) as [L|L]; [destruct (Z.ltb_spec (round c n') (round c n)) as [L2|L2]|].
  - (* smaller *)
    assert (Hs : shr). { destruct Sh as [|Sh]; auto. pose proof (round_mono n n' Hg BS Sh). lia. }
    destruct (shrink_ok c HC h pre (round c n) post (round c n') O ltac:(lia) R2) as (m' & E & O' & F & MO & D).
    cbv zeta in E.
    match type of E with ?e = Some (_, ?q) => match goal with |- exists h' r, ?e' = Some (h', r) /\ _ => assert (E2 : e' = Some (set_mem h m', p)) by exact E end end.
    assert (EV : ev c h (set_mem h m')).
    { apply (realloc_ev c fuel h p n' _ p). unfold realloc. rewrite (proj2 (bad_size_spec c HW n' Hn') BS). replace (p =? 0) with false by lia. cbv zeta.
      rewrite (uw_id c (p - HH)) by lia. replace (p - HH) with (hstart h + ext c pre) by lia. rewrite (ldx_ok c _ _ 0 (round c n)); [|lia|now rewrite Z.add_0_r]. cbn [obind].
      replace (round c n' <=? round c n) with true by lia. replace (round c n' <? round c n) with true by lia. exact E2. }
    destruct EV as [V1 V2]. destruct I as (BM & DI & _).
    exists (set_mem h m'), p. split; [exact E2|]. clear E E2. split; [lia|]. replace (p =? 0) with false by lia.
    assert (PO : Permutation (allocs (hstart h) pre ++ allocs (hstart h + ext c pre + 2 * HH + round c n) post) (rl (l1 ++ l2))).
    { rewrite rl_app in P. rewrite allocs_app in P. cbn [HeapClient.allocs app] in P. rewrite rl_app. eapply perm_mid; [exact P|]. apply Permutation_sym, Permutation_middle. }
    assert (G2 : Forall (fun b => good (snd b)) (l1 ++ l2)). { apply Forall_app in G as [G1 G2]. inversion G2; subst. apply Forall_app; auto. }
    split; [|split; [|split; [lia|]]].
    + eapply kp_keeps; [exact PO|exact G2|]. intros q s x Hq Hx. apply F. apply in_app_or in Hq as [Hq|Hq]; eapply allocs_range in Hq; eauto; lia.
    + split; auto. split; auto. right. exists (pre ++ (round c n', true) :: (round c n - round c n' - 2 * HH, false) :: post).
      split; auto. split; [|split; auto].
      * cbn [set_mem hstart]. rewrite rl_app, allocs_app. cbn [HeapClient.allocs app rl map fst snd].
        replace (hstart h + ext c pre + 2 * HH + round c n' + 2 * HH + (round c n - round c n' - 2 * HH)) with (hstart h + ext c pre + 2 * HH + round c n) by lia.
        eapply Permutation_trans; [apply Permutation_sym, Permutation_middle|]. fold p. fold (rl l1) (rl l2). eapply Permutation_trans; [|apply Permutation_middle].
        apply perm_skip. rewrite <- rl_app. exact PO.
      * apply Forall_app in G as [G1 G3]. inversion G3; subst. apply Forall_app; auto.
    + intros _ i Hi1 Hi2. apply D. lia.
  - (* same *)
    exists h, p. split; auto. split; [lia|]. split; auto. replace (p =? 0) with false by lia. split; [|split; [lia|auto]].
    assert (ER : round c n' = round c n) by lia. destruct I as (BM & DI & _). split; auto. split; auto. right. exists (pre ++ (round c n, true) :: post).
    split; auto. split; [rewrite rl_app in *; cbn [rl map fst snd] in *; now rewrite ER|]. split; auto. apply Forall_app in G as [G1 G3]. inversion G3; subst. apply Forall_app; auto.
  - (* larger *)
    destruct (round_request n' BS Rq) as (Rq' & Gr & Er).
    destruct (malloc_inv shr fuel h _ (round c n') I Rq' Hf) as (h1 & r & E & K & R & I1 & _). rewrite E. cbn [obind].
    destruct (Z.eqb_spec r 0) as [->|Nr].
    + exists h1, 0. split; auto. split; auto. split; [|split; [exact I1|split; [|intros N; now destruct N]]].
      * intros q k Hq. apply K. apply in_app_or in Hq as [Hq|Hq]; apply in_or_app; [auto|right; right; auto].
      * intros _ q k [Hq|[]]. apply K. apply in_or_app. right. left. exact Hq.
    + destruct (move_inv shr h1 (l1 ++ l2) p n r n' l1 l2 (memcpy (hm h1) r p (round c n)) (inv_round _ _ _ _ _ BS I1) ltac:(unfold good in Hg; lia) L eq_refl eq_refl) as (m & Em & h' & Ef & I' & K' & D).
      rewrite Em. cbn [obind]. rewrite Ef. cbn [obind]. exists h', r. split; auto. split; auto. replace (r =? 0) with false by lia. split; [|split; [|split; [lia|]]].
      * intros q k Hq x Hx. rewrite (K' q k Hq x Hx). apply (K q k); auto. apply in_app_or in Hq as [Hq|Hq]; apply in_or_app; [auto|right; right; auto].
      * eapply inv_perm; [exact I'|apply Permutation_middle].
      * intros _ i Hi1 Hi2. rewrite D by lia. apply (K p n); [|lia]. apply in_or_app. right. left. reflexivity.
Qed.

Lemma fresh_inv shr h : fresh c h -> inv shr h [].
Proof.
  intros (E1 & E2 & E3 & M & B). split; [exact B|]. split; [intros _; congruence|]. left. split; auto. constructor; auto.
  - intros x Hx. apply M. destruct (cport c); auto. rewrite E3 in Hx; exact Hx.
  - intros HL. pose proof HC as HC'. unfold cfg_ok in HC'. rewrite HL in HC'. split; auto. lia.
Qed.
Lemma reach_inv shr fuel h lv : top <= Z.of_nat fuel -> reach c fuel shr h lv -> inv shr h lv.
Proof.
  intros Hf. induction 1 as [h F|h lv n h' r R IH Rq E|h lv k n h' r R IH Hk Hn Rq E|h lv n h' r R IH Rq E|h l1 p n l2 n' h' r R IH Rq Sh E|h lv h' R IH E|h l1 p n l2 h' R IH E|h lv x v m R IH Hx E].
  - now apply fresh_inv.
  - destruct (malloc_inv shr fuel h lv n IH Rq Hf) as (h2 & r2 & E2 & _ & _ & I & _). rewrite E in E2. apply some_inj in E2. apply pair_inj in E2 as [<- <-]. exact I.
  - destruct (calloc_inv shr fuel h lv k n IH Hk Hn Rq Hf) as (h2 & r2 & E2 & _ & _ & I & _). rewrite E in E2. apply some_inj in E2. apply pair_inj in E2 as [<- <-]. exact I.
  - unfold realloc in E. destruct (bad_size c n); [apply some_inj in E; apply pair_inj in E as [<- <-]; exact IH|]. cbn [Z.eqb] in E.
    destruct (malloc_inv shr fuel h lv n IH Rq Hf) as (h2 & r2 & E2 & _ & _ & I & _). rewrite E in E2. apply some_inj in E2. apply pair_inj in E2 as [<- <-]. exact I.
  - destruct (realloc_inv shr fuel h l1 p n l2 n' IH Rq Sh Hf) as (h2 & r2 & E2 & _ & _ & I & _). rewrite E in E2. apply some_inj in E2. apply pair_inj in E2 as [<- <-]. exact I.
  - unfold free in E. cbn [Z.eqb] in E. now apply some_inj in E as <-.
  - destruct (free_inv shr h l1 p n l2 IH) as (h2 & E2 & _ & I). rewrite E in E2. apply some_inj in E2 as <-. exact I.
  - eapply store_inv; eauto.
Qed.
End W.
