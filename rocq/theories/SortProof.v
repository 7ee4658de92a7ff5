From Coq Require Import Permutation.
From Verif Require Import Base BaseLemmas SortModel.

(** ** Arrays of elements *)
Definition el (es : list (list Z)) (k : Z) : list Z := nth (Z.to_nat k) es [].
Definition eset (es : list (list Z)) (k : Z) (v : list Z) := lset es (Z.to_nat k) v.
Definition eswap (es : list (list Z)) (i j : Z) := eset (eset es i (el es j)) j (el es i).

Lemma lset_nth {A} (l : list A) n v m d : (n < length l)%nat ->
  nth m (lset l n v) d = if Nat.eqb n m then v else nth m l d.
Proof.
  revert n m; induction l; intros n m H; simpl in *; [lia|].
  destruct n, m; simpl; auto. apply IHl. lia.
Qed.

Lemma el_eset es i v k : 0 <= i < zlen es -> 0 <= k -> el (eset es i v) k = if i =? k then v else el es k.
Proof.
  intros Hi Hk. unfold el, eset, zlen in *. rewrite lset_nth by lia.
  destruct (Nat.eqb_spec (Z.to_nat i) (Z.to_nat k)), (Z.eqb_spec i k); auto; lia.
Qed.
Lemma zlen_eset es i v : zlen (eset es i v) = zlen es.
Proof. unfold eset, zlen. now rewrite lset_length. Qed.
Lemma zlen_eswap es i j : zlen (eswap es i j) = zlen es.
Proof. unfold eswap. now rewrite !zlen_eset. Qed.
Lemma el_eswap es i j k : 0 <= i < zlen es -> 0 <= j < zlen es -> 0 <= k ->
  el (eswap es i j) k = if k =? j then el es i else if k =? i then el es j else el es k.
Proof.
  intros. unfold eswap. rewrite el_eset by (rewrite ?zlen_eset; lia).
  rewrite (Z.eqb_sym j k). destruct (k =? j); auto. rewrite el_eset by lia.
  rewrite (Z.eqb_sym i k). reflexivity.
Qed.

Lemma lset_perm {A} (l : list A) i j d : (i < length l)%nat -> (j < length l)%nat ->
  Permutation l (lset (lset l i (nth j l d)) j (nth i l d)).
Proof.
  revert i j. induction l as [|x l IH]; intros i j Hi Hj; [simpl in Hi; lia|].
  assert (K : forall l j, (j < length l)%nat -> Permutation (x :: l) (nth j l d :: lset l j x)).
  { clear. induction l as [|y l IH]; intros j Hj; [simpl in Hj; lia|].
    destruct j; [simpl; apply perm_swap|]. cbn [length] in Hj. cbn [nth lset].
    etransitivity; [apply perm_swap|]. etransitivity; [apply perm_skip, (IH j); lia|].
    apply perm_swap. }
  destruct i as [|i], j as [|j]; simpl in *.
  - reflexivity.
  - apply K. lia.
  - apply K. lia.
  - apply perm_skip, IH; lia.
Qed.
Lemma eswap_perm es i j : 0 <= i < zlen es -> 0 <= j < zlen es -> Permutation es (eswap es i j).
Proof. intros. apply lset_perm; unfold zlen in *; lia. Qed.

(** ** Element-level heap sort (an intermediate abstraction, proved equal to the model) *)
Section E.
Variable fcmp : cmpfn.
Variable esize : Z.

Definition ecall (es : list (list Z)) (tr : trace) (a b : Z) : Z * trace :=
  (fcmp tr (el es a) (el es b), (a * esize, b * esize) :: tr).

Fixpoint esiftup (fuel : nat) (es : list (list Z)) (tr : trace) (i : Z) : list (list Z) * trace :=
  match fuel with
  | O => (es, tr)
  | S fuel =>
      if i =? 0 then (es, tr) else
      let parent := (i - 1) / 2 in
      let (c, tr) := ecall es tr parent i in
      if c <? 0 then esiftup fuel (eswap es parent i) tr parent else (es, tr)
  end.

Fixpoint ebuild (n : nat) (es : list (list Z)) (tr : trace) (h : Z) :=
  match n with
  | O => (es, tr)
  | S n => let (es, tr) := esiftup (S (Z.to_nat h)) es tr h in ebuild n es tr (h + 1)
  end.

Definition ecand (es : list (list Z)) (tr : trace) (h i : Z) : Z * trace :=
  if 2 * i + 2 <? h then
    let (c, tr) := ecall es tr (2 * i + 2) (2 * i + 1) in
    (if c >? 0 then 2 * i + 2 else 2 * i + 1, tr)
  else (2 * i + 1, tr).

Fixpoint esiftdown (fuel : nat) (es : list (list Z)) (tr : trace) (h i : Z) : list (list Z) * trace :=
  match fuel with
  | O => (es, tr)
  | S fuel =>
      if negb (i <? h / 2) then (es, tr) else
      let (cand, tr) := ecand es tr h i in
      let (c, tr) := ecall es tr i cand in
      if c >=? 0 then (es, tr) else esiftdown fuel (eswap es i cand) tr h cand
  end.

Fixpoint edrain (h : nat) (es : list (list Z)) (tr : trace) :=
  match h with
  | O => (es, tr)
  | S h =>
      let es := eswap es 0 (Z.of_nat h) in
      let (es, tr) := esiftdown (S h) es tr (Z.of_nat h) 0 in
      edrain h es tr
  end.

Definition eqsort (es : list (list Z)) (n : nat) : list (list Z) * trace :=
  let (es, tr) := ebuild n es [] 0 in edrain n es tr.

(** ** Refinement: bytes to elements *)
Hypothesis Hes : 0 <= esize.
Definition fits (es : list (list Z)) : Prop :=
  Forall (fun e => zlen e = esize) es /\ zlen es * esize < 2 ^ 32 /\ zlen es < 2 ^ 32.

Lemma concat_len (es : list (list Z)) : Forall (fun e => zlen e = esize) es -> zlen (concat es) = zlen es * esize.
Proof.
  induction 1; [reflexivity|]. cbn [concat]. rewrite zlen_app, zlen_cons, IHForall, H. lia.
Qed.

Lemma concat_split (es : list (list Z)) i : Forall (fun e => zlen e = esize) es -> 0 <= i < zlen es ->
  exists a b, es = a ++ el es i :: b /\ zlen a = i /\ concat es = concat a ++ el es i ++ concat b /\
    zlen (concat a) = i * esize /\ zlen (el es i) = esize.
Proof.
  intros HF Hi. unfold el, zlen in Hi |- *.
  destruct (nth_split es [] (n := Z.to_nat i)) as (a & b & E & L); [lia|].
  exists a, b. rewrite E in HF. apply Forall_app in HF as [HFa HFb]. inversion HFb as [|? ? H1 H2]; clear HFb.
  split; [exact E|]. split; [lia|]. split.
  - rewrite E at 1. rewrite concat_app. reflexivity.
  - split; [|exact H1]. pose proof (concat_len a HFa) as C. unfold zlen in C. lia.
Qed.

Lemma slice_el es i : fits es -> 0 <= i < zlen es ->
  slice (concat es) (u32 (i * esize)) esize = Some (el es i).
Proof.
  intros (HF & HL & _) Hi. destruct (concat_split es i HF Hi) as (a & b & _ & La & E & Lc & Le).
  pose proof (concat_len es HF) as CL.
  assert (U : u32 (i * esize) = i * esize) by (apply u32_small; nia).
  rewrite U. unfold slice. rewrite CL.
  replace ((0 <=? i * esize) && (i * esize + esize <=? zlen es * esize)) with true by nia.
  f_equal. rewrite E. rewrite skipn_app.
  assert (Lc' : length (concat a) = Z.to_nat (i * esize)) by (unfold zlen in Lc; lia).
  rewrite skipn_all2 by lia. rewrite <- Lc', Nat.sub_diag. cbn [app skipn].
  rewrite firstn_app. assert (Le' : length (el es i) = Z.to_nat esize) by (unfold zlen in Le; lia).
  rewrite <- Le', firstn_all, Nat.sub_diag. cbn [firstn]. apply app_nil_r.
Qed.

Lemma call_ok es tr a b : fits es -> 0 <= a < zlen es -> 0 <= b < zlen es ->
  call fcmp esize (concat es) tr a b = Some (ecall es tr a b).
Proof.
  intros HF Ha Hb. unfold call, ecall. rewrite !slice_el by auto. cbn [obind].
  destruct HF as (_ & HL & _).
  assert (Ua : u32 (a * esize) = a * esize) by (apply u32_small; nia).
  assert (Ub : u32 (b * esize) = b * esize) by (apply u32_small; nia).
  rewrite Ua, Ub. reflexivity.
Qed.

(** Byte-wise exchange of two disjoint blocks. *)
Lemma exchange_disj : forall x y A B C, length x = length y ->
  exchange (A ++ x ++ B ++ y ++ C) (zlen A) (zlen A + zlen x + zlen B) (length x) =
  Some (A ++ y ++ B ++ x ++ C).
Proof.
  induction x as [|c x IH]; intros y A B C HL; destruct y as [|d y]; try discriminate; [reflexivity|].
  cbn [exchange length].
  assert (G1 : zget (A ++ (c :: x) ++ B ++ (d :: y) ++ C) (zlen A) = Some c).
  { rewrite zget_app_r, Z.sub_diag by lia. reflexivity. }
  rewrite G1. cbn [obind].
  assert (P2 : forall c, A ++ (c :: x) ++ B ++ (d :: y) ++ C = (A ++ (c :: x) ++ B) ++ d :: y ++ C).
  { intros. rewrite <- !app_assoc. reflexivity. }
  assert (G2 : zget (A ++ (c :: x) ++ B ++ (d :: y) ++ C) (zlen A + zlen (c :: x) + zlen B) = Some d).
  { rewrite P2. rewrite zget_app_r by (zl; lia). zl.
    replace (_ - _) with 0 by lia. reflexivity. }
  rewrite G2. cbn [obind].
  rewrite zset_Some. 2: { zl. pose proof (zlen_nonneg A). pose proof (zlen_nonneg x).
     pose proof (zlen_nonneg B). pose proof (zlen_nonneg y). pose proof (zlen_nonneg C). lia. }
  cbn [obind].
  replace (Z.to_nat (zlen A)) with (length A) by (unfold zlen; lia).
  cbn [app]. rewrite lset_app.
  replace (A ++ d :: x ++ B ++ d :: y ++ C) with ((A ++ d :: x ++ B) ++ d :: y ++ C)
    by (rewrite <- !app_assoc; cbn [app]; rewrite <- !app_assoc; reflexivity).
  rewrite zset_Some. 2: { zl. pose proof (zlen_nonneg A). pose proof (zlen_nonneg x).
     pose proof (zlen_nonneg B). pose proof (zlen_nonneg y). pose proof (zlen_nonneg C). lia. }
  cbn [obind].
  replace (Z.to_nat (zlen A + zlen (c :: x) + zlen B)) with (length (A ++ d :: x ++ B)).
  2: { unfold zlen. rewrite app_length. cbn [length]. rewrite app_length. lia. }
  rewrite lset_app.
  specialize (IH y (A ++ [d]) (B ++ [c]) C ltac:(simpl in HL; lia)).
  rewrite <- !app_assoc in IH. cbn [app] in IH.
  rewrite <- app_assoc. cbn [app]. rewrite <- app_assoc. cbn [app].
  replace (zlen A + 1) with (zlen (A ++ [d])) by (zl; lia).
  replace (zlen A + zlen (c :: x) + zlen B + 1) with (zlen (A ++ [d]) + zlen x + zlen (B ++ [c])) by (zl; lia).
  rewrite IH. reflexivity.
Qed.

Lemma exchange_sym size : forall arr p1 p2, exchange arr p1 p2 size = exchange arr p2 p1 size.
Proof.
  induction size; intros; [reflexivity|]. cbn [exchange].
  destruct (zget arr p1) as [a|] eqn:E1, (zget arr p2) as [b|] eqn:E2; cbn [obind]; auto.
  pose proof (zget_Some_range _ _ _ E1). pose proof (zget_Some_range _ _ _ E2).
  destruct (zset arr p1 b) as [l1|] eqn:S1, (zset arr p2 a) as [l2|] eqn:S2; cbn [obind].
  2-4: exfalso.
  2: assert (exists l, zset arr p2 a = Some l) as [? ?] by (apply zset_range; lia); congruence.
  2: assert (exists l, zset arr p1 b = Some l) as [? ?] by (apply zset_range; lia); congruence.
  2: assert (exists l, zset arr p1 b = Some l) as [? ?] by (apply zset_range; lia); congruence.
  assert (exists l, zset l1 p2 a = Some l) as [m1 M1].
  { apply zset_range. rewrite (zset_len _ _ _ _ S1). lia. }
  assert (exists l, zset l2 p1 b = Some l) as [m2 M2].
  { apply zset_range. rewrite (zset_len _ _ _ _ S2). lia. }
  rewrite M1, M2. cbn [obind]. assert (m1 = m2) as ->; [|apply IHsize].
  apply zget_ext. intros k.
  rewrite (zset_get _ _ _ _ k M1), (zset_get _ _ _ _ k S1), (zset_get _ _ _ _ k M2), (zset_get _ _ _ _ k S2).
  destruct (Z.eqb_spec p2 k), (Z.eqb_spec p1 k); auto. subst. congruence.
Qed.

Lemma exchange_self size : forall arr p, 0 <= p -> p + Z.of_nat size <= zlen arr ->
  exchange arr p p size = Some arr.
Proof.
  induction size; intros arr p Hp HL; [reflexivity|]. cbn [exchange].
  assert (exists v, zget arr p = Some v) as [v E] by (apply zget_range; lia). rewrite E. cbn [obind].
  assert (S1 : zset arr p v = Some arr).
  { destruct (proj2 (zset_range arr p v)) as [l' S]; [lia|]. rewrite S. f_equal.
    apply zget_ext. intros k. rewrite (zset_get _ _ _ _ k S). destruct (Z.eqb_spec p k); congruence. }
  rewrite S1. cbn [obind]. rewrite S1. cbn [obind]. apply IHsize; lia.
Qed.

Lemma eset_app (a : list (list Z)) x b v : eset (a ++ x :: b) (zlen a) v = a ++ v :: b.
Proof. unfold eset, zlen. rewrite Nat2Z.id. apply lset_app. Qed.
Lemma el_app (a : list (list Z)) x b : el (a ++ x :: b) (zlen a) = x.
Proof. unfold el, zlen. rewrite Nat2Z.id. rewrite app_nth2, Nat.sub_diag by lia. reflexivity. Qed.

Lemma eswap_lt (a : list (list Z)) x b y c :
  eswap (a ++ x :: b ++ y :: c) (zlen a) (zlen a + 1 + zlen b) = a ++ y :: b ++ x :: c.
Proof.
  unfold eswap. rewrite el_app.
  assert (P : forall x, a ++ x :: b ++ y :: c = (a ++ x :: b) ++ y :: c) by (intros; rewrite <- app_assoc; reflexivity).
  assert (E : el (a ++ x :: b ++ y :: c) (zlen a + 1 + zlen b) = y).
  { rewrite P. replace (zlen a + 1 + zlen b) with (zlen (a ++ x :: b)) by (zl; lia). apply el_app. }
  rewrite E, eset_app, P. replace (zlen a + 1 + zlen b) with (zlen (a ++ y :: b)) by (zl; lia).
  rewrite eset_app, <- app_assoc. reflexivity.
Qed.

Lemma eswap_sym es i j : 0 <= i < zlen es -> 0 <= j < zlen es -> eswap es i j = eswap es j i.
Proof.
  intros Hi Hj. apply (nth_ext _ _ [] []).
  - pose proof (zlen_eswap es i j). pose proof (zlen_eswap es j i). unfold zlen in *. lia.
  - intros n _. pose proof (el_eswap es i j (Z.of_nat n) Hi Hj ltac:(lia)) as A.
    pose proof (el_eswap es j i (Z.of_nat n) Hj Hi ltac:(lia)) as B. unfold el in A, B.
    rewrite Nat2Z.id in A, B. rewrite A, B.
    destruct (Z.eqb_spec (Z.of_nat n) j), (Z.eqb_spec (Z.of_nat n) i); auto. congruence.
Qed.

Lemma eswap_self es i : 0 <= i < zlen es -> eswap es i i = es.
Proof.
  intros Hi. apply (nth_ext _ _ [] []).
  - pose proof (zlen_eswap es i i). unfold zlen in *. lia.
  - intros n _. pose proof (el_eswap es i i (Z.of_nat n) Hi Hi ltac:(lia)) as A. unfold el in A.
    rewrite Nat2Z.id in A. rewrite A. destruct (Z.eqb_spec (Z.of_nat n) i); auto. subst. now rewrite Nat2Z.id.
Qed.

Lemma xchg_lt es i j : fits es -> 0 <= i < j -> j < zlen es ->
  exchange (concat es) (i * esize) (j * esize) (Z.to_nat esize) = Some (concat (eswap es i j)).
Proof.
  intros (HF & HL & _) Hij Hj.
  destruct (concat_split es i HF ltac:(lia)) as (a & r & E & La & _ & Lc & Le).
  assert (HFr : Forall (fun e => zlen e = esize) r).
  { rewrite E in HF. apply Forall_app in HF as [_ HF]. inversion HF; auto. }
  assert (Hr : 0 <= j - i - 1 < zlen r). { rewrite E in Hj. zl. lia. }
  destruct (concat_split r (j - i - 1) HFr Hr) as (b & c & E2 & Lb & _ & Lcb & Le2).
  set (x := el es i) in *. set (y := el r (j - i - 1)) in *.
  rewrite E2 in E.
  rewrite E. rewrite <- La.
  replace (j * esize) with ((zlen a + 1 + zlen b) * esize) by (f_equal; lia).
  replace j with (zlen a + 1 + zlen b) at 1 by lia.
  rewrite eswap_lt. rewrite !concat_app. cbn [concat]. rewrite !concat_app. cbn [concat].
  assert (Hlen : length x = length y) by (unfold zlen in *; lia).
  pose proof (exchange_disj x y (concat a) (concat b) (concat c) Hlen) as X.
  rewrite Lc, Le, Lcb in X.
  replace (zlen a * esize) with (i * esize) by (rewrite La; reflexivity).
  replace ((zlen a + 1 + zlen b) * esize) with (i * esize + esize + (j - i - 1) * esize) by (rewrite La, Lb; lia).
  replace (Z.to_nat esize) with (length x) by (unfold zlen in *; lia). exact X.
Qed.

Lemma xchg_ok es i j : fits es -> 0 <= i < zlen es -> 0 <= j < zlen es ->
  xchg esize (concat es) i j = Some (concat (eswap es i j)).
Proof.
  intros HF Hi Hj. unfold xchg. pose proof HF as (HFa & HL & _).
  assert (Ui : u32 (i * esize) = i * esize) by (apply u32_small; nia).
  assert (Uj : u32 (j * esize) = j * esize) by (apply u32_small; nia).
  rewrite Ui, Uj. destruct (Z.lt_total i j) as [L|[L|L]].
  - apply xchg_lt; auto; lia.
  - subst j. rewrite eswap_self by auto. apply exchange_self; [nia|].
    rewrite concat_len by auto. nia.
  - rewrite exchange_sym, eswap_sym by auto. apply xchg_lt; auto; lia.
Qed.

Lemma fits_perm es es' : Permutation es es' -> fits es -> fits es'.
Proof.
  intros HP (HF & HL & HN). assert (E : zlen es' = zlen es).
  { unfold zlen. now rewrite (Permutation_length HP). }
  split; [|rewrite E; auto]. eapply Permutation_Forall; eauto.
Qed.

Lemma fits_swap es i j : 0 <= i < zlen es -> 0 <= j < zlen es -> fits es -> fits (eswap es i j).
Proof. intros Hi Hj. apply fits_perm, eswap_perm; auto. Qed.

Lemma siftup_ok : forall fuel es tr i, fits es -> 0 <= i < zlen es -> i < Z.of_nat fuel ->
  siftup fcmp esize fuel (concat es) tr i (Z.shiftr (u32 (i - 1)) 1) =
  Some (let '(es', tr') := esiftup fuel es tr i in (concat es', tr')).
Proof.
  induction fuel; intros es tr i HF Hi Hfu; [lia|]. cbn [siftup esiftup].
  destruct (Z.eqb_spec i 0); [reflexivity|].
  pose proof HF as (_ & _ & HN).
  assert (EP : Z.shiftr (u32 (i - 1)) 1 = (i - 1) / 2).
  { rewrite Z.shiftr_div_pow2, u32_small by lia. reflexivity. }
  rewrite EP. rewrite call_ok by (auto; lia). unfold ecall. cbn [obind].
  destruct (_ <? 0); [|reflexivity].
  rewrite xchg_ok by (auto; lia). cbn [obind].
  rewrite IHfuel; auto; try lia.
  - apply fits_swap; auto; lia.
  - rewrite zlen_eswap. lia.
Qed.

Lemma esiftup_len : forall fuel es tr i, zlen (fst (esiftup fuel es tr i)) = zlen es.
Proof.
  induction fuel; intros; [reflexivity|]. cbn [esiftup]. destruct (i =? 0); [reflexivity|].
  unfold ecall. destruct (_ <? 0); [|reflexivity]. rewrite IHfuel. apply zlen_eswap.
Qed.
Lemma esiftup_perm : forall fuel es tr i, 0 <= i < zlen es -> Permutation es (fst (esiftup fuel es tr i)).
Proof.
  induction fuel; intros es tr i Hi; [reflexivity|]. cbn [esiftup]. destruct (Z.eqb_spec i 0); [reflexivity|].
  unfold ecall. destruct (_ <? 0); [|reflexivity].
  etransitivity; [apply (eswap_perm es ((i - 1) / 2) i); lia|]. apply IHfuel. rewrite zlen_eswap. lia.
Qed.

Lemma build_ok : forall n es tr h, fits es -> 0 <= h -> h + Z.of_nat n <= zlen es ->
  build fcmp esize n (concat es) tr h = Some (let '(es', tr') := ebuild n es tr h in (concat es', tr')).
Proof.
  induction n; intros es tr h HF Hh HL; [reflexivity|]. cbn [build ebuild].
  rewrite siftup_ok by (auto; lia). cbn [obind].
  destruct (esiftup (S (Z.to_nat h)) es tr h) as [es' tr'] eqn:E.
  pose proof (esiftup_perm (S (Z.to_nat h)) es tr h ltac:(lia)) as P. rewrite E in P. cbn [fst] in P.
  pose proof (esiftup_len (S (Z.to_nat h)) es tr h) as L. rewrite E in L. cbn [fst] in L.
  assert (Hu : u32 (h + 1) = h + 1). { destruct HF as (_ & _ & HN). apply u32_small. lia. }
  rewrite Hu. apply IHn; try lia. eapply fits_perm; eauto.
Qed.

Lemma ebuild_perm : forall n es tr h, 0 <= h -> h + Z.of_nat n <= zlen es ->
  Permutation es (fst (ebuild n es tr h)).
Proof.
  induction n; intros es tr h Hh HL; [reflexivity|]. cbn [ebuild].
  destruct (esiftup (S (Z.to_nat h)) es tr h) as [es' tr'] eqn:E.
  pose proof (esiftup_perm (S (Z.to_nat h)) es tr h ltac:(lia)) as P. rewrite E in P. cbn [fst] in P.
  etransitivity; [exact P|]. apply IHn; [lia|]. unfold zlen in *. rewrite <- (Permutation_length P). lia.
Qed.

Lemma ecand_range es tr h i : 0 <= i < h / 2 -> 
  fst (ecand es tr h i) = 2 * i + 1 \/ (fst (ecand es tr h i) = 2 * i + 2 /\ 2 * i + 2 < h).
Proof.
  intros. unfold ecand. destruct (Z.ltb_spec (2 * i + 2) h); [|auto].
  unfold ecall. destruct (_ >? 0); auto.
Qed.

Lemma siftdown_ok : forall fuel es tr h i, fits es -> 0 <= i -> 0 <= h <= zlen es ->
  (i <= h -> h - i < Z.of_nat fuel) -> (0 < fuel)%nat ->
  siftdown fcmp esize fuel (concat es) tr h i =
  Some (let '(es', tr') := esiftdown fuel es tr h i in (concat es', tr')).
Proof.
  induction fuel; intros es tr h i HF Hi Hh Hfu Hpos; [lia|]. cbn [siftdown esiftdown].
  rewrite Z.shiftr_div_pow2 by lia. change (2 ^ 1) with 2.
  destruct (Z.ltb_spec i (h / 2)) as [Hc|Hc]; cbn [negb]; [|reflexivity].
  pose proof HF as (_ & _ & HN).
  assert (EL : u32 (u32 (Z.shiftl i 1) + 1) = 2 * i + 1).
  { rewrite Z.shiftl_mul_pow2 by lia. rewrite (u32_small (i * 2 ^ 1)) by lia. rewrite u32_small; lia. }
  rewrite EL.
  assert (ER : u32 (2 * i + 1 + 1) = 2 * i + 2) by (rewrite u32_small; lia). rewrite ER.
  assert (EC : (if 2 * i + 2 <? h
     then let? (c, tr0) := call fcmp esize (concat es) tr (2 * i + 2) (2 * i + 1) in
          Some (if c >? 0 then 2 * i + 2 else 2 * i + 1, tr0)
     else Some (2 * i + 1, tr)) = Some (ecand es tr h i)).
  { unfold ecand. destruct (Z.ltb_spec (2 * i + 2) h); [|reflexivity].
    rewrite call_ok by (auto; lia). unfold ecall. reflexivity. }
  rewrite EC. cbn [obind]. pose proof (ecand_range es tr h i ltac:(lia)) as RC.
  destruct (ecand es tr h i) as [cand tr1]. cbn [fst] in RC.
  rewrite call_ok by (auto; lia). unfold ecall. cbn [obind].
  destruct (_ >=? 0); [reflexivity|].
  rewrite xchg_ok by (auto; lia). cbn [obind].
  apply IHfuel; try lia.
  - apply fits_swap; auto; lia.
  - rewrite zlen_eswap. lia.
Qed.

Lemma esiftdown_perm : forall fuel es tr h i, 0 <= i -> 0 <= h <= zlen es ->
  Permutation es (fst (esiftdown fuel es tr h i)).
Proof.
  induction fuel; intros es tr h i Hi Hh; [reflexivity|]. cbn [esiftdown].
  destruct (Z.ltb_spec i (h / 2)) as [Hc|Hc]; cbn [negb]; [|reflexivity].
  pose proof (ecand_range es tr h i ltac:(lia)) as RC.
  destruct (ecand es tr h i) as [cand tr1]. cbn [fst] in RC. unfold ecall.
  destruct (_ >=? 0); [reflexivity|].
  etransitivity; [apply (eswap_perm es i cand); lia|]. apply IHfuel; [lia|]. rewrite zlen_eswap. lia.
Qed.

Lemma drain_ok : forall h es tr, fits es -> Z.of_nat h <= zlen es ->
  drain fcmp esize h (concat es) tr = Some (let '(es', tr') := edrain h es tr in (concat es', tr')).
Proof.
  induction h; intros es tr HF HL; [reflexivity|]. cbn [drain edrain].
  rewrite xchg_ok by (auto; lia). cbn [obind].
  assert (HF' : fits (eswap es 0 (Z.of_nat h))) by (apply fits_swap; auto; lia).
  rewrite siftdown_ok; auto; try (rewrite ?zlen_eswap; lia). cbn [obind].
  destruct (esiftdown (S h) (eswap es 0 (Z.of_nat h)) tr (Z.of_nat h) 0) as [es' tr'] eqn:E.
  pose proof (esiftdown_perm (S h) (eswap es 0 (Z.of_nat h)) tr (Z.of_nat h) 0 ltac:(lia)) as P.
  rewrite E in P. cbn [fst] in P. specialize (P ltac:(rewrite zlen_eswap; lia)).
  apply IHh.
  - eapply fits_perm; eauto.
  - pose proof (Permutation_length P). pose proof (zlen_eswap es 0 (Z.of_nat h)). unfold zlen in *. lia.
Qed.

Lemma edrain_perm : forall h es tr, Z.of_nat h <= zlen es -> Permutation es (fst (edrain h es tr)).
Proof.
  induction h; intros es tr HL; [reflexivity|]. cbn [edrain].
  destruct (esiftdown (S h) (eswap es 0 (Z.of_nat h)) tr (Z.of_nat h) 0) as [es' tr'] eqn:E.
  pose proof (esiftdown_perm (S h) (eswap es 0 (Z.of_nat h)) tr (Z.of_nat h) 0 ltac:(lia)) as P.
  rewrite E in P. cbn [fst] in P. specialize (P ltac:(rewrite zlen_eswap; lia)).
  etransitivity; [apply (eswap_perm es 0 (Z.of_nat h)); lia|].
  etransitivity; [exact P|]. apply IHh.
  pose proof (Permutation_length P). pose proof (zlen_eswap es 0 (Z.of_nat h)). unfold zlen in *. lia.
Qed.

Lemma qsort_refines es : fits es ->
  qsort fcmp esize (concat es) (length es) =
  Some (let '(es', tr') := eqsort es (length es) in (concat es', tr')).
Proof.
  intros HF. unfold qsort, eqsort. rewrite build_ok by (auto; unfold zlen; lia). cbn [obind].
  pose proof (ebuild_perm (length es) es [] 0 ltac:(lia) ltac:(unfold zlen; lia)) as P.
  destruct (ebuild (length es) es [] 0) as [es' tr']. cbn [fst] in P.
  apply drain_ok; [eapply fits_perm; eauto|]. unfold zlen. rewrite (Permutation_length P). lia.
Qed.

Lemma eqsort_perm es : Permutation es (fst (eqsort es (length es))).
Proof.
  unfold eqsort.
  pose proof (ebuild_perm (length es) es [] 0 ltac:(lia) ltac:(unfold zlen; lia)) as P.
  destruct (ebuild (length es) es [] 0) as [es' tr']. cbn [fst] in P.
  etransitivity; [exact P|]. apply edrain_perm. unfold zlen. rewrite (Permutation_length P). lia.
Qed.

(** ** The trace: only element pointers are compared *)
Definition tr_ok (n : Z) (tr : trace) : Prop :=
  Forall (fun pq => exists a b, pq = (a * esize, b * esize) /\ 0 <= a < n /\ 0 <= b < n) tr.

Lemma tr_ok_cons n tr a b : tr_ok n tr -> 0 <= a < n -> 0 <= b < n ->
  tr_ok n ((a * esize, b * esize) :: tr).
Proof. intros. constructor; auto. exists a, b. auto. Qed.

Lemma esiftup_tr : forall fuel es tr i n, tr_ok n tr -> 0 <= i < n -> tr_ok n (snd (esiftup fuel es tr i)).
Proof.
  induction fuel; intros es tr i n HT Hi; [exact HT|]. cbn [esiftup]. destruct (Z.eqb_spec i 0); [exact HT|].
  unfold ecall. assert (tr_ok n (((i - 1) / 2 * esize, i * esize) :: tr)) by (apply tr_ok_cons; auto; lia).
  destruct (_ <? 0); [|auto]. apply IHfuel; auto. lia.
Qed.
Lemma ebuild_tr : forall k es tr h n, tr_ok n tr -> 0 <= h -> h + Z.of_nat k <= n ->
  tr_ok n (snd (ebuild k es tr h)).
Proof.
  induction k; intros es tr h n HT Hh HL; [exact HT|]. cbn [ebuild].
  pose proof (esiftup_tr (S (Z.to_nat h)) es tr h n HT ltac:(lia)) as T.
  destruct (esiftup (S (Z.to_nat h)) es tr h). cbn [snd] in T. apply IHk; auto; lia.
Qed.
Lemma esiftdown_tr : forall fuel es tr h i n, tr_ok n tr -> 0 <= i -> 0 <= h <= n ->
  tr_ok n (snd (esiftdown fuel es tr h i)).
Proof.
  induction fuel; intros es tr h i n HT Hi Hh; [exact HT|]. cbn [esiftdown].
  destruct (Z.ltb_spec i (h / 2)) as [Hc|Hc]; cbn [negb]; [|exact HT].
  pose proof (ecand_range es tr h i ltac:(lia)) as RC.
  assert (HT1 : tr_ok n (snd (ecand es tr h i))).
  { unfold ecand. destruct (Z.ltb_spec (2 * i + 2) h); [|exact HT]. unfold ecall. cbn [snd].
    apply tr_ok_cons; auto; lia. }
  destruct (ecand es tr h i) as [cand tr1]. cbn [fst snd] in RC, HT1. unfold ecall.
  assert (tr_ok n ((i * esize, cand * esize) :: tr1)) by (apply tr_ok_cons; auto; lia).
  destruct (_ >=? 0); [auto|]. apply IHfuel; auto; lia.
Qed.
Lemma edrain_tr : forall h es tr n, tr_ok n tr -> Z.of_nat h <= n -> tr_ok n (snd (edrain h es tr)).
Proof.
  induction h; intros es tr n HT HL; [exact HT|]. cbn [edrain].
  pose proof (esiftdown_tr (S h) (eswap es 0 (Z.of_nat h)) tr (Z.of_nat h) 0 n HT ltac:(lia) ltac:(lia)) as T.
  destruct (esiftdown (S h) (eswap es 0 (Z.of_nat h)) tr (Z.of_nat h) 0). cbn [snd] in T. apply IHh; auto. lia.
Qed.
Lemma eqsort_tr es : tr_ok (zlen es) (snd (eqsort es (length es))).
Proof.
  unfold eqsort.
  pose proof (ebuild_tr (length es) es [] 0 (zlen es) (Forall_nil _) ltac:(lia) ltac:(unfold zlen; lia)) as T.
  destruct (ebuild (length es) es [] 0). cbn [snd] in T. apply edrain_tr; auto. unfold zlen. lia.
Qed.

(** ** Sortedness for a consistent comparison function *)
Variable cmp : list Z -> list Z -> Z.
Hypothesis Hpure : forall tr x y, fcmp tr x y = cmp x y.
Hypothesis Hanti : forall x y, cmp x y < 0 <-> cmp y x > 0.
Hypothesis Htrans : forall x y z, cmp x y <= 0 -> cmp y z <= 0 -> cmp x z <= 0.
Definition le x y := cmp x y <= 0.

Lemma le_total x y : le x y \/ le y x.
Proof. unfold le. pose proof (Hanti x y). pose proof (Hanti y x). lia. Qed.
Lemma le_refl x : le x x.
Proof. destruct (le_total x x); auto. Qed.

Definition parent (j : Z) := (j - 1) / 2.
Definition heap (es : list (list Z)) (h : Z) : Prop :=
  forall j, 0 < j < h -> le (el es j) (el es (parent j)).

(** Sift-up invariant: heap of size [h] except possibly between [i] and its parent. *)
Definition up_inv (es : list (list Z)) (h i : Z) : Prop :=
  (forall j, 0 < j < h -> j <> i -> le (el es j) (el es (parent j))) /\
  (forall j, 0 < j < h -> parent j = i -> 0 < i -> le (el es j) (el es (parent i))).

Lemma up_inv_step es h i : 0 < i < h -> h <= zlen es -> up_inv es h i ->
  cmp (el es (parent i)) (el es i) < 0 -> up_inv (eswap es (parent i) i) h (parent i).
Proof.
  intros Hi Hh [A B] Hc. set (p := parent i) in *.
  assert (Hp : 0 <= p < i) by (unfold p, parent; lia).
  assert (G : forall k, 0 <= k < h -> el (eswap es p i) k =
     if k =? i then el es p else if k =? p then el es i else el es k).
  { intros. apply el_eswap; lia. }
  assert (Hpi : le (el es p) (el es i)) by (unfold le; lia).
  split.
  - intros j Hj Hjp. assert (Hpj : 0 <= parent j < j) by (unfold parent; lia).
    rewrite !G by lia. destruct (Z.eqb_spec j i).
    + subst j. fold p. replace (p =? i) with false by lia. replace (p =? p) with true by lia. exact Hpi.
    + replace (j =? p) with false by lia.
      destruct (Z.eqb_spec (parent j) i) as [E|E]; [apply (B j Hj E); lia|].
      destruct (Z.eqb_spec (parent j) p) as [E2|E2]; [|apply A; auto].
      apply (Htrans _ (el es p)); [|exact Hpi]. rewrite <- E2. apply A; auto.
  - intros j Hj Hpj Hp0. set (q := parent p). assert (Hq : 0 <= q < p) by (unfold q, parent; lia).
    rewrite !G by (unfold parent in Hpj; lia).
    replace (q =? i) with false by lia. replace (q =? p) with false by lia.
    assert (Hpq : le (el es p) (el es q)) by (apply (A p); lia).
    destruct (Z.eqb_spec j i); [exact Hpq|].
    replace (j =? p) with false by (unfold parent in Hpj; lia).
    apply (Htrans _ (el es p)); [|exact Hpq]. rewrite <- Hpj. apply A; auto.
Qed.

Lemma esiftup_heap : forall fuel es tr h i, 0 <= i < h -> h <= zlen es -> i < Z.of_nat fuel ->
  up_inv es h i -> heap (fst (esiftup fuel es tr i)) h.
Proof.
  induction fuel; intros es tr h i Hi Hh Hf [A B]; [lia|]. cbn [esiftup].
  destruct (Z.eqb_spec i 0).
  - cbn [fst]. intros j Hj. apply A; lia.
  - unfold ecall. rewrite Hpure. fold (parent i).
    destruct (Z.ltb_spec (cmp (el es (parent i)) (el es i)) 0) as [L|L].
    + apply IHfuel; try (unfold parent; rewrite ?zlen_eswap; lia).
      apply up_inv_step; auto; try lia. split; auto.
    + cbn [fst]. intros j Hj. destruct (Z.eq_dec j i); [subst; unfold le; pose proof (Hanti (el es i) (el es (parent i))); pose proof (Hanti (el es (parent i)) (el es i)); lia|].
      apply A; auto.
Qed.

(** Sift-up does not touch elements after position i. *)
Lemma ebuild_heap : forall n es tr h, 0 <= h -> h + Z.of_nat n <= zlen es -> heap es h ->
  heap (fst (ebuild n es tr h)) (h + Z.of_nat n).
Proof.
  induction n; intros es tr h Hh HL HH.
  - cbn [ebuild fst]. rewrite Z.add_0_r. exact HH.
  - cbn [ebuild].
    pose proof (esiftup_heap (S (Z.to_nat h)) es tr (h + 1) h ltac:(lia) ltac:(lia) ltac:(lia)) as H1.
    pose proof (esiftup_len (S (Z.to_nat h)) es tr h) as L1.
    destruct (esiftup (S (Z.to_nat h)) es tr h) as [es' tr']. cbn [fst] in *.
    replace (h + Z.of_nat (S n)) with (h + 1 + Z.of_nat n) by lia. apply IHn; try lia.
    apply H1. split.
    + intros j Hj Hn. apply HH. lia.
    + intros j Hj Hp _. unfold parent in Hp. lia.
Qed.

Lemma heap_root es h : heap es h -> forall i, 0 <= i < h -> le (el es i) (el es 0).
Proof.
  intros HH. assert (K : forall n i, 0 <= i < h -> i <= Z.of_nat n -> le (el es i) (el es 0)).
  { induction n; intros i Hi Hn.
    - replace i with 0 by lia. apply le_refl.
    - destruct (Z.eq_dec i 0); [subst; apply le_refl|].
      apply (Htrans _ (el es (parent i))); [apply HH; lia|]. apply IHn; unfold parent; lia. }
  intros i Hi. apply (K (Z.to_nat i)); lia.
Qed.

(** Sift-down invariant. *)
Definition down_inv (es : list (list Z)) (h i : Z) : Prop :=
  (forall j, 0 < j < h -> parent j <> i -> le (el es j) (el es (parent j))) /\
  (forall j, 0 < j < h -> parent j = i -> 0 < i -> le (el es j) (el es (parent i))).

Definition ordered (es : list (list Z)) (h : Z) : Prop :=
  forall a b, 0 <= a -> h <= b -> a <= b -> b < zlen es -> le (el es a) (el es b).

Lemma ordered_swap es h i j : 0 <= i < h -> 0 <= j < h -> h <= zlen es ->
  ordered es h -> ordered (eswap es i j) h.
Proof.
  intros Hi Hj Hh HO a b Ha Hb Hab HL. rewrite zlen_eswap in HL.
  rewrite !el_eswap by lia. replace (b =? j) with false by lia. replace (b =? i) with false by lia.
  destruct (a =? j); [apply HO; lia|]. destruct (a =? i); apply HO; lia.
Qed.

Lemma ecand_le es tr h i : 0 <= i < h / 2 ->
  let c := fst (ecand es tr h i) in
  forall j, 0 < j < h -> parent j = i -> le (el es j) (el es c).
Proof.
  intros Hi c j Hj Hp. unfold c, ecand.
  assert (j = 2 * i + 1 \/ j = 2 * i + 2) by (unfold parent in Hp; lia).
  destruct (Z.ltb_spec (2 * i + 2) h).
  - unfold ecall. rewrite Hpure. cbn [fst]. destruct (Z.gtb_spec (cmp (el es (2 * i + 2)) (el es (2 * i + 1))) 0) as [G|G].
    + destruct H as [-> | ->]; [|apply le_refl]. unfold le.
      pose proof (Hanti (el es (2 * i + 1)) (el es (2 * i + 2))). lia.
    + destruct H as [-> | ->]; [apply le_refl|]. exact G.
  - cbn [fst]. destruct H as [-> | ->]; [apply le_refl|lia].
Qed.

Lemma down_inv_step es h i c : 0 <= i -> 0 < c < h -> parent c = i -> h <= zlen es ->
  (forall j, 0 < j < h -> parent j = i -> le (el es j) (el es c)) ->
  cmp (el es i) (el es c) < 0 -> down_inv es h i -> down_inv (eswap es i c) h c.
Proof.
  intros Hi Hc Hp Hh Hmax Hlt [A B].
  assert (Hic : i < c) by (unfold parent in Hp; lia).
  assert (G : forall k, 0 <= k < h -> el (eswap es i c) k =
     if k =? c then el es i else if k =? i then el es c else el es k).
  { intros. apply el_eswap; lia. }
  assert (Hle : le (el es i) (el es c)) by (unfold le; lia).
  split.
  - intros j Hj Hpj. assert (0 <= parent j < j) by (unfold parent; lia).
    rewrite !G by lia. replace (parent j =? c) with false by lia.
    destruct (Z.eqb_spec j c).
    + subst j. rewrite Hp. replace (i =? i) with true by lia. exact Hle.
    + destruct (Z.eqb_spec j i).
      * subst j. replace (parent i =? i) with false by lia. apply (B c); auto; lia.
      * destruct (Z.eqb_spec (parent j) i) as [E|E]; [apply Hmax; auto|apply A; auto].
  - intros j Hj Hpj _. assert (Hcj : c < j) by (unfold parent in Hpj; lia).
    rewrite !G by lia. rewrite Hp. replace (j =? c) with false by lia. replace (j =? i) with false by lia.
    replace (i =? c) with false by lia. replace (i =? i) with true by lia.
    rewrite <- Hpj. apply A; auto. lia.
Qed.

Lemma esiftdown_heap : forall fuel es tr h i, 0 <= i -> 0 <= h <= zlen es ->
  (i <= h -> h - i < Z.of_nat fuel) -> (0 < fuel)%nat -> (i < h \/ i = 0) ->
  down_inv es h i -> ordered es h ->
  heap (fst (esiftdown fuel es tr h i)) h /\ ordered (fst (esiftdown fuel es tr h i)) h.
Proof.
  induction fuel; intros es tr h i Hi Hh Hf Hpos Hih HD HO; [lia|]. cbn [esiftdown].
  destruct (Z.ltb_spec i (h / 2)) as [Hc|Hc]; cbn [negb].
  2: { cbn [fst]. split; [|exact HO]. destruct HD as [A _]. intros j Hj. apply A; auto.
       unfold parent. lia. }
  pose proof (ecand_range es tr h i ltac:(lia)) as RC.
  pose proof (ecand_le es tr h i ltac:(lia)) as RL. cbv zeta in RL.
  destruct (ecand es tr h i) as [cand tr1]. cbn [fst] in RC, RL. unfold ecall. rewrite Hpure.
  assert (Hpc : parent cand = i) by (unfold parent; lia).
  destruct (Z.geb_spec (cmp (el es i) (el es cand)) 0) as [G|G].
  - cbn [fst]. split; [|exact HO]. destruct HD as [A _]. intros j Hj.
    destruct (Z.eq_dec (parent j) i) as [E|E]; [|apply A; auto].
    rewrite E. apply (Htrans _ (el es cand)); [apply RL; auto|].
    pose proof (Hanti (el es cand) (el es i)). pose proof (Hanti (el es i) (el es cand)). lia.
  - apply IHfuel; try lia.
    + rewrite zlen_eswap. lia.
    + apply down_inv_step; auto; lia.
    + apply ordered_swap; auto; lia.
Qed.

Lemma edrain_sorted : forall h es tr, Z.of_nat h <= zlen es -> heap es (Z.of_nat h) -> ordered es (Z.of_nat h) ->
  ordered (fst (edrain h es tr)) 0.
Proof.
  induction h; intros es tr HL HH HO; [exact HO|]. cbn [edrain].
  set (es1 := eswap es 0 (Z.of_nat h)).
  assert (G : forall k, 0 <= k -> el es1 k = if k =? Z.of_nat h then el es 0 else if k =? 0 then el es (Z.of_nat h) else el es k).
  { intros. apply el_eswap; lia. }
  pose proof (heap_root _ _ HH) as HR.
  assert (HO1 : ordered es1 (Z.of_nat h)).
  { intros a b Ha Hb Hab HLb. unfold es1 in HLb. rewrite zlen_eswap in HLb. rewrite !G by lia.
    destruct (Z.eqb_spec b (Z.of_nat h)) as [Eb|Eb].
    - destruct (Z.eqb_spec a (Z.of_nat h)); [apply le_refl|].
      destruct (Z.eqb_spec a 0); apply HR; lia.
    - replace (b =? 0) with false by lia.
      destruct (Z.eqb_spec a (Z.of_nat h)); [apply HO; lia|].
      destruct (Z.eqb_spec a 0); apply HO; lia. }
  assert (HD : down_inv es1 (Z.of_nat h) 0).
  { split; [|lia]. intros j Hj Hp. assert (0 <= parent j < j) by (unfold parent; lia).
    rewrite !G by lia. replace (j =? Z.of_nat h) with false by lia. replace (j =? 0) with false by lia.
    replace (parent j =? Z.of_nat h) with false by lia. replace (parent j =? 0) with false by lia.
    apply HH. lia. }
  assert (HL1 : zlen es1 = zlen es) by (unfold es1; apply zlen_eswap).
  pose proof (esiftdown_perm (S h) es1 tr (Z.of_nat h) 0 ltac:(lia) ltac:(lia)) as P.
  destruct (esiftdown_heap (S h) es1 tr (Z.of_nat h) 0) as [K1 K2]; auto; try lia.
  destruct (esiftdown (S h) es1 tr (Z.of_nat h) 0) as [es2 tr2]. cbn [fst] in *.
  apply IHh; auto. pose proof (Permutation_length P). unfold zlen in *. lia.
Qed.

Lemma eqsort_sorted es : ordered (fst (eqsort es (length es))) 0.
Proof.
  unfold eqsort.
  pose proof (ebuild_perm (length es) es [] 0 ltac:(lia) ltac:(unfold zlen; lia)) as P.
  pose proof (ebuild_heap (length es) es [] 0 ltac:(lia) ltac:(unfold zlen; lia)) as H.
  destruct (ebuild (length es) es [] 0) as [es' tr']. cbn [fst] in P, H.
  assert (EL : zlen es' = zlen es) by (unfold zlen; now rewrite (Permutation_length P)).
  apply edrain_sorted.
  - rewrite EL. unfold zlen. lia.
  - apply H. intros j Hj. lia.
  - intros a b Ha Hb Hab HL. unfold zlen in *. lia.
Qed.
End E.

(** ** bsearch *)
Section B.
Variable esize : Z.
Hypothesis Hes : 0 <= esize.
Variable kcmp : list Z -> Z.

Lemma bsearch_ok : forall fuel es base cnt,
  fits esize es -> 0 <= base -> 0 <= cnt -> base + cnt <= zlen es -> cnt < Z.of_nat fuel ->
  (* sorted with respect to the key: first smaller, then equal, then greater elements *)
  (forall i j, 0 <= i < j -> j < zlen es -> kcmp (el es i) <= 0 -> kcmp (el es j) <= 0) ->
  (forall i j, 0 <= i < j -> j < zlen es -> kcmp (el es i) < 0 -> kcmp (el es j) < 0) ->
  (forall i, 0 <= i < base -> kcmp (el es i) > 0) ->
  (forall i, base + cnt <= i < zlen es -> kcmp (el es i) < 0) ->
  exists r, bsearch esize kcmp fuel (concat es) (base * esize) cnt = Some r /\
    match r with
    | Some p => exists i, 0 <= i < zlen es /\ p = i * esize /\ kcmp (el es i) = 0
    | None => forall i, 0 <= i < zlen es -> kcmp (el es i) <> 0
    end.
Proof.
  induction fuel; intros es base cnt HF Hb Hc HL Hfu M1 M2 L R; [lia|].
  cbn [bsearch]. destruct (Z.eqb_spec cnt 0) as [E|E].
  - exists None. split; [reflexivity|]. intros i Hi.
    destruct (Z_lt_ge_dec i base); [pose proof (L i)|pose proof (R i)]; lia.
  - pose proof HF as (_ & HB & HN).
    rewrite Z.shiftr_div_pow2 by lia. change (2 ^ 1) with 2. set (mid := cnt / 2).
    assert (Hmid : 0 <= mid < cnt) by (unfold mid; lia).
    assert (U : u32 (base * esize + u32 (mid * esize)) = (base + mid) * esize).
    { rewrite (u32_small (mid * esize)) by nia. rewrite u32_small by nia. lia. }
    rewrite U.
    assert (S : slice (concat es) ((base + mid) * esize) esize = Some (el es (base + mid))).
    { rewrite <- (slice_el esize Hes es (base + mid)) by (auto; lia).
      f_equal. symmetry. apply u32_small. nia. }
    rewrite S. cbn [obind].
    destruct (Z.eqb_spec (kcmp (el es (base + mid))) 0) as [K|K].
    + eexists; split; [reflexivity|]. exists (base + mid). repeat split; auto; lia.
    + destruct (Z.ltb_spec (kcmp (el es (base + mid))) 0) as [K2|K2].
      * apply IHfuel; auto; try lia. intros i Hi.
        destruct (Z.eq_dec i (base + mid)); [subst; lia|]. apply (M2 (base + mid) i); lia.
      * assert (U2 : u32 ((base + mid) * esize + esize) = (base + mid + 1) * esize).
        { rewrite u32_small by nia. lia. }
        assert (U3 : u32 (cnt - u32 (mid + 1)) = cnt - mid - 1).
        { rewrite (u32_small (mid + 1)) by lia. rewrite u32_small; lia. }
        rewrite U2, U3. apply IHfuel; auto; try lia.
        -- intros i Hi. destruct (Z_lt_ge_dec i base); [apply L; lia|].
           destruct (Z.eq_dec i (base + mid)); [subst; lia|].
           destruct (Z_le_gt_dec (kcmp (el es i)) 0); [|lia].
           pose proof (M1 i (base + mid) ltac:(lia) ltac:(lia) ltac:(lia)). lia.
        -- intros i Hi. apply R. lia.
Qed.
End B.

(** ** Comparison functions that are consistent on the array's elements only *)
Section On.
Variable f g : cmpfn.
Variable esize : Z.
Variable P : list Z -> Prop.
Hypothesis Hfg : forall tr x y, P x -> P y -> f tr x y = g tr x y.
Definition all (es : list (list Z)) := forall i, 0 <= i < zlen es -> P (el es i).

Lemma all_swap es i j : 0 <= i < zlen es -> 0 <= j < zlen es -> all es -> all (eswap es i j).
Proof.
  intros Hi Hj HA k Hk. rewrite zlen_eswap in Hk. rewrite el_eswap by lia.
  destruct (k =? j); [auto|]. destruct (k =? i); auto.
Qed.

Lemma esiftup_on : forall fuel es tr i, all es -> 0 <= i < zlen es ->
  esiftup f esize fuel es tr i = esiftup g esize fuel es tr i /\ all (fst (esiftup g esize fuel es tr i)).
Proof.
  induction fuel; intros es tr i HA Hi; [auto|]. cbn [esiftup]. destruct (Z.eqb_spec i 0); [auto|].
  unfold ecall. rewrite Hfg by (apply HA; lia). destruct (_ <? 0); [|auto].
  apply IHfuel; [apply all_swap; auto; lia|]. rewrite zlen_eswap. lia.
Qed.
Lemma ebuild_on : forall n es tr h, all es -> 0 <= h -> h + Z.of_nat n <= zlen es ->
  ebuild f esize n es tr h = ebuild g esize n es tr h /\ all (fst (ebuild g esize n es tr h)).
Proof.
  induction n; intros es tr h HA Hh HL; [auto|]. cbn [ebuild].
  destruct (esiftup_on (S (Z.to_nat h)) es tr h HA ltac:(lia)) as [E A]. rewrite E.
  pose proof (esiftup_len g esize (S (Z.to_nat h)) es tr h) as L.
  destruct (esiftup g esize (S (Z.to_nat h)) es tr h). cbn [fst] in *. apply IHn; auto; lia.
Qed.
Lemma esiftdown_on : forall fuel es tr h i, all es -> 0 <= i -> 0 <= h <= zlen es ->
  esiftdown f esize fuel es tr h i = esiftdown g esize fuel es tr h i /\
  all (fst (esiftdown g esize fuel es tr h i)).
Proof.
  induction fuel; intros es tr h i HA Hi Hh; [auto|]. cbn [esiftdown].
  destruct (Z.ltb_spec i (h / 2)) as [Hc|Hc]; cbn [negb]; [|auto].
  pose proof (ecand_range g esize es tr h i ltac:(lia)) as RC.
  assert (E : ecand f esize es tr h i = ecand g esize es tr h i).
  { unfold ecand. destruct (Z.ltb_spec (2 * i + 2) h); [|auto]. unfold ecall.
    rewrite Hfg by (apply HA; lia). reflexivity. }
  rewrite E. destruct (ecand g esize es tr h i) as [cand tr1]. cbn [fst] in RC. unfold ecall.
  rewrite Hfg by (apply HA; lia). destruct (_ >=? 0); [auto|].
  apply IHfuel; [apply all_swap; auto; lia|lia|rewrite zlen_eswap; lia].
Qed.
Lemma edrain_on : forall h es tr, all es -> Z.of_nat h <= zlen es ->
  edrain f esize h es tr = edrain g esize h es tr.
Proof.
  induction h; intros es tr HA HL; [auto|]. cbn [edrain].
  assert (HA' : all (eswap es 0 (Z.of_nat h))) by (apply all_swap; auto; lia).
  destruct (esiftdown_on (S h) (eswap es 0 (Z.of_nat h)) tr (Z.of_nat h) 0 HA' ltac:(lia)) as [E A];
    [rewrite zlen_eswap; lia|]. rewrite E.
  pose proof (esiftdown_perm g esize (S h) (eswap es 0 (Z.of_nat h)) tr (Z.of_nat h) 0 ltac:(lia)
    ltac:(rewrite zlen_eswap; lia)) as PM. pose proof (zlen_eswap es 0 (Z.of_nat h)) as L.
  destruct (esiftdown g esize (S h) (eswap es 0 (Z.of_nat h)) tr (Z.of_nat h) 0). cbn [fst] in *.
  apply IHh; auto. pose proof (Permutation_length PM). unfold zlen in *. lia.
Qed.
Lemma eqsort_on es : all es -> eqsort f esize es (length es) = eqsort g esize es (length es).
Proof.
  intros HA. unfold eqsort.
  destruct (ebuild_on (length es) es [] 0 HA ltac:(lia) ltac:(unfold zlen; lia)) as [E A]. rewrite E.
  pose proof (ebuild_perm g esize (length es) es [] 0 ltac:(lia) ltac:(unfold zlen; lia)) as PM.
  destruct (ebuild g esize (length es) es [] 0). cbn [fst] in *. apply edrain_on; auto.
  unfold zlen. rewrite (Permutation_length PM). lia.
Qed.
End On.

From Coq Require Import Sorting.Sorted.

Lemma ordered_sorted (cmp : list Z -> list Z -> Z) : forall es,
  ordered cmp es 0 -> StronglySorted (fun x y => cmp x y <= 0) es.
Proof.
  induction es as [|e es IH]; intros HO; constructor.
  - apply IH. intros a b Ha Hb Hab HL. specialize (HO (a + 1) (b + 1) ltac:(lia) ltac:(lia) ltac:(lia)).
    unfold el in *. replace (Z.to_nat (a + 1)) with (S (Z.to_nat a)) in HO by lia.
    replace (Z.to_nat (b + 1)) with (S (Z.to_nat b)) in HO by lia. apply HO. zl. lia.
  - apply Forall_forall. intros x Hx. destruct (In_nth _ _ [] Hx) as (n & Hn & <-).
    specialize (HO 0 (Z.of_nat n + 1) ltac:(lia) ltac:(lia) ltac:(lia)).
    unfold el in HO. replace (Z.to_nat (Z.of_nat n + 1)) with (S n) in HO by lia. apply HO.
    zl. unfold zlen. lia.
Qed.

Lemma eqsort_sorted_on (f : cmpfn) esize (cmp : list Z -> list Z -> Z) es :
  0 <= esize ->
  (forall tr x y, In x es -> In y es -> f tr x y = cmp x y) ->
  (forall x y, In x es -> In y es -> (cmp x y < 0 <-> cmp y x > 0)) ->
  (forall x y z, In x es -> In y es -> In z es -> cmp x y <= 0 -> cmp y z <= 0 -> cmp x z <= 0) ->
  StronglySorted (fun x y => cmp x y <= 0) (fst (eqsort f esize es (length es))).
Proof.
  intros He Hf Ha Ht.
  set (dec := in_dec (list_eq_dec Z.eq_dec)).
  set (cmp' := fun x y => match dec x es, dec y es with
     | left _, left _ => cmp x y | left _, right _ => -1 | right _, left _ => 1 | right _, right _ => 0 end).
  assert (Hfg : forall tr x y, In x es -> In y es -> f tr x y = cmp' x y).
  { intros. unfold cmp'. destruct (dec x es), (dec y es); try contradiction. auto. }
  assert (HA : all (fun x => In x es) es).
  { intros i Hi. unfold el. apply nth_In. unfold zlen in Hi. lia. }
  rewrite (eqsort_on f (fun _ => cmp') esize (fun x => In x es) Hfg es HA).
  assert (Hanti' : forall x y, cmp' x y < 0 <-> cmp' y x > 0).
  { intros. unfold cmp'. destruct (dec x es), (dec y es); auto; lia. }
  assert (Htrans' : forall x y z, cmp' x y <= 0 -> cmp' y z <= 0 -> cmp' x z <= 0).
  { intros x y z. unfold cmp'. destruct (dec x es), (dec y es), (dec z es); try lia; apply Ht; auto. }
  pose proof (eqsort_sorted (fun _ => cmp') esize He cmp' (fun _ _ _ => eq_refl) Hanti' Htrans' es) as HO.
  apply ordered_sorted in HO.
  pose proof (eqsort_perm (fun _ => cmp') esize es) as PM.
  set (r := fst (eqsort (fun _ => cmp') esize es (length es))) in *.
  assert (HI : forall x, In x r -> In x es).
  { intros x Hx. apply (Permutation_in _ (Permutation_sym PM) Hx). }
  clearbody r. clear PM. induction HO; constructor.
  - apply IHHO. intros x Hx. apply HI. right. auto.
  - rewrite Forall_forall in *. intros x Hx. specialize (H x Hx). unfold cmp' in H.
    destruct (dec a es) as [|N]; [|exfalso; apply N, HI; now left].
    destruct (dec x es) as [|N]; [auto|exfalso; apply N, HI; now right].
Qed.
