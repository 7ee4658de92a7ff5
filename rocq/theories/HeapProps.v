(** C21, C22, C23, C24: the heap.  [reach c fuel shr h lv] (HeapSpec): a program can get to the
    heap [h] with the live blocks [lv]; [shr]: it may shrink blocks with realloc.  [fuel] bounds
    the number of blocks the allocator looks at. *)
From Coq Require Import Permutation.
From Verif Require Import Base BaseLemmas StrSpec StrModel HeapModel HeapSpec HeapLemmas HeapOps HeapState HeapClient HeapInv HeapCalls.

(** C21: every live block is aligned, inside of the heap, accessible, and as large as requested;
    no two overlap, there is even room for a footer and a header in between. *)
Theorem C21_live_blocks c fuel shr h lv : cfg_ok c -> 2 ^ (8 * cW c) <= Z.of_nat fuel -> reach c fuel shr h lv ->
  Forall (fun b => let '(p, n) := b in 0 < n /\ p mod (4 * cW c) = 0 /\
    0 < p /\ clo c <= p - 2 * cW c /\ p + n + 2 * cW c <= chi c /\ writable (hm h) p n) lv /\
  ForallOrdPairs (fun b1 b2 => let '(p1, n1) := b1 in let '(p2, n2) := b2 in
    p1 + n1 + 2 * cW c <= p2 - 2 * cW c \/ p2 + n2 + 2 * cW c <= p1 - 2 * cW c) lv.
Proof.
  intros HC Hf R. pose proof (cfg_W c HC) as HW. destruct (reach_inv c HC shr fuel h lv Hf R) as (_ & _ & [[_ ->]|[bs (O & P & G & _)]]); [split; constructor|].
  pose proof O as []. rewrite Forall_forall in G. split.
  - apply Forall_forall. intros [p n] Hi. specialize (G _ Hi). cbn [snd] in G. destruct (round_ok c HW n G) as (R1 & _).
    assert (Hp : In (p, round c n) (allocs c (hstart h) bs)) by (eapply Permutation_in; [apply Permutation_sym, P|]; apply in_map_iff; exists (p, n); auto).
    destruct (allocs_range c HC _ _ _ _ _ ok_tiles Hp) as (A1 & A2 & A3). destruct (tiles_m2 c _ _ _ _ _ ok_tiles Hp ok_align) as [A4 _].
    unfold good in G. pose proof (W_pos c HW). unfold HF in *. split; [lia|]. split; [|split; [lia|split; [lia|split; [lia|]]]].
    + apply Z.mod_divide; [lia|]. unfold HeapLemmas.m2, HF in A4. now replace (4 * cW c) with (2 * (2 * cW c)) by lia.
    + intros x Hx. apply ok_map. lia.
  - pose proof (pairs_perm c HC _ _ P (allocs_apart c HC _ _ _ ok_tiles)) as F. clear - F G HW. unfold rl in F.
    induction lv as [|[p n] lv IH]; [constructor|]. cbn [map] in F. inversion F as [|? ? F1 F2]; subst. constructor; [|apply IH; auto; intros b Hb; apply G; now right].
    apply Forall_forall. intros [q k] Hq. rewrite Forall_forall in F1.
    assert (A : apart c (p, round c n) (q, round c k)) by (apply F1, in_map_iff; exists (q, k); auto).
    unfold apart, HF in A. cbn [fst snd] in A. pose proof (round_ok c HW n (G _ (or_introl eq_refl))). pose proof (round_ok c HW k (G _ (or_intror Hq))). lia.
Qed.
Print Assumptions C21_live_blocks.

(** C21: the calls are always defined (the allocator touches no unmapped byte). *)
Theorem C21_calls_defined c fuel shr h lv : cfg_ok c -> 2 ^ (8 * cW c) <= Z.of_nat fuel -> reach c fuel shr h lv ->
  (forall n, request c n -> exists h' r, malloc c fuel h n = Some (h', r)) /\
  (forall k n, 0 <= k < 2 ^ (8 * cW c) -> 0 <= n < 2 ^ (8 * cW c) -> request c ((k * n) mod 2 ^ (8 * cW c)) ->
     exists h' r, calloc c fuel h k n = Some (h', r)) /\
  (forall p n n', In (p, n) lv -> request c n' -> shr \/ n <= n' -> exists h' r, realloc c fuel h p n' = Some (h', r)) /\
  (forall p n, In (p, n) lv -> exists h', free c h p = Some h').
Proof.
  intros HC Hf R. apply (reach_inv c HC) in R; auto. split; [|split; [|split]].
  - intros n Rq. destruct (malloc_inv c HC shr fuel h lv n R Rq Hf) as (h' & r & E & _). eauto.
  - intros k n Hk Hn Rq. destruct (calloc_inv c HC shr fuel h lv k n R Hk Hn Rq Hf) as (h' & r & E & _). eauto.
  - intros p n n' Hi Rq Sh. apply in_split in Hi as (l1 & l2 & ->). destruct (realloc_inv c HC shr fuel h l1 p n l2 n' R Rq Sh Hf) as (h' & r & E & _). eauto.
  - intros p n Hi. apply in_split in Hi as (l1 & l2 & ->). destruct (free_inv c HC shr h l1 p n l2 R) as (h' & E & _). eauto.
Qed.
Print Assumptions C21_calls_defined.

(** C22: no call changes a byte of a live block. *)
Theorem C22_malloc c fuel shr h lv n h' r : cfg_ok c -> 2 ^ (8 * cW c) <= Z.of_nat fuel -> reach c fuel shr h lv ->
  request c n -> malloc c fuel h n = Some (h', r) -> forall p k, In (p, k) lv -> kept (hm h) (hm h') p k.
Proof.
  intros HC Hf R Rq E. apply (reach_inv c HC) in R; auto. destruct (malloc_inv c HC shr fuel h lv n R Rq Hf) as (h2 & r2 & E2 & K & _).
  rewrite E in E2. apply some_inj in E2. apply pair_inj in E2 as [<- <-]. exact K.
Qed.
Print Assumptions C22_malloc.
Theorem C22_free c fuel shr h l1 p n l2 h' : cfg_ok c -> 2 ^ (8 * cW c) <= Z.of_nat fuel -> reach c fuel shr h (l1 ++ (p, n) :: l2) ->
  free c h p = Some h' -> forall q k, In (q, k) (l1 ++ l2) -> kept (hm h) (hm h') q k.
Proof.
  intros HC Hf R E. apply (reach_inv c HC) in R; auto. destruct (free_inv c HC shr h l1 p n l2 R) as (h2 & E2 & K & _).
  rewrite E in E2. apply some_inj in E2 as <-. exact K.
Qed.
Print Assumptions C22_free.
(** realloc: the other blocks are untouched; the result has the contents of the block, as far as
    both sizes go; on failure the block is untouched too. *)
Theorem C22_realloc c fuel shr h l1 p n l2 n' h' r : cfg_ok c -> 2 ^ (8 * cW c) <= Z.of_nat fuel ->
  reach c fuel shr h (l1 ++ (p, n) :: l2) -> request c n' -> shr \/ n <= n' -> realloc c fuel h p n' = Some (h', r) ->
  (forall q k, In (q, k) (l1 ++ l2) -> kept (hm h) (hm h') q k) /\
  (r <> 0 -> forall i, 0 <= i < Z.min n n' -> hm h' (r + i) = hm h (p + i)) /\
  (r = 0 -> kept (hm h) (hm h') p n).
Proof.
  intros HC Hf R Rq Sh E. apply (reach_inv c HC) in R; auto.
  destruct (realloc_inv c HC shr fuel h l1 p n l2 n' R Rq Sh Hf) as (h2 & r2 & E2 & _ & K & _ & K0 & K1).
  rewrite E in E2. apply some_inj in E2. apply pair_inj in E2 as [<- <-]. split; [exact K|]. split.
  - intros Nr i Hi. apply K1; lia.
  - intros Er. apply (K0 Er p n). now left.
Qed.
Print Assumptions C22_realloc.
(** calloc: the other blocks are untouched, the new one is all zero bytes, and large enough for
    the product (which did not overflow). *)
Theorem C22_calloc c fuel shr h lv k n h' r : cfg_ok c -> 2 ^ (8 * cW c) <= Z.of_nat fuel -> reach c fuel shr h lv ->
  0 <= k < 2 ^ (8 * cW c) -> 0 <= n < 2 ^ (8 * cW c) -> request c ((k * n) mod 2 ^ (8 * cW c)) ->
  calloc c fuel h k n = Some (h', r) ->
  (forall p s, In (p, s) lv -> kept (hm h) (hm h') p s) /\
  (r <> 0 -> k * n < 2 ^ (8 * cW c) /\ forall x, r <= x < r + k * n -> hm h' x = Some 0).
Proof.
  intros HC Hf R Hk Hn Rq E. apply (reach_inv c HC) in R; auto.
  destruct (calloc_inv c HC shr fuel h lv k n R Hk Hn Rq Hf) as (h2 & r2 & E2 & K & _ & _ & Z0).
  rewrite E in E2. apply some_inj in E2. apply pair_inj in E2 as [<- <-]. split; [exact K|exact Z0].
Qed.
Print Assumptions C22_calloc.

(** C23: a request succeeds if there is any gap between the live blocks (with their headers and
    footers) that is large enough for it: all of the freed memory of a gap is usable as a whole.
    [False]: the program does not shrink blocks with realloc. *)
Theorem C23_gap c fuel h lv n lo h' r : cfg_ok c -> 2 ^ (8 * cW c) <= Z.of_nat fuel -> reach c fuel False h lv ->
  hinit h = true -> request c n -> 0 < n <= 2 ^ (8 * cW c) - 4 * cW c -> malloc c fuel h n = Some (h', r) ->
  hstart h <= lo -> lo + 4 * cW c + rounded c n <= hstop h ->
  (forall p k, In (p, k) lv -> p + rounded c k + 2 * cW c <= lo \/ lo + 4 * cW c + rounded c n <= p - 2 * cW c) ->
  r <> 0.
Proof.
  intros HC Hf R HI Rq Hn E Hlo Hhi G ->. pose proof (cfg_W c HC) as HW. apply (reach_inv c HC) in R; auto.
  destruct R as (BM & DI & [[[] _]|[bs (O & P & Gd & [[]|C])]]); [congruence|].
  assert (Gn : 0 < n <= 2 ^ WB c - 2 * HF c) by (unfold WB, HF; lia).
  assert (ER : forall k, 0 < k <= 2 ^ WB c - 2 * HF c -> round c k = rounded c k).
  { intros k Hk. rewrite (round_eq c HW) by auto. unfold rounded, HF. now replace (4 * cW c) with (2 * (2 * cW c)) by lia. }
  destruct (malloc_live c HC h bs n fuel O Gn Rq Hf) as (h2 & r2 & bs' & E2 & _ & _ & _ & _ & D).
  rewrite E in E2. apply some_inj in E2. apply pair_inj in E2 as [<- <-]. destruct D as [(_ & _ & U)|[D _]]; [|lia]. pose proof O as [].
  destruct (round_ok c HW n Gn) as (R1 & R2 & R3). rewrite <- ER in * by auto.
  apply (gap c HC (hm h) (round c n) lo bs false (hstart h)); auto; [unfold HF; lia|lia|].
  intros p s Hi. apply (Permutation_in _ P) in Hi. apply in_map_iff in Hi as ([q k] & Eq & Hi). cbn [fst snd] in Eq. apply pair_inj in Eq as [<- <-].
  rewrite Forall_forall in Gd. specialize (Gd _ Hi). specialize (G _ _ Hi). cbn [snd] in Gd. rewrite <- ER in G by exact Gd. unfold HF. lia.
Qed.
Print Assumptions C23_gap.

(** C23: DOS and DPMI.  Once every block is freed, every request succeeds that succeeds as the
    first one of a program. *)
Theorem C23_all_freed c fuel h0 n h1 r1 h : cfg_ok c -> cport c <> Linux -> 2 ^ (8 * cW c) <= Z.of_nat fuel ->
  fresh c h0 -> 0 <= n < 2 ^ (8 * cW c) -> malloc c fuel h0 n = Some (h1, r1) -> r1 <> 0 ->
  reach c fuel False h [] -> exists h' r, malloc c fuel h n = Some (h', r) /\ r <> 0.
Proof.
  intros HC NL Hf F0 Hn E1 N1 R. pose proof (cfg_W c HC) as HW. assert (Rq : request c n) by (split; auto; congruence).
  apply (fresh_inv c HC False) in F0. apply (reach_inv c HC) in R; auto.
  destruct (malloc_inv c HC False fuel h0 [] n F0 Rq Hf) as (h1' & r1' & E1' & _ & _ & I1 & _).
  rewrite E1 in E1'. apply some_inj in E1'. apply pair_inj in E1' as [<- <-]. replace (r1 =? 0) with false in I1 by lia.
  destruct (live_writable c HC _ _ _ _ _ I1) as (_ & Gn & _). unfold good in Gn.
  destruct I1 as (_ & DI1 & [[_ D]|[bs1 (O1 & P1 & _)]]); [discriminate|].
  assert (RM : round c n + 2 * HF c <= odd_down c (chi c) - odd_up c (clo c) /\ dosok c = true).
  { pose proof O1 as []. destruct (DI1 NL ok_init) as (D1 & <- & <-). split; auto.
    assert (Hi : In (r1, round c n) (allocs c (hstart h1) bs1)) by (eapply Permutation_in; [apply Permutation_sym, P1|now left]).
    eapply allocs_range in Hi; eauto. lia. }
  destruct RM as [RM DK].
  assert (MAIN : forall h, inv c False h [] -> hinit h = true -> exists h' r, malloc c fuel h n = Some (h', r) /\ r <> 0).
  { clear h R. intros h R HI. destruct (malloc_inv c HC False fuel h [] n R Rq Hf) as (h' & r & E & _). exists h', r. split; auto. intros ->.
    destruct R as (BM & DI & [[[] _]|[bs (O & P & Gd & [[]|C])]]); [congruence|]. destruct (DI NL HI) as (_ & A & B).
    destruct (malloc_live c HC h bs n fuel O Gn Rq Hf) as (h2 & r2 & bs' & E2 & _ & _ & _ & _ & D).
    rewrite E in E2. apply some_inj in E2. apply pair_inj in E2 as [<- <-]. destruct D as [(_ & _ & U)|[D _]]; [|lia]. pose proof O as [].
    apply (gap c HC (hm h) (round c n) (hstart h) bs false (hstart h)); auto; [lia|lia|apply (round_ok c HW n Gn)|].
    intros p s Hi. apply (Permutation_in _ P) in Hi. destruct Hi. }
  destruct (hinit h) eqn:HI; [now apply MAIN|]. destruct R as (BM & DI & [[P _]|[bs ([] & _)]]); [|congruence].
  destruct (init_ok c HC h P) as (h2 & E2 & D). pose proof (init_ev c h h2 E2) as [V1 V2].
  assert (I2 : hinit h2 = true).
  { unfold init, dosok in *. destruct (cport c); [| |congruence]; cbv zeta in E2; apply negb_true_iff in DK; rewrite DK in E2;
      (destruct (one_block c _ _ _ _); [|discriminate]; cbn [obind] in E2; apply some_inj in E2; subst h2; reflexivity). }
  rewrite (malloc_init c fuel h h2) by auto. apply MAIN; auto. destruct D as [[]|[sz O2]]; [congruence|].
  split; auto. split; auto. right. exists [(sz, false)]. split; auto.
Qed.
Print Assumptions C23_all_freed.

(** C24, for sizes up to 2 GB - 16: a successful malloc returns [n] usable bytes below the break.
    Missing: larger sizes, for which the claim is false, see C24_refuted. *)
Theorem C24_within_break_partial c fuel shr h lv n h' r : cfg_ok c -> cport c = Linux -> 2 ^ 32 <= Z.of_nat fuel ->
  reach c fuel shr h lv -> 0 <= n <= 2 ^ 31 - 16 -> malloc c fuel h n = Some (h', r) -> r <> 0 ->
  writable (hm h') r n /\ clo c <= r /\ r + n <= kbrk h' /\ kbrk h' <= chi c.
Proof.
  intros HC HL Hf R Hn E Nr. pose proof (cfg_W c HC) as HW.
  assert (EW : cW c = 4) by (unfold cfg_ok in HC; rewrite HL in HC; apply HC).
  assert (Hf' : 2 ^ (8 * cW c) <= Z.of_nat fuel) by (rewrite EW; lia).
  assert (Rq : request c n) by (split; [rewrite EW; lia|lia]).
  assert (R' : reach c fuel shr h' ((r, n) :: lv)). { pose proof (r_malloc c fuel shr h lv n h' r R Rq E) as R'. now replace (r =? 0) with false in R' by lia. }
  destruct (C21_live_blocks c fuel shr h' _ HC Hf' R') as [F _]. inversion F as [|? ? F0 _]; subst. cbn beta iota in F0. destruct F0 as (F1 & F2 & F3 & F4 & F5 & F6).
  apply (reach_inv c HC) in R'; auto. destruct R' as (_ & _ & [[_ D]|[bs (O & P & G & _)]]); [discriminate|]. pose proof O as [].
  destruct (ok_lin HL) as (L1 & L2 & L3). split; auto. split; [lia|]. rewrite L2. split; auto.
  assert (Hi : In (r, round c n) (allocs c (hstart h') bs)) by (eapply Permutation_in; [apply Permutation_sym, P|now left]).
  eapply allocs_range in Hi; eauto. inversion G; subst. pose proof (round_ok c HW n H1). pose proof (W_pos c HW). lia.
Qed.
Print Assumptions C24_within_break_partial.

(** ** Concrete programs *)
Definition linux : cfg := {| cW := 4; cport := Linux; clo := 8192; chi := 2 ^ 31; cgrant := fun _ _ => true |}.
Definition heap0 : heap := {| hm := fun x => if (0 <=? x) && (x <? 8192) then Some 7 else None; hstart := 0; hstop := 0; hbreak := 0;
  hinit := false; kbrk := 8192; ktick := 0 |}.
Lemma heap0_fresh : fresh linux heap0.
Proof.
  split; [reflexivity|]. split; [reflexivity|]. split; [reflexivity|]. split; [cbn; intros x Hx; change (page_up 8192) with 8192 in Hx; lia|].
  intros x v. cbn [hm heap0]. destruct (_ && _); [|discriminate]. intros E. apply some_inj in E. lia.
Qed.
Definition fst_heap (o : option (heap * Z)) : heap := match o with Some (h, _) => h | None => heap0 end.
Definition or0 (o : option heap) : heap := match o with Some h => h | None => heap0 end.

(** p = malloc(6144); q = malloc(16); free(q); malloc(0xFFFFFF00): the last call moves the break
    down, overwrites p and returns a block that reaches past the address space. *)
Section R.
Variable e : nat.
Definition a1 := malloc linux (10 + e) heap0 6144.
Definition a2 := malloc linux (10 + e) (fst_heap a1) 16.
Definition a3 := free linux (fst_heap a2) 14368.
Definition a4 := malloc linux (10 + e) (or0 a3) 4294967040.
Lemma a_reach (shr : Prop) : reach linux (10 + e) shr (or0 a3) [(8208, 6144)].
Proof.
  assert (RQ : forall n, 0 <= n <= 2 ^ 31 - 16 -> request linux n) by (intros n Hn; split; [cbn; lia|lia]).
  change [(8208, 6144)] with ([] ++ [(8208, 6144)]). apply r_free with (h := fst_heap a2) (p := 14368) (n := 16); [|vm_compute; reflexivity].
  change (reach linux (10 + e) shr (fst_heap a2) (if 14368 =? 0 then [(8208, 6144)] else (14368, 16) :: [(8208, 6144)])).
  apply r_malloc with (h := fst_heap a1); [|apply RQ; lia|vm_compute; reflexivity].
  change (reach linux (10 + e) shr (fst_heap a1) (if 8208 =? 0 then [] else (8208, 6144) :: [])).
  apply r_malloc with (h := heap0); [|apply RQ; lia|vm_compute; reflexivity]. apply r_fresh, heap0_fresh.
Qed.
End R.
Theorem C24_refuted : exists c, cfg_ok c /\ cport c = Linux /\ forall e, let fuel := (10 + e)%nat in
  exists h p k lv n h' r, reach c fuel False h ((p, k) :: lv) /\ 0 <= n < 2 ^ 32 /\
    malloc c fuel h n = Some (h', r) /\ r <> 0 /\
    chi c < r + n /\ kbrk h' < kbrk h /\ exists x, p <= x < p + k /\ hm h' x <> hm h x.
Proof.
  exists linux. split; [cbn; lia|]. split; [reflexivity|]. intros e fuel.
  exists (or0 (a3 e)), 8208, 6144, [], 4294967040, (fst_heap (a4 e)), 14368. split; [apply a_reach|]. split; [lia|].
  split; [vm_compute; reflexivity|]. split; [lia|]. split; [vm_compute; reflexivity|]. split; [vm_compute; reflexivity|].
  exists 14112. split; [lia|]. vm_compute. discriminate.
Qed.
Print Assumptions C24_refuted.

(** The hypotheses are met: on Linux, and on DOS with realloc that moves and one that fails. *)
Example linux_case e : exists h, reach linux (10 + e) False h [(8208, 6144)] /\ hinit h = true.
Proof. exists (or0 (a3 e)). split; [apply a_reach|vm_compute; reflexivity]. Qed.

Definition dos : cfg := {| cW := 2; cport := DosTiny; clo := 1000; chi := 3000; cgrant := fun _ _ => true |}.
Definition heapd : heap := {| hm := fun x => if (0 <=? x) && (x <? 4096) then Some 7 else None; hstart := 0; hstop := 0; hbreak := 0;
  hinit := false; kbrk := 1000; ktick := 0 |}.
Lemma heapd_fresh : fresh dos heapd.
Proof.
  split; [reflexivity|]. split; [reflexivity|]. split; [reflexivity|]. split; [cbn; intros x Hx; replace ((0 <=? x) && (x <? 4096)) with true by lia; discriminate|].
  intros x v. cbn [hm heapd]. destruct (_ && _); [|discriminate]. intros E. apply some_inj in E. lia.
Qed.
Section D.
Variable e : nat.
Definition b1 := malloc dos (10 + e) heapd 100.
Definition b2 := malloc dos (10 + e) (fst_heap b1) 200.
Definition b3 := malloc dos (10 + e) (fst_heap b2) 900.
Definition b4 := realloc dos (10 + e) (fst_heap b3) 1008 300.    (* the first block moves *)
Definition b5 := realloc dos (10 + e) (fst_heap b4) 1120 1500.   (* fails *)
Lemma dos_reach : reach dos (10 + e) False (fst_heap b5) [(1328, 900); (1120, 200); (2240, 300)].
Proof.
  assert (RQ : forall n, 0 <= n < 65536 -> request dos n) by (intros n Hn; split; [exact Hn|discriminate]).
  change (reach dos (10 + e) False (fst_heap b5) (if 0 =? 0 then [(1328, 900)] ++ (1120, 200) :: [(2240, 300)] else [(1328, 900)] ++ (0, 1500) :: [(2240, 300)])).
  apply r_realloc with (h := fst_heap b4); [|apply RQ; lia|right; lia|vm_compute; reflexivity].
  change (reach dos (10 + e) False (fst_heap b4) (if 2240 =? 0 then [(1328, 900); (1120, 200)] ++ (1008, 100) :: [] else [(1328, 900); (1120, 200)] ++ (2240, 300) :: [])).
  apply r_realloc with (h := fst_heap b3); [|apply RQ; lia|right; lia|vm_compute; reflexivity].
  change (reach dos (10 + e) False (fst_heap b3) (if 1328 =? 0 then [(1120, 200); (1008, 100)] else [(1328, 900); (1120, 200); (1008, 100)])).
  apply r_malloc with (h := fst_heap b2); [|apply RQ; lia|vm_compute; reflexivity].
  change (reach dos (10 + e) False (fst_heap b2) (if 1120 =? 0 then [(1008, 100)] else [(1120, 200); (1008, 100)])).
  apply r_malloc with (h := fst_heap b1); [|apply RQ; lia|vm_compute; reflexivity].
  change (reach dos (10 + e) False (fst_heap b1) (if 1008 =? 0 then [] else [(1008, 100)])).
  apply r_malloc with (h := heapd); [|apply RQ; lia|vm_compute; reflexivity]. apply r_fresh, heapd_fresh.
Qed.
End D.
Example dos_case : cfg_ok dos /\ 2 ^ (8 * cW dos) <= Z.of_nat (10 + Z.to_nat 65536) /\
  reach dos (10 + Z.to_nat 65536) False (fst_heap (b5 (Z.to_nat 65536))) [(1328, 900); (1120, 200); (2240, 300)].
Proof. split; [cbn; lia|]. split; [change (8 * cW dos) with 16; lia|]. apply dos_reach. Qed.

(** C23 needs its restriction: after realloc shrinks a block whose neighbour is free, and all is
    freed, the heap stays split (here the first request for 1960 bytes succeeds in a fresh heap, not in this one). *)
Section S.
Variable e : nat.
Definition d1 := malloc dos (10 + e) heapd 100.
Definition d2 := realloc dos (10 + e) (fst_heap d1) 1008 10.
Definition d3 := free dos (fst_heap d2) 1008.
End S.
Theorem C23_shrink_refuted : exists c, cfg_ok c /\ forall e, let fuel := (10 + e)%nat in exists h0 h n h1 r1 h2,
  fresh c h0 /\ malloc c fuel h0 n = Some (h1, r1) /\ r1 <> 0 /\ reach c fuel True h [] /\ malloc c fuel h n = Some (h2, 0).
Proof.
  exists dos. split; [cbn; lia|]. intros e fuel. exists heapd, (or0 (d3 e)), 1960, (fst_heap (malloc dos fuel heapd 1960)), 1008, (or0 (d3 e)).
  split; [exact heapd_fresh|]. split; [vm_compute; reflexivity|]. split; [lia|]. split; [|vm_compute; reflexivity].
  assert (RQ : forall n, 0 <= n < 65536 -> request dos n) by (intros n Hn; split; [exact Hn|discriminate]).
  apply (r_free dos fuel True (fst_heap (d2 e)) [] 1008 10 []); [|vm_compute; reflexivity].
  apply (r_realloc dos fuel True (fst_heap (d1 e)) [] 1008 100 [] 10 (fst_heap (d2 e)) 1008); [|apply RQ; lia|auto|vm_compute; reflexivity].
  apply (r_malloc dos fuel True heapd [] 100 (fst_heap (d1 e)) 1008); [|apply RQ; lia|vm_compute; reflexivity]. apply r_fresh, heapd_fresh.
Qed.
Print Assumptions C23_shrink_refuted.
