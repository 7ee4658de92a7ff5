(** C25, C26: qsort and bsearch. *)
From Coq Require Import Permutation Sorting.Sorted.
From Verif Require Import Base BaseLemmas SortModel SortProof.

(** ** Specification vocabulary
    An array of [n] elements of [esize] bytes each, that fits in the 32-bit address space. *)
Definition array_of (esize : Z) (es : list (list Z)) : Prop :=
  0 <= esize /\ Forall (fun e => zlen e = esize) es /\ zlen es * esize < 2 ^ 32 /\ zlen es < 2 ^ 32.

(** A comparison result that is consistent on the elements of [es]: swapping the arguments swaps
    the sign, and "not greater" is transitive. *)
Definition consistent (es : list (list Z)) (cmp : list Z -> list Z -> Z) : Prop :=
  (forall x y, In x es -> In y es -> (cmp x y < 0 <-> cmp y x > 0)) /\
  (forall x y z, In x es -> In y es -> In z es -> cmp x y <= 0 -> cmp y z <= 0 -> cmp x z <= 0).

(** ** C25 *)
(** Whatever the comparison function answers (even inconsistently, even depending on the history
    of calls): qsort terminates, touches nothing outside the array, passes only pointers to array
    elements to the comparison function, and the array afterwards is a permutation of its elements. *)
Theorem C25_qsort_permutes (fcmp : trace -> list Z -> list Z -> Z) esize es :
  array_of esize es ->
  exists es' calls,
    qsort fcmp esize (concat es) (length es) = Some (concat es', calls) /\
    Permutation es es' /\
    Forall (fun pq => exists a b, pq = (a * esize, b * esize) /\ 0 <= a < zlen es /\ 0 <= b < zlen es) calls.
Proof.
  intros (He & HF & HB & HN). assert (F : fits esize es) by (split; auto).
  exists (fst (eqsort fcmp esize es (length es))), (snd (eqsort fcmp esize es (length es))).
  split; [|split].
  - rewrite qsort_refines by auto. destruct (eqsort fcmp esize es (length es)). reflexivity.
  - apply eqsort_perm.
  - apply eqsort_tr.
Qed.

(** With a comparison function that is consistent on the array's elements, the result is sorted. *)
Theorem C25_qsort_sorts (cmp : list Z -> list Z -> Z) esize es :
  array_of esize es -> consistent es cmp ->
  exists es' calls,
    qsort (fun _ => cmp) esize (concat es) (length es) = Some (concat es', calls) /\
    Permutation es es' /\ StronglySorted (fun x y => cmp x y <= 0) es'.
Proof.
  intros (He & HF & HB & HN) [Ha Ht]. assert (F : fits esize es) by (split; auto).
  pose proof (eqsort_sorted_on (fun _ => cmp) esize cmp es He (fun _ _ _ _ _ => eq_refl) Ha Ht) as HS.
  exists (fst (eqsort (fun _ => cmp) esize es (length es))), (snd (eqsort (fun _ => cmp) esize es (length es))).
  split; [|split].
  - rewrite qsort_refines by auto. destruct (eqsort (fun _ => cmp) esize es (length es)). reflexivity.
  - apply eqsort_perm.
  - exact HS.
Qed.

(** Non-vacuity: two-byte big-endian keys with a duplicate. *)
Definition be2 (e : list Z) : Z := match e with [a; b] => a * 256 + b | _ => 0 end.
Definition ex_es : list (list Z) := [[1;2]; [0;5]; [1;2]; [0;1]; [9;9]].
Example qsort_ex_hyp : array_of 2 ex_es /\ consistent ex_es (fun x y => be2 x - be2 y).
Proof.
  split.
  - split; [lia|]. split; [repeat constructor|]. vm_compute. auto.
  - split; intros; lia.
Qed.
Example qsort_ex_run :
  option_map fst (qsort (fun _ x y => be2 x - be2 y) 2 (concat ex_es) 5) = Some [0;1; 0;5; 1;2; 1;2; 9;9].
Proof. vm_compute. reflexivity. Qed.

(** ** C26 *)
(** The array lists first the elements the key is greater than, then those it equals, then those
    it is smaller than.  Then bsearch terminates and reads only array elements; if some element
    equals the key the result points to such an element, otherwise the result is null. *)
Theorem C26_bsearch (kcmp : list Z -> Z) esize smaller equal greater :
  array_of esize (smaller ++ equal ++ greater) ->
  (forall e, In e smaller -> kcmp e > 0) -> (forall e, In e equal -> kcmp e = 0) ->
  (forall e, In e greater -> kcmp e < 0) ->
  let es := smaller ++ equal ++ greater in
  exists r, bsearch esize kcmp (S (length es)) (concat es) 0 (zlen es) = Some r /\
    match r with
    | Some p => exists before e after, es = before ++ e :: after /\ p = zlen before * esize /\ kcmp e = 0
    | None => equal = []
    end.
Proof.
  intros (He & HF & HB & HN) Hs Hq Hg es. pose proof (zlen_nonneg equal) as HQ. assert (F : fits esize es) by (split; auto).
  assert (CL : forall i, 0 <= i < zlen es ->
    (i < zlen smaller /\ kcmp (el es i) > 0) \/
    (zlen smaller <= i < zlen smaller + zlen equal /\ kcmp (el es i) = 0) \/
    (zlen smaller + zlen equal <= i /\ kcmp (el es i) < 0)).
  { intros i Hi. unfold es, el in *. unfold zlen in *. rewrite !app_length in Hi.
    destruct (Nat.lt_ge_cases (Z.to_nat i) (length smaller)).
    - left. split; [lia|]. apply Hs. rewrite app_nth1 by lia. apply nth_In. lia.
    - rewrite app_nth2 by lia. destruct (Nat.lt_ge_cases (Z.to_nat i) (length smaller + length equal)).
      + right; left. split; [lia|]. apply Hq. rewrite app_nth1 by lia. apply nth_In. lia.
      + right; right. split; [lia|]. apply Hg. rewrite app_nth2 by lia. apply nth_In. lia. }
  destruct (bsearch_ok esize He kcmp (S (length es)) es 0 (zlen es)) as (r & E & R); auto;
    try (unfold zlen; lia).
  - intros i j Hij Hj. pose proof (CL i ltac:(lia)). pose proof (CL j ltac:(lia)). lia.
  - intros i j Hij Hj. pose proof (CL i ltac:(lia)). pose proof (CL j ltac:(lia)). lia.
  - exists r. split; [exact E|]. destruct r as [p|].
    + destruct R as (i & Hi & -> & K). destruct (concat_split esize He es i HF Hi) as (a & b & E2 & La & _).
      exists a, (el es i), b. rewrite La. auto.
    + destruct equal as [|e eq]; [reflexivity|]. exfalso.
      assert (L : 0 <= zlen smaller < zlen es).
      { unfold es. zl. pose proof (zlen_nonneg smaller). pose proof (zlen_nonneg eq). pose proof (zlen_nonneg greater). lia. }
      apply (R _ L). destruct (CL _ L) as [C|[C|C]]; try lia.
      zl. pose proof (zlen_nonneg eq). lia.
Qed.

Example bsearch_ex : bsearch 2 (fun e => 258 - be2 e) 6 [0;1; 0;5; 1;2; 1;2; 9;9] 0 5 = Some (Some 4).
Proof. vm_compute. reflexivity. Qed.
Example bsearch_ex_hyp : array_of 2 ([[0;1]; [0;5]] ++ [[1;2]; [1;2]] ++ [[9;9]]) /\
  (forall e, In e [[0;1]; [0;5]] -> 258 - be2 e > 0).
Proof.
  split.
  - split; [lia|]. split; [repeat constructor|]. vm_compute. auto.
  - intros e [<-|[<-|[]]]; vm_compute; auto.
Qed.

Print Assumptions C25_qsort_permutes.
Print Assumptions C25_qsort_sorts.
Print Assumptions C26_bsearch.
