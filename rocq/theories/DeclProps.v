(** C10, C18: layout of structures and unions, sizes of objects. *)
From Verif Require Import Base BaseLemmas DeclSpec FoldModel DeclModel DeclProof DeclMain DeclProg.

(** ** C10: the rules of the layout, stated on the offsets themselves *)
Section Rules.
Variable W : Z.
Hypothesis HW : W = 2 \/ W = 4.
Notation size := (size W). Notation align := (align W). Notation msa := (msa W).

Lemma nth_offsets l : forall o k x, (forall m, In m l -> 1 <= fst m /\ okal W (snd m)) -> 0 <= o ->
  nth_error (offsets o l) k = Some x ->
  exists m, nth_error l k = Some m /\ o <= x /\ x mod (snd m) = 0 /\ x + fst m <= endof o l.
Proof.
  induction l as [|[s a] l IH]; intros o k x OK Ho H; [destruct k; discriminate H|].
  assert (1 <= s /\ okal W a) as [S A] by (apply (OK (s, a)); left; reflexivity).
  assert (A0 : 0 < a) by (destruct A as [[-> | [-> | ->]] _]; lia).
  pose proof (up_ge o a A0) as U.
  assert (OK' : forall x, In x l -> 1 <= fst x /\ okal W (snd x)) by (intros y Y; apply OK; right; exact Y).
  pose proof (okm_endof W l (up o a + s) OK' ltac:(lia)) as E. pose proof (zlen_nonneg l).
  cbn [offsets endof] in *. destruct k as [|k].
  - cbn [nth_error] in H. injection H as <-. exists (s, a). cbn [nth_error fst snd]. repeat split; try lia. apply up_mod. exact A0.
  - cbn [nth_error] in *. destruct (IH (up o a + s) k x OK' ltac:(lia) H) as (m & M1 & M2 & M3 & M4). exists m. repeat split; try assumption. lia.
Qed.
Lemma offsets_order l : forall o k k' x x' m, (forall m, In m l -> 1 <= fst m /\ okal W (snd m)) -> 0 <= o ->
  (k < k')%nat -> nth_error (offsets o l) k = Some x -> nth_error (offsets o l) k' = Some x' -> nth_error l k = Some m ->
  x + fst m <= x'.
Proof.
  induction l as [|[s a] l IH]; intros o k k' x x' m OK Ho L H H' N; [destruct k; discriminate H|].
  assert (1 <= s /\ okal W a) as [S A] by (apply (OK (s, a)); left; reflexivity).
  assert (A0 : 0 < a) by (destruct A as [[-> | [-> | ->]] _]; lia).
  pose proof (up_ge o a A0) as U.
  assert (OK' : forall x, In x l -> 1 <= fst x /\ okal W (snd x)) by (intros y Y; apply OK; right; exact Y).
  destruct k' as [|k']; [lia|]. cbn [offsets nth_error] in *. destruct k as [|k].
  - cbn [nth_error] in *. injection H as <-. injection N as <-. destruct (nth_offsets l (up o a + s) k' x' OK' ltac:(lia) H') as (m & _ & X & _). exact X.
  - cbn [nth_error] in *. eapply (IH (up o a + s) k k'); eauto; lia.
Qed.
Lemma endof_min l : forall o, (forall m, In m l -> 1 <= fst m /\ okal W (snd m)) -> 0 <= o -> l <> [] ->
  exists k x m, nth_error (offsets o l) k = Some x /\ nth_error l k = Some m /\ endof o l = x + fst m.
Proof.
  induction l as [|[s a] l IH]; intros o OK Ho NE; [contradiction|].
  assert (1 <= s /\ okal W a) as [S A] by (apply (OK (s, a)); left; reflexivity).
  assert (A0 : 0 < a) by (destruct A as [[-> | [-> | ->]] _]; lia).
  pose proof (up_ge o a A0) as U.
  destruct l as [|m l].
  - exists 0%nat, (up o a), (s, a). repeat split.
  - destruct (IH (up o a + s)) as (k & x & m' & A1 & A2 & A3); [intros y Y; apply OK; right; exact Y|lia|discriminate|].
    exists (Datatypes.S k), x, m'. repeat split; assumption.
Qed.
Lemma maxalign_ge l z : In z l -> snd z <= maxalign l.
Proof.
  induction l as [|y l IH]; intros I; [destruct I|]. cbn [maxalign fold_right].
  destruct I as [->|I]; [lia|]. specialize (IH I). unfold maxalign in IH. lia.
Qed.
Lemma maxsize_min l : l <> [] -> (forall m, In m l -> 1 <= fst m) -> exists m, In m l /\ maxsize l = fst m.
Proof.
  induction l as [|m l IH]; intros NE OK; [contradiction|]. cbn [maxsize fold_right]. fold (maxsize l).
  destruct l as [|m' l].
  - exists m. split; [left; reflexivity|]. cbn. specialize (OK m ltac:(left; reflexivity)). lia.
  - destruct IH as (x & X1 & X2); [discriminate|intros y Y; apply OK; right; exact Y|].
    destruct (Z_le_dec (fst m) (maxsize (m' :: l))); [exists x; split; [right; exact X1|lia]|exists m; split; [left; reflexivity|lia]].
Qed.

(** The offset of a member is a multiple of its alignment (at most the #pragma pack value), members
    of a struct follow one another without overlap, those of a union start at 0, all lie inside the
    object, and the object's size is the least multiple of its alignment with that property. *)
Theorem C10_rules : forall u ms, wfty W (TyAgg u ms) ->
  length (moffsets W u ms) = length ms /\
  (forall k m o, nth_error ms k = Some m -> nth_error (moffsets W u ms) k = Some o ->
     0 <= o /\ o mod (Z.min (fst m) (align (snd (snd m)))) = 0 /\ o + size (snd (snd m)) <= size (TyAgg u ms) /\
     (u = true -> o = 0) /\
     Z.min (fst m) (align (snd (snd m))) <= align (TyAgg u ms) /\
     (u = false -> forall k' m' o', (k < k')%nat -> nth_error ms k' = Some m' -> nth_error (moffsets W u ms) k' = Some o' ->
        o + size (snd (snd m)) <= o')) /\
  size (TyAgg u ms) mod align (TyAgg u ms) = 0 /\
  (forall s, s mod align (TyAgg u ms) = 0 ->
     (forall k m o, nth_error ms k = Some m -> nth_error (moffsets W u ms) k = Some o -> o + size (snd (snd m)) <= s) ->
     size (TyAgg u ms) <= s).
Proof.
  intros u ms WT. pose proof (okm_wf W HW u ms WT) as OK. set (l := map msa ms) in *.
  pose proof (okm_maxalign W HW _ OK) as OA. assert (AP : 0 < maxalign l) by (destruct OA as [[-> | [-> | ->]] _]; lia).
  assert (SZ : size (TyAgg u ms) = up (if u then maxsize l else endof 0 l) (maxalign l)) by (unfold DeclSpec.size; rewrite sa_agg; reflexivity).
  assert (AZ : align (TyAgg u ms) = maxalign l) by (unfold DeclSpec.align; rewrite sa_agg; reflexivity).
  pose proof (up_ge (if u then maxsize l else endof 0 l) (maxalign l) AP) as U.
  assert (NE : l <> []) by (apply wfty_agg in WT; destruct WT as [NE _]; unfold l; destruct ms; [contradiction|discriminate]).
  split; [apply moff_len|]. split; [|split].
  - intros k m o N1 N2. pose proof (map_nth_error msa k ms N1) as N3. fold l in N3.
    pose proof (nth_error_In _ _ N3) as I3. rewrite SZ, AZ.
    assert (ALM : Z.min (fst m) (align (snd (snd m))) <= maxalign l).
    { exact (maxalign_ge l _ I3). }
    unfold moffsets in N2 |- *. fold l in N2 |- *. destruct u.
    + rewrite nth_error_map, N1 in N2. cbn in N2. injection N2 as <-. pose proof (okm_maxsize l _ I3) as X. cbn [DeclSpec.msa fst] in X.
      repeat split; lia || discriminate || (apply Z.mod_0_l; destruct (OK _ I3) as [_ [[E|[E|E]] _]]; cbn [DeclSpec.msa snd] in E; lia).
    + destruct (nth_offsets l 0 k o OK ltac:(lia) N2) as (m0 & M1 & M2 & M3 & M4). rewrite N3 in M1. injection M1 as <-. cbn [DeclSpec.msa fst snd] in *.
      repeat split; try lia; try discriminate; try exact M3. intros _ k' m' o' L N1' N2'.
      exact (offsets_order l 0 k k' o o' (msa m) OK ltac:(lia) L N2 N2' N3).
  - rewrite SZ, AZ. apply up_mod. exact AP.
  - intros s S1 S2. rewrite SZ. rewrite AZ in S1. apply up_min; [exact AP| |exact S1]. unfold moffsets in S2. fold l in S2. destruct u.
    + destruct (maxsize_min l NE (fun m I => proj1 (OK m I))) as (x & X1 & X2). rewrite X2. unfold l in X1. apply in_map_iff in X1. destruct X1 as (m & <- & X1).
      apply In_nth_error in X1. destruct X1 as [k X1]. specialize (S2 k m 0 X1). rewrite nth_error_map, X1 in S2. specialize (S2 eq_refl). cbn [DeclSpec.msa fst]. lia.
    + destruct (endof_min l 0 OK ltac:(lia) NE) as (k & x & m0 & X1 & X2 & ->). unfold l in X2. rewrite nth_error_map in X2.
      destruct (nth_error ms k) as [m|] eqn:N; [|discriminate X2]. injection X2 as <-. specialize (S2 k m x N X1). exact S2.
Qed.
End Rules.

(** ** C10: what the compiler computes *)
Lemma Inv0 W : Inv W [] [] [].
Proof.
  split; [reflexivity|]. exists (fun _ => TySc SVoid). split; [intros j; left; reflexivity|]. split; [intros j H; now contradiction H|].
  intros i. unfold okref, envof, resolveref. unfold zget. destruct (i <? 0); [reflexivity|]. destruct (Z.to_nat i); reflexivity.
Qed.

(** In any accepted sequence of declarations, for every object declared and every way of selecting
    a part of it (members, elements), the compiler's tables lead to the offset, the size and the
    alignment the rules give. *)
Theorem C10_offsets : forall W cs p st qs, W = 2 \/ W = 4 -> wfprog W (bal 0) [] p ->
  parseProg W cs [] [] p = Ok (st, qs) ->
  Forall2 (fun q t => forall path o t', sel W t path = Some (o, t') ->
     exists q', walk W cs st q path = Some (o, q') /\
       getDeclSize W cs st q' false = Ok (s32 (size W t')) /\ u32 (s32 (size W t')) = size W t' /\
       getDeclAlignment W st q' = Ok (align W t')) qs (objects [] p).
Proof.
  intros W cs p st qs HW WP E. pose proof (prog_ok W HW cs p [] [] [] (Inv0 W) WP) as P. rewrite E in P.
  destruct P as (_ & F & FF). pose proof (M_le W HW) as ML.
  assert (SUB : Forall (fits W) (objects [] p)).
  { rewrite Forall_forall in *. intros t T. apply FF. clear -T. revert T. generalize (@nil cty) at 1 2. revert t.
    induction p as [|[b ds] p IH]; intros t ts T; [exact T|]. cbn [objects mentioned] in *. cbv zeta in *. apply in_or_app. right.
    apply in_app_or in T. apply in_or_app. destruct T as [T|T]; [left; exact T|right; apply IH; exact T]. }
  clear E. induction F as [|q t qs ts [E0 WT] F IH]; [constructor|]. pose proof (declAt_enc W HW _ _ _ E0) as E. apply Forall_cons_iff in SUB. destruct SUB as [S1 S2].
  constructor; [|apply IH; exact S2]. intros path o t' S.
  destruct (walk_ok W HW cs st path q t o t' E WT S1 S) as (q' & A & B & C & D). exists q'. split; [exact A|].
  pose proof (enc_nonneg W _ _ _ B) as Q. destruct (sizes W HW _ C) as [C1 _].
  split; [apply getSize_enc; assumption|]. split; [apply u32_s32; lia|apply getAlign_enc; assumption].
Qed.

(** ** C18: a correct declaration is refused as too big if and only if some object type in it is
    too big for the address space (the table can also be exhausted). *)
Theorem C18_sizes : forall W cs p, W = 2 \/ W = 4 -> wfprog W (bal 0) [] p ->
  match parseProg W cs [] [] p with
  | Ok _ => Forall (fun t => size W t < 2 ^ (8 * W)) (mentioned [] p)
  | TooBig => Exists (fun t => 2 ^ (8 * W) <= size W t) (mentioned [] p)
  | Full => True
  | _ => False
  end.
Proof.
  intros W cs p HW WP. pose proof (prog_ok W HW cs p [] [] [] (Inv0 W) WP) as P.
  destruct (parseProg W cs [] [] p) as [[st qs]| | | |]; try exact I; try contradiction; [|exact P]. apply P.
Qed.
(** The multiplication the sizes are built from is exact or refused, for any operands. *)
Theorem C18_product : forall W s n, W = 2 \/ W = 4 -> 0 <= s < 2 ^ 32 -> 0 <= n < 2 ^ 32 ->
  mulSize W s n = if s * n <? 2 ^ (8 * W) then Ok (s * n) else TooBig.
Proof. intros W s n HW. apply (mulSize_ok W HW). Qed.

(** ** Examples: the hypotheses hold of real declarations *)
(** [struct A { char c; int i; short a[3]; } x, y[5]; union { struct A v; char *p; } z; (pack 2)
     struct { char c; struct A w; struct { char d; long l; } n[2]; } t;] *)
Definition ex : prog stk :=
  [(BDef false 1 [(BSc SChar, [Dcl 4 10 [] None]); (BSc SInt, [Dcl 4 11 [] None]); (BSc SShort, [Dcl 4 12 [3] None])],
    [Dcl 4 100 [] None; Dcl 4 101 [5] None]);
   (BDef true 2 [(BRef 0, [Dcl 4 10 [] None]); (BSc SChar, [Dcl 4 11 [] (Some [])])], [Dcl 4 102 [] None]);
   (BDef false 3 [(BSc SChar, [Dcl 2 10 [] None]); (BRef 0, [Dcl 2 11 [] None]);
                  (BDef false 4 [(BSc SChar, [Dcl 2 10 [] None]); (BSc SLong, [Dcl 2 12 [] None])], [Dcl 2 13 [2] None])],
    [Dcl 2 103 [] None])].
Ltac wf := repeat match goal with
  | |- _ /\ _ => split | |- NoDup _ => constructor | |- Forall _ _ => constructor
  | |- True => exact I | |- _ <> _ => discriminate | |- _ <= _ => (lia || discriminate) | |- _ < _ => (lia || reflexivity)
  | |- okpack _ _ => split; [unfold p2; auto|] | |- _ -> _ => intros ? | |- False => discriminate || (cbn in *; lia)
  | |- wfd _ _ _ _ => split | |- bal _ _ = true => reflexivity | |- oksc _ _ => split end.
Example ex_wf : wfprog 4 (bal 0) [] ex.
Proof. cbn. repeat (wf; cbn). all: intuition discriminate. Qed.
Example ex_ok : exists st qs, parseProg 4 true [] [] ex = Ok (st, qs) /\
  map (size 4) (objects [] ex) = [16; 80; 16; 30] /\
  option_map fst (walk 4 true st (nth 3 qs 0) [PMem 13; PIdx 1; PMem 12]) = Some 26.
Proof. eexists; eexists. split; [vm_compute; reflexivity|]. split; vm_compute; reflexivity. Qed.
Example ex_big : wfprog 2 (bal 0) [] [(BDef false 1 [(BSc SChar, [Dcl 2 10 [40000] None; Dcl 2 11 [40000] None])], [])] /\
  parseProg 2 true [] [] [(BDef false 1 [(BSc SChar, [Dcl 2 10 [40000] None; Dcl 2 11 [40000] None])], [])] = TooBig.
Proof. split; [cbn; repeat (wf; cbn); intuition discriminate|vm_compute; reflexivity]. Qed.

Print Assumptions C10_rules.
Print Assumptions C10_offsets.
Print Assumptions C18_sizes.
Print Assumptions C18_product.
