(** C02: constant folding and the rewriting of typed expressions keep the value C gives the
    expression.  [W] is the number of bytes in an int: 2 (tiny and small models) or 4. *)
From Verif Require Import Base BaseLemmas ExprSpec FoldSpec FoldModel FoldProof FoldMain FoldTotal.

Section P.
Variable W : Z.
Hypothesis HW : W = 2 \/ W = 4.
Context {A St : Type}.
Variable opq : A -> St -> option (Z * St).
Variable bp : Z.
Variable rtl : bool.

(** Whatever the leaves read and change and whichever operand is evaluated first: wherever C gives
    the source expression a value, the tree handed to the code generator computes that value (as a
    machine word) and the same effects, and the compiler's idea of the type is C's.  Arithmetic on
    null pointers is undefined in C ([strict] = true). *)
Theorem C02_preserves : forall e t y c,
  wf W e = true -> fold W e = Some (t, y, c) ->
  y = tyof e /\
  (forall st z st', seval W opq bp rtl true e st = Some (z, st') ->
   teval W opq bp rtl t st = Some (word W z, st') /\ cv W (tyof e) z = z).
Proof.
  intros e t y c Wf F.
  pose proof (fold_den W HW opq bp rtl true e _ Wf (or_intror eq_refl) F) as (D1 & _ & _ & D4 & D5 & _).
  split; [exact D1|]. intros st z st' E. split; [exact (D5 _ _ _ E)|exact (D4 _ _ _ E)].
Qed.

(** The same where null pointers are ordinary addresses, if no [?:] mixes a pointer with a null
    constant. *)
Theorem C02_preserves_flat : forall e t y c st z st',
  wf W e = true -> nomix e = true -> fold W e = Some (t, y, c) ->
  seval W opq bp rtl false e st = Some (z, st') ->
  teval W opq bp rtl t st = Some (word W z, st').
Proof.
  intros e t y c st z st' Wf N F E.
  pose proof (fold_den W HW opq bp rtl false e _ Wf (or_introl N) F) as (_ & _ & _ & _ & D5 & _).
  exact (D5 _ _ _ E).
Qed.

(** The number the compiler uses for a constant expression (array sizes, case labels, enumeration
    constants, initializers, #if) is the value of the expression. *)
Theorem C02_value : forall e t y s st z st',
  wf W e = true -> fold W e = Some (t, y, Some s) ->
  seval W opq bp rtl true e st = Some (z, st') ->
  st' = st /\ cv W (tyof e) s = z.
Proof.
  intros e t y s st z st' Wf F E.
  pose proof (fold_den W HW opq bp rtl true e _ Wf (or_intror eq_refl) F) as (D1 & D2 & _ & D4 & _ & D6).
  destruct (D6 s eq_refl _ _ _ E) as (S & V & _). split; [exact S|].
  rewrite <- (D4 _ _ _ E). destruct (wordy (tyof e)) eqn:WD; [exact (cv_eq W HW _ _ _ WD V)|].
  destruct (tyof e) as [| |sz|]; try discriminate WD. exact (small_eq W HW sz _ _ D2 V).
Qed.

(** Every arithmetic expression is accepted. *)
Theorem C02_accepts : forall e : src A, wf W e = true -> noptr e = true ->
  exists t c, fold W e = Some (t, tyof e, c).
Proof.
  intros e Wf H. destruct (fold_accepts W HW (fun (_ : A) (_ : unit) => None) 0 false e Wf H) as [[[t y] c] F].
  exists t, c. rewrite F. pose proof (fold_ty W HW (fun (_ : A) (_ : unit) => None) 0 false e _ Wf H F) as T. cbn in T. now subst y.
Qed.

(** An arithmetic expression is a compile-time constant only if C gives it a value in every state:
    in particular no division by zero, and no quotient out of range, is ever folded.  (Out of
    range shift counts are folded, with a warning.) *)
Theorem C02_folds_defined : forall e t y s st,
  wf W e = true -> noptr e = true -> noshift e = true -> fold W e = Some (t, y, Some s) ->
  seval W opq bp rtl true e st = Some (cv W (tyof e) s, st).
Proof.
  intros e t y s st Wf H NS F.
  destruct (folded_defined W HW opq bp rtl true e t y s Wf H NS F st) as [z E].
  destruct (C02_value e t y s st z st Wf F E) as [_ ->]. exact E.
Qed.

(** Conversely an expression made of constants is a compile-time constant whenever it has a value. *)
Theorem C02_folds_constants : forall e t y c st z st',
  wf W e = true -> noptr e = true -> closed e = true -> fold W e = Some (t, y, c) ->
  seval W opq bp rtl true e st = Some (z, st') -> exists s, c = Some s /\ cv W (tyof e) s = z.
Proof.
  intros e t y c st z st' Wf H CL F E.
  destruct (closed_folded W HW opq bp rtl true e t y c st z st' Wf H CL F E) as [s ->].
  exists s. split; [reflexivity|]. exact (proj2 (C02_value e t y s st z st' Wf F E)).
Qed.

(** Pointer arithmetic counts in elements: adding an integer [i] to a pointer to objects of [esz]
    bytes moves it by [i * esz] bytes, in either order of the operands, and a difference of
    pointers is divided by [esz].  Here [e] and [d] are any expressions. *)
Theorem C44_pointer_add : forall p i t y c esz st vp vi st1 (swap : bool),
  let e := if swap then SBin BAdd i p else SBin BAdd p i in
  wf W e = true -> fold W e = Some (t, y, c) ->
  tyof p = TPtr esz -> isptr (tyof i) = false ->
  both (xorb swap rtl) (seval W opq bp rtl true p) (seval W opq bp rtl true i) st = Some (vp, vi, st1) ->
  vp <> 0 ->
  y = TPtr esz /\ teval W opq bp rtl t st = Some ((vp + vi * esz) mod 2 ^ (8 * W), st1).
Proof.
  intros p i t y c esz st vp vi st1 swap e Wf F Tp Ti B NZ. subst e.
  assert (E : seval W opq bp rtl true (if swap then SBin BAdd i p else SBin BAdd p i) st
              = Some (cv W (TPtr esz) (vp + vi * esz), st1)).
  { destruct swap; cbn [seval].
    - assert (B' : both rtl (seval W opq bp rtl true i) (seval W opq bp rtl true p) st = Some (vi, vp, st1)).
      { revert B. unfold both. destruct rtl; cbn [xorb];
        [destruct (seval W opq bp true true p st) as [[a1 b1]|]|destruct (seval W opq bp false true i st) as [[a1 b1]|]];
        cbn [obind]; try discriminate;
        [destruct (seval W opq bp true true i b1) as [[a2 b2]|]|destruct (seval W opq bp false true p b1) as [[a2 b2]|]];
        cbn [obind]; try discriminate; intros B; apply some_inj in B; apply pair_inj in B; destruct B as [B ->];
        apply pair_inj in B; destruct B as [-> ->]; reflexivity. }
      rewrite B'. cbn [obind binary]. rewrite Ti, Tp. cbn [isptr esize andb].
      replace (vp =? 0) with false by lia. cbn [obind]. do 2 f_equal. f_equal. lia.
    - replace (xorb false rtl) with rtl in B by (destruct rtl; reflexivity). rewrite B. cbn [obind binary]. rewrite Tp. cbn [isptr esize andb].
      replace (vp =? 0) with false by lia. cbn [obind]. reflexivity. }
  pose proof (C02_preserves _ t y c Wf F) as [Y P]. specialize (P _ _ _ E). split.
  - rewrite Y. destruct swap; cbn [tyof]; unfold sumty; rewrite ?Ti, ?Tp; reflexivity.
  - destruct P as [P _]. rewrite P. do 2 f_equal.
    unfold word, cv, wrap. apply Z.mod_mod. apply Z.pow_nonzero; clear - HW; destruct HW; lia.
Qed.
Theorem C44_pointer_diff : forall p q t y c esz st vp vq st1,
  wf W (SBin BSub p q) = true -> fold W (SBin BSub p q) = Some (t, y, c) ->
  tyof p = TPtr esz -> tyof q = TPtr esz ->
  both rtl (seval W opq bp rtl true p) (seval W opq bp rtl true q) st = Some (vp, vq, st1) ->
  forall n, vp - vq = n * esz -> - 2 ^ (8 * W - 1) <= n * esz < 2 ^ (8 * W - 1) ->
  y = TInt /\ teval W opq bp rtl t st = Some (n mod 2 ^ (8 * W), st1).
Proof.
  intros p q t y c esz st vp vq st1 Wf F Tp Tq B n N R.
  assert (P1 : 1 <= esz).
  { pose proof Wf as W1. cbn [wf] in W1. apply andb_prop in W1. destruct W1 as [W1 W2].
    assert (N0 : fold W (SBin BSub p q) <> None) by congruence. cbn [fold] in N0.
    destruct (fold W q) as [rq|]; [|elim N0; reflexivity]. destruct (fold W p) as [rp|] eqn:Fp; [|elim N0; reflexivity].
    pose proof (fold_den W HW opq bp rtl true p _ W1 (or_intror eq_refl) Fp) as D. destruct rp as [[a1 a2] a3].
    destruct D as (_ & D & _). rewrite Tp in D. cbn [wf_ty] in D. apply andb_prop in D. lia. }
  assert (E : seval W opq bp rtl true (SBin BSub p q) st = Some (n, st1)).
  { cbn [seval]. rewrite B. cbn [obind binary]. rewrite Tp, Tq. cbn [isptr esize]. cbv zeta.
    rewrite N.
    assert (C : cv W TInt (n * esz) = n * esz).
    { cbn [cv]. apply swrap_small; [destruct HW; lia|]. exact R. }
    rewrite C, Z.mod_mul by lia. cbn. rewrite Z.div_mul by lia. reflexivity. }
  pose proof (C02_preserves _ t y c Wf F) as [Y P]. specialize (P _ _ _ E). split.
  - rewrite Y. cbn [tyof]. unfold sumty. rewrite Tp, Tq. reflexivity.
  - destruct P as [P _]. rewrite P. reflexivity.
Qed.
End P.

(** Where null pointers are ordinary addresses ([strict] = false) the compiler is wrong: with
    [int *p], [(int)((1 ? 0 : p) + 1)] is 4, but it is compiled as the constant 1, since [1 ? 0 : p] is
    taken for a constant and the sum of two constants is left unscaled (smlrc.c 4497-4530). *)
Definition null_plus_1 : src unit :=
  SCast TInt (SBin BAdd (SCond (SNum false 1) (SNum false 0) (SOpq (TPtr 4) tt)) (SNum false 1)).
Theorem C02_null_refuted : exists (e : src unit) t y c z,
  wf 4 e = true /\ fold 4 e = Some (t, y, c) /\
  (forall opq bp rtl (st : unit), seval 4 opq bp rtl false e st = Some (z, st)) /\
  (forall opq bp rtl (st : unit), teval 4 opq bp rtl t st = Some (1, st)) /\ z = 4.
Proof.
  exists null_plus_1, (TNum false 1), TInt, (Some 1), 4.
  split; [vm_compute; reflexivity|]. split; [vm_compute; reflexivity|].
  split; [intros; destruct rtl; vm_compute; reflexivity|]. split; [|reflexivity].
  intros; vm_compute; reflexivity.
Qed.

(** The theorems are about something: a state that is a counter, a leaf [x++], and
    [((unsigned char)(300 + 'x++') << 2) / -7 + &local[3] - ...]. *)
Definition ctr (k : Z) (st : Z) : option (Z * Z) := Some (st + k, st + 1).
Definition ex1 : src Z :=
  SBin BAdd (SBin BDiv (SBin BShl (SCast (TSm 1) (SBin BAdd (SNum false 300) (SOpq TInt 5))) (SNum false 2))
                       (SUn UMinus (SNum false 7)))
            (SCond (SAnd (SNum true 3) (SOpq TInt 0)) (SBin BMul (SNum false 6) (SNum false 7)) (SOpq TInt 9)).
Example ex1_wf : wf 4 ex1 = true /\ wf 2 ex1 = true /\ noptr ex1 = true. Proof. vm_compute; auto. Qed.
Example ex1_val : seval 4 ctr 0 false true ex1 10 = Some (9, 12). Proof. vm_compute. reflexivity. Qed.
Example ex1_fold : exists t, fold 4 ex1 = Some (t, TInt, None) /\ teval 4 ctr 0 false t 10 = Some (9, 12).
Proof. eexists. split; [vm_compute; reflexivity|vm_compute; reflexivity]. Qed.
Definition ex2 : src Z :=
  SBin BSub (SBin BMul (SBin BMod (SUn UMinus (SNum false 17)) (SNum false 5)) (SNum true 3))
            (SOr (SNum false 1) (SBin BDiv (SNum false 1) (SNum false 0))).
Example ex2_hyp : wf 4 ex2 = true /\ noptr ex2 = true /\ noshift ex2 = true /\ closed ex2 = true.
Proof. vm_compute; auto. Qed.
Example ex2_fold : fold 4 ex2 = Some (TNum true (-7), TUint, Some (-7)). Proof. vm_compute. reflexivity. Qed.
Example ex2_val : seval 4 ctr 0 true true ex2 1 = Some (4294967289, 1). Proof. vm_compute. reflexivity. Qed.
(** 1/0 is kept for run time *)
Example ex3_fold : exists t, fold 4 (SBin BDiv (SNum false 1) (SNum false 0) : src Z) = Some (t, TInt, None).
Proof. eexists. vm_compute. reflexivity. Qed.
(** a[x++] with a local array of 12-byte elements at offset -40: the address is bp - 40 + 12 * x *)
Definition ex4 : src Z := SBin BAdd (SLoc 12 (-40)) (SOpq TInt 0).
Example ex4_hyp : wf 4 ex4 = true. Proof. reflexivity. Qed.
Example ex4_val : exists t, fold 4 ex4 = Some (t, TPtr 12, None) /\
  teval 4 ctr 1000 false t 3 = Some (1000 - 40 + 36, 4).
Proof. eexists. split; [vm_compute; reflexivity|vm_compute; reflexivity]. Qed.
(** &a[5] folds into one offset; &a[5] - &a[2] is 3 *)
Definition ex5 : src Z := SBin BAdd (SLoc 12 (-40)) (SNum false 5).
Example ex5_val : exists t, fold 4 (SBin BSub ex5 (SBin BAdd (SLoc 12 (-40)) (SNum false 2))) = Some (t, TInt, None) /\
  teval 4 ctr 1000 true t 3 = Some (3, 3).
Proof. eexists. split; [vm_compute; reflexivity|vm_compute; reflexivity]. Qed.

Print Assumptions C02_preserves.
Print Assumptions C02_preserves_flat.
Print Assumptions C02_value.
Print Assumptions C02_accepts.
Print Assumptions C02_folds_defined.
Print Assumptions C02_folds_constants.
Print Assumptions C44_pointer_add.
Print Assumptions C44_pointer_diff.
Print Assumptions C02_null_refuted.
