(** Outcomes of the declarator parser against an expected result; type specifiers; the layers of a
    declarator and what they make of a type. *)
From Coq Require Import NArith.
From Verif Require Import Base BaseLemmas DeclSpec DeclModel DtorSpec DtorModel DtorRep.
Ltac Zify.zify_post_hook ::= idtac.

(** the outcome is not a success, or it is the expected success, and this if there is room *)
Definition ris {A} (r : res A) (o : option A) (R : Prop) : Prop :=
  match o with
  | Some x => (forall y, r = Ok y -> y = x) /\ (R -> r = Ok x)
  | None => forall y, r <> Ok y
  end.
Lemma ris_ok {A} (x : A) R : ris (Ok x) (Some x) R.
Proof. split; [congruence|trivial]. Qed.
Lemma ris_bad {A} R : @ris A Bad None R.
Proof. intros y; discriminate. Qed.
Lemma ris_weak {A} (r : res A) o (R R' : Prop) : ris r o R -> (R' -> R) -> ris r o R'.
Proof. destruct o; cbn; [intros [H1 H2] H; split; auto|auto]. Qed.
Lemma ris_bind {A B} (r : res A) (o : option A) (f : A -> res B) (g : A -> option B) R :
  ris r o R -> (forall x, o = Some x -> ris (f x) (g x) R) -> ris (rbind r f) (obind o g) R.
Proof.
  intros H1 H2. destruct o as [x|]; cbn in *.
  - destruct H1 as [H1 H3]. specialize (H2 x eq_refl).
    destruct (g x) as [z|] eqn:E; cbn in *.
    + destruct H2 as [H2 H4]. split.
      * intros y. destruct r; cbn; try discriminate. rewrite (H1 a eq_refl). auto.
      * intros HR. rewrite (H3 HR). cbn. auto.
    + intros y. destruct r; cbn; try discriminate. rewrite (H1 a eq_refl). auto.
  - intros y. destruct r; cbn; try discriminate. exfalso; eapply H1; eauto.
Qed.
Lemma ris_none_bind {A B} (r : res A) (f : A -> res B) R :
  (forall x, r = Ok x -> ris (f x) None R) -> ris (rbind r f) None R.
Proof. intros H y E. destruct r; cbn in *; try discriminate. apply (H a eq_refl y E). Qed.
Lemma ris_eq {A} (r : res A) o o' R : ris r o R -> o = o' -> ris r o' R.
Proof. intros H <-. exact H. Qed.

Lemma push_ris st e : ris (push st [e]) (Some (st ++ [e])) (zlen st + 1 <= symax).
Proof.
  unfold push. rewrite zlen_app, zlen_cons. change (zlen (@nil (kind * Z))) with 0.
  destruct (symax <? zlen st + (1 + 0)) eqn:E; cbv beta iota delta [ris].
  - split; [discriminate|]. intros; exfalso; lia.
  - split; [congruence|trivial].
Qed.

(* ---------------------------------------------------------------- type specifiers *)
Section W.
Variable W : Z.
Definition noW (r : list tok) : Prop := forall w r', r <> TW w :: r'.

(** the loop on words alone: final mask, words left *)
Fixpoint wl (a m : Z) (ws : list word) : Z * Z * list word :=
  match ws with
  | w :: r => let '(k, d) := wordMask w in
              if Z.land a k =? 0 then (a, m, ws) else wl (Z.land a (Z.lnot (Z.lor d k))) (Z.lor m k) r
  | [] => (a, m, [])
  end.
Lemma wl_app ws1 ws2 : forall a m,
  wl a m (ws1 ++ ws2) =
  match wl a m ws1 with (a', m', []) => wl a' m' ws2 | (a', m', l) => (a', m', l ++ ws2) end.
Proof.
  induction ws1 as [|w ws1 IH]; intros a m; cbn [app wl]; [reflexivity|].
  destruct (wordMask w) as [k d]. destruct (Z.land a k =? 0); [reflexivity|]. apply IH.
Qed.
Lemma wordLoop_wl ws : forall a m r, noW r ->
  wordLoop a m (map TW ws ++ r) = (snd (fst (wl a m ws)), map TW (snd (wl a m ws)) ++ r).
Proof.
  induction ws as [|w ws IH]; intros a m r HN; cbn [map app].
  - cbn. destruct r as [|t r]; [reflexivity|]. destruct t; try reflexivity. exfalso; eapply HN; eauto.
  - cbn [wordLoop wl]. destruct (wordMask w) as [k d].
    destruct (Z.land a k =? 0); [reflexivity|]. apply IH, HN.
Qed.

Definition words4 : list (list word) :=
  let e := [[]] in
  let ext l := flat_map (fun x => map (fun w => w :: x) all_words) l in
  e ++ ext e ++ ext (ext e) ++ ext (ext (ext e)) ++ ext (ext (ext (ext e))).
Lemma words_in w : In w all_words.
Proof. destruct w; cbn; tauto. Qed.
Definition ext (l : list (list word)) := flat_map (fun x => map (fun w => w :: x) all_words) l.
Lemma ext_in w x l : In x l -> In (w :: x) (ext l).
Proof. intros H. unfold ext. apply in_flat_map. exists x. split; [exact H|]. apply (in_map (fun w => w :: x)), words_in. Qed.
Lemma words4_in ws : (length ws <= 4)%nat -> In ws words4.
Proof.
  intros H. unfold words4. fold ext. rewrite !in_app_iff.
  change (flat_map (fun x => map (fun w => w :: x) all_words)) with ext.
  destruct ws as [|a [|b [|c [|d [|e ws]]]]]; cbn in H; try lia.
  - left. now left.
  - right; left. apply ext_in. now left.
  - do 2 right; left. do 2 apply ext_in. now left.
  - do 3 right; left. do 3 apply ext_in. now left.
  - do 4 right. do 4 apply ext_in. now left.
Qed.

Definition scal_eqb (a b : scal) : bool :=
  match a, b with
  | SVoid, SVoid | SChar, SChar | SSChar, SSChar | SUChar, SUChar | SShort, SShort
  | SUShort, SUShort | SInt, SInt | SUns, SUns | SLong, SLong | SULong, SULong | SFloat, SFloat => true
  | _, _ => false
  end.
Lemma scal_eqb_eq a b : scal_eqb a b = true -> a = b.
Proof. destruct a, b; cbn; congruence. Qed.
Definition vf (ws : list word) : bool := match ws with WVoid :: _ | WFloat :: _ => true | _ => false end.
Definition tbl (ws : list word) : option scal :=
  match find (fun e => same_words ws (snd e)) wtable with Some (s, _) => Some s | None => None end.
Definition wcheck (ws : list word) : bool :=
  match ws with
  | [] => true
  | _ =>
      if vf ws then
        match ws, tbl ws with
        | [WVoid], Some SVoid | [WFloat], Some SFloat => true
        | _ :: _ :: _, None => true
        | _, _ => false
        end
      else
        match wl 127 0 ws, tbl ws with
        | (_, m, []), Some s => match maskType m with Some s' => scal_eqb s s' | None => false end
        | (_, m, []), None => match maskType m with Some s' => false | None => true end
        | (_, _, _ :: _), None => true
        | (_, _, _ :: _), Some _ => false
        end
  end.
Lemma wcheck4 ws : (length ws <= 4)%nat -> wcheck ws = true.
Proof.
  intros H. assert (X : forallb wcheck words4 = true) by (vm_compute; reflexivity).
  rewrite forallb_forall in X. apply X, words4_in, H.
Qed.
Lemma wl4 ws : length ws = 4%nat -> snd (wl 127 0 ws) <> [].
Proof.
  intros H.
  assert (X : forallb (fun ws => if Nat.eqb (length ws) 4 then match snd (wl 127 0 ws) with [] => false | _ => true end else true) words4 = true)
    by (vm_compute; reflexivity).
  rewrite forallb_forall in X. specialize (X ws (words4_in ws ltac:(lia))). rewrite H in X. cbn in X.
  destruct (snd (wl 127 0 ws)); [discriminate|congruence].
Qed.
Lemma count_total ws : fold_right (fun w n => (count w ws + n)%nat) O all_words = length ws.
Proof.
  induction ws as [|a ws IH]; [reflexivity|].
  cbn [length]. rewrite <- IH. unfold all_words. cbn [fold_right]. unfold count. cbn [filter].
  destruct a; cbn [word_eqb length]; lia.
Qed.
Lemma same_length a b : same_words a b = true -> length a = length b.
Proof.
  unfold same_words. rewrite forallb_forall. intros H. rewrite <- (count_total a), <- (count_total b).
  assert (E : forall w, count w a = count w b).
  { intros w. specialize (H w (words_in w)). now apply Nat.eqb_eq in H. }
  unfold all_words. cbn [fold_right]. now rewrite !E.
Qed.
Lemma tbl_long ws : (4 <= length ws)%nat -> tbl ws = None.
Proof.
  intros H. unfold tbl. destruct (find _ wtable) as [[s l]|] eqn:E; [|reflexivity].
  apply find_some in E. destruct E as [I E]. cbn [snd] in E. apply same_length in E.
  assert (X : forallb (fun e => Nat.leb (length (snd e)) 3) wtable = true) by (vm_compute; reflexivity).
  rewrite forallb_forall in X. specialize (X _ I). cbn [snd] in X. apply Nat.leb_le in X. lia.
Qed.
Lemma words_split (ws : list word) : (4 <= length ws)%nat -> exists a b : list word, ws = a ++ b /\ length a = 4%nat.
Proof. intros H. exists (firstn 4 ws), (skipn 4 ws). split; [now rewrite firstn_skipn|]. rewrite firstn_length. lia. Qed.

(** what the loop and the table make of any list of words *)
Lemma words_ok ws : ws <> [] -> vf ws = false ->
  match tbl ws with
  | Some s => exists a m, wl 127 0 ws = (a, m, []) /\ maskType m = Some s
  | None => exists a m l, wl 127 0 ws = (a, m, l) /\ (l = [] -> maskType m = None)
  end.
Proof.
  intros HN HV. destruct (Nat.le_gt_cases (length ws) 4) as [L|L].
  - pose proof (wcheck4 ws L) as X. unfold wcheck in X. destruct ws; [congruence|]. rewrite HV in X.
    destruct (wl 127 0 (w :: ws)) as [[a m] l]. destruct (tbl (w :: ws)) as [s|].
    + destruct l; [|discriminate]. destruct (maskType m) as [s'|] eqn:E; [|discriminate].
      apply scal_eqb_eq in X. subst. eauto.
    + exists a, m, l. split; [reflexivity|]. intros ->. destruct (maskType m); [discriminate|reflexivity].
  - rewrite (tbl_long ws ltac:(lia)).
    destruct (words_split ws ltac:(lia)) as (x & y & -> & Lx).
    rewrite wl_app. pose proof (wl4 x Lx) as X. destruct (wl 127 0 x) as [[a m] l]. cbn [snd] in X.
    destruct l as [|w l]; [congruence|]. exists a, m, ((w :: l) ++ y). split; [reflexivity|]. discriminate.
Qed.
Lemma vf_ok ws : vf ws = true ->
  match tbl ws with Some s => (ws = [WVoid] /\ s = SVoid) \/ (ws = [WFloat] /\ s = SFloat) | None => (2 <= length ws)%nat end.
Proof.
  intros HV. destruct (Nat.le_gt_cases (length ws) 4) as [L|L].
  - pose proof (wcheck4 ws L) as X. unfold wcheck in X. destruct ws as [|w ws]; [discriminate|]. rewrite HV in X.
    destruct w; try discriminate HV; destruct ws as [|w' ws]; destruct (tbl _) as [[]|]; try discriminate; auto; cbn; lia.
  - rewrite (tbl_long ws ltac:(lia)). lia.
Qed.

Variable tdf : N -> option Z.
Variable tenv : N -> option ty.

Definition rep (st : stk) (pb : pbase) (t : ty) : Prop :=
  match pb with PTok k v => enc W t = [(k, v)] | PTdef p => holds W st p t end /\ wty W false t.

Lemma starts_eq st : env_ok W tdf tenv st -> forall t, startsDecl W tdf t = starts W tenv t.
Proof.
  intros HE t. destruct t; try reflexivity. cbn. specialize (HE n). destruct (tdf n), (tenv n); tauto || reflexivity.
Qed.

Lemma endBase_ok s r : ris (endBase W s r) (if available W s then Some (PTok (scalTok W s) 0, r) else None) True.
Proof.
  unfold endBase, available. destruct s; try apply ris_ok; destruct (W =? 2); cbn [negb]; try apply ris_ok; apply ris_bad.
Qed.

Lemma spec_ok st b r : env_ok W tdf tenv st -> wf_b W tenv b = true -> noW r -> r <> [] ->
  match base_ty W tenv b with
  | Some t => exists pb, parseSpec W tdf (pr_base b ++ r) = Ok (pb, r) /\ rep st pb t
  | None => forall x r', parseSpec W tdf (pr_base b ++ r) = Ok (x, r') -> exists w r'', r' = TW w :: r''
  end.
Proof.
  intros HE WB HN HR. unfold parseSpec.
  destruct b as [ws|j|n]; cbn [pr_base base_ty].
  - assert (HW : ws <> []) by (intros ->; discriminate).
    unfold words_ty.
    assert (ET : tbl ws = match find (fun e => same_words ws (snd e)) wtable with Some (s, _) => Some s | None => None end)
      by reflexivity.
    destruct (vf ws) eqn:EV.
    + pose proof (vf_ok ws EV) as X. rewrite ET in X.
      destruct (find _ wtable) as [[s l]|].
      * destruct X as [[-> ->]|[-> ->]]; cbn [available].
        -- cbn [map app baseOf endBase]. exists (PTok (scalTok W SVoid) 0).
           destruct r; [congruence|]. repeat split.
        -- cbn [map app baseOf endBase]. exists (PTok (scalTok W SFloat) 0).
           destruct r; [congruence|]. repeat split.
      * intros x r'. destruct ws as [|w [|w2 ws]]; cbn in X; try lia.
        destruct w; try discriminate EV; cbn; intros E; injection E as <- <-; eauto.
    + pose proof (words_ok ws HW EV) as X. rewrite ET in X.
      assert (EB : baseOf W tdf (map TW ws ++ r) =
                   match maskType (snd (fst (wl 127 0 ws))) with Some s => endBase W s (map TW (snd (wl 127 0 ws)) ++ r) | None => Bad end).
      { rewrite <- (app_nil_r (map TW ws)) at 1. rewrite app_nil_r.
        pose proof (wordLoop_wl ws 127 0 r HN) as Y.
        destruct ws as [|w ws]; [congruence|]. cbn [map app] in *. unfold baseOf.
        destruct w; try discriminate EV; rewrite Y; reflexivity. }
      rewrite EB. destruct (find _ wtable) as [[s l]|].
      * destruct X as (a & m & Xw & Xm). rewrite Xw. cbn [fst snd map app]. rewrite Xm.
        pose proof (endBase_ok s r) as Y. destruct (available W s) eqn:EA.
        -- destruct Y as [_ Y]. rewrite (Y I). exists (PTok (scalTok W s) 0). destruct r; [congruence|].
           split; [reflexivity|]. split; [reflexivity|exact EA].
        -- intros x r' E. destruct (endBase W s r) as [[? ?]| | | |]; try discriminate. exfalso. eapply Y; reflexivity.
      * destruct X as (a & m & l & Xw & Xl). rewrite Xw. cbn [fst snd].
        intros x r' E. destruct (maskType m) as [s|]; [|discriminate].
        destruct l as [|w l]; [discriminate (Xl eq_refl)|].
        cbn [map app] in E. pose proof (endBase_ok s (TW w :: map TW l ++ r)) as Y.
        destruct (available W s).
        -- destruct Y as [_ Y]. rewrite (Y I) in E. injection E as <- <-. eauto.
        -- destruct (endBase W s _) as [[? ?]| | | |]; try discriminate. exfalso. eapply Y; reflexivity.
  - cbn. exists (PTok KStructPtr j). destruct r; [congruence|]. repeat split.
  - cbn [app baseOf]. specialize (HE n). cbn in WB. destruct (tenv n) as [t|]; [|discriminate].
    destruct (tdf n) as [p|]; [|contradiction]. exists (PTdef p). destruct r; [congruence|]. split; [reflexivity|exact HE].
Qed.
End W.
