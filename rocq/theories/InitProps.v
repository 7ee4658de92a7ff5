(** C46: initialisers of objects of static storage duration. *)
From Verif Require Import Base BaseLemmas DeclSpec FoldModel DeclModel DeclProof DeclMain DeclProg DeclProps InitSpec InitModel InitProof InitProof2.
From Verif Require CharSpec.

(** ** about the specification *)
(** What the compiler takes is correct C with the same meaning ... *)
Lemma weaken W : 
  (forall t l d r, takes W false t l d r -> takes W true t l d r) /\
  (forall t l d r, parts W false t l d r -> parts W true t l d r) /\
  (forall n t l d r, elems W false n t l d r -> elems W true n t l d r) /\
  (forall o ms tot l d r, InitSpec.mems W false o ms tot l d r -> InitSpec.mems W true o ms tot l d r).
Proof.
  apply takes_mut; intros; try (econstructor; eassumption).
  - apply t_scb; trivial. intros _. reflexivity.
  - apply t_str; trivial. right. reflexivity.
  - apply t_strb; trivial; [right; reflexivity|intros _; reflexivity].
Qed.
Theorem C46_correct : forall W t i d, initialises W false t i d -> initialises W true t i d.
Proof. intros W t i d [B T]. split; [exact B|]. apply weaken. exact T. Qed.
Theorem C46_correct_unknown : forall W t i n d, completes W false t i n d -> completes W true t i n d.
Proof.
  intros W t i n d [s CH _|s c CH _ _|l c n' d' NL A]; [apply c_str|apply c_strb|apply c_list]; trivial; try (right; reflexivity); try (intros _; reflexivity).
  induction A; [constructor|]. destruct l' as [|x l'].
  - inversion A; subst; [|exfalso; eapply takes_nil; eassumption]. econstructor; [apply weaken; eassumption|constructor].
  - econstructor; [apply weaken; eassumption|]. apply IHA. discriminate.
Qed.
(** ... and it takes all of C but a comma after the single expression in a list for a scalar or a
    string, and huge strings. *)
Lemma strengthen W : 
  (forall t l d r, takes W true t l d r -> Forall (plain W) l -> takes W false t l d r /\ Forall (plain W) r) /\
  (forall t l d r, parts W true t l d r -> Forall (plain W) l -> parts W false t l d r /\ Forall (plain W) r) /\
  (forall n t l d r, elems W true n t l d r -> Forall (plain W) l -> elems W false n t l d r /\ Forall (plain W) r) /\
  (forall o ms tot l d r, InitSpec.mems W true o ms tot l d r -> Forall (plain W) l -> InitSpec.mems W false o ms tot l d r /\ Forall (plain W) r).
Proof.
  apply takes_mut.
  - intros t e d r Sc D F. inversion F; subst. split; [apply t_sc; assumption|assumption].
  - intros t e c d r Sc D _ F. inversion F as [|x l P F']; subst. inversion P as [|l c' PC PL]; subst. specialize (PC e eq_refl). subst c.
    split; [apply t_scb; trivial; discriminate|exact F'].
  - intros n t s r CH L _ F. inversion F as [|x l P F']; subst. inversion P as [e PS|]; subst. split; [apply t_str; trivial; left; apply PS; reflexivity|exact F'].
  - intros n t s c r CH L _ _ F. inversion F as [|x l P F']; subst. inversion P as [|l c' PC PL]; subst. specialize (PC _ eq_refl). subst c.
    specialize (PL _ (or_introl eq_refl)). inversion PL as [e PS|]; subst.
    split; [apply t_strb; trivial; [left; apply PS; reflexivity|discriminate]|exact F'].
  - intros t l c d r AG NL _ IH F. inversion F as [|x l' P F']; subst. inversion P as [|l0 c' PC PL]; subst.
    destruct IH as [IH _]; [apply Forall_forall; exact PL|]. split; [apply t_br; assumption|exact F'].
  - intros t e l d r AG _ IH F. destruct (IH F) as [A B]. split; [apply t_nobr; assumption|exact B].
  - intros n t l d r _ IH F. destruct (IH F) as [A B]. split; [constructor; assumption|exact B].
  - intros u ms l d r _ IH F. destruct (IH F) as [A B]. split; [constructor; assumption|exact B].
  - intros t r F. split; [constructor|exact F].
  - intros n t N F. split; [constructor; exact N|exact F].
  - intros n t l d l' d' r N _ IH1 _ IH2 F. destruct (IH1 F) as [A1 B1]. destruct (IH2 B1) as [A2 B2]. split; [econstructor; eassumption|exact B2].
  - intros o tot r F. split; [constructor|exact F].
  - intros o ms tot N F. split; [constructor; exact N|exact F].
  - intros o p t ms tot l d l' d' r _ IH1 _ IH2 F. destruct (IH1 F) as [A1 B1]. destruct (IH2 B1) as [A2 B2]. split; [econstructor; eassumption|exact B2].
Qed.
Theorem C46_taken_partial : forall W t i d, plain W i -> initialises W true t i d -> initialises W false t i d.
Proof.
  intros W t i d P [B T]. split; [exact B|]. destruct (strengthen W) as (S & _). apply (S t [i] d []); [exact T|]. constructor; [exact P|constructor].
Qed.
Theorem C46_taken_unknown_partial : forall W t i n d, plain W i -> completes W true t i n d -> completes W false t i n d.
Proof.
  intros W t i n d P H. revert P. destruct H as [s CH _|s c CH _ _|l c n' d' NL A]; intros P.
  - inversion P as [e PS|]; subst. apply c_str; [exact CH|left; apply PS; reflexivity].
  - inversion P as [|l c' PC PL]; subst. specialize (PC _ eq_refl). subst c. specialize (PL _ (or_introl eq_refl)). inversion PL as [e PS|]; subst.
    apply c_strb; [exact CH|left; apply PS; reflexivity|discriminate].
  - inversion P as [|l0 c' PC PL]; subst. apply c_list; [exact NL|]. clear NL P PC. rewrite <- Forall_forall in PL.
    induction A as [|t l d l' n d' T A IH]; [constructor|]. destruct (strengthen W) as (S & _). destruct (S _ _ _ _ T PL) as [T' PL']. econstructor; [exact T'|]. apply IH; exact PL'.
Qed.

(** Initialisers determine the data, which is as long as the object. *)
Section Spec.
Variables (W : Z) (C : bool).
Hypothesis HW : W = 2 \/ W = 4.
Notation takes := (takes W C). Notation parts := (parts W C). Notation elems := (elems W C). Notation mems := (InitSpec.mems W C).
Notation size := (size W).

Lemma tnil t d r : ~ takes t [] d r.
Proof. intros H. inversion H. Qed.
Lemma elems_str n t s l d r : elems n t (IE (SStr s) :: l) d r -> 0 < n -> ~ character t.
Proof.
  intros E N CH. destruct (char_size W t CH) as (S1 & SC & _). inversion E; subst; [lia|].
  match goal with H : takes _ _ _ _ |- _ => inversion H; subst end.
  - match goal with H : sdata _ _ _ = _ |- _ => cbn [sdata] in H; rewrite S1 in H end.
    replace (1 =? W) with false in * by (destruct HW; lia). discriminate.
  - contradiction.
  - destruct t; contradiction.
Qed.
Lemma scalar_agg t : scalar t -> aggregate t -> False.
Proof. destruct t; intros [] []. Qed.
Lemma inimems_ok u ms : wfty W (TyAgg u ms) -> inimems W u ms <> [] /\ Forall (fun m => wfty W (snd m)) (inimems W u ms).
Proof. apply inimems_wf. Qed.

Lemma unique :
  (forall t l d r, takes t l d r -> wfty W t -> forall d' r', takes t l d' r' -> d = d' /\ r = r') /\
  (forall t l d r, parts t l d r -> wfty W t -> forall d' r', parts t l d' r' -> d = d' /\ r = r') /\
  (forall n t l d r, elems n t l d r -> wfty W t -> forall d' r', elems n t l d' r' -> d = d' /\ r = r') /\
  (forall o ms tot l d r, mems o ms tot l d r -> Forall (fun m => wfty W (snd m)) ms -> forall d' r', mems o ms tot l d' r' -> d = d' /\ r = r').
Proof.
  assert (NB : forall n t s l d r, 1 <= n -> character t -> parts (TyArr n t) (IE (SStr s) :: l) d r -> False).
  { intros n t s l d r N CH P. inversion P; subst. eapply elems_str; [eassumption|lia|exact CH]. }
  apply takes_mut.
  - intros t e d r Sc D _ d' r' T. inversion T; subst; try (exfalso; eapply scalar_agg; eassumption || (destruct t; contradiction) || contradiction).
    split; congruence.
  - intros t e c d r Sc D _ _ d' r' T. inversion T; subst; try (exfalso; eapply scalar_agg; eassumption) ; try contradiction.
    split; congruence.
  - intros n t s r CH L _ [N _] d' r' T. inversion T; subst; try contradiction; [split; reflexivity|]. exfalso. eapply NB; [|exact CH|eassumption]. lia.
  - intros n t s c r CH L _ _ [N _] d' r' T. inversion T; subst; try contradiction; [split; reflexivity|]. exfalso. eapply NB; [|exact CH|eassumption]. lia.
  - intros t l c d r AG NL P IH WT d' r' T. inversion T; subst.
    + exfalso. eapply scalar_agg; eassumption.
    + exfalso. destruct WT as [N _]. eapply NB; [|eassumption|exact P]. lia.
    + split; [|reflexivity]. match goal with X : parts _ _ _ _ |- _ => apply (IH WT _ _ X) end.
  - intros t e l d r AG P IH WT d' r' T. inversion T; subst.
    + exfalso. eapply scalar_agg; eassumption.
    + exfalso. destruct WT as [N _]. eapply NB; [|eassumption|exact P]. lia.
    + apply IH; assumption.
  - intros n t l d r _ IH [_ WT] d' r' P. inversion P; subst. apply IH; assumption.
  - intros u ms l d r _ IH WT d' r' P. inversion P; subst. apply IH; [apply inimems_ok; exact WT|assumption].
  - intros t r WT d' r' E. inversion E; subst; try lia. split; reflexivity.
  - intros n t N WT d' r' E. inversion E; subst; try lia; [split; reflexivity|]. exfalso. eapply tnil; eassumption.
  - intros n t l d l' d' r N T IH1 E1 IH2 WT d2 r2 E. inversion E; subst; try lia; [exfalso; eapply tnil; eassumption|].
    match goal with X : takes _ _ _ _ |- _ => destruct (IH1 WT _ _ X) as [<- <-] end.
    match goal with X : elems _ _ _ _ _, Y : elems _ _ _ _ _ |- _ => idtac end.
    match goal with X : elems (n - 1) t l' ?dd r2 |- _ => destruct (IH2 WT _ _ X) as [<- <-] end. split; reflexivity.
  - intros o tot r _ d' r' E. inversion E; subst; [split; reflexivity|contradiction].
  - intros o ms tot N F d' r' E. inversion E; subst; [contradiction|split; reflexivity|]. exfalso. eapply tnil; eassumption.
  - intros o p t ms tot l d l' d' r T IH1 E1 IH2 F d2 r2 E. apply Forall_cons_iff in F. destruct F as [F1 F2]. cbn [snd] in F1.
    inversion E; subst; [exfalso; eapply tnil; eassumption|].
    match goal with X : takes _ _ _ _ |- _ => destruct (IH1 F1 _ _ X) as [<- <-] end.
    match goal with X : mems _ ms tot l' ?dd r2 |- _ => destruct (IH2 F2 _ _ X) as [<- <-] end. split; reflexivity.
Qed.

(** offsets in order *)
Fixpoint inorder (o : Z) (ms : list (Z * cty)) (tot : Z) : Prop :=
  match ms with
  | [] => o <= tot
  | (p, t) :: ms => o <= p /\ inorder (p + size t) ms tot
  end.
Lemma inorder_le o ms tot : Forall (fun m => wfty W (snd m)) ms -> inorder o ms tot -> o <= tot.
Proof.
  revert o. induction ms as [|[p t] ms IH]; intros o F H; cbn [inorder] in H; [exact H|]. apply Forall_cons_iff in F. destruct F as [F1 F2].
  destruct H as [H1 H2]. specialize (IH _ F2 H2). destruct (sizes W HW _ F1) as [S1 _]. cbn [snd] in S1. lia.
Qed.
Lemma inorder_inimems u ms : wfty W (TyAgg u ms) -> inorder 0 (inimems W u ms) (size (TyAgg u ms)).
Proof.
  intros WT. pose proof (okm_wf W HW u ms WT) as OK. set (l := map (msa W) ms) in *.
  pose proof (okm_maxalign W HW _ OK) as OA. assert (AP : 0 < maxalign l) by (destruct OA as [[-> | [-> | ->]] _]; lia).
  assert (SZ : size (TyAgg u ms) = up (if u then maxsize l else endof 0 l) (maxalign l)) by (unfold DeclSpec.size; rewrite sa_agg; reflexivity).
  pose proof (up_ge (if u then maxsize l else endof 0 l) (maxalign l) AP) as UG. rewrite SZ.
  unfold inimems, moffsets. fold l. destruct u.
  - destruct ms as [|m ms]; [apply wfty_agg in WT; destruct WT as [WT _]; contradiction|]. cbn [map combine firstn inorder].
    pose proof (okm_maxsize l _ (or_introl eq_refl : In (msa W m) l)) as X. cbn [DeclSpec.msa fst] in X. split; lia.
  - assert (G : forall ms o, (forall x, In x (map (msa W) ms) -> 1 <= fst x /\ okal W (snd x)) -> 0 <= o -> endof o (map (msa W) ms) <= up (endof 0 l) (maxalign l) ->
        inorder o (combine (offsets o (map (msa W) ms)) (map (fun m => snd (snd m)) ms)) (up (endof 0 l) (maxalign l))).
    { clearbody l. clear. intros ms0. induction ms0 as [|m ms0 IH]; intros o OK HO UG; [exact UG|]. cbn [map combine offsets inorder endof] in *.
      destruct (msa W m) as [s a] eqn:E. assert (s = size (snd (snd m))) as -> by (unfold DeclSpec.msa in E; injection E as <- _; reflexivity).
      assert (1 <= size (snd (snd m)) /\ okal W a) as [S A] by (apply (OK (size (snd (snd m)), a)); left; reflexivity).
      assert (A0 : 0 < a) by (destruct A as [[-> | [-> | ->]] _]; lia). pose proof (up_ge o a A0) as U.
      cbn [offsets combine inorder]. split; [lia|]. apply IH; [|lia|exact UG]. intros x X. apply OK. right. exact X. }
    apply (G ms 0 OK ltac:(lia)). apply UG.
Qed.
Lemma zlen_zeros n : 0 <= n -> zlen (zeros n) = n.
Proof. intros N. unfold zeros, zlen. rewrite repeat_length. lia. Qed.
Lemma bytes_len n v : length (CharSpec.bytes n v) = n.
Proof. revert v. induction n as [|n IH]; intros v; cbn [CharSpec.bytes length]; [reflexivity|]. now rewrite IH. Qed.
Lemma sdata_len sz e d : 0 <= sz -> sdata W sz e = Some d -> zlen d = sz.
Proof.
  intros N D. destruct e; cbn [sdata] in D; try discriminate D.
  - injection D as <-. unfold zlen. rewrite map_length, bytes_len. lia.
  - destruct (sz =? W) eqn:E; [|discriminate D]. injection D as <-. unfold zlen, upto. rewrite !map_length, seq_length. lia.
  - destruct (sz =? W) eqn:E; [|discriminate D]. injection D as <-. unfold zlen, upto. rewrite !map_length, seq_length. lia.
Qed.
Lemma lengths :
  (forall t l d r, takes t l d r -> wfty W t -> zlen d = size t) /\
  (forall t l d r, parts t l d r -> wfty W t -> zlen d = size t) /\
  (forall n t l d r, elems n t l d r -> wfty W t -> 0 <= n -> zlen d = n * size t) /\
  (forall o ms tot l d r, mems o ms tot l d r -> Forall (fun m => wfty W (snd m)) ms -> inorder o ms tot -> zlen d = tot - o).
Proof.
  assert (ST : forall n t s, character t -> zlen s <= n -> zlen (map CByte s ++ zeros (n - zlen s)) = size (TyArr n t)).
  { intros n t s CH L. destruct (char_size W t CH) as (S1 & _). destruct (sa_arr W n t) as [-> _]. rewrite S1, zlen_app, zlen_zeros by lia.
    unfold zlen. rewrite map_length. lia. }
  apply takes_mut.
  - intros t e d r Sc D WT. destruct (sizes W HW _ WT). eapply sdata_len; [|exact D]. lia.
  - intros t e c d r Sc D _ WT. destruct (sizes W HW _ WT). eapply sdata_len; [|exact D]. lia.
  - intros n t s r CH L _ _. apply ST; assumption.
  - intros n t s c r CH L _ _ _. apply ST; assumption.
  - intros t l c d r _ _ _ IH WT. apply IH; exact WT.
  - intros t e l d r _ _ IH WT. apply IH; exact WT.
  - intros n t l d r _ IH [N WT]. rewrite IH by (trivial; lia). destruct (sa_arr W n t) as [-> _]. reflexivity.
  - intros u ms l d r _ IH WT. rewrite IH; [lia|apply inimems_ok; exact WT|apply inorder_inimems; exact WT].
  - intros t r _ _. reflexivity.
  - intros n t N WT _. destruct (sizes W HW _ WT). apply zlen_zeros. apply Z.mul_nonneg_nonneg; lia.
  - intros n t l d l' d' r N _ IH1 _ IH2 WT _. rewrite zlen_app, IH1, IH2 by (trivial; lia). ring.
  - intros o tot r _ H. apply zlen_zeros. cbn [inorder] in H. lia.
  - intros o ms tot _ F H. apply zlen_zeros. pose proof (inorder_le _ _ _ F H). lia.
  - intros o p t ms tot l d l' d' r _ IH1 _ IH2 F H. apply Forall_cons_iff in F. destruct F as [F1 F2]. cbn [snd inorder] in *. destruct H as [H1 H2].
    rewrite !zlen_app, zlen_zeros, IH1, IH2 by (trivial; lia). lia.
Qed.
End Spec.

Theorem C46_unique : forall W C t i d d', W = 2 \/ W = 4 -> wfty W t -> initialises W C t i d -> initialises W C t i d' -> d = d'.
Proof. intros W C t i d d' HW WT [_ T] [_ T']. destruct (unique W C HW) as (U & _). apply (U _ _ _ _ T WT _ _ T'). Qed.
Theorem C46_size : forall W C t i d, W = 2 \/ W = 4 -> wfty W t -> initialises W C t i d -> zlen d = size W t.
Proof. intros W C t i d HW WT [_ T]. destruct (lengths W C HW) as (L & _). eapply L; eassumption. Qed.
Theorem C46_size_unknown : forall W C t i n d, W = 2 \/ W = 4 -> wfty W t -> completes W C t i n d -> 0 < n /\ zlen d = n * size W t.
Proof.
  intros W C t i n d HW WT [s CH _|s c CH _ _|l c n' d' NL A].
  1,2: destruct (char_size W t CH) as (S1 & _); rewrite S1, zlen_app; change (zlen (zeros 1)) with 1; unfold zlen; rewrite map_length; split; lia.
  destruct (lengths W C HW) as (L & _).
  assert (G : zlen d' = n' * size W t /\ 0 <= n' /\ (l <> [] -> 0 < n')).
  { clear NL. induction A as [t|t l d1 l1 n1 d2 T A IH]; [repeat split; lia || congruence|]. destruct (IH WT) as (G1 & G2 & _). rewrite zlen_app, G1.
    rewrite (L _ _ _ _ T WT). repeat split; [ring|lia|lia]. }
  split; [apply G; exact NL|apply G].
Qed.

(** ** what the compiler does *)
Lemma F2_impl {A B} (R S : A -> B -> Prop) l l' : (forall a b, R a b -> S a b) -> Forall2 R l l' -> Forall2 S l l'.
Proof. intros H F. induction F; constructor; auto. Qed.
Lemma objects_okt W cs p st qs : W = 2 \/ W = 4 -> wfprog W (bal 0) [] p -> parseProg W cs [] [] p = Ok (st, qs) ->
  Forall2 (fun q t => declAt W st q t /\ wfty W t /\ size W t < 2 ^ (8 * W)) qs (objects [] p).
Proof.
  intros HW WP E. pose proof (prog_ok W HW cs p [] [] [] (Inv0 W) WP) as P. rewrite E in P.
  destruct P as (_ & F & FF).
  assert (SUB : Forall (fits W) (objects [] p)).
  { rewrite Forall_forall in *. intros t T. apply FF. clear -T. revert T. generalize (@nil cty) at 1 2. revert t.
    induction p as [|[b ds] p IH]; intros t ts T; [exact T|]. cbn [objects mentioned] in *. cbv zeta in *. apply in_or_app. right.
    apply in_app_or in T. apply in_or_app. destruct T as [T|T]; [left; exact T|right; apply IH; exact T]. }
  clear E. induction F as [|q t qs ts [E0 WT] F IH]; [constructor|]. apply Forall_cons_iff in SUB. destruct SUB as [S1 S2].
  constructor; [repeat split; assumption|apply IH; exact S2].
Qed.

(** An initialiser for an object declared in any accepted program is accepted if and only if it is a
    correct one for the type and followed by a comma or semicolon, and then the data the compiler
    gives out is what it means. *)
Theorem C46_object : forall W cs p st qs, W = 2 \/ W = 4 -> wfprog W (bal 0) [] p ->
  parseProg W cs [] [] p = Ok (st, qs) ->
  Forall2 (fun q t => forall fuel toks d o rest, (depth t < fuel)%nat ->
     (initVar W cs st fuel q toks = Ok (d, o, rest) <->
      o = None /\ exists i r, initialises W false t i d /\ toks = text i ++ rest /\ (rest = TComma :: r \/ rest = TSemi :: r)))
    qs (objects [] p).
Proof.
  intros W cs p st qs HW WP E. eapply F2_impl; [|exact (objects_okt W cs p st qs HW WP E)].
  intros q t (D & WT & S) fuel toks d o rest DF. rewrite (object W HW cs st q t fuel toks d o rest); [|split; [apply (declAt_enc W HW); exact D|exact WT|exact S]|exact DF].
  unfold ends. split.
  - intros (-> & i & I & T & r & R). split; [reflexivity|]. exists i, r. repeat split; assumption || apply I.
  - intros (-> & i & r & I & T & R). split; [reflexivity|]. exists i. split; [exact I|]. split; [exact T|]. exists r. exact R.
Qed.

Lemma unknown_enc W st q n t : W = 2 \/ W = 4 -> declAt W st q (TyArr n t) -> wfty W (TyArr n t) ->
  let st0 := DeclModel.set st (q + 1) (KNum, 0) in
  (exists v, zget st0 q = Some (KLb, v)) /\ zget st0 (q + 1) = Some (KNum, 0) /\ enc W st0 (q + 3) t.
Proof.
  intros HW (st1 & post & t1 & d & e & E & Q & WD & T & EB) WT st0.
  destruct d as [pk nm dims ptr]. unfold dclty in T. cbn [d_dims d_ptr d_name] in *.
  destruct dims as [|n0 dims].
  { exfalso. cbn [arrays fold_right] in T. destruct ptr; [discriminate T|]. specialize (EB eq_refl). subst t1. inversion EB. }
  cbn [arrays fold_right] in T. injection T as -> T.
  assert (X : st0 = st1 ++ [(KIdent, nm); (KLb, 0); (KNum, 0); (KRb, 0)] ++ dtokens (Dcl pk nm dims ptr) e ++ post).
  { unfold st0, DeclModel.set. rewrite E, Q. replace (Z.to_nat (zlen st1 + 1 + 1)) with (length st1 + 2)%nat by (unfold zlen; lia).
    unfold dtokens. cbn [d_dims d_ptr flat_map app]. clear. induction st1 as [|x st1 IH]; [reflexivity|]. cbn [app length Nat.add lset]. now rewrite IH. }
  rewrite X. pose proof (zlen_nonneg st1). subst q. split; [|split].
  - exists 0. rewrite zget_app_r by lia. replace (zlen st1 + 1 - zlen st1) with 1 by lia. reflexivity.
  - rewrite zget_app_r by lia. replace (zlen st1 + 1 + 1 - zlen st1) with 2 by lia. reflexivity.
  - assert (WD' : wfd W (bal 0) t1 (Dcl pk nm dims ptr)).
    { destruct WD as (A & B & D). cbn [d_dims] in A. inversion A; subst. repeat split; assumption || apply B. }
    pose proof (dcl_enc W HW st1 [(KIdent, nm); (KLb, 0); (KNum, 0); (KRb, 0)] e t1 (Dcl pk nm dims ptr) WD' EB) as Y.
    apply (enc_app W _ post) in Y. rewrite <- !app_assoc in Y. cbn [app] in Y.
    change (zlen [(KIdent, nm); (KLb, 0); (KNum, 0); (KRb, 0)]) with 4 in Y. replace (zlen st1 + 1 + 3) with (zlen st1 + 4) by lia. rewrite T. exact Y.
Qed.

(** The same for an array declared without a length ([] has left the length 0 in the table), where
    the initialiser gives the length too. *)
Theorem C46_unknown : forall W cs p st qs, W = 2 \/ W = 4 -> wfprog W (bal 0) [] p ->
  parseProg W cs [] [] p = Ok (st, qs) ->
  Forall2 (fun q t => forall m t' fuel toks d o rest, t = TyArr m t' -> (depth t < fuel)%nat -> zlen toks < 2 ^ 32 ->
     (initVar W cs (DeclModel.set st (q + 1) (KNum, 0)) fuel q toks = Ok (d, o, rest) <->
      exists n i r, o = Some n /\ completes W false t' i n d /\ toks = text i ++ rest /\ (rest = TComma :: r \/ rest = TSemi :: r)))
    qs (objects [] p).
Proof.
  intros W cs p st qs HW WP E. eapply F2_impl; [|exact (objects_okt W cs p st qs HW WP E)].
  intros q t (D & WT & S) m t' fuel toks d o rest -> DF TL.
  destruct (unknown_enc W st q m t' HW D WT) as ((v & Z0) & Z1 & EN).
  destruct WT as [N WT]. destruct (sizes W HW _ WT) as [S1 _]. destruct (sa_arr W m t') as [SA _]. rewrite SA in S.
  rewrite (unknown W HW cs _ q t' fuel toks d o rest v Z0 Z1); [| |cbn [depth] in DF; lia|exact TL].
  2: { split; [exact EN|exact WT|nia]. }
  unfold ends. split.
  - intros (n & i & O & I & T & r & R). exists n, i, r. repeat split; assumption.
  - intros (n & i & r & O & I & T & R). exists n, i. split; [exact O|]. split; [exact I|]. split; [exact T|]. exists r. exact R.
Qed.

(** ** Examples *)
(** [struct A { char c; int i; short a[3]; } x, y[2]; char s[5]; int n; char *p;] *)
Definition ix : prog stk :=
  [(BDef false 1 [(BSc SChar, [Dcl 4 10 [] None]); (BSc SInt, [Dcl 4 11 [] None]); (BSc SShort, [Dcl 4 12 [3] None])],
    [Dcl 4 100 [] None; Dcl 4 101 [2] None]);
   (BSc SChar, [Dcl 4 102 [5] None]); (BSc SInt, [Dcl 4 103 [] None]); (BSc SChar, [Dcl 4 104 [] (Some [])])].
Example ix_wf : wfprog 4 (bal 0) [] ix.
Proof. cbn. repeat (wf; cbn). all: intuition discriminate. Qed.
Definition num v := IE (SNum v).
(** [x = {1, 258, {3}}; y = {1, -2, 3, 4, 5, {6}};] (no braces around the first element and its
    array), [s = {"abc"}; n = {7}; p = &x + 4; char s[] = "abc";] *)
Definition i1 := IL [num 1; num 258; IL [num 3] true] true.
Definition i2 := IL [num 1; num (-2); num 3; num 4; num 5; IL [num 6] false] false.
Definition s3 := [97; 98; 99].
Definition bs := map CByte.
Example ix_ok : exists st q1 q2 q3 q4 q5, parseProg 4 true [] [] ix = Ok (st, [q1; q2; q3; q4; q5]) /\
  initVar 4 true st 9 q1 (text i1 ++ [TSemi]) = Ok (bs [1; 0; 0; 0; 2; 1; 0; 0; 3; 0; 0; 0; 0; 0; 0; 0], None, [TSemi]) /\
  initVar 4 true st 9 q2 (text i2 ++ [TComma]) =
    Ok (bs [1; 0; 0; 0; 254; 255; 255; 255; 3; 0; 4; 0; 5; 0; 0; 0; 6; 0; 0; 0; 0; 0; 0; 0; 0; 0; 0; 0; 0; 0; 0; 0], None, [TComma]) /\
  initVar 4 true st 9 q3 (text (IL [IE (SStr s3)] false) ++ [TSemi]) = Ok (bs [97; 98; 99; 0; 0], None, [TSemi]) /\
  initVar 4 true st 9 q4 (text (IL [num 7] false) ++ [TSemi]) = Ok (bs [7; 0; 0; 0], None, [TSemi]) /\
  initVar 4 true st 9 q5 (text (IE (SAddr 100 4)) ++ [TSemi]) = Ok (map (CAddr 100 4) [0; 1; 2; 3], None, [TSemi]) /\
  initVar 4 true (DeclModel.set st (q3 + 1) (KNum, 0)) 9 q3 (text (IE (SStr s3)) ++ [TSemi]) = Ok (bs [97; 98; 99; 0], Some 4, [TSemi]) /\
  initVar 4 true st 9 q1 (text (num 1) ++ [TSemi]) = Bad /\
  initVar 4 true st 9 q3 (text (IE (SStr (s3 ++ s3))) ++ [TSemi]) = Bad /\
  initVar 4 true st 9 q3 (text (IL [IE (SStr s3); num 1] false) ++ [TSemi]) = Bad /\
  initVar 4 true st 9 q1 (text (IL [num 1; num 2; IL [num 3; num 4; num 5; num 6] false] false) ++ [TSemi]) = Bad.
Proof. do 6 eexists. split; [vm_compute; reflexivity|]. repeat split; vm_compute; reflexivity. Qed.
Example ix_objects : objects [] ix = [TyAgg false [(4, (10, TySc SChar)); (4, (11, TySc SInt)); (4, (12, TyArr 3 (TySc SShort)))];
  TyArr 2 (TyAgg false [(4, (10, TySc SChar)); (4, (11, TySc SInt)); (4, (12, TyArr 3 (TySc SShort)))]); TyArr 5 (TySc SChar); TySc SInt; TyPtr].
Proof. reflexivity. Qed.
(** the meaning of the initialiser of [y] in C, directly *)
Example i2_means : initialises 4 true (TyArr 2 (TyAgg false [(4, (10, TySc SChar)); (4, (11, TySc SInt)); (4, (12, TyArr 3 (TySc SShort)))])) i2
  (bs [1; 0; 0; 0; 254; 255; 255; 255; 3; 0; 4; 0; 5; 0; 0; 0; 6; 0; 0; 0; 0; 0; 0; 0; 0; 0; 0; 0; 0; 0; 0; 0]).
Proof.
  assert (SC : forall s v r, takes 4 true (TySc s) (num v :: r) (bs (CharSpec.bytes (Z.to_nat (ssize 4 s)) v)) r).
  { intros s v r. apply t_sc; [exact I|]. unfold size. cbn. reflexivity. }
  assert (AR : forall n t l d l' d' r dd, 0 < n -> takes 4 true t l d l' -> elems 4 true (n - 1) t l' d' r -> dd = d ++ d' -> elems 4 true n t l dd r).
  { intros n t l d l' d' r dd N T E ->. eapply el_next; eassumption. }
  assert (ME : forall o p t ms tot l d l' d' r dd, takes 4 true t l d l' -> InitSpec.mems 4 true (p + size 4 t) ms tot l' d' r -> dd = zeros (p - o) ++ d ++ d' ->
     InitSpec.mems 4 true o ((p, t) :: ms) tot l dd r).
  { intros o p t ms tot l d l' d' r dd T E ->. eapply me_next; eassumption. }
  assert (AL : forall t r, elems 4 true 0 t r [] r) by (intros; constructor).
  assert (OUT : forall n t dd, 0 < n -> dd = zeros (n * size 4 t) -> elems 4 true n t [] dd []) by (intros; subst; constructor; assumption).
  assert (MA : forall o tot r dd, dd = zeros (tot - o) -> InitSpec.mems 4 true o [] tot r dd r) by (intros; subst; constructor).
  assert (MO : forall o ms tot dd, ms <> [] -> dd = zeros (tot - o) -> InitSpec.mems 4 true o ms tot [] dd []) by (intros; subst; constructor; assumption).
  split; [exact I|]. unfold i2. apply t_br; [exact I|discriminate|]. constructor.
  eapply AR; [lia| | |].
  - apply t_nobr; [exact I|]. constructor. unfold inimems. cbn [moffsets map combine].
    eapply ME; [apply SC| |reflexivity]. eapply ME; [apply SC| |reflexivity].
    eapply ME; [apply t_nobr; [exact I|]; constructor; eapply AR; [lia|apply SC| |reflexivity]; eapply AR; [lia|apply SC| |reflexivity];
                eapply AR; [lia|apply SC|apply AL|reflexivity]| |reflexivity].
    apply MA. reflexivity.
  - eapply AR; [lia| |apply AL|reflexivity]. apply t_br; [exact I|discriminate|]. constructor. unfold inimems. cbn [moffsets map combine].
    eapply ME; [apply SC| |reflexivity]. apply MO; [discriminate|reflexivity].
  - vm_compute. reflexivity.
Qed.

(** C allows a comma after the expression in braces for a scalar; it is refused here. *)
Theorem C46_comma_refuted : exists W cs p st q t i d, wfprog W (bal 0) [] p /\ parseProg W cs [] [] p = Ok (st, [q]) /\ objects [] p = [t] /\
  initialises W true t i d /\ initVar W cs st 9 q (text i ++ [TSemi]) = Bad.
Proof.
  exists 4, true, [(BSc SInt, [Dcl 4 103 [] None])]. do 2 eexists. exists (TySc SInt), (IL [num 7] true). eexists.
  split; [cbn; repeat (wf; cbn)|]. split; [vm_compute; reflexivity|]. split; [reflexivity|]. split; [|vm_compute; reflexivity].
  split; [exact I|]. apply t_scb; [exact I|reflexivity|intros _; reflexivity].
Qed.
Theorem C46_string_comma_refuted : exists W cs p st q t i d, wfprog W (bal 0) [] p /\ parseProg W cs [] [] p = Ok (st, [q]) /\ objects [] p = [t] /\
  initialises W true t i d /\ initVar W cs st 9 q (text i ++ [TSemi]) = Bad.
Proof.
  exists 4, true, [(BSc SChar, [Dcl 4 103 [5] None])]. do 2 eexists. exists (TyArr 5 (TySc SChar)), (IL [IE (SStr s3)] true). eexists.
  split; [cbn; repeat (wf; cbn)|]. split; [vm_compute; reflexivity|]. split; [reflexivity|]. split; [|vm_compute; reflexivity].
  split; [exact I|]. apply t_strb; [exact I|discriminate|right; reflexivity|intros _; reflexivity].
Qed.

Print Assumptions C46_object.
Print Assumptions C46_unknown.
Print Assumptions C46_correct.
Print Assumptions C46_correct_unknown.
Print Assumptions C46_taken_partial.
Print Assumptions C46_taken_unknown_partial.
Print Assumptions C46_unique.
Print Assumptions C46_size.
Print Assumptions C46_size_unknown.
Print Assumptions C46_comma_refuted.
Print Assumptions C46_string_comma_refuted.
