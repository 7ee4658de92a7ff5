(** What the heap operations do to the tiling. *)
From Verif Require Import Base BaseLemmas StrSpec StrModel StrLemmas HeapModel HeapLemmas.

Section W.
Context (c : cfg) (HW : cW c = 2 \/ cW c = 4).
Notation W := (cW c).
Notation HH := (HF c).
Notation top := (2 ^ WB c).
Notation blks := (list (Z * bool)).
Notation ext := (ext c).
Notation tiles := (tiles c).
Notation tile1 := (tile1 c).
Notation wd := (wd c).
Notation m2 := (m2 c).

Ltac hl := unfold HF in *; lia.
Ltac mp := let x := fresh "x" in let Hx := fresh "Hx" in intros x Hx;
  repeat match goal with M : forall y, _ y <> None -> ?m y <> None |- ?m x <> None => apply M; clear M end;
  match goal with M : mapped _ _ _ |- _ => apply M end; hl.
(** One store: new memory [m1], the word [L], the frame [F], mapped [M]. *)
Tactic Notation "sto" ident(m1) ident(L) ident(F) ident(M) :=
  match goal with |- context [stx c ?m ?p ?i ?v] =>
    let E := fresh "E" in
    destruct (stx_ok c HW m p i v) as (m1 & E & L & F & M); [hl|hl|mp|rewrite E; clear E; cbn [obind]] end.
Ltac keep1 := match goal with
  | L : HeapLemmas.wd c ?m ?a ?v |- HeapLemmas.wd c ?m ?b ?v =>
      first [exact L | let E := fresh "E" in assert (E : b = a) by hl; rewrite E; exact L]
  | F : forall x, ~ _ -> ?m1 x = ?m x |- HeapLemmas.wd c ?m1 ?b ?v =>
      let x := fresh "x" in let Hx := fresh "Hx" in
      apply (wd_ext c HW m); [|intros x Hx; apply F; hl]
  end.
Ltac keep := change (Z.b2z true) with 1 in *; change (Z.b2z false) with 0 in *; repeat keep1.
Definition frame (m m' : mem) (lo hi : Z) : Prop := forall x, ~ (lo <= x < hi) -> m' x = m x.
Definition mono (m m' : mem) : Prop := forall x, m x <> None -> m' x <> None.

Lemma b2z_eqb b : (Z.b2z b =? 0) = negb b. Proof. now destruct b. Qed.
Definition cutb (size sz : Z) : blks := if sz =? size then [(size, true)] else [(size, true); (sz - size - 2 * HH, false)].
Lemma ext_cut size sz : ext (cutb size sz) = 2 * HH + sz.
Proof. unfold cutb. destruct (Z.eqb_spec sz size); cbn [HeapLemmas.ext]; lia. Qed.

Lemma tiles1 m a sz al : 0 <= sz -> m2 sz -> tile1 m a sz al -> tiles m a [(sz, al)].
Proof. intros. split; auto. split; auto. split; auto. exact I. Qed.

Lemma m2_sub a b : m2 a -> m2 b -> m2 (a - b). Proof. apply Z.divide_sub_r. Qed.
Lemma m2_add a b : m2 a -> m2 b -> m2 (a + b). Proof. apply Z.divide_add_r. Qed.
Lemma m2_2H : m2 (2 * HH). Proof. apply Z.divide_refl. Qed.

(** malloc.c:265-289 when the block fits *)
Lemma take_ok m a sz size : tile1 m a sz false -> 0 < size <= sz -> m2 sz -> m2 size ->
  0 <= a -> a + 2 * HH + sz < top -> mapped m a (a + 2 * HH + sz) ->
  forall fuel stop last, a < stop ->
  exists m', find_fit c (S fuel) m stop size last a = Some (inl (m', a)) /\
    tiles m' a (cutb size sz) /\ frame m m' a (a + 2 * HH + sz) /\ mono m m'.
Proof.
  intros (A & B & C & D) Hs Ms Msz Ha Ht Hm fuel stop last Hst. pose proof (W_pos c HW).
  cbn [find_fit]. destruct (Z.leb_spec stop a); [lia|].
  rewrite (ldx_ok c m a 0 sz); [|hl|now rewrite Z.add_0_r]. cbn [obind].
  rewrite (ldx_ok c m a 1 0); [|hl|now rewrite Z.mul_1_l]. cbn [obind].
  rewrite !uw_id by (auto; hl).
  replace (size <=? sz) with true by lia. cbn [andb Z.eqb].
  unfold cutb. destruct (Z.eqb_spec sz size) as [->|Hn].
  - sto m1 L1 F1 M1. sto m2' L2 F2 M2. exists m2'. split; [reflexivity|]. split; [|split].
    + apply tiles1; auto; [lia|]. repeat split; keep.
    + intros x Hx. rewrite F2, F1 by hl. reflexivity.
    + intros x Hx. auto.
  - assert (G : size + 2 * HH <= sz) by (apply (m2_gap c HW); auto; lia).
    rewrite (uw_id c (size + 2 * HH)) by (auto; hl). rewrite (uw_id c (sz - _)) by (auto; hl).
    sto m1 L1 F1 M1. sto m2' L2 F2 M2. sto m3 L3 F3 M3. sto m4 L4 F4 M4. sto m5 L5 F5 M5. sto m6 L6 F6 M6. sto m7 L7 F7 M7.
    exists m7. split; [reflexivity|]. split; [|split].
    + split; [lia|]. split; auto. split; [|apply tiles1; [lia| |]].
      * repeat split; keep.
      * replace (sz - size - 2 * HH) with (sz - size - 2 * HH) by lia. apply m2_sub; [now apply m2_sub|apply m2_2H].
      * replace (sz - size - 2 * HH) with (sz - (size + 2 * HH)) by lia. repeat split; keep.
    + intros x Hx. rewrite F7, F6, F5, F4, F3, F2, F1 by hl. reflexivity.
    + intros x Hx. auto 10.
Qed.

Definition unfit (size : Z) (b : Z * bool) : Prop := snd b = true \/ fst b < size.
Definition lastof (a last : Z) (bs : blks) : Z := match bs with [] => last | _ => a + ext (removelast bs) end.

(** malloc.c:263-295 *)
Lemma find_ok size m stop : 0 < size -> m2 size -> stop < top -> forall bs a last fuel,
  tiles m a bs -> a + ext bs = stop -> mapped m a stop -> 0 <= a -> (length bs < fuel)%nat ->
  (exists m' pre sz post, bs = pre ++ (sz, false) :: post /\ size <= sz /\
     find_fit c fuel m stop size last a = Some (inl (m', a + ext pre)) /\
     tiles m' a (pre ++ cutb size sz ++ post) /\
     frame m m' (a + ext pre) (a + ext pre + 2 * HH + sz) /\ mono m m') \/
  (Forall (unfit size) bs /\ find_fit c fuel m stop size last a = Some (inr (lastof a last bs))).
Proof.
  intros Hs Ms Ht. pose proof (W_pos c HW) as HP.
  induction bs as [|[sz al] bs IH]; intros a last [|fuel] T E Hm Ha Hf; try (cbn in Hf; lia).
  - right. split; auto. cbn [find_fit HeapLemmas.ext] in *. now replace (stop <=? a) with true by lia.
  - cbn [HeapLemmas.tiles] in T. destruct T as (S & M & T1 & T).
    pose proof (tiles_ext_pos c HW _ _ _ T) as HE. cbn [HeapLemmas.ext] in E.
    assert (Hm1 : mapped m a (a + 2 * HH + sz)) by (intros x Hx; apply Hm; lia).
    assert (D : (al = false /\ size <= sz) \/ unfit size (sz, al)).
    { unfold unfit. cbn. destruct al; [auto|]. destruct (Z.leb_spec size sz); auto. }
    destruct D as [[-> Hfit]|D].
    + left. destruct (take_ok m a sz size T1 ltac:(lia) M Ms Ha ltac:(lia) Hm1 fuel stop last ltac:(lia)) as (m' & E' & T' & F & MO).
      exists m', [], sz, bs. split; auto. split; auto. cbn [HeapLemmas.ext app]. rewrite Z.add_0_r. split; auto. split; [|split; auto].
      apply (tiles_app c HW). split; auto. rewrite ext_cut. apply (tiles_frame c HW m).
      * replace (a + (2 * HH + sz)) with (a + 2 * HH + sz) by lia. exact T.
      * intros x Hx. apply F. lia.
    + assert (ST : find_fit c (Datatypes.S fuel) m stop size last a = find_fit c fuel m stop size a (a + 2 * HH + sz)).
      { cbn [find_fit]. destruct (Z.leb_spec stop a); [lia|]. destruct T1 as (A & B & _).
        rewrite (ldx_ok c m a 0 sz) by ((rewrite Z.add_0_r; exact A) || hl). cbn [obind].
        erewrite (ldx_ok c m a 1) by ((rewrite Z.mul_1_l; exact B) || hl). cbn [obind]. rewrite b2z_eqb. rewrite uw_id by lia.
        destruct D as [D|D]; cbn in D; [subst al; now rewrite andb_false_r|]. now replace (size <=? sz) with false by lia. }
      rewrite ST. destruct (IH (a + 2 * HH + sz) a fuel T ltac:(lia) ltac:(intros x Hx; apply Hm; lia) ltac:(lia) ltac:(cbn in Hf; lia))
        as [(m' & pre & sz' & post & -> & Hle & E' & T' & F & MO)|(HF' & E')].
      * left. exists m', ((sz, al) :: pre), sz', post. split; [reflexivity|]. split; auto.
        cbn [HeapLemmas.ext app HeapLemmas.tiles]. replace (a + (2 * HH + sz + ext pre)) with (a + 2 * HH + sz + ext pre) by lia.
        split; auto. pose proof (proj1 (tiles_app c HW _ _ _ _) T) as [Tp _]. pose proof (tiles_ext_pos c HW _ _ _ Tp).
        split; [|split; auto]. split; auto. split; auto. split; auto. eapply (tile1_frame c HW); eauto. intros x Hx. apply F. lia.
      * right. split; [constructor; auto|]. rewrite E'. f_equal. f_equal. unfold lastof.
        destruct bs as [|b bs]; [cbn [removelast HeapLemmas.ext]; lia|].
        change (removelast ((sz, al) :: b :: bs)) with ((sz, al) :: removelast (b :: bs)). cbn [HeapLemmas.ext]. lia.
Qed.
End W.
