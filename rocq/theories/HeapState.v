(** The heap invariant and the operations on the whole heap. *)
From Verif Require Import Base BaseLemmas StrSpec StrModel StrLemmas HeapModel HeapSpec HeapLemmas HeapOps.

Lemma cfg_W c : cfg_ok c -> cW c = 2 \/ cW c = 4.
Proof. unfold cfg_ok. destruct (cport c); intros (H & _); auto. Qed.

Section W.
Context (c : cfg) (HC : cfg_ok c).
Let HW : cW c = 2 \/ cW c = 4 := cfg_W c HC.
Notation W := (cW c).
Notation HH := (HF c).
Notation top := (2 ^ WB c).
Notation blks := (list (Z * bool)).
Notation ext := (ext c).
Notation tiles := (tiles c).
Notation tile1 := (tile1 c).
Notation wd := (wd c).
Notation m2 := (m2 c).
Notation cutb := (cutb c).

Ltac hl := unfold HF in *; lia.
Ltac mp := let x := fresh "x" in let Hx := fresh "Hx" in intros x Hx;
  repeat match goal with M : forall y, _ y <> None -> ?m y <> None |- ?m x <> None => apply M; clear M end;
  match goal with M : mapped _ _ _ |- _ => apply M end; hl.
Tactic Notation "sto" ident(m1) ident(L) ident(F) ident(M) :=
  match goal with |- context [stx c ?m ?p ?i ?v] =>
    let E := fresh "E" in
    destruct (stx_ok c HW m p i v) as (m1 & E & L & F & M); [hl|hl|mp|rewrite E; clear E; cbn [obind]] end.
Ltac keep1 := match goal with
  | L : HeapLemmas.wd c ?m ?a ?v |- HeapLemmas.wd c ?m ?b ?v =>
      first [exact L | let E := fresh "E" in assert (E : b = a) by hl; rewrite E; exact L]
  | F : forall x, ~ _ -> ?m1 x = ?m x |- HeapLemmas.wd c ?m1 ?b ?v =>
      let x := fresh "x" in let Hx := fresh "Hx" in
      apply (wd_ext c HW m); [|intros x Hx; apply F; hl]
  end.
Ltac keep := change (Z.b2z true) with 1 in *; change (Z.b2z false) with 0 in *; repeat keep1.

Record ok (h : heap) (bs : blks) : Prop := {
  ok_init : hinit h = true;
  ok_start : 0 < hstart h;
  ok_align : m2 (hstart h + HH);
  ok_stop : hstop h = hstart h + ext bs;
  ok_top : hstop h < top;
  ok_map : mapped (hm h) (hstart h) (hstop h);
  ok_tiles : tiles (hm h) (hstart h) bs;
  ok_ne : bs <> [];
  ok_lo : clo c <= hstart h;
  ok_hi : hstop h <= chi c;
  ok_lin : cport c = Linux ->
    hbreak h = hstop h /\ kbrk h = hstop h /\ mapped (hm h) (hstart h) (page_up (kbrk h))
}.

(** The state that only the system call counter distinguishes. *)
Definition ticked (h h' : heap) : Prop :=
  hm h' = hm h /\ hstart h' = hstart h /\ hstop h' = hstop h /\ hbreak h' = hbreak h /\ hinit h' = hinit h /\ kbrk h' = kbrk h.
Lemma ok_ticked h h' bs : ok h bs -> ticked h h' -> ok h' bs.
Proof. intros [] (E1 & E2 & E3 & E4 & E5 & E6). constructor; rewrite ?E1, ?E2, ?E3, ?E4, ?E5, ?E6; auto. Qed.

Lemma page_up_ge a : a <= page_up a. Proof. unfold page_up. lia. Qed.
Lemma sbrk_to_ok h inc lo : cport c = Linux -> 0 < hbreak h < top - 1 -> kbrk h = hbreak h -> clo c <= hbreak h <= chi c ->
  0 <= inc < top / 2 -> mapped (hm h) lo (page_up (kbrk h)) ->
  exists h' r, sbrk_to c h inc = (h', r) /\
  ((r = top - 1 /\ ticked h h') \/
   (r = hbreak h /\ hbreak h' = hbreak h + inc /\ kbrk h' = hbreak h + inc /\ hbreak h + inc <= chi c /\
    hstart h' = hstart h /\ hstop h' = hstop h /\ hinit h' = hinit h /\
    (forall x, x < hbreak h -> hm h' x = hm h x) /\ (forall x, hm h x <> None -> hm h' x <> None) /\
    mapped (hm h') lo (page_up (kbrk h')))).
Proof.
  intros HL Hb Hk Hlo Hi Hm. 
  assert (Et : uw c (-1) = top - 1). { unfold uw, wrap. symmetry. apply Z.mod_unique_pos with (-1); lia. }
  pose proof (top_big c HW) as TB.
  unfold sbrk_to. replace (0 <=? inc) with true by lia. rewrite Et.
  assert (Ev : Z.even top = true). { unfold WB. destruct HW as [-> | ->]; reflexivity. }
  destruct (Z.ltb_spec (hbreak h + inc) top) as [Ht|Ht].
  2:{ assert (E : uw c (hbreak h + inc) = hbreak h + inc - top). { unfold uw, wrap. symmetry. apply Z.mod_unique_pos with 1; lia. }
      rewrite E. replace (_ <? hbreak h) with true by lia. eexists h, _. split; [reflexivity|]. left. repeat split; auto. }
  rewrite uw_id by lia. replace (hbreak h + inc <? hbreak h) with false by lia. unfold sys_brk.
  destruct ((clo c <=? hbreak h + inc) && (hbreak h + inc <=? chi c) && cgrant c (ktick h) (hbreak h + inc)) eqn:G.
  - rewrite Z.eqb_refl. cbn [negb set_break hm hstart hstop hbreak hinit kbrk ktick]. rewrite Z.add_simpl_r, uw_id by lia.
    eexists _, _. split; [reflexivity|]. right. cbn [set_break hm hstart hstop hbreak hinit kbrk ktick].
    apply andb_prop in G as [G _]. apply andb_prop in G as [_ G]. apply Z.leb_le in G.
    rewrite Hk in *. pose proof (page_up_ge (hbreak h)). assert (page_up (hbreak h) <= page_up (hbreak h + inc)) by (unfold page_up; lia).
    set (o := page_up (hbreak h)) in *. set (n := page_up (hbreak h + inc)) in *.
    repeat split; auto.
    + intros x Hx. replace (o <=? x) with false by lia. replace (n <=? x) with false by lia. reflexivity.
    + intros x Hx. destruct ((o <=? x) && (x <? n)); [discriminate|]. replace ((n <=? x) && (x <? o)) with false by lia. auto.
    + intros x Hx. destruct ((o <=? x) && (x <? n)) eqn:E; [discriminate|]. replace ((n <=? x) && (x <? o)) with false by lia. apply Hm. lia.
  - cbn [kbrk]. rewrite Hk. destruct (Z.eqb_spec (hbreak h) (hbreak h + inc)) as [E|E]; cbn [negb].
    + assert (inc = 0) as -> by lia. cbn [set_break hm hstart hstop hbreak hinit kbrk ktick]. rewrite Z.sub_0_r, Z.add_0_r, uw_id by lia.
      eexists _, _. split; [reflexivity|]. right. cbn [set_break hm hstart hstop hbreak hinit kbrk ktick]. repeat split; auto; try lia. now rewrite <- Hk.
    + eexists _, _. split; [reflexivity|]. left. repeat split; cbn; auto.
Qed.
Lemma sbrk_pos h inc : 0 < hbreak h -> sbrk c h inc = sbrk_to c h inc.
Proof. intros H. unfold sbrk. now replace (hbreak h =? 0) with false by lia. Qed.

(** malloc.c:298-320 *)
Lemma grow_ok h pre sz al size : ok h (pre ++ [(sz, al)]) -> cport c = Linux -> unfit size (sz, al) ->
  0 < size < top / 2 -> m2 size ->
  exists h' r, grow c h size (hstart h + ext pre) = Some (h', r) /\
    ((r = 0 /\ ticked h h') \/
     exists pre', pre' = (if al then pre ++ [(sz, true)] else pre) /\ r = hstart h + ext pre' + HH /\
       ok h' (pre' ++ [(size, true)]) /\ hstart h' = hstart h /\
       (forall x, hstart h <= x < hstart h + ext pre' -> hm h' x = hm h x)).
Proof.
  intros O HL HU Hs Ms. pose proof O as []. pose proof (W_pos c HW) as HP. pose proof (top_big c HW) as TB.
  apply (tiles_app c HW) in ok_tiles0 as [Tp Tl]. pose proof (tiles_ext_pos c HW _ _ _ Tp) as HE.
  cbn [HeapLemmas.tiles] in Tl. destruct Tl as (S & M & T1 & _). rewrite ext_app in *. cbn [HeapLemmas.ext] in *.
  destruct (ok_lin0 HL) as (L1 & L2 & L3).
  assert (HT : top - chi c >= 4096). { pose proof HC as HC'. unfold cfg_ok in HC'. rewrite HL in HC'. unfold WB. destruct HC' as (EW & _ & EC). rewrite EW. lia. }
  unfold grow. pose proof T1 as (A & B & _).
  erewrite (ldx_ok c _ _ 1) by ((rewrite Z.mul_1_l; exact B) || hl). cbn [obind].
  rewrite (ldx_ok c _ _ 0 sz) by ((rewrite Z.add_0_r; exact A) || hl). cbn [obind]. rewrite b2z_eqb.
  set (tg := if negb al then _ else _). set (blk := if negb al then _ else _).
  assert (Ev : Z.even top = true). { unfold WB. destruct HW as [-> | ->]; reflexivity. }
  destruct (al && (top / 2 <=? size + 2 * HH)) eqn:BIG.
  { apply andb_prop in BIG as [-> BIG]. subst tg. cbn [negb]. rewrite uw_id by hl. rewrite sw_eq by (auto; hl).
    replace (size + 2 * HH <? top / 2) with false by lia. replace (_ && _) with true by hl.
    exists h, 0. split; auto. left. repeat split; auto. }
  assert (Etg : tg = (if al then size + 2 * HH else size - sz) /\ 0 < tg < top / 2).
  { subst tg. destruct al; cbn [negb]; [rewrite uw_id by hl; hl|]. destruct HU as [HU|HU]; cbn in HU; [discriminate|]. rewrite uw_id by hl. hl. }
  destruct Etg as [Etg Htg].
  assert (Eblk : blk = hstart h + ext (if al then pre ++ [(sz, true)] else pre) /\ blk + 2 * HH + size = hstop h + tg).
  { subst blk. rewrite Etg. destruct al; cbn [negb]; rewrite ?ext_app; cbn [HeapLemmas.ext]; lia. }
  destruct Eblk as [Eblk Eend].
  rewrite sw_eq by (auto; lia). replace (tg <? top / 2) with true by lia.
  replace (negb (negb al) && (tg <=? 0)) with false by lia.
  rewrite sbrk_pos by lia. destruct (sbrk_to_ok h tg (hstart h) HL) as (h1 & r & -> & D); auto; try hl.
  destruct D as [(-> & TK)|(-> & B1 & B2 & B3 & B4 & B5 & B6 & B7 & B8 & B9)].
  - rewrite sw_eq by (auto; lia). assert (top / 2 <= top - 1) by lia. replace (top - 1 <? top / 2) with false by lia.
    replace (top - 1 - top =? -1) with true by lia. exists h1, 0. split; auto.
  - rewrite sw_eq by (auto; lia). replace (_ =? -1) with false by (destruct (hbreak h <? top / 2) eqn:EE; lia).
    pose proof (page_up_ge (kbrk h1)) as PU.
    assert (HM : mapped (hm h1) (hstart h) (hstop h + tg)) by (intros x Hx; apply B9; lia).
    assert (Hblk : hstart h <= blk <= hstop h).
    { subst blk. destruct al; cbn [negb]; lia. }
    clearbody blk tg.
    rewrite (uw_id c (blk + 2 * HH + size)) by lia. rewrite (uw_id c (blk + HH)) by hl. rewrite B5. rewrite (uw_id c (hstop h + tg)) by lia.
   
    clear B8.
    sto m1 K1 F1 M1. sto m2' K2 F2 M2. sto m3 K3 F3 M3. sto m4 K4 F4 M4.
    eexists _, _. split; [reflexivity|]. right. eexists. split; [reflexivity|]. rewrite <- Eblk. split; [reflexivity|].
    set (pre' := if al then pre ++ [(sz, true)] else pre) in *.
    assert (Hfr : forall x, hstart h <= x < blk -> m4 x = hm h x).
    { intros x Hx. rewrite F4, F3, F2, F1 by hl. apply B7. lia. }
    split; [|split; [exact B4|intros x Hx; cbn [set_stop set_mem hm]; apply Hfr; lia]].
    assert (Tpre : tiles m4 (hstart h) pre').
    { apply (tiles_frame c HW (hm h)); [|intros x Hx; apply Hfr; lia]. subst pre'. destruct al; auto.
      apply (tiles_app c HW). split; auto. apply tiles1; auto. }
    constructor; cbn [set_stop set_mem hm hstart hstop hbreak hinit kbrk ktick]; rewrite ?B4, ?B5, ?B6; auto.
    + rewrite ext_app. cbn [HeapLemmas.ext]. lia.
    + lia.
    + intros x Hx. apply M4, M3, M2, M1, HM. lia.
    + apply (tiles_app c HW). split; auto. rewrite <- Eblk. apply tiles1; auto; [lia|]. clear Tpre Hfr. repeat split; keep.
    + intros E. now apply app_eq_nil in E as [_ E].
    + lia.
    + intros _. rewrite B1, B2. split; [lia|]. split; [lia|]. intros x Hx. apply M4, M3, M2, M1, B9. now rewrite B2.
Qed.


(** ** free *)
Definition joinL (pre : blks) (sz : Z) : blks * Z :=
  match rev pre with (psz, false) :: r => (rev r, psz + 2 * HH + sz) | _ => (pre, sz) end.
Definition joinR (post : blks) (sz : Z) : Z * blks :=
  match post with (n, false) :: q => (sz + 2 * HH + n, q) | _ => (sz, post) end.
Lemma joinL_cases pre sz :
  (joinL pre sz = (pre, sz) /\ (pre = [] \/ exists p ps, pre = p ++ [(ps, true)])) \/
  exists p psz, pre = p ++ [(psz, false)] /\ joinL pre sz = (p, psz + 2 * HH + sz).
Proof.
  unfold joinL. destruct (rev pre) as [|[psz [|]] r] eqn:E.
  - left. split; auto. left. rewrite <- (rev_involutive pre), E. reflexivity.
  - left. split; auto. right. exists (rev r), psz. now rewrite <- (rev_involutive pre), E.
  - right. exists (rev r), psz. split; auto. now rewrite <- (rev_involutive pre), E.
Qed.

Lemma join_prev_ok m a pre sz p s : joinL pre sz = (p, s) -> tiles m a pre -> 0 <= sz -> m2 sz ->
  tile1 m (a + ext pre) sz false -> 0 <= a -> a + ext pre + 2 * HH + sz < top ->
  mapped m a (a + ext pre + 2 * HH + sz) ->
  exists m', join_prev c m a (a + ext pre) (a + ext pre + 2 * HH + sz) sz = Some (m', a + ext p, s) /\
    tiles m' a p /\ sz <= s /\ m2 s /\ tile1 m' (a + ext p) s false /\ ext p + s = ext pre + sz /\
    frame m m' (a + ext p) (a + ext pre + 2 * HH + sz) /\ mono m m'.
Proof.
  intros J T S M T1 Ha Ht Hm. pose proof (W_pos c HW) as HP. pose proof (tiles_ext_pos c HW _ _ _ T) as HE.
  unfold join_prev. destruct (joinL_cases pre sz) as [[J' D]|(p' & psz & -> & J')]; rewrite J in J'; apply pair_inj in J' as [E1 E2]; [subst p s|subst p' s].
  - exists m. assert (E : (if a <? a + ext pre
        then let? psz := ldx c m (a + ext pre) (-1) in
             let? pal := ldx c m (uw c (a + ext pre - psz - 2 * HH)) 1 in
             if pal =? 0
             then let? p0 := ldx c m (uw c (a + ext pre - psz - 2 * HH)) 0 in
                  let sz0 := uw c (sz + uw c (p0 + 2 * HH)) in
                  let? m0 := stx c m (uw c (a + ext pre - psz - 2 * HH)) 0 sz0 in
                  let? m1 := stx c m0 (a + ext pre + 2 * HH + sz) (-1) sz0 in
                  Some (m1, uw c (a + ext pre - psz - 2 * HH), sz0)
             else Some (m, a + ext pre, sz)
        else Some (m, a + ext pre, sz)) = Some (m, a + ext pre, sz)).
    { destruct D as [-> | (q & ps & ->)]; [cbn [HeapLemmas.ext]; now rewrite Z.add_0_r, Z.ltb_irrefl|].
      apply (tiles_app c HW) in T as [Tq Tl]. cbn [HeapLemmas.tiles] in Tl. destruct Tl as (S' & M' & (A & B & C & D) & _).
      pose proof (tiles_ext_pos c HW _ _ _ Tq). rewrite ext_app in *. cbn [HeapLemmas.ext] in *.
      replace (a <? _) with true by lia. rewrite (ldx_ok c m _ (-1) ps); [|hl|]. 2:{ match goal with |- HeapLemmas.wd c _ ?x _ => replace x with (a + ext q + HH + ps + W) by hl end. exact D. }
      cbn [obind]. rewrite uw_id by lia. rewrite (ldx_ok c m _ 1 1); [reflexivity|hl|]. match goal with |- HeapLemmas.wd c _ ?x _ => replace x with (a + ext q + W) by hl end. exact B. }
    split; [exact E|]. split; auto. split; [lia|]. split; auto. split; auto. split; auto. split; [intros x Hx; reflexivity|intros x Hx; exact Hx].
  - apply (tiles_app c HW) in T as [Tq Tl]. cbn [HeapLemmas.tiles] in Tl. destruct Tl as (S' & M' & (A & B & C & D) & _).
    pose proof (tiles_ext_pos c HW _ _ _ Tq) as HQ. rewrite ext_app in *. cbn [HeapLemmas.ext] in *.
    replace (a + (ext p + (2 * HH + psz + 0))) with (a + ext p + 2 * HH + psz) in * by lia.
    replace (a <? _) with true by lia. rewrite (ldx_ok c m _ (-1) psz); [|hl|]. 2:{ match goal with |- HeapLemmas.wd c _ ?x _ => replace x with (a + ext p + HH + psz + W) by hl end. exact D. }
    cbn [obind]. rewrite uw_id by lia. replace (a + ext p + 2 * HH + psz - psz - 2 * HH) with (a + ext p) by lia.
    rewrite (ldx_ok c m _ 1 0); [|hl|now rewrite Z.mul_1_l]. cbn [obind Z.eqb].
    rewrite (ldx_ok c m _ 0 psz); [|hl|now rewrite Z.add_0_r]. cbn [obind].
    rewrite (uw_id c (psz + 2 * HH)) by lia. rewrite (uw_id c (sz + _)) by lia. replace (sz + (psz + 2 * HH)) with (psz + 2 * HH + sz) by lia.
    destruct T1 as (A1 & B1 & C1 & D1).
    sto m1 L1 F1 M1. sto m2' L2 F2 M2. exists m2'. split; [reflexivity|].
    split; [|split; [lia|split; [|split; [|split; [lia|split]]]]].
    + apply (tiles_frame c HW m); auto. intros x Hx. rewrite F2, F1 by hl. reflexivity.
    + apply m2_add; auto. apply m2_add; auto. apply m2_2H.
    + repeat split; keep.
    + intros x Hx. rewrite F2, F1 by hl. reflexivity.
    + intros x Hx. auto.
Qed.

Lemma join_next_ok m b s post s' q stop : joinR post s = (s', q) -> tile1 m b s false -> 0 <= s -> m2 s ->
  tiles m (b + 2 * HH + s) post -> stop = b + 2 * HH + s + ext post -> 0 <= b -> stop < top -> mapped m b stop ->
  exists m', join_next c m stop b (b + 2 * HH + s) s = Some m' /\
    0 <= s' /\ m2 s' /\ tile1 m' b s' false /\ tiles m' (b + 2 * HH + s') q /\ s' + ext q = s + ext post /\
    frame m m' b (b + 2 * HH + s') /\ mono m m'.
Proof.
  intros J T1 S M T -> Hb Ht Hm. pose proof (W_pos c HW) as HP. pose proof (tiles_ext_pos c HW _ _ _ T) as HE.
  unfold join_next. destruct post as [|[n [|]] post]; cbn [joinR] in J; apply pair_inj in J as [<- <-].
  - exists m. cbn [HeapLemmas.ext]. rewrite Z.add_0_r, Z.ltb_irrefl. split; [reflexivity|]. split; auto. split; auto. split; auto.
    split; [exact I|]. split; auto. split; [intros x Hx; reflexivity|intros x Hx; exact Hx].
  - exists m. cbn [HeapLemmas.tiles] in T. destruct T as (S' & M' & (A & B & C & D) & T).
    pose proof (tiles_ext_pos c HW _ _ _ T). cbn [HeapLemmas.ext] in *. replace (_ <? _) with true by lia.
    rewrite (ldx_ok c m _ 1 1); [|hl|now rewrite Z.mul_1_l]. cbn [obind Z.eqb].
    split; auto. split; auto. split; auto. split; auto. split; [|split; auto; split; [intros x Hx; reflexivity|intros x Hx; exact Hx]].
    split; auto. split; auto. split; auto. repeat split; auto.
  - cbn [HeapLemmas.tiles] in T. destruct T as (S' & M' & (A & B & C & D) & T).
    pose proof (tiles_ext_pos c HW _ _ _ T) as HT. cbn [HeapLemmas.ext] in *. replace (_ <? _) with true by lia.
    rewrite (ldx_ok c m _ 1 0); [|hl|now rewrite Z.mul_1_l]. cbn [obind Z.eqb].
    rewrite (ldx_ok c m _ 0 n); [|hl|now rewrite Z.add_0_r]. cbn [obind].
    rewrite (uw_id c (n + 2 * HH)) by lia. rewrite (uw_id c (s + _)) by lia. rewrite (uw_id c (b + 2 * HH + s + n + 2 * HH)) by lia.
    replace (s + (n + 2 * HH)) with (s + 2 * HH + n) by lia. destruct T1 as (A1 & B1 & C1 & D1).
    sto m1 L1 F1 M1. destruct (stx_ok c HW m1 (b + 2 * HH + s + n + 2 * HH) (-1) (s + 2 * HH + n)) as (m2' & E & L2 & F2 & M2); [hl|hl|mp|].
    exists m2'. split; [exact E|]. clear E. split; [lia|]. split; [apply m2_add; auto; apply m2_add; auto; apply m2_2H|].
    split; [repeat split; keep|]. split; [|split; [lia|split]].
    + apply (tiles_frame c HW m); [replace (b + 2 * HH + (s + 2 * HH + n)) with (b + 2 * HH + s + 2 * HH + n) by lia; auto|]. intros x Hx. rewrite F2, F1 by hl. reflexivity.
    + intros x Hx. rewrite F2, F1 by hl. reflexivity.
    + intros x Hx. auto.
Qed.

Lemma ok_set_mem h bs bs' m' : ok h bs -> tiles m' (hstart h) bs' -> ext bs' = ext bs -> bs' <> [] -> mono (hm h) m' ->
  ok (set_mem h m') bs'.
Proof.
  intros [] T E N MO. constructor; cbn [set_mem hm hstart hstop hbreak hinit kbrk ktick]; auto.
  - now rewrite E.
  - intros x Hx. apply MO. auto.
  - intros HL. destruct (ok_lin0 HL) as (A & B & C). repeat split; auto. intros x Hx. apply MO. auto.
Qed.

Lemma free_ok h pre sz post p s s' q : ok h (pre ++ (sz, true) :: post) -> joinL pre sz = (p, s) -> joinR post s = (s', q) ->
  exists m', free c h (hstart h + ext pre + HH) = Some (set_mem h m') /\
    ok (set_mem h m') (p ++ (s', false) :: q) /\
    frame (hm h) m' (hstart h + ext p) (hstart h + ext p + 2 * HH + s') /\ mono (hm h) m' /\
    ext p + 2 * HH + s' + ext q = ext pre + 2 * HH + sz + ext post.
Proof.
  intros O JL JR. pose proof O as []. pose proof (W_pos c HW) as HP.
  apply (tiles_app c HW) in ok_tiles0 as [Tp Tl]. cbn [HeapLemmas.tiles] in Tl. destruct Tl as (S & M & T1 & Tq).
  pose proof (tiles_ext_pos c HW _ _ _ Tp) as HE. pose proof (tiles_ext_pos c HW _ _ _ Tq) as HQ.
  rewrite ext_app in *. cbn [HeapLemmas.ext] in *. set (a := hstart h) in *. set (b := a + ext pre) in *.
  unfold free. replace (b + HH =? 0) with false by lia. replace (b + HH - HH) with b by lia.
  rewrite !(uw_id c b) by lia. destruct T1 as (A & B & C & D).
  rewrite (ldx_ok c _ b 0 sz); [|hl|now rewrite Z.add_0_r]. cbn [obind].
  replace (b + HH + sz + HH) with (b + 2 * HH + sz) by lia. rewrite (uw_id c (b + 2 * HH + sz)) by lia.
  sto m1 L1 F1 M1. sto m2' L2 F2 M2.
  assert (T1' : tile1 m2' b sz false) by (repeat split; keep).
  assert (FR : frame (hm h) m2' b (b + 2 * HH + sz)) by (intros x Hx; rewrite F2, F1 by hl; reflexivity).
  assert (MO : mono (hm h) m2') by (intros x Hx; auto).
  clear L1 F1 M1 L2 F2 M2 A B C D.
  destruct (join_prev_ok m2' a pre sz p s JL) as (m3 & E3 & T3 & S3 & M3 & T13 & X3 & F3 & MO3); auto; try lia.
  { apply (tiles_frame c HW (hm h)); auto. intros x Hx. apply FR. lia. }
  { intros x Hx. apply MO, ok_map0. lia. }
  fold a b in E3. fold a. rewrite E3. cbn [obind]. pose proof (tiles_ext_pos c HW _ _ _ T3) as HE3.
  destruct (join_next_ok m3 (a + ext p) s post s' q (hstop h) JR) as (m4 & E4 & S4 & M4 & T14 & T4 & X4 & F4 & MO4); auto; try lia.
  { replace (a + ext p + 2 * HH + s) with (b + 2 * HH + sz) by lia. apply (tiles_frame c HW (hm h)); auto.
    intros x Hx. rewrite F3, FR by lia. reflexivity. }
  { intros x Hx. apply MO3, MO, ok_map0. lia. }
  replace (a + ext p + 2 * HH + s) with (b + 2 * HH + sz) in E4 by lia. rewrite E4. cbn [obind].
  assert (MM : mono (hm h) m4) by (intros x Hx; auto).
  pose proof (tiles_ext_pos c HW _ _ _ T4) as HE4.
  exists m4. split; [reflexivity|]. split; [|split; [|split; auto; lia]].
  - eapply ok_set_mem; eauto.
    + apply (tiles_app c HW). split; [|repeat split; auto; apply T14]. apply (tiles_frame c HW m3); auto. intros x Hx. apply F4. lia.
    + rewrite !ext_app. cbn [HeapLemmas.ext]. lia.
    + intros E. now apply app_eq_nil in E as [_ E].
  - intros x Hx. unfold frame in F3, F4, FR. assert (K : s <= s') by (destruct post as [|[n [|]] post]; cbn [joinR] in JR; apply pair_inj in JR as [<- <-]; try lia; cbn [HeapLemmas.tiles] in Tq; lia).
    rewrite F4, F3, FR by lia. reflexivity.
Qed.

(** ** realloc.c:101-113 *)
Lemma shrink_ok h pre sz post size : ok h (pre ++ (sz, true) :: post) -> 0 < size < sz -> m2 size ->
  exists m', (let blk := hstart h + ext pre in let mid := uw c (blk + 2 * HH + size) in
      let nxt := uw c (blk + 2 * HH + sz) in
      let? m := stx c (hm h) blk 0 size in
      let? m := stx c m mid (-2) 1 in
      let? m := stx c m mid (-1) size in
      let sz := uw c (sz - uw c (size + 2 * HH)) in
      let? m := stx c m mid 0 sz in
      let? m := stx c m mid 1 0 in
      let? m := stx c m nxt (-2) 0 in
      let? m := stx c m nxt (-1) sz in
      Some (set_mem h m, blk + HH)) = Some (set_mem h m', hstart h + ext pre + HH) /\
    ok (set_mem h m') (pre ++ (size, true) :: (sz - size - 2 * HH, false) :: post) /\
    frame (hm h) m' (hstart h + ext pre) (hstart h + ext pre + 2 * HH + sz) /\ mono (hm h) m' /\
    (forall x, hstart h + ext pre + HH <= x < hstart h + ext pre + HH + size -> m' x = hm h x).
Proof.
  intros O Hs Ms. pose proof O as []. pose proof (W_pos c HW) as HP.
  apply (tiles_app c HW) in ok_tiles0 as [Tp Tl]. cbn [HeapLemmas.tiles] in Tl. destruct Tl as (S & M & T1 & Tq).
  pose proof (tiles_ext_pos c HW _ _ _ Tp) as HE. pose proof (tiles_ext_pos c HW _ _ _ Tq) as HQ.
  rewrite ext_app in *. cbn [HeapLemmas.ext] in *. set (a := hstart h) in *. set (b := a + ext pre) in *. cbv zeta.
  assert (G : size + 2 * HH <= sz) by (apply (m2_gap c HW); auto; lia).
  rewrite !(uw_id c (b + 2 * HH + _)) by lia. rewrite (uw_id c (size + 2 * HH)) by lia. rewrite (uw_id c (sz - _)) by lia.
  destruct T1 as (A & B & C & D). 
  sto m1 L1 F1 M1. sto m2' L2 F2 M2. sto m3 L3 F3 M3. sto m4 L4 F4 M4. sto m5 L5 F5 M5. sto m6 L6 F6 M6. sto m7 L7 F7 M7.
  assert (FR : frame (hm h) m7 b (b + 2 * HH + sz)) by (intros x Hx; rewrite F7, F6, F5, F4, F3, F2, F1 by hl; reflexivity).
  assert (MO : mono (hm h) m7) by (intros x Hx; auto 10).
  exists m7. split; [reflexivity|]. split; [|split; [exact FR|split; [exact MO|]]].
  - eapply ok_set_mem; eauto.
    + apply (tiles_app c HW). split; [apply (tiles_frame c HW (hm h)); auto; intros x Hx; apply FR; lia|].
      fold a b. cbn [HeapLemmas.tiles]. split; [lia|]. split; auto.
      split; [repeat split; keep|]. split; [lia|]. split; [apply m2_sub; [now apply m2_sub|apply m2_2H]|].
      replace (sz - size - 2 * HH) with (sz - (size + 2 * HH)) by lia. split; [repeat split; keep|].
      replace (b + 2 * HH + size + 2 * HH + (sz - (size + 2 * HH))) with (b + 2 * HH + sz) by lia.
      apply (tiles_frame c HW (hm h)); auto. intros x Hx. apply FR. lia.
    + rewrite !ext_app. cbn [HeapLemmas.ext]. lia.
    + intros E. now apply app_eq_nil in E as [_ E].
  - intros x Hx. rewrite F7, F6, F5, F4, F3, F2, F1 by hl. reflexivity.
Qed.

(** ** init *)
Record pre (h : heap) : Prop := {
  pre_init : hinit h = false;
  pre_map : mapped (hm h) (clo c) (match cport c with Linux => page_up (kbrk h) | _ => chi c end);
  pre_lin : cport c = Linux -> (hbreak h = 0 \/ hbreak h = kbrk h) /\ clo c <= kbrk h <= chi c
}.
Lemma odd_lor y : 0 <= y < top -> exists r, Z.lor (Z.land y (uw c (- HH))) HH = r /\ m2 (r + HH) /\
  y - y mod HH <= r <= y - y mod HH + HH /\ HH <= r <= top - HH /\ (y < HH -> r = HH).
Proof.
  intros Hy. eexists. split; [reflexivity|]. pose proof (top_big c HW) as TB.
  assert (EP : exists k t, HH = 2 ^ k /\ 0 <= k <= WB c /\ top = 2 * t * HH).
  { unfold HF, WB. destruct HW as [-> | ->]; [exists 2, 8192|exists 3, 268435456]; lia. }
  destruct EP as (k & t & Ek & Hk & Et).
  assert (EM : uw c (- HH) = top - HH).
  { unfold uw, wrap. symmetry. apply Z.mod_unique_pos with (-1); unfold HF in *; lia. }
  assert (HP : 0 < HH) by (pose proof (W_pos c HW); lia).
  assert (Eq : y - y mod HH = (y / HH) * HH) by (pose proof (Z.div_mod y HH); lia).
  set (q := y / HH) in *. assert (Hq : 0 <= q < 2 * t). { split; [apply Z.div_pos; lia|]. apply Z.div_lt_upper_bound; lia. }
  assert (EL : Z.lor (Z.land y (uw c (- HH))) HH = (if Z.even q then q + 1 else q) * HH).
  { rewrite EM. replace (Z.land y (top - HH)) with (q * HH); [rewrite Ek; apply lor_odd; lia|].
    rewrite <- Eq. rewrite Ek at 2. rewrite land_mask by lia. now rewrite <- Ek. }
  rewrite EL, Eq. clear EL Ek. assert (Hlt : y < HH -> q = 0) by (intros; apply Z.div_small; lia). clearbody q. rewrite Et.
  destruct (Z.even q) eqn:E; [apply Z.even_spec in E as [r ->]|assert (O : Z.odd q = true) by (rewrite <- Z.negb_even, E; reflexivity); apply Z.odd_spec in O as [r ->]].
  - split; [exists (r + 1); ring|]. split; [nia|]. split; [nia|]. intros Hl. apply Hlt in Hl. rewrite Hl. lia.
  - split; [exists (r + 1); ring|]. split; [nia|]. split; [nia|]. intros Hl. apply Hlt in Hl. lia.
Qed.
Lemma odd_up_ok x : 0 <= x < top -> m2 (odd_up c x + HH) /\ HH <= odd_up c x <= top - HH /\
  ((x + HH <= top /\ x <= odd_up c x < x + 2 * HH) \/ (top < x + HH /\ odd_up c x = HH)).
Proof.
  intros Hx. unfold odd_up. pose proof (top_big c HW) as TB. pose proof (W_pos c HW) as HP. assert (HH <= 8) by (unfold HF; lia).
  replace (uw c (x + HH) - 1) with (uw c (x + HH) + -1) by lia. rewrite uw_uw_add by auto.
  destruct (odd_lor (uw c (x + HH + -1)) (uw_range c HW _)) as (r & -> & A & B & C & D). split; auto. split; auto.
  destruct (Z.leb_spec (x + HH) top).
  - left. rewrite uw_id in * by lia. split; auto. pose proof (Z.mod_pos_bound (x + HH + -1) HH). lia.
  - right. split; auto. apply D. assert (E : uw c (x + HH + -1) = x + HH - 1 - top). { unfold uw, wrap. symmetry. apply Z.mod_unique_pos with 1; lia. } lia.
Qed.
Lemma odd_down_ok x : 0 <= x < top -> m2 (odd_down c x + HH) /\ HH <= odd_down c x <= top - HH /\
  (HH <= x -> odd_down c x <= x) /\ (x < HH -> odd_down c x = top - HH).
Proof.
  intros Hx. unfold odd_down. pose proof (top_big c HW) as TB. pose proof (W_pos c HW) as HP. assert (HH <= 8) by (unfold HF; lia).
  destruct (odd_lor (uw c (x - HH)) (uw_range c HW _)) as (r & -> & A & B & C & D). split; auto. split; auto. split; intros Hxx.
  - rewrite uw_id in * by lia. pose proof (Z.mod_pos_bound (x - HH) HH). lia.
  - assert (E : uw c (x - HH) = x - HH + top). { unfold uw, wrap. symmetry. apply Z.mod_unique_pos with (-1); lia. }
    rewrite E in *. assert (EM : (x - HH + top) mod HH = x).
    { assert (exists t, top = t * HH) as [t Ht] by (unfold HF, WB; destruct HW as [-> | ->]; [exists 16384|exists 536870912]; lia).
      rewrite Ht. symmetry. apply Z.mod_unique_pos with (t - 1); lia. }
    lia.
Qed.
Lemma one_block_ok m start stop sz : stop = start + 2 * HH + sz -> 0 <= sz -> m2 sz -> 0 <= start -> stop < top -> mapped m start stop ->
  exists m', one_block c m start stop sz = Some m' /\ tiles m' start [(sz, false)] /\ mono m m'.
Proof.
  intros -> Hs Ms Ha Ht Hm. pose proof (W_pos c HW) as HP. unfold one_block.
  sto m1 L1 F1 M1. sto m2' L2 F2 M2. sto m3 L3 F3 M3.
  destruct (stx_ok c HW m3 (start + 2 * HH + sz) (-1) sz) as (m4 & E & L4 & F4 & M4); [hl|hl|mp|].
  exists m4. split; auto. clear E. split; [|intros x Hx; auto]. apply tiles1; auto. repeat split; keep.
Qed.
Lemma ticked_pre h h' : pre h -> ticked h h' -> pre h'.
Proof. intros [] (E1 & E2 & E3 & E4 & E5 & E6). constructor; rewrite ?E1, ?E4, ?E5, ?E6; auto. Qed.

Lemma init_ok h : pre h -> exists h', init c h = Some h' /\ (pre h' \/ exists sz, ok h' [(sz, false)]).
Proof.
  intros P. pose proof P as []. pose proof (top_big c HW) as TB. pose proof (W_pos c HW) as HP. assert (H8 : HH <= 8) by (unfold HF; lia).
  assert (DOS : cport c <> Linux -> exists h', init c h = Some h' /\ (pre h' \/ exists sz, ok h' [(sz, false)])).
  { intros NL. unfold init.
    assert (HLH : 0 <= clo c < top /\ 0 <= chi c < top /\ (cport c = DosTiny \/ (cport c = Dpmi /\ clo c + HH <= top /\ HH <= chi c))).
    { pose proof HC as HC'. unfold cfg_ok in HC'. unfold WB, HF. destruct (cport c); [| |congruence]; destruct HC' as (EW & ?); rewrite EW; split; lia || (split; [lia|]); auto; right; split; auto; lia. }
    destruct HLH as (Hlo & Hhi & HD).
    destruct (odd_up_ok (clo c) Hlo) as (U1 & U2 & U3). destruct (odd_down_ok (chi c) Hhi) as (D1 & D2 & D3 & D4).
    set (start := odd_up c (clo c)) in *. set (stop := odd_down c (chi c)) in *.
    assert (GO : start <= stop -> uw c (stop - start) = stop - start) by (intros; apply uw_id; lia).
    assert (MAIN : clo c <= start -> stop <= chi c -> start <= stop -> 2 * HH <= stop - start ->
       exists h', (let? m := one_block c (hm h) start stop (uw c (uw c (stop - start) - 2 * HH)) in Some (ready h m start stop)) = Some h' /\
         (pre h' \/ exists sz, ok h' [(sz, false)])).
    { intros G1 G2 G3 G4. rewrite GO by auto. rewrite uw_id by lia.
      assert (Ms : m2 (stop - start - 2 * HH)). { replace (stop - start - 2 * HH) with ((stop + HH) - (start + HH) - 2 * HH) by lia. apply m2_sub; [now apply m2_sub|apply m2_2H]. }
      assert (PM : mapped (hm h) (clo c) (chi c)) by (destruct (cport c); auto; congruence).
      destruct (one_block_ok (hm h) start stop (stop - start - 2 * HH)) as (m & -> & T & MO); auto; try lia; [intros x Hx; apply PM; lia|].
      cbn [obind]. eexists. split; [reflexivity|]. right. exists (stop - start - 2 * HH).
      constructor; cbn [ready hm hstart hstop hbreak hinit kbrk ktick HeapLemmas.ext]; auto; try lia; [|congruence|congruence].
      intros x Hx. apply MO, PM. lia. }
    assert (FAIL : exists h', Some h = Some h' /\ (pre h' \/ exists sz, ok h' [(sz, false)])) by (eexists; eauto).
    destruct HD as [HD|(HD & HD1 & HD2)]; rewrite HD; cbv zeta; fold start stop.
    - destruct (Z.ltb_spec start (clo c)); [exact FAIL|]. destruct (Z.ltb_spec (chi c) stop); [exact FAIL|].
      destruct (Z.ltb_spec stop start); [exact FAIL|]. destruct (Z.ltb_spec (uw c (stop - start)) (2 * HH)); [exact FAIL|]. cbn [orb].
      rewrite GO in * by lia. apply MAIN; lia.
    - destruct (Z.ltb_spec stop start); [exact FAIL|]. destruct (Z.ltb_spec (uw c (stop - start)) (2 * HH)); [exact FAIL|]. cbn [orb].
      rewrite GO in * by lia. apply MAIN; lia. }
  destruct (cport c) eqn:HL; [apply DOS; congruence|apply DOS; congruence|]. clear DOS.
  destruct (pre_lin0 eq_refl) as [Hb Hk].
  assert (CK : 0 < clo c /\ chi c <= top - 4096). { pose proof HC as HC'. unfold cfg_ok in HC'. rewrite HL in HC'. destruct HC' as (EW & A & B). unfold WB. rewrite EW. lia. }
  (* the first sbrk *)
  assert (S0 : exists h1, sbrk c h 0 = (h1, kbrk h) /\ pre h1 /\ hbreak h1 = kbrk h /\ kbrk h1 = kbrk h).
  { assert (G : forall g, pre g -> hbreak g = kbrk h -> kbrk g = kbrk h -> exists h1, sbrk_to c g 0 = (h1, kbrk h) /\ pre h1 /\ hbreak h1 = kbrk h /\ kbrk h1 = kbrk h).
    { intros g [G1 G2 G3] Eb Ek. unfold sbrk_to. cbn [Z.leb]. rewrite Eb, Z.add_0_r, uw_id by lia. rewrite Z.ltb_irrefl.
      unfold sys_brk. destruct (_ && _ && _).
      - rewrite Z.eqb_refl. cbn [negb set_break hm hstart hstop hbreak hinit kbrk ktick]. rewrite Z.sub_0_r, (uw_id c (kbrk h)) by lia.
        eexists. split; [reflexivity|]. split; [|cbn [set_break hbreak kbrk]; auto]. constructor; cbn [set_break hm hstart hstop hbreak hinit kbrk ktick]; auto.
        + rewrite HL in *. intros x Hx. rewrite Ek in *. replace ((_ <=? x) && (x <? _)) with false by lia. apply G2. exact Hx.
      - cbn [kbrk]. rewrite Ek, Z.eqb_refl. cbn [negb set_break hm hstart hstop hbreak hinit kbrk ktick]. rewrite Z.sub_0_r, (uw_id c (kbrk h)) by lia.
        eexists. split; [reflexivity|]. split; [|cbn [set_break hbreak kbrk]; auto]. constructor; cbn [set_break hm hstart hstop hbreak hinit kbrk ktick]; auto.
        rewrite HL in *. now rewrite <- Ek. }
    unfold sbrk. destruct (Z.eqb_spec (hbreak h) 0) as [E0|N0].
    - unfold sys_brk. replace (clo c <=? 0) with false by lia. cbn [andb]. rewrite uw_id by lia. replace (kbrk h + 1 <=? 1) with false by lia.
      apply G; auto. constructor; cbn [set_break hm hstart hstop hbreak hinit kbrk ktick]; auto; rewrite HL; auto.
    - destruct Hb as [|Hb]; [congruence|]. apply G; auto. }
  destruct S0 as (h1 & E1 & P1 & B1 & K1). unfold init. rewrite HL, E1.
  rewrite sw_eq by (auto; lia). replace (_ =? -1) with false by (destruct (kbrk h <? top / 2) eqn:EE; lia).
  destruct (odd_up_ok (kbrk h) ltac:(lia)) as (U1 & U2 & [[U3 U4]|[U3 U4]]); [|lia].
  set (start := odd_up c (kbrk h)) in *.
  rewrite (uw_id c (start + 2 * HH)) by lia. rewrite (uw_id c (start - kbrk h)) by lia. rewrite (uw_id c (start - kbrk h + 2 * HH)) by lia.
  rewrite sw_eq by (auto; lia). assert (65536 / 2 <= top / 2) by (apply Z.div_le_mono; lia).
  replace (start - kbrk h + 2 * HH <? top / 2) with true by lia.
  destruct P1 as [P11 P12 P13]. rewrite HL in P12.
  rewrite sbrk_pos by lia. destruct (sbrk_to_ok h1 (start - kbrk h + 2 * HH) (clo c) HL) as (h2 & r & -> & D); auto; try lia.
  destruct D as [(-> & TK)|(-> & C1 & C2 & C3 & C4 & C5 & C6 & C7 & C8 & C9)].
  - rewrite sw_eq by (auto; lia). assert (top / 2 <= top - 1) by lia. replace (top - 1 <? top / 2) with false by lia.
    replace (top - 1 - top =? -1) with true by lia. exists h2. split; auto. left. eapply ticked_pre; [|exact TK]. constructor; auto. now rewrite HL.
  - rewrite sw_eq by (auto; lia). replace (_ =? -1) with false by (destruct (hbreak h1 <? top / 2) eqn:EE; lia).
    pose proof (page_up_ge (kbrk h2)) as PU.
    destruct (one_block_ok (hm h2) start (start + 2 * HH) 0) as (m & -> & T & MO); auto; try lia; [apply Z.divide_0_r|intros x Hx; apply C9; lia|].
    cbn [obind]. eexists. split; [reflexivity|]. right. exists 0.
    constructor; cbn [ready hm hstart hstop hbreak hinit kbrk ktick HeapLemmas.ext]; auto; try lia; [|congruence|].
    + intros x Hx. apply MO, C9. lia.
    + intros _. split; [lia|]. split; [lia|]. intros x Hx. apply MO, C9. lia.
Qed.

End W.
