(** The two passes and the bytes of the image (C40, C41). *)
From Verif Require Import Base BaseLemmas LexModel LexSpec LexProof LinkModel LinkSpec LinkReloc LinkResolve LinkLayout LinkFind LinkPlace.
From Coq Require Import Sorted String Permutation.
Close Scope string_scope.

(** ** the descriptors keep their names and attributes *)
Definition na (d : descr) : list Z * Z := (d_name d, d_attrs d).
Lemma lset_na ds : forall i d d', nth_error ds i = Some d -> na d' = na d -> map na (lset ds i d') = map na ds.
Proof.
  induction ds as [|x ds IH]; intros [|i] d d' H E; cbn in *; try discriminate.
  - injection H as ->. rewrite E. reflexivity.
  - f_equal. eapply IH; eauto.
Qed.
Lemma setMin_na ds i v : map na (setMin ds i v) = map na ds.
Proof. unfold setMin. destruct (nth_error ds i) eqn:E; [|reflexivity]. eapply lset_na; eauto. Qed.
Lemma setMax_na ds i v : map na (setMax ds i v) = map na ds.
Proof. unfold setMax. destruct (nth_error ds i) eqn:E; [|reflexivity]. eapply lset_na; eauto. Qed.
Lemma reset_na ds i : map na (reset ds i) = map na ds.
Proof. unfold reset. destruct (nth_error ds i) eqn:E; [|reflexivity]. eapply lset_na; eauto. Qed.
Lemma setStack_na ds c v w : map na (setStack ds c v w) = map na ds.
Proof. unfold setStack. destruct (nth_error ds (c + 2)) eqn:E; [|reflexivity]. eapply lset_na; eauto. Qed.

Lemma placeSect_ds e pass j isData f o k s p p' : placeSect e pass j isData f o k s p = Ok p' ->
  map na (p_ds p') = map na (p_ds p) /\ (pass = true -> p_ds p' = p_ds p).
Proof.
  unfold placeSect. intros H. destruct (alignOf (e_fmt e) isData s) as [al| |]; try discriminate. cbn [rbind] in H.
  destruct (_ <? p_ofs p); [discriminate|]. match type of H with (if ?c then _ else _) = _ => destruct c; [discriminate|] end.
  destruct (is16 (e_fmt e) && _); [discriminate|].
  match type of H with rbind ?x _ = _ => destruct x as [[buf file]| |]; try discriminate end. cbn [rbind] in H. injection H as <-. cbn [p_ds].
  destruct pass; [auto|]. split; [|discriminate]. rewrite setMax_na, setMax_na, setMin_na, setMin_na. reflexivity.
Qed.
Lemma foldP_ds e pass j isData its : forall p p', foldP e pass j isData its p = Ok p' ->
  map na (p_ds p') = map na (p_ds p) /\ (pass = true -> p_ds p' = p_ds p).
Proof.
  induction its as [|[[[f o] k] s] its IH]; intros p p' H; cbn [foldP] in H; [injection H as <-; auto|].
  destruct (placeSect e pass j isData f o k s p) as [p1| |] eqn:E; try discriminate. cbn [rbind] in H.
  apply placeSect_ds in E as [E1 E2]. apply IH in H as [H1 H2]. split; [congruence|]. intros T. rewrite H2, E2; auto.
Qed.
Lemma placeRelod_ds e pass j isData p p' : placeRelod e pass j isData p = Ok p' ->
  map na (p_ds p') = map na (p_ds p) /\ (pass = true -> p_ds p' = p_ds p).
Proof.
  unfold placeRelod. intros H. destruct (_ <? p_ofs p); [discriminate|]. match type of H with (if ?c then _ else _) = _ => destruct c; [discriminate|] end.
  destruct pass.
  - destruct (negb _); [discriminate|]. injection H as <-. auto.
  - injection H as <-. cbn [p_ds]. split; [|discriminate]. rewrite setMax_na, setMax_na, setMin_na, setMin_na. reflexivity.
Qed.
Lemma padAfter_ds e pass d nxt p p' : padAfter e pass d nxt p = Ok p' -> p_ds p' = p_ds p.
Proof.
  unfold padAfter. intros H.
  repeat match type of H with (if ?c then _ else _) = _ => destruct c | (match ?c with Some _ => _ | None => _ end) = _ => destruct c end;
    try discriminate; try (injection H as <-; reflexivity).
  all: destruct nxt; cbn in H; injection H as <-; reflexivity.
Qed.
Lemma passLoop_ds e pass ds : forall j p p', passLoop e pass j ds p = Ok p' ->
  map na (p_ds p') = map na (p_ds p) /\ (pass = true -> p_ds p' = p_ds p).
Proof.
  induction ds as [|d rest IH]; intros j p p' H; [injection H as <-; auto|]. rewrite passLoop_cons in H. cbv zeta in H.
  rewrite placeObjs_fold in H. destruct (foldP _ _ _ _ _ _) as [p1| |] eqn:E1; try discriminate. cbn [rbind] in H.
  apply foldP_ds in E1 as [F1 F2].
  assert (F : map na (p_ds p1) = map na (p_ds p) /\ (pass = true -> p_ds p1 = p_ds p)).
  { unfold resetP in F1, F2. destruct pass; [auto|]. cbn [p_ds] in F1. rewrite reset_na in F1. split; [auto|discriminate]. }
  clear F1 F2. destruct F as [F1 F2].
  match type of H with rbind ?x _ = _ => destruct x as [p2| |] eqn:E2; try discriminate end. cbn [rbind] in H.
  assert (G : map na (p_ds p2) = map na (p_ds p1) /\ (pass = true -> p_ds p2 = p_ds p1)).
  { destruct (_ && _) in E2; [apply placeRelod_ds in E2; auto|injection E2 as <-; auto]. }
  destruct G as [G1 G2].
  destruct (padAfter e pass d (hd_error rest) p2) as [p3| |] eqn:E3; try discriminate. cbn [rbind] in H.
  apply padAfter_ds in E3. apply IH in H as [H1 H2]. split; [congruence|]. intros T. rewrite H2, E3, G2, F2; auto.
Qed.
(** only names and attributes of the descriptors direct the loop *)
Lemma hd_na a b : map na a = map na b -> match hd_error a, hd_error b with Some x, Some y => na x = na y | None, None => True | _, _ => False end.
Proof. destruct a, b; cbn; intros H; try discriminate; auto; congruence. Qed.
Lemma padAfter_na e pass d d' n n' p : na d = na d' ->
  match n, n' with Some x, Some y => na x = na y | None, None => True | _, _ => False end -> padAfter e pass d n p = padAfter e pass d' n' p.
Proof.
  unfold na. intros E H. injection E as E1 E2. unfold padAfter. rewrite E1, E2.
  destruct n as [x|], n' as [y|]; try tauto. injection H as H1 H2. cbn [nextHas]. rewrite H1, H2. reflexivity.
Qed.
Lemma passLoop_na e pass ds : forall ds' j p, map na ds = map na ds' -> passLoop e pass j ds p = passLoop e pass j ds' p.
Proof.
  induction ds as [|d rest IH]; intros [|d' rest'] j p H; try discriminate; [reflexivity|]. cbn [map] in H. injection H as H0 H00 H1.
  cbn [passLoop]. rewrite H0, H00. destruct (placeObjs _ _ _ _ _ _ _ _) as [p1| |]; cbn [rbind]; auto.
  destruct (if negb (e_relod e =? 0) && eqs (d_name d') RELOD then placeRelod e pass j (negb (has SHF_EXECINSTR (d_attrs d'))) p1 else Ok p1) as [p2| |]; cbn [rbind]; auto.
  rewrite (padAfter_na e pass d d' (hd_error rest) (hd_error rest')); [|unfold na; congruence|apply hd_na; auto].
  destruct (padAfter _ _ _ _ _) as [p3| |]; cbn [rbind]; auto.
Qed.

(** ** the second pass repeats the first *)
Definition same (p q : pst) : Prop := p_ofs p = p_ofs q /\ p_startOfs p = p_startOfs q /\ p_written p = p_written q.
Definition twins (p q p' q' : pst) : Prop := same p' q' /\ exists l, p_out p' = l ++ p_out p /\ p_out q' = l ++ p_out q.
Lemma twins_refl p q : same p q -> twins p q p q.
Proof. intros H. split; auto. exists []. auto. Qed.
Lemma twins_trans p q p1 q1 p2 q2 : twins p q p1 q1 -> twins p1 q1 p2 q2 -> twins p q p2 q2.
Proof. intros [_ (l & L1 & L2)] [S2 (l' & L3 & L4)]. split; auto. exists (l' ++ l). rewrite L3, L4, L1, L2, !app_assoc. auto. Qed.
Lemma placeSect_twins e j isData f o k s p q p' q' : same p q ->
  placeSect e true j isData f o k s p = Ok p' -> placeSect e false j isData f o k s q = Ok q' -> twins p q p' q'.
Proof.
  intros (S1 & S2 & S3). unfold placeSect. rewrite <- S1, <- S2, <- S3. intros H K. destruct (alignOf (e_fmt e) isData s) as [al| |]; try discriminate. cbn [rbind] in H, K.
  destruct (_ <? p_ofs p); [discriminate|]. set (a := if 1 <? al then _ else _) in *.
  destruct (u32 (a + sh_size s) <? a); [discriminate|]. destruct (is16 (e_fmt e) && _); [discriminate|]. cbn [rbind] in K. injection K as <-.
  match type of H with rbind ?x _ = _ => destruct x as [[buf file]| |]; try discriminate end. cbn [rbind] in H. injection H as <-.
  split; [split; cbn; auto|]. exists [mkPl f k a (u32 (e_hdrsz e + p_written p + (a - p_startOfs p)))]. cbn. auto.
Qed.
Lemma foldP_twins e j isData its : forall p q p' q', same p q ->
  foldP e true j isData its p = Ok p' -> foldP e false j isData its q = Ok q' -> twins p q p' q'.
Proof.
  induction its as [|[[[f o] k] s] its IH]; intros p q p' q' ST H K; cbn [foldP] in H, K.
  { injection H as <-. injection K as <-. apply twins_refl. auto. }
  destruct (placeSect e true j isData f o k s p) as [p1| |] eqn:E1; try discriminate.
  destruct (placeSect e false j isData f o k s q) as [q1| |] eqn:E2; try discriminate. cbn [rbind] in H, K.
  pose proof (placeSect_twins _ _ _ _ _ _ _ _ _ _ _ ST E1 E2) as T. eapply twins_trans; [exact T|]. apply IH; auto. apply T.
Qed.
Lemma placeRelod_twins e j isData p q p' q' : same p q ->
  placeRelod e true j isData p = Ok p' -> placeRelod e false j isData q = Ok q' -> twins p q p' q'.
Proof.
  intros (S1 & S2 & S3). unfold placeRelod. rewrite <- S1, <- S2, <- S3. intros H K.
  destruct (_ <? p_ofs p); [discriminate|]. match type of H with (if ?c then _ else _) = _ => destruct c; [discriminate|] end.
  destruct (negb _); [discriminate|]. injection H as <-. injection K as <-. split; [split; cbn; auto|]. exists []. auto.
Qed.
Lemma padAfter_twins e d n p q p' q' : same p q ->
  padAfter e true d n p = Ok p' -> padAfter e false d n q = Ok q' -> twins p q p' q'.
Proof.
  intros (S1 & S2 & S3). unfold padAfter. rewrite <- S1, <- S2, <- S3. intros H K.
  repeat match type of H with (if ?c then _ else _) = _ => destruct c end; try discriminate.
  1,2: destruct n; cbn in H, K.
  all: try (injection H as <-; injection K as <-; split; [split; cbn; auto|exists []; auto]).
Qed.
Lemma passLoop_twins e ds : forall j p q p' q', same p q ->
  passLoop e true j ds p = Ok p' -> passLoop e false j ds q = Ok q' -> twins p q p' q'.
Proof.
  induction ds as [|d rest IH]; intros j p q p' q' ST H K.
  { injection H as <-. injection K as <-. apply twins_refl. auto. }
  rewrite passLoop_cons in H, K. cbv zeta in H, K. rewrite placeObjs_fold in H, K.
  destruct (foldP e true _ _ _ _) as [p1| |] eqn:E1; try discriminate. destruct (foldP e false _ _ _ _) as [q1| |] eqn:E2; try discriminate.
  cbn [rbind] in H, K.
  assert (T1 : twins p q p1 q1).
  { exact (foldP_twins _ _ _ _ (resetP true j p) (resetP false j q) p1 q1 ST E1 E2). }
  match type of H with rbind ?x _ = _ => destruct x as [p2| |] eqn:E3; try discriminate end.
  match type of K with rbind ?x _ = _ => destruct x as [q2| |] eqn:E4; try discriminate end. cbn [rbind] in H, K.
  assert (T2 : twins p1 q1 p2 q2).
  { destruct (_ && _) in E3, E4; [eapply placeRelod_twins; eauto; apply T1|]. injection E3 as <-. injection E4 as <-. apply twins_refl. apply T1. }
  destruct (padAfter e true _ _ _) as [p3| |] eqn:E5; try discriminate. destruct (padAfter e false _ _ _) as [q3| |] eqn:E6; try discriminate.
  cbn [rbind] in H, K. pose proof (padAfter_twins _ _ _ _ _ _ _ (proj1 T2) E5 E6) as T3.
  eapply twins_trans; [exact T1|]. eapply twins_trans; [exact T2|]. eapply twins_trans; [exact T3|]. eapply IH; eauto. apply T3.
Qed.

(** ** what a symbol's address depends on *)
Definition sameOut (a b : list placed) : Prop := forall f k, outAddr a f k = outAddr b f k.
Lemma sectAddr_ext a b o f i : sameOut a b -> sectAddr a o f i = sectAddr b o f i.
Proof. intros H. unfold sectAddr. rewrite H. reflexivity. Qed.
Lemma findAddrObj_ext a b n os : sameOut a b -> forall f, findAddrObj os f a n = findAddrObj os f b n.
Proof.
  intros H. induction os as [|[o nd] os IH]; intros f; cbn [findAddrObj]; [reflexivity|].
  destruct (if nd then _ else _); [|auto]. rewrite (sectAddr_ext a b o f _ H). reflexivity.
Qed.
Lemma relSym_ext os bs ds a b f o rs r : sameOut a b -> relSym os bs ds a f o rs r = relSym os bs ds b f o rs r.
Proof.
  intros H. unfold relSym, symAddress. destruct (r_sym r =? 0); [reflexivity|]. destruct (inb (zget o (sh_link rs))) as [ss| |]; cbn [rbind]; auto.
  destruct (inb (zget (s_syms ss) (r_sym r))) as [y| |]; cbn [rbind]; auto. rewrite (sectAddr_ext a b o f _ H).
  rewrite (findAddrObj_ext a b _ os H). reflexivity.
Qed.

(** ** the bytes *)
Lemma occurs_app file off b w : occurs file off b -> occurs (file ++ w) off b.
Proof. intros (a & c & -> & H). exists a, (c ++ w). rewrite <- !app_assoc. auto. Qed.
Lemma zlen_fill b n file : 0 <= n -> zlen (fill b n file) = zlen file + n.
Proof. intros H. unfold fill. rewrite zlen_app. f_equal. unfold zlen. rewrite repeat_length. lia. Qed.

Section Image.
  Variables (e : env) (ds : list descr) (outF : list placed).
  Let os := e_objs e.
  (** the contents a section must get: the bytes with the relocations applied, or zeros *)
  Definition val (f : nat) (o : obj) (rs : sect) (r : rel) : res Z := relSym os (e_bs e) ds outF f o rs r.
  Definition num (x : res Z) : Z := match x with Ok v => v | _ => 0 end.
  Definition contents (f k : nat) (o : obj) (s : sect) (addr : Z) (b : list Z) : Prop :=
    if sh_type s =? SHT_PROGBITS then
      match relSect o k with
      | Some rs => Forall (fun r => known r /\ exists v, val f o rs r = Ok v) (s_rels rs) /\
          b = patchAll (s_bytes s) addr (fun r => num (val f o rs r)) (s_rels rs)
      | None => b = s_bytes s
      end
    else b = repeat 0 (Z.to_nat (sh_size s)).
  Definition inFile (file : list Z) (q : placed) : Prop :=
    forall o s, incl os (pl_obj q) (pl_sect q) o s -> sh_type s = SHT_PROGBITS \/ e_useBss e = false ->
    exists b, contents (pl_obj q) (pl_sect q) o s (pl_addr q) b /\ occurs file (pl_off q) b.
  Definition wfBytes (o : obj) (k : nat) (s : sect) : Prop :=
    (sh_type s = SHT_PROGBITS -> zlen (s_bytes s) = sh_size s /\ bytes (s_bytes s) /\ sh_size s + 1024 <= 2 ^ 32) /\
    forall rs, relSect o k = Some rs -> Sorted byOffset (s_rels rs) /\ Forall (inside (s_bytes s)) (s_rels rs).
  Definition settledQ (q : placed) : Prop := outAddr outF (pl_obj q) (pl_sect q) = pl_addr q.
  Definition synced (p : pst) : Prop := zlen (p_file p) = e_hdrsz e + p_written p + (p_ofs p - p_startOfs p).
  Definition roomy (p : pst) : Prop := e_hdrsz e + p_written p + (limit (e_fmt e) - p_startOfs p) < 2 ^ 32.
  Definition inv (p : pst) : Prop := okState e p /\ roomy p /\ zlen (p_buf p) = FBUF + 3 /\ sameOut (p_out p) outF /\ p_ds p = ds.

  Lemma placeSect_file j isData f o k s p p' q : inv p -> wfSect s -> wfBytes o k s -> incl os f k o s ->
    isData = negb (has SHF_EXECINSTR (sh_flags s)) ->
    placeSect e true j isData f o k s p = Ok p' -> p_out p' = q :: p_out p -> settledQ q ->
    inv p' /\ (exists w, p_file p' = p_file p ++ w) /\
    (synced p -> sh_type s = SHT_PROGBITS \/ e_useBss e = false -> synced p' /\ inFile (p_file p') q) /\
    (sh_type s <> SHT_PROGBITS -> e_useBss e = true -> p_file p' = p_file p).
  Proof.
    intros (I1 & I2 & I3 & I4 & I5) W WB IN ID H OQ SQ.
    pose proof (placeSect_ds _ _ _ _ _ _ _ _ _ _ H) as [_ PD]. specialize (PD eq_refl).
    destruct (placeSect_inv _ _ _ _ _ _ _ _ _ _ I1 W ID H) as (q' & Q1 & Q2 & Q3 & Q4 & Q5 & Q6 & Q7 & Q8 & Q9 & Q10 & Q11).
    assert (q' = q) by congruence. subst q'.
    assert (SO : sameOut (q :: p_out p) outF).
    { intros f' k'. cbn [outAddr]. destruct (Nat.eqb (pl_obj q) f' && Nat.eqb (pl_sect q) k') eqn:E; [|apply I4].
      apply andb_true_iff in E as [E1 E2]. apply Nat.eqb_eq in E1, E2. subst f' k'. symmetry. exact SQ. }
    unfold placeSect in H. destruct (alignOf (e_fmt e) isData s) as [al| |] eqn:EA; try discriminate. cbn [rbind] in H.
    apply alignOf_ok in EA as [-> RA]; [|apply W|auto]. rewrite <- Q6 in H.
    destruct (pl_addr q <? p_ofs p) eqn:E1; [discriminate|]. destruct (u32 (pl_addr q + sh_size s) <? pl_addr q) eqn:E2; [discriminate|].
    destruct (is16 (e_fmt e) && _) eqn:E3; [discriminate|].
    set (file := if (1 <? alignment (e_fmt e) s) && true && _ then _ else _) in H.
    assert (FL : (exists w0, file = p_file p ++ w0) /\ (sh_type s = SHT_PROGBITS \/ e_useBss e = false -> zlen file = zlen (p_file p) + (pl_addr q - p_ofs p)) /\
      (sh_type s <> SHT_PROGBITS -> e_useBss e = true -> file = p_file p)).
    { unfold file. rewrite andb_true_r. destruct (1 <? alignment (e_fmt e) s) eqn:EAL; cbn [andb].
      - destruct ((sh_type s =? SHT_PROGBITS) || negb (e_useBss e)) eqn:EW.
        + split; [unfold fill; eexists; reflexivity|]. split; [intros _; apply zlen_fill; lia|].
          intros N U. rewrite U in EW. cbn in EW. lia.
        + split; [exists []; rewrite app_nil_r; reflexivity|]. split; [|auto]. intros [T|T]; rewrite T in EW; [discriminate|]. destruct (sh_type s =? SHT_PROGBITS); discriminate.
      - split; [exists []; rewrite app_nil_r; reflexivity|]. split; [|auto]. intros _. rewrite Q6. lia. }
    clearbody file. destruct FL as (FL1 & FL2 & FL3).
    match type of H with rbind ?x _ = _ => destruct x as [[buf' file']| |] eqn:EB; try discriminate end. cbn [rbind] in H.
    assert (PF : p_file p' = file' /\ p_buf p' = buf') by (injection H as <-; auto).
    destruct PF as [PF PB]. clear H.
    assert (XO : mkPl f k (pl_addr q) (u32 (e_hdrsz e + p_written p + (pl_addr q - p_startOfs p))) = q).
    { rewrite <- Q3. destruct q. cbn in *. subst. reflexivity. }
    rewrite XO in EB.
    (* the bytes appended *)
    assert (CT : exists b, file' = file ++ b /\ zlen buf' = FBUF + 3 /\
      (sh_type s = SHT_PROGBITS \/ e_useBss e = false -> contents f k o s (pl_addr q) b /\ zlen b = sh_size s) /\
      (sh_type s <> SHT_PROGBITS -> e_useBss e = true -> b = [])).
    { unfold contents. destruct (sh_type s =? SHT_PROGBITS) eqn:ET.
      - assert (T : sh_type s = SHT_PROGBITS) by lia. destruct WB as [WB1 WB2]. destruct (WB1 T) as (B1 & B2 & B3).
        rewrite I5 in EB. destruct (relSect o k) as [rs|] eqn:ER.
        + destruct (WB2 rs eq_refl) as [R1 R2]. rewrite <- B1 in EB.
          destruct (relocWrite_ok (relSym (e_objs e) (e_bs e) ds (q :: p_out p) f o rs) (pl_addr q) (p_buf p) (s_bytes s) (s_rels rs) file I3 R1 R2 B2) as [[_ BAD]|(bf & G1 & G2 & G3)].
          * unfold FBUF. lia.
          * exfalso. eapply BAD. exact EB.
          * rewrite G2 in EB. injection EB as <- <-. eexists. split; [reflexivity|]. split; [auto|]. split; [|intros; contradiction].
            intros _.
            assert (VE : forall r, relSym (e_objs e) (e_bs e) ds (q :: p_out p) f o rs r = val f o rs r).
            { intros r. unfold val, os. apply relSym_ext. exact SO. }
            assert (PE : forall w l, patchAll w (pl_addr q) (LinkReloc.s (relSym (e_objs e) (e_bs e) ds (q :: p_out p) f o rs)) l =
                patchAll w (pl_addr q) (fun r => num (val f o rs r)) l).
            { intros w l. revert w. induction l as [|r l IH]; intros w; cbn [patchAll]; [reflexivity|]. rewrite IH. f_equal. f_equal.
              unfold LinkReloc.s, num. rewrite VE. reflexivity. }
            split.
            -- split; [|apply PE]. revert G1. apply Forall_impl. intros r [K1 K2]. split; auto. rewrite VE in K2. eauto.
            -- rewrite <- B1. clear - R2 B2. revert R2 B2. generalize (s_bytes s). induction (s_rels rs) as [|r l IH]; intros w F BW; cbn [patchAll]; [reflexivity|].
               inversion_clear F as [|? ? F1 F2].
               destruct (patch_ok w (pl_addr q) r (LinkReloc.s (relSym (e_objs e) (e_bs e) ds (q :: p_out p) f o rs) r) F1 BW) as [ZP BP].
               rewrite IH; auto. revert F2. apply Forall_impl. intros r2. unfold inside. rewrite ZP. auto.
        + rewrite <- B1 in EB.
          destruct (relocWrite_ok (fun _ => Err) (pl_addr q) (p_buf p) (s_bytes s) [] file I3 ltac:(constructor) ltac:(constructor) B2) as [[_ BAD]|(bf & G1 & G2 & G3)].
          * unfold FBUF. lia.
          * exfalso. eapply BAD. exact EB.
          * rewrite G2 in EB. injection EB as <- <-. eexists. split; [reflexivity|]. split; [auto|]. split; [|intros; contradiction].
            intros _. cbn [patchAll]. split; [reflexivity|lia].
      - injection EB as <- <-. destruct (e_useBss e) eqn:EU; cbn [negb].
        + exists []. rewrite app_nil_r. split; [reflexivity|]. split; [auto|]. split; [|auto]. intros [C|C]; [lia|discriminate].
        + exists (repeat 0 (Z.to_nat (sh_size s))). split; [reflexivity|]. split; [auto|]. split; [|discriminate].
          intros _. split; [reflexivity|]. unfold zlen. rewrite repeat_length. destruct W. lia. }
    destruct CT as (b & C1 & C2 & C3 & C4). split; [|split; [|split]].
    - split; [auto|]. split; [unfold roomy in *; rewrite Q8, Q9; auto|]. split; [congruence|]. split; [rewrite OQ; auto|congruence].
    - destruct FL1 as (w0 & ->). exists (w0 ++ b). rewrite PF, C1, app_assoc. reflexivity.
    - intros SY T. destruct (C3 T) as [C5 C6]. specialize (FL2 T). unfold synced in *. split.
      + rewrite PF, C1, Q7, Q8, Q9. rewrite zlen_app, FL2, C6. lia.
      + intros o' s' [IN1 IN2] _. rewrite Q1 in IN1. rewrite Q2 in IN2. destruct IN as [IN3 IN4]. rewrite IN3 in IN1. injection IN1 as <-. rewrite IN4 in IN2. injection IN2 as <-.
        exists b. rewrite Q1, Q2. split; [auto|]. exists file, []. rewrite app_nil_r. split; [congruence|].
        assert (OFF : pl_off q = e_hdrsz e + p_written p + (pl_addr q - p_startOfs p)).
        { rewrite Q3. apply u32_small. unfold roomy in I2. pose proof (zlen_nonneg file). destruct W. lia. }
        lia.
    - intros T U. rewrite PF, C1, (C4 T U), app_nil_r. auto.
  Qed.

  Lemma inFile_app file w q : inFile file q -> inFile (file ++ w) q.
  Proof. intros H o s I T. destruct (H o s I T) as (b & B1 & B2). exists b. split; [auto|apply occurs_app; auto]. Qed.
  Definition inFile_all_app file w l : Forall (inFile file) l -> Forall (inFile (file ++ w)) l.
  Proof. apply Forall_impl. intros q. apply inFile_app. Qed.

  Definition okItem (isData : bool) (it : item) : Prop :=
    let '(f, o, k, s) := it in wfSect s /\ wfBytes o k s /\ incl os f k o s /\ isData = negb (has SHF_EXECINSTR (sh_flags s)).
  Definition bits (it : item) : bool := sh_type (isect it) =? SHT_PROGBITS.

  Lemma foldP_file j isData its : forall p p' new, inv p -> Forall (okItem isData) its ->
    foldP e true j isData its p = Ok p' -> p_out p' = new ++ p_out p -> Forall settledQ new ->
    inv p' /\ (exists w, p_file p' = p_file p ++ w) /\
    (synced p -> Forall (fun it => bits it = true \/ e_useBss e = false) its -> synced p' /\ Forall (inFile (p_file p')) new) /\
    (Forall (fun it => bits it = false) its -> e_useBss e = true -> p_file p' = p_file p /\ forall file, Forall (inFile file) new).
  Proof.
    induction its as [|[[[f o] k] s] its IH]; intros p p' new IV OKI H ON ST; cbn [foldP] in H.
    { injection H as <-. assert (new = []) as -> by (apply (app_inv_tail (p_out p)); auto).
      split; [auto|]. split; [exists []; rewrite app_nil_r; auto|]. split; [auto|]. intros _ _. split; [auto|constructor]. }
    inversion_clear OKI as [|? ? OI OKI']. unfold okItem in OI. destruct OI as (O1 & O2 & O3 & O4).
    destruct (placeSect e true j isData f o k s p) as [p1| |] eqn:E; try discriminate. cbn [rbind] in H.
    destruct (placeSect_inv _ _ _ _ _ _ _ _ _ _ (proj1 IV) O1 O4 E) as (q & Q1 & Q2 & _ & _ & _ & _ & _ & _ & _ & Q9 & Q10).
    destruct (foldP_inv e true j isData its p1 p' Q10) as (g & _ & _ & G3 & _); auto.
    { revert OKI'. apply Forall_impl. intros [[[f' o'] k'] s'] (A1 & _ & _ & A4). cbn. auto. }
    assert (EN : new = rev (map snd g) ++ [q]). { apply (app_inv_tail (p_out p)). rewrite <- ON, G3, Q9, <- app_assoc. reflexivity. }
    subst new. apply Forall_app in ST as [ST1 ST2]. inversion_clear ST2 as [|? ? ST3 _].
    destruct (placeSect_file j isData f o k s p p1 q IV O1 O2 O3 O4 E Q9 ST3) as (V1 & (w1 & V2) & V3 & V4).
    destruct (IH p1 p' (rev (map snd g)) V1 OKI' H G3 ST1) as (U1 & (w2 & U2) & U3 & U4).
    split; [auto|]. split; [exists (w1 ++ w2); rewrite U2, V2, app_assoc; reflexivity|]. split.
    - intros SY FB. inversion_clear FB as [|? ? B1 B2].
      assert (B1' : sh_type s = SHT_PROGBITS \/ e_useBss e = false) by (unfold bits in B1; cbn [isect] in B1; destruct B1; [left; lia|auto]).
      destruct (V3 SY B1') as [SY1 IF1]. destruct (U3 SY1 B2) as [SY2 IF2]. split; [auto|]. apply Forall_app. split; [auto|]. constructor; [|constructor].
      rewrite U2. apply inFile_app. auto.
    - intros FB U. inversion_clear FB as [|? ? B1 B2]. unfold bits in B1. cbn [isect] in B1. destruct (U4 B2 U) as [U5 U6].
      split; [rewrite U5, V4; auto; lia|]. intros file. apply Forall_app. split; [auto|]. constructor; [|constructor].
      intros o' s' [I1 I2] T. rewrite Q1 in I1. rewrite Q2 in I2. destruct O3 as [O5 O6]. rewrite O5 in I1. injection I1 as <-. rewrite O6 in I2. injection I2 as <-.
      destruct T; [lia|congruence].
  Qed.

  Lemma placeRelod_file j isData p p' : inv p -> goodRelod e -> e_relod e <> 0 -> placeRelod e true j isData p = Ok p' ->
    inv p' /\ (exists w, p_file p' = p_file p ++ w) /\ (synced p -> synced p').
  Proof.
    intros (I1 & I2 & I3 & I4 & I5) [GR1 GR2] NZ H. pose proof (placeRelod_ds _ _ _ _ _ _ H) as [_ D]. specialize (D eq_refl).
    destruct (placeRelod_inv e true j isData p p' I1 GR1 (GR2 NZ) H) as (R1 & R2 & R3 & R4 & R5 & R6).
    specialize (GR2 NZ). unfold okState in *.
    unfold placeRelod in H. destruct (_ <? p_ofs p) eqn:E1 in H; [discriminate|]. match type of H with (if ?c then _ else _) = _ => destruct c eqn:E2; [discriminate|] end.
    destruct (negb _) eqn:E3 in H; [discriminate|].
    assert (PB : p_buf p' = p_buf p /\ p_file p' = fill 0 (u32 (u32 (p_ofs p + 3) / 4 * 4) - p_ofs p) (p_file p) ++ relodBytes (p_out p) 0 (e_objs e)) by (injection H as <-; auto).
    destruct PB as [PB PF]. split; [|split].
    - split; [auto|]. split; [unfold roomy in *; rewrite R2, R3; auto|]. split; [congruence|]. split; [rewrite R4; auto|congruence].
    - rewrite PF. unfold fill. eexists. rewrite <- app_assoc. reflexivity.
    - unfold synced. intros SY. rewrite PF, zlen_app. rewrite zlen_fill by lia. rewrite R6, R2, R3.
      assert (zlen (relodBytes (p_out p) 0 (e_objs e)) = e_relod e) by lia.
      rewrite (u32_small (p_ofs p + 3)) by (rewrite R6 in R5; lia). rewrite u32_small by (rewrite R6 in R5; lia). lia.
  Qed.

  Lemma padAfter_file d nxt p p' : inv p -> e_fmt e <> FormatDosExeSmall -> padAfter e true d nxt p = Ok p' ->
    (has SHF_EXECINSTR (d_attrs d) = true -> d_attrs d = 4) ->
    inv p' /\ (exists w, p_file p' = p_file p ++ w) /\ (synced p -> synced p') /\
    (e_useBss e = true -> has SHT_NOBITS (d_attrs d) = true -> p_file p' = p_file p).
  Proof.
    intros (I1 & I2 & I3 & I4 & I5) NS H X4. pose proof (padAfter_ds _ _ _ _ _ _ H) as D.
    destruct (padAfter_inv e true d nxt p p' I1) as (P1 & P2 & P3 & P4 & P5); auto; [intros; contradiction|].
    unfold padAfter in H. destruct (e_fmt e =? FormatDosExeSmall) eqn:EF; [lia|].
    assert (ID : p = p' -> inv p' /\ (exists w, p_file p' = p_file p ++ w) /\ (synced p -> synced p') /\
      (e_useBss e = true -> has SHT_NOBITS (d_attrs d) = true -> p_file p' = p_file p)).
    { intros <-. split; [split; [auto|]; split; [auto|]; split; [auto|]; split; auto|]. split; [exists []; rewrite app_nil_r; auto|]. auto. }
    destruct (isPaged (e_fmt e) || (e_fmt e =? FormatAout)); [|injection H as H; auto].
    match type of H with (if ?c then _ else _) = _ => destruct c eqn:EC end; [|injection H as H; auto].
    destruct (alignTo (p_ofs p) 4096 <? p_ofs p) eqn:E1; [discriminate|].
    assert (PB : p_buf p' = p_buf p /\ p_ofs p' = alignTo (p_ofs p) 4096 /\ exists b, p_file p' = fill b (alignTo (p_ofs p) 4096 - p_ofs p) (p_file p)) by (injection H as <-; cbn; eauto).
    destruct PB as (PB & PO & b & PF). split; [|split; [|split]].
    - split; [auto|]. split; [unfold roomy in *; rewrite P2, P3; auto|]. split; [congruence|]. split; [rewrite P4; auto|congruence].
    - rewrite PF. unfold fill. eauto.
    - unfold synced. intros SY. rewrite PF, zlen_fill by lia. rewrite PO, P2, P3. lia.
    - intros U N. exfalso. rewrite U, N in EC. cbn [negb andb orb] in EC. rewrite !orb_false_r in EC.
      assert (EX : has SHF_EXECINSTR (d_attrs d) = false).
      { destruct (has SHF_EXECINSTR (d_attrs d)); [|reflexivity]. rewrite X4 in N by auto. discriminate. }
      rewrite EX in EC. cbn [negb andb orb] in EC.
      assert (K1 : has KEEP (d_attrs d) = true).
      { unfold has in *. apply negb_true_iff in N. apply negb_true_iff. apply Z.eqb_neq in N. apply Z.eqb_neq. intros C. apply N.
        unfold KEEP in C. rewrite Z.land_lor_distr_r in C. apply Z.lor_eq_0_iff in C. apply C. }
      assert (K2 : Z.land (d_attrs d) KEEP =? SHF_WRITE = false).
      { apply Z.eqb_neq. intros C. assert (Z.land (Z.land (d_attrs d) KEEP) SHT_NOBITS = 0) by (rewrite C; reflexivity).
        rewrite <- Z.land_assoc in H0. change (Z.land KEEP SHT_NOBITS) with SHT_NOBITS in H0. unfold has in N. rewrite H0 in N. discriminate. }
      rewrite K1, K2 in EC. rewrite !andb_false_r in EC. cbn in EC. discriminate.
  Qed.

  Definition okDescr (d : descr) : Prop :=
    Forall (okItem (negb (has SHF_EXECINSTR (d_attrs d)))) (items (d_name d) 0 (e_objs e)) /\
    Forall (fun it => bits it = negb (has SHT_NOBITS (d_attrs d))) (items (d_name d) 0 (e_objs e)) /\
    (has SHF_EXECINSTR (d_attrs d) = true -> d_attrs d = 4) /\
    (e_relod e <> 0 -> d_name d = RELOD -> has SHT_NOBITS (d_attrs d) = false).

  Lemma okDescr_good l : Forall okDescr l -> goodNames e l.
  Proof.
    apply Forall_impl. intros d (H & _). revert H. apply Forall_impl. intros [[[f o] k] s] (A1 & _ & _ & A4). cbn. split; [auto|].
    destruct (has SHF_EXECINSTR (d_attrs d)), (has SHF_EXECINSTR (sh_flags s)); cbn in A4; congruence.
  Qed.

  Lemma passLoop_file l : forall j p p' new, inv p -> goodRelod e -> Forall okDescr l -> e_fmt e <> FormatDosExeSmall ->
    StronglySorted (fun d d' => has SHT_NOBITS (d_attrs d) = true -> has SHT_NOBITS (d_attrs d') = true) l ->
    synced p \/ e_useBss e = true /\ Forall (fun d => has SHT_NOBITS (d_attrs d) = true) l ->
    passLoop e true j l p = Ok p' -> p_out p' = new ++ p_out p -> Forall settledQ new ->
    inv p' /\ (exists w, p_file p' = p_file p ++ w) /\ Forall (inFile (p_file p')) new /\
    (synced p -> e_useBss e = false \/ Forall (fun d => has SHT_NOBITS (d_attrs d) = false) l -> synced p').
  Proof.
    induction l as [|d rest IH]; intros j p p' new IV GR OKD NS SS SY H ON ST.
    { injection H as <-. assert (new = []) as -> by (apply (app_inv_tail (p_out p)); auto).
      split; [auto|]. split; [exists []; rewrite app_nil_r; auto|]. split; [constructor|]. auto. }
    inversion_clear OKD as [|? ? OI OKD']. destruct OI as (D1 & D2 & D3 & D4). inversion_clear SS as [|? ? S1 S2].
    rewrite passLoop_cons in H. cbv zeta in H. unfold resetP in H. rewrite placeObjs_fold in H.
    destruct (foldP _ _ _ _ _ _) as [p1| |] eqn:E1; try discriminate. cbn [rbind] in H.
    match type of H with rbind ?x _ = _ => destruct x as [p2| |] eqn:E2; try discriminate end. cbn [rbind] in H.
    destruct (padAfter e true d (hd_error rest) p2) as [p3| |] eqn:E3; try discriminate. cbn [rbind] in H.
    destruct (foldP_inv e true j (negb (has SHF_EXECINSTR (d_attrs d))) (items (d_name d) 0 (e_objs e)) p p1 (proj1 IV)) as (g & _ & _ & G3 & _ & _ & _ & G7); [|exact E1|].
    { revert D1. apply Forall_impl. intros [[[f' o'] k'] s'] (A1 & _ & _ & A4). cbn. auto. }
    assert (O2 : p_out p2 = p_out p1 /\ okState e p2).
    { destruct (negb (e_relod e =? 0) && eqs (d_name d) RELOD) eqn:EB; [|injection E2 as <-; auto]. apply andb_true_iff in EB as [EB _]. destruct GR as [GR1 GR2].
      destruct (placeRelod_inv e true j _ p1 p2 G7 GR1 (GR2 ltac:(lia)) E2) as (_ & _ & _ & R4 & R5 & _). auto. }
    destruct (padAfter_inv e true d (hd_error rest) p2 p3 (proj2 O2)) as (_ & _ & _ & P4 & P5); auto; [intros; contradiction|].
    destruct (passLoop_run e true rest (S j) p3 p' P5 GR (okDescr_good _ OKD')) as (gs & _ & _ & L3 & _); [intros; contradiction|exact H|].
    set (n2 := rev (map snd (List.concat gs))) in *. set (n1 := rev (map snd g)) in *.
    assert (EN : new = n2 ++ n1). { apply (app_inv_tail (p_out p)). rewrite <- ON, L3, P4, (proj1 O2), G3, <- app_assoc. reflexivity. }
    clearbody n1 n2. subst new. apply Forall_app in ST as [ST2 ST1].
    destruct (foldP_file j _ _ p p1 n1 IV D1 E1 G3 ST1) as (F1 & (w1 & F2) & F3 & F4).
    assert (REL : inv p2 /\ (exists w, p_file p2 = p_file p1 ++ w) /\ (synced p1 -> synced p2) /\
      (has SHT_NOBITS (d_attrs d) = true -> p_file p2 = p_file p1)).
    { destruct (negb (e_relod e =? 0) && eqs (d_name d) RELOD) eqn:EB.
      - apply andb_true_iff in EB as [EB EB2]. apply eqs_true in EB2.
        destruct (placeRelod_file j _ p1 p2 F1 GR ltac:(lia) E2) as (V1 & V2 & V3). split; [auto|]. split; [auto|]. split; [auto|].
        intros N. rewrite D4 in N; [discriminate|lia|auto].
      - injection E2 as <-. split; [auto|]. split; [exists []; rewrite app_nil_r; auto|]. auto. }
    destruct REL as (V1 & (w2 & V2) & V3 & V4).
    destruct (padAfter_file d (hd_error rest) p2 p3 V1 NS E3 D3) as (U1 & (w3 & U2) & U3 & U4).
    assert (B : has SHT_NOBITS (d_attrs d) = false \/ e_useBss e = false -> Forall (fun it => bits it = true \/ e_useBss e = false) (items (d_name d) 0 (e_objs e))).
    { intros [N|N]; [|apply Forall_forall; auto]. rewrite N in D2. revert D2. apply Forall_impl. auto. }
    assert (SY3 : synced p -> has SHT_NOBITS (d_attrs d) = false \/ e_useBss e = false -> synced p3) by (intros Y N; apply U3, V3, F3; auto).
    assert (SYN : synced p3 \/ e_useBss e = true /\ Forall (fun d => has SHT_NOBITS (d_attrs d) = true) rest).
    { destruct (has SHT_NOBITS (d_attrs d)) eqn:N.
      - destruct (e_useBss e) eqn:U.
        + right. split; [auto|]. revert S2. apply Forall_impl. auto.
        + destruct SY as [SY|[SY _]]; [|discriminate]. left. apply SY3; auto.
      - destruct SY as [SY|[_ SY]]; [|inversion SY; congruence]. left. apply SY3; auto. }
    destruct (IH (S j) p3 p' n2 U1 GR OKD' NS S1 SYN H L3 ST2) as (T1 & (w4 & T2) & T3 & T4).
    split; [auto|]. split; [exists (w1 ++ w2 ++ w3 ++ w4); rewrite T2, U2, V2, F2, !app_assoc; reflexivity|]. split.
    - apply Forall_app. split; [auto|].
      assert (IF1 : Forall (inFile (p_file p1)) n1).
      { destruct (has SHT_NOBITS (d_attrs d)) eqn:N.
        - destruct (e_useBss e) eqn:U; [apply F4; auto|]. destruct SY as [SY|[SY _]]; [|discriminate]. apply F3; auto.
        - destruct SY as [SY|[_ SY]]; [|inversion SY; congruence]. apply F3; auto. }
      rewrite T2, U2, V2. do 3 apply inFile_all_app. auto.
    - intros Y N. apply T4.
      + apply SY3; auto. destruct N as [N|N]; [auto|]. inversion N; auto.
      + destruct N as [N|N]; [auto|]. inversion N; auto.
  Qed.
End Image.
