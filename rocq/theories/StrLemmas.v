(** Lemmas about the string functions. *)
From Verif Require Import Base BaseLemmas StrSpec StrModel.

Lemma bytes_cons m p b l : bytes m p (b :: l) <-> m p = Some b /\ bytes m (p + 1) l.
Proof.
  unfold bytes. split.
  - intros H. split; [specialize (H 0%nat b eq_refl); now rewrite Z.add_0_r in H|].
    intros i c Hi. specialize (H (S i) c Hi). rewrite <- H. f_equal. lia.
  - intros [H0 H] [|i] c Hi; cbn in Hi.
    + apply some_inj in Hi. subst. now rewrite Z.add_0_r.
    + specialize (H i c Hi). rewrite <- H. f_equal. lia.
Qed.
Lemma bytes_nil m p : bytes m p []. Proof. intros [|i] b H; discriminate. Qed.
Lemma bytes_app m p a b : bytes m p (a ++ b) <-> bytes m p a /\ bytes m (p + zlen a) b.
Proof.
  revert p. induction a as [|x a IH]; intros p; cbn [app].
  - unfold zlen. cbn. rewrite Z.add_0_r. split; [split; auto using bytes_nil|tauto].
  - rewrite !bytes_cons, IH, zlen_cons, Z.add_assoc. tauto.
Qed.
Lemma bytes_ext m m' p l : bytes m p l -> (forall a, p <= a < p + zlen l -> m' a = m a) -> bytes m' p l.
Proof.
  intros H E i b Hi. rewrite E; [auto|]. assert (i < length l)%nat by (apply nth_error_Some; congruence). unfold zlen. lia.
Qed.
Lemma str_nil m p : str m p [] <-> m p = Some 0.
Proof. unfold str. cbn [app]. rewrite bytes_cons. split; [tauto|]. intros H. repeat split; auto using bytes_nil. Qed.
Lemma str_cons m p b l : str m p (b :: l) <-> chr b /\ m p = Some b /\ str m (p + 1) l.
Proof.
  unfold str. cbn [app]. rewrite bytes_cons. split.
  - intros [[H1 H2] H3]. inversion H3; subst. auto.
  - intros (H1 & H2 & H3 & H4). auto.
Qed.
Lemma str_ext m m' p l : str m p l -> (forall a, p <= a <= p + zlen l -> m' a = m a) -> str m' p l.
Proof. intros [H1 H2] E. split; auto. eapply bytes_ext; eauto. intros a. rewrite zlen_app. change (zlen [0]) with 1. intros. apply E. lia. Qed.
Lemma str_app m p a b : str m p (a ++ b) -> bytes m p a /\ Forall chr a /\ str m (p + zlen a) b.
Proof.
  intros [H1 H2]. rewrite <- app_assoc in H1. apply bytes_app in H1 as [H0 H1]. apply Forall_app in H2 as [H2 H3]. repeat split; auto.
Qed.

Lemma s8_u8 b : byte b -> u8 (s8 b) = b.
Proof. unfold byte, u8, s8. intros. rewrite wrap_swrap by lia. now apply wrap_small. Qed.
Lemma s8_inj a b : byte a -> byte b -> (s8 a =? s8 b) = (a =? b).
Proof. intros Ha Hb. apply Bool.eq_true_iff_eq. rewrite !Z.eqb_eq. split; [|congruence]. intros E. rewrite <- (s8_u8 a), <- (s8_u8 b); congruence. Qed.
Lemma s8_zero b : byte b -> (s8 b =? 0) = (b =? 0).
Proof. intros H. change 0 with (s8 0) at 1. rewrite s8_inj; auto. unfold byte. lia. Qed.
Lemma s8_of_u8 c : s8 (u8 c) = s8 c. Proof. apply swrap_wrap. Qed.
Lemma chr_byte b : chr b -> byte b. Proof. unfold chr, byte. lia. Qed.
Lemma chr_nz b : chr b -> (s8 b =? 0) = false.
Proof. intros H. rewrite s8_zero by now apply chr_byte. unfold chr in H. lia. Qed.
Lemma byte0 : byte 0. Proof. unfold byte. lia. Qed.
Lemma u8_byte c : byte (u8 c). Proof. unfold byte, u8. apply (wrap_range 8 c). lia. Qed.
Lemma ldc_ok m a b : m a = Some b -> ldc m a = Some (s8 b).
Proof. unfold ldc. intros ->. reflexivity. Qed.
Lemma st_ok m a v : m a <> None -> exists m', st m a v = Some m' /\ m' a = Some (u8 v) /\ forall x, x <> a -> m' x = m x.
Proof.
  unfold st. intros H. destruct (m a) eqn:E; [|contradiction]. eexists. split; [reflexivity|]. cbn. rewrite Z.eqb_refl. split; auto.
  intros x Hx. destruct (Z.eqb_spec x a); [contradiction|auto].
Qed.

(** ** mem* *)
Lemma up_ok l : forall m d s, bytes m s l -> Forall byte l -> writable m d (zlen l) -> d <= s \/ s + zlen l <= d ->
  exists m', up (length l) m d s = Some m' /\ bytes m' d l /\ only m m' d (zlen l).
Proof.
  induction l as [|b l IH]; intros m d s Hb Hy Hw Hd.
  - exists m. split; [reflexivity|]. split; [apply bytes_nil|]. intros a _. reflexivity.
  - apply bytes_cons in Hb as [H0 Hb]. inversion Hy as [|? ? Y0 Y1]; subst. rewrite zlen_cons in *. pose proof (zlen_nonneg l).
    cbn [length up]. rewrite (ldc_ok _ _ _ H0). cbn [obind].
    destruct (st_ok m d (s8 b)) as (m1 & -> & E1 & E2); [apply Hw; lia|]. cbn [obind]. rewrite s8_u8 in E1 by auto.
    destruct (IH m1 (d + 1) (s + 1)) as (m' & -> & B & O).
    + eapply bytes_ext; eauto. intros a Ha. apply E2. lia.
    + auto.
    + intros a Ha. rewrite E2 by lia. apply Hw. lia.
    + lia.
    + exists m'. split; [reflexivity|]. split.
      * apply bytes_cons. split; [rewrite O by lia; exact E1|exact B].
      * intros a Ha. rewrite O by lia. apply E2. lia.
Qed.
Lemma down_ok l : forall m d s, bytes m (s - zlen l) l -> Forall byte l -> writable m (d - zlen l) (zlen l) -> s <= d ->
  exists m', down (length l) m d s = Some m' /\ bytes m' (d - zlen l) l /\ only m m' (d - zlen l) (zlen l).
Proof.
  induction l as [|b l IH] using rev_ind; intros m d s Hb Hy Hw Hd.
  - exists m. split; [reflexivity|]. split; [apply bytes_nil|]. intros a _. reflexivity.
  - rewrite zlen_app in *. change (zlen [b]) with 1 in *. pose proof (zlen_nonneg l).
    apply bytes_app in Hb as [Hb H0]. apply Forall_app in Hy as [Y1 Y0]. inversion Y0; subst.
    apply bytes_cons in H0 as [H0 _]. rewrite app_length. cbn [length]. rewrite Nat.add_1_r. cbn [down].
    replace (s - (zlen l + 1) + zlen l) with (s - 1) in H0 by lia.
    rewrite (ldc_ok _ _ _ H0). cbn [obind].
    destruct (st_ok m (d - 1) (s8 b)) as (m1 & -> & E1 & E2); [apply Hw; lia|]. cbn [obind]. rewrite s8_u8 in E1 by auto.
    destruct (IH m1 (d - 1) (s - 1)) as (m' & -> & B & O); auto.
    + replace (s - 1 - zlen l) with (s - (zlen l + 1)) by lia. eapply bytes_ext; eauto. intros a Ha. apply E2. lia.
    + intros a Ha. rewrite E2 by lia. apply Hw. lia.
    + lia.
    + exists m'. split; [reflexivity|]. replace (d - 1 - zlen l) with (d - (zlen l + 1)) in * by lia. split.
      * apply bytes_app. split; [exact B|]. apply bytes_cons. split; [|apply bytes_nil].
        replace (d - (zlen l + 1) + zlen l) with (d - 1) by lia. rewrite O by lia. exact E1.
      * intros a Ha. rewrite O by lia. apply E2. lia.
Qed.
Lemma fill_ok n : forall m p c, writable m p (Z.of_nat n) ->
  exists m', fill n m p c = Some m' /\ bytes m' p (repeat (u8 c) n) /\ only m m' p (Z.of_nat n).
Proof.
  induction n as [|n IH]; intros m p c Hw.
  - exists m. split; [reflexivity|]. split; [apply bytes_nil|]. intros a _. reflexivity.
  - cbn [fill]. destruct (st_ok m p c) as (m1 & -> & E1 & E2); [apply Hw; lia|]. cbn [obind].
    destruct (IH m1 (p + 1) c) as (m' & -> & B & O).
    + intros a Ha. rewrite E2 by lia. apply Hw. lia.
    + exists m'. split; [reflexivity|]. split.
      * cbn [repeat]. apply bytes_cons. split; [rewrite O by lia; exact E1|exact B].
      * intros a Ha. rewrite O by lia. apply E2. lia.
Qed.
Lemma compared_cons b l1 l2 r : compared l1 l2 r -> compared (b :: l1) (b :: l2) r.
Proof.
  intros [[-> ->]|(p & x & y & t1 & t2 & -> & -> & Hn & ->)]; [left; auto|right].
  exists (b :: p), x, y, t1, t2. auto.
Qed.
Lemma memcmp_ok l1 : forall l2 m p1 p2, bytes m p1 l1 -> bytes m p2 l2 -> length l1 = length l2 ->
  exists r, memcmp_loop (length l1) m p1 p2 = Some r /\ compared l1 l2 r.
Proof.
  induction l1 as [|a l1 IH]; intros [|b l2] m p1 p2 H1 H2 HL; try discriminate.
  - exists 0. split; [reflexivity|]. left. auto.
  - apply bytes_cons in H1 as [A1 H1]. apply bytes_cons in H2 as [A2 H2]. cbn [length memcmp_loop]. unfold ld. rewrite A1, A2. cbn [obind].
    destruct (Z.eqb_spec a b) as [->|Hn]; cbn [negb].
    + destruct (IH l2 m (p1 + 1) (p2 + 1) H1 H2) as (r & -> & Hr); [cbn in HL; lia|]. exists r. auto using compared_cons.
    + exists (a - b). split; auto. right. exists [], a, b, l1, l2. auto.
Qed.
Lemma memchr_ok l : forall m p c, bytes m p l -> Forall byte l -> byte c ->
  (exists i, first_at l c i /\ memchr_loop (length l) m p (s8 c) = Some (p + Z.of_nat i)) \/
  (~ In c l /\ memchr_loop (length l) m p (s8 c) = Some 0).
Proof.
  induction l as [|a l IH]; intros m p c H Hy Hc.
  - right. split; [intros []|reflexivity].
  - apply bytes_cons in H as [A H]. inversion Hy; subst. cbn [length memchr_loop]. rewrite (ldc_ok _ _ _ A). cbn [obind].
    rewrite s8_inj by auto. destruct (Z.eqb_spec a c) as [->|Hn].
    + left. exists 0%nat. rewrite Z.add_0_r. split; auto. split; [reflexivity|lia].
    + destruct (IH m (p + 1) c H) as [(i & [F1 F2] & E)|[F E]]; auto.
      * left. exists (S i). split; [split; [exact F1|]|rewrite E; f_equal; lia].
        intros [|j] Hj; cbn; [congruence|]. apply F2. lia.
      * right. split; auto. intros [|]; congruence.
Qed.

(** ** str* *)
Lemma skip_ok l : forall fuel m p, str m p l -> (length l < fuel)%nat -> skip_str fuel m p = Some (p + zlen l).
Proof.
  induction l as [|b l IH]; intros [|fuel] m p H Hf; cbn in Hf; try lia; cbn [skip_str].
  - apply str_nil in H. rewrite (ldc_ok _ _ _ H). cbn. f_equal. unfold zlen. cbn. lia.
  - apply str_cons in H as (Hc & H0 & H). rewrite (ldc_ok _ _ _ H0). cbn [obind]. rewrite chr_nz by auto.
    rewrite IH by (auto; lia). rewrite zlen_cons. f_equal. lia.
Qed.
Lemma copy_ok l : forall fuel m d s, str m s l -> writable m d (zlen l + 1) -> d <= s \/ s + zlen l < d -> (length l < fuel)%nat ->
  exists m', copy_str fuel m d s = Some m' /\ str m' d l /\ only m m' d (zlen l + 1).
Proof.
  induction l as [|b l IH]; intros [|fuel] m d s H Hw Hd Hf; cbn in Hf; try lia; cbn [copy_str].
  - apply str_nil in H. change (zlen (@nil Z)) with 0 in *. rewrite (ldc_ok _ _ _ H). cbn [obind].
    destruct (st_ok m d (s8 0)) as (m1 & -> & E1 & E2); [apply Hw; lia|]. cbn [obind].
    exists m1. split; [reflexivity|]. split; [apply str_nil; exact E1|]. intros a Ha. apply E2. lia.
  - apply str_cons in H as (Hc & H0 & H). rewrite zlen_cons in *. pose proof (zlen_nonneg l). rewrite (ldc_ok _ _ _ H0). cbn [obind].
    destruct (st_ok m d (s8 b)) as (m1 & -> & E1 & E2); [apply Hw; lia|]. cbn [obind]. rewrite chr_nz by auto.
    rewrite s8_u8 in E1 by now apply chr_byte.
    destruct (IH fuel m1 (d + 1) (s + 1)) as (m' & -> & B & O); try lia.
    + eapply str_ext; eauto. intros a Ha. apply E2. lia.
    + intros a Ha. rewrite E2 by lia. apply Hw. lia.
    + exists m'. split; [reflexivity|]. split.
      * apply str_cons. split; auto. split; [rewrite O by lia; exact E1|exact B].
      * intros a Ha. rewrite O by lia. apply E2. lia.
Qed.
Lemma nstr_O m p l : nstr m p 0 l -> l = [].
Proof. intros [_ [[H _]|[H _]]]; [|lia]. now destruct l. Qed.
Lemma nstr_S m p n l : nstr m p (S n) l ->
  (l = [] /\ m p = Some 0) \/ exists b t, l = b :: t /\ chr b /\ m p = Some b /\ nstr m (p + 1) n t.
Proof.
  intros [Hc [[HL H]|[HL H]]].
  - destruct l as [|b t]; [discriminate|]. right. apply bytes_cons in H as [H0 H]. inversion Hc; subst.
    exists b, t. split; [auto|]. split; [auto|]. split; [auto|]. split; auto.
  - destruct l as [|b t]; [left; split; auto; now apply str_nil|]. right. apply str_cons in H as (C & H0 & H). inversion Hc; subst.
    exists b, t. split; [auto|]. split; [auto|]. split; [auto|]. split; auto. right. cbn in HL. split; auto. lia.
Qed.
Lemma nstr_ext m m' p n l : nstr m p n l -> (forall a, p <= a < p + Z.min (Z.of_nat n) (zlen l + 1) -> m' a = m a) -> nstr m' p n l.
Proof.
  intros [Hc H] E. split; auto. destruct H as [[HL H]|[HL H]]; [left|right]; split; auto.
  - eapply bytes_ext; eauto. intros a Ha. apply E. unfold zlen in *. lia.
  - eapply str_ext; eauto. intros a Ha. apply E. unfold zlen in *. lia.
Qed.
Lemma nstr_len m p n l : nstr m p n l -> (length l <= n)%nat.
Proof. intros [_ [[H _]|[H _]]]; lia. Qed.
Lemma ncopy_ok n : forall l m d s, nstr m s n l -> writable m d (Z.of_nat n) ->
  d <= s \/ s + Z.min (Z.of_nat n) (zlen l + 1) <= d ->
  exists m' k z, ncopy n m d s = Some (m', d + zlen (l ++ z), k) /\ (n = length (l ++ z) + k)%nat /\
    (z = [] \/ z = [0]) /\ bytes m' d (l ++ z) /\ only m m' d (zlen (l ++ z)).
Proof.
  induction n as [|n IH]; intros l m d s H Hw Hd.
  - apply nstr_O in H. subst l. exists m, 0%nat, []. cbn. rewrite Z.add_0_r. repeat split; auto. apply bytes_nil.
  - cbn [ncopy]. apply nstr_S in H as [[-> H]|(b & t & -> & Hc & H0 & H)].
    + rewrite (ldc_ok _ _ _ H). cbn [obind].
      destruct (st_ok m d (s8 0)) as (m1 & -> & E1 & E2); [apply Hw; lia|]. cbn [obind].
      exists m1, n, [0]. split; [reflexivity|]. cbn [app length]. split; [lia|]. split; auto. split.
      * apply bytes_cons. split; [exact E1|apply bytes_nil].
      * intros a Ha. apply E2. change (zlen [0]) with 1 in Ha. lia.
    + rewrite zlen_cons in *. pose proof (zlen_nonneg t). rewrite (ldc_ok _ _ _ H0). cbn [obind].
      destruct (st_ok m d (s8 b)) as (m1 & -> & E1 & E2); [apply Hw; lia|]. cbn [obind]. rewrite chr_nz by auto.
      rewrite s8_u8 in E1 by now apply chr_byte.
      destruct (IH t m1 (d + 1) (s + 1)) as (m' & k & z & -> & Hk & Hz & B & O).
      * eapply nstr_ext; eauto. intros a Ha. apply E2. lia.
      * intros a Ha. rewrite E2 by lia. apply Hw. lia.
      * lia.
      * exists m', k, z. cbn [app length]. rewrite zlen_cons. split; [do 3 f_equal; lia|]. split; [lia|]. split; auto. split.
        -- apply bytes_cons. split; [rewrite O by lia; exact E1|exact B].
        -- intros a Ha. rewrite O by lia. apply E2. pose proof (zlen_nonneg (t ++ z)). lia.
Qed.
Lemma ncat_ok n : forall l m d s, nstr m s n l -> writable m d (zlen l) ->
  d <= s \/ s + Z.min (Z.of_nat n) (zlen l + 1) <= d ->
  exists m', ncat n m d s = Some (m', d + zlen l) /\ bytes m' d l /\ only m m' d (zlen l).
Proof.
  induction n as [|n IH]; intros l m d s H Hw Hd.
  - apply nstr_O in H. subst l. exists m. cbn. rewrite Z.add_0_r. repeat split; auto. apply bytes_nil.
  - cbn [ncat]. apply nstr_S in H as [[-> H]|(b & t & -> & Hc & H0 & H)].
    + rewrite (ldc_ok _ _ _ H). cbn. exists m. rewrite Z.add_0_r. repeat split; auto. apply bytes_nil.
    + rewrite zlen_cons in *. pose proof (zlen_nonneg t). rewrite (ldc_ok _ _ _ H0). cbn [obind]. rewrite chr_nz by auto.
      destruct (st_ok m d (s8 b)) as (m1 & -> & E1 & E2); [apply Hw; lia|]. cbn [obind].
      rewrite s8_u8 in E1 by now apply chr_byte.
      destruct (IH t m1 (d + 1) (s + 1)) as (m' & -> & B & O).
      * eapply nstr_ext; eauto. intros a Ha. apply E2. lia.
      * intros a Ha. rewrite E2 by lia. apply Hw. lia.
      * lia.
      * exists m'. split; [do 2 f_equal; lia|]. split.
        -- apply bytes_cons. split; [rewrite O by lia; exact E1|exact B].
        -- intros a Ha. rewrite O by lia. apply E2. lia.
Qed.
Lemma strcmp_ok l1 : forall l2 fuel m p1 p2, str m p1 l1 -> str m p2 l2 -> (length l1 < fuel)%nat ->
  exists r, strcmp fuel m p1 p2 = Some r /\ compared (l1 ++ [0]) (l2 ++ [0]) r.
Proof.
  induction l1 as [|a l1 IH]; intros l2 [|fuel] m p1 p2 H1 H2 Hf; cbn in Hf; try lia; cbn [strcmp].
  - apply str_nil in H1. destruct l2 as [|b l2].
    + apply str_nil in H2. rewrite (ldc_ok _ _ _ H1), (ldc_ok _ _ _ H2). cbn. exists 0. split; auto. left. auto.
    + apply str_cons in H2 as (Cb & B0 & H2). rewrite (ldc_ok _ _ _ H1), (ldc_ok _ _ _ B0). cbn [obind].
      pose proof (chr_byte _ Cb). rewrite s8_inj by (auto using byte0). unfold chr in Cb. destruct (Z.eqb_spec 0 b); [lia|].
      rewrite !s8_u8 by auto using byte0. exists (0 - b). split; auto. right. exists [], 0, b, [], (l2 ++ [0]). auto.
  - apply str_cons in H1 as (Ca & A0 & H1). pose proof (chr_byte _ Ca). destruct l2 as [|b l2].
    + apply str_nil in H2. rewrite (ldc_ok _ _ _ A0), (ldc_ok _ _ _ H2). cbn [obind].
      rewrite s8_inj by (auto using byte0). unfold chr in Ca. destruct (Z.eqb_spec a 0); [lia|].
      rewrite !s8_u8 by auto using byte0. exists (a - 0). split; auto. right. exists [], a, 0, (l1 ++ [0]), []. auto.
    + apply str_cons in H2 as (Cb & B0 & H2). pose proof (chr_byte _ Cb). rewrite (ldc_ok _ _ _ A0), (ldc_ok _ _ _ B0). cbn [obind].
      rewrite s8_inj by auto. destruct (Z.eqb_spec a b) as [->|Hn].
      * rewrite chr_nz by auto. destruct (IH l2 fuel m (p1 + 1) (p2 + 1) H1 H2) as (r & -> & Hr); [lia|]. exists r. split; auto. cbn [app]. auto using compared_cons.
      * rewrite !s8_u8 by auto. exists (a - b). split; auto. right. exists [], a, b, (l1 ++ [0]), (l2 ++ [0]). auto.
Qed.
(** Strings cut to n characters, with the terminator if it is among them. *)
Lemma strncmp_ok n : forall l1 l2 m p1 p2, nstr m p1 n l1 -> nstr m p2 n l2 ->
  exists r, strncmp_loop n m p1 p2 = Some r /\ compared (l1 ++ [0]) (l2 ++ [0]) r.
Proof.
  induction n as [|n IH]; intros l1 l2 m p1 p2 H1 H2.
  - apply nstr_O in H1. apply nstr_O in H2. subst. exists 0. split; auto. left. auto.
  - cbn [strncmp_loop]. apply nstr_S in H1 as [[-> H1]|(a & t1 & -> & Ca & A0 & H1)]; apply nstr_S in H2 as [[-> H2]|(b & t2 & -> & Cb & B0 & H2)].
    + rewrite (ldc_ok _ _ _ H1), (ldc_ok _ _ _ H2). cbn. exists 0. split; auto. left. auto.
    + rewrite (ldc_ok _ _ _ H1), (ldc_ok _ _ _ B0). cbn [obind].
      pose proof (chr_byte _ Cb). rewrite s8_inj by (auto using byte0). unfold chr in Cb. destruct (Z.eqb_spec 0 b); [lia|]. cbn [negb].
      rewrite !s8_u8 by auto using byte0. exists (0 - b). split; auto. right. exists [], 0, b, [], (t2 ++ [0]). auto.
    + rewrite (ldc_ok _ _ _ A0), (ldc_ok _ _ _ H2). cbn [obind]. pose proof (chr_byte _ Ca).
      rewrite s8_inj by (auto using byte0). unfold chr in Ca. destruct (Z.eqb_spec a 0); [lia|]. cbn [negb].
      rewrite !s8_u8 by auto using byte0. exists (a - 0). split; auto. right. exists [], a, 0, (t1 ++ [0]), []. auto.
    + pose proof (chr_byte _ Ca). pose proof (chr_byte _ Cb). rewrite (ldc_ok _ _ _ A0), (ldc_ok _ _ _ B0). cbn [obind].
      rewrite s8_inj by auto. destruct (Z.eqb_spec a b) as [->|Hn]; cbn [negb].
      * rewrite chr_nz by auto. destruct (IH t1 t2 m (p1 + 1) (p2 + 1) H1 H2) as (r & -> & Hr). exists r. split; auto. cbn [app]. auto using compared_cons.
      * rewrite !s8_u8 by auto. exists (a - b). split; auto. right. exists [], a, b, (t1 ++ [0]), (t2 ++ [0]). auto.
Qed.
Lemma strchr_ok l : forall fuel m p c, str m p l -> byte c -> (length l < fuel)%nat ->
  (exists i, first_at (l ++ [0]) c i /\ strchr_loop fuel m p (s8 c) = Some (p + Z.of_nat i)) \/
  (~ In c (l ++ [0]) /\ strchr_loop fuel m p (s8 c) = Some 0).
Proof.
  induction l as [|a l IH]; intros [|fuel] m p c H Hc Hf; cbn in Hf; try lia; cbn [strchr_loop].
  - apply str_nil in H. rewrite (ldc_ok _ _ _ H). cbn [obind]. change (s8 0 =? 0) with true. cbn iota. rewrite s8_zero by auto.
    destruct (Z.eqb_spec c 0) as [->|Hn].
    + left. exists 0%nat. rewrite Z.add_0_r. split; auto. split; [reflexivity|lia].
    + right. split; auto. intros [|[]]; lia.
  - apply str_cons in H as (Ca & A0 & H). rewrite (ldc_ok _ _ _ A0). cbn [obind]. rewrite chr_nz by auto.
    rewrite s8_inj by auto using chr_byte. destruct (Z.eqb_spec a c) as [->|Hn].
    + left. exists 0%nat. rewrite Z.add_0_r. split; auto. split; [reflexivity|lia].
    + destruct (IH fuel m (p + 1) c H) as [(i & [F1 F2] & E)|[F E]]; auto; [lia|..].
      * left. exists (S i). split; [split; [exact F1|]|rewrite E; f_equal; lia].
        intros [|j] Hj; cbn; [congruence|]. apply F2. lia.
      * right. split; auto. intros [|]; [congruence|contradiction].
Qed.
Lemma strrchr_ok l : forall fuel m p c r, str m p l -> byte c -> (length l < fuel)%nat ->
  (exists i, last_at (l ++ [0]) c i /\ strrchr_loop fuel m p (s8 c) r = Some (p + Z.of_nat i)) \/
  (~ In c (l ++ [0]) /\ strrchr_loop fuel m p (s8 c) r = Some r).
Proof.
  induction l as [|a l IH]; intros [|fuel] m p c r H Hc Hf; cbn in Hf; try lia; cbn [strrchr_loop].
  - apply str_nil in H. rewrite (ldc_ok _ _ _ H). cbn [obind]. change (s8 0 =? 0) with true. cbn iota. rewrite s8_zero by auto.
    destruct (Z.eqb_spec c 0) as [->|Hn].
    + left. exists 0%nat. rewrite Z.add_0_r. split; auto. split; [reflexivity|]. intros [|[|j]] Hj; cbn; try lia; discriminate.
    + right. split; auto. intros [|[]]; lia.
  - apply str_cons in H as (Ca & A0 & H). rewrite (ldc_ok _ _ _ A0). cbn [obind]. rewrite chr_nz by auto.
    rewrite s8_inj by auto using chr_byte.
    destruct (IH fuel m (p + 1) c (if a =? c then p else r) H) as [(i & [F1 F2] & E)|[F E]]; auto; [lia|..].
    + left. exists (S i). split; [split; [exact F1|]|rewrite E; f_equal; lia].
      intros [|j] Hj; cbn; [lia|]. apply F2. lia.
    + destruct (Z.eqb_spec a c) as [->|Hn].
      * left. exists 0%nat. split; [split; [reflexivity|]|rewrite E; f_equal; lia].
        intros [|j] Hj; cbn; [lia|]. intros Hx. apply nth_error_In in Hx. contradiction.
      * right. split; auto. intros [|]; [congruence|contradiction].
Qed.

Lemma occurs_cons u a l i : occurs u l i -> occurs u (a :: l) (S i).
Proof. intros (x & y & -> & H). exists (a :: x), y. cbn. auto. Qed.
Lemma occurs_O u l : occurs u l 0 <-> exists t, l = u ++ t.
Proof.
  split; [intros (x & y & -> & H)|intros [t ->]; exists [], t; auto]. destruct x; [|discriminate]. now exists y.
Qed.
Lemma occurs_S u a l i : occurs u (a :: l) (S i) -> occurs u l i.
Proof. intros (x & y & E & H). destruct x as [|b x]; [discriminate|]. injection E as -> ->. exists x, y. split; auto. Qed.
Lemma match_ok u : forall l fuel m s p1 p2, str m p1 l -> str m p2 u -> (length l < fuel)%nat ->
  ((exists t, l = u ++ t) /\ match_at fuel m s p1 p2 = Some (Some s)) \/
  ((length l < length u)%nat /\ match_at fuel m s p1 p2 = Some (Some 0)) \/
  (~ (exists t, l = u ++ t) /\ l <> [] /\ match_at fuel m s p1 p2 = Some None).
Proof.
  induction u as [|b u IH]; intros l [|fuel] m s p1 p2 H1 H2 Hf; cbn in Hf; try lia; cbn [match_at].
  - apply str_nil in H2. left. split; [now exists l|]. destruct l as [|a l].
    + apply str_nil in H1. rewrite (ldc_ok _ _ _ H1), (ldc_ok _ _ _ H2). reflexivity.
    + apply str_cons in H1 as (C & H1 & _). rewrite (ldc_ok _ _ _ H1), (ldc_ok _ _ _ H2). cbn [obind].
      rewrite s8_inj by (auto using byte0, chr_byte). change (s8 0 =? 0) with true. unfold chr in C. destruct (Z.eqb_spec a 0); [lia|reflexivity].
  - apply str_cons in H2 as (Cb & B0 & H2). destruct l as [|a l].
    + apply str_nil in H1. right; left. split; [cbn; lia|]. rewrite (ldc_ok _ _ _ H1), (ldc_ok _ _ _ B0). cbn [obind].
      rewrite s8_inj by (auto using byte0, chr_byte). rewrite chr_nz by auto. change (s8 0 =? 0) with true. unfold chr in Cb. destruct (Z.eqb_spec 0 b); [lia|reflexivity].
    + apply str_cons in H1 as (Ca & A0 & H1). rewrite (ldc_ok _ _ _ A0), (ldc_ok _ _ _ B0). cbn [obind].
      rewrite s8_inj by (auto using chr_byte). rewrite !chr_nz by auto. destruct (Z.eqb_spec a b) as [->|Hn].
      * destruct (IH l fuel m s (p1 + 1) (p2 + 1) H1 H2) as [[[t ->] E]|[[HL E]|(HN & Hl & E)]]; [cbn in Hf; lia|..].
        -- left. split; auto. now exists t.
        -- right; left. split; auto. cbn. lia.
        -- right; right. split; [|split; [discriminate|auto]]. intros [t Et]. injection Et as Et. apply HN. now exists t.
      * right; right. split; [|split; [discriminate|auto]]. intros [t Et]. cbn in Et. congruence.
Qed.
Lemma occurs_len u l i : occurs u l i -> (i + length u <= length l)%nat.
Proof. intros (x & y & -> & <-). rewrite !app_length. lia. Qed.
Lemma strstr_ok l : forall fuel m s p u, str m s l -> str m p u -> (length l < fuel)%nat ->
  (exists i, occurs u l i /\ (forall j, (j < i)%nat -> ~ occurs u l j) /\ strstr_loop fuel m s p = Some (s + Z.of_nat i)) \/
  ((forall i, ~ occurs u l i) /\ strstr_loop fuel m s p = Some 0).
Proof.
  induction l as [|a l IH]; intros [|fuel] m s p u H1 H2 Hf; cbn in Hf; try lia; cbn [strstr_loop];
    (destruct (match_ok u _ _ m s s p H1 H2 Hf) as [[HT ->]|[[HL ->]|(HN & Hl & ->)]]; cbn [obind];
    [left; exists 0%nat; split; [now apply occurs_O|split; [lia|f_equal; lia]]
    |right; split; auto; intros i Hi; apply occurs_len in Hi; lia|]).
  - congruence.
  - apply str_cons in H1 as (Ca & A0 & H1). destruct (IH fuel m (s + 1) p u H1 H2) as [(i & O & F & E)|[F E]]; [lia|..].
    + left. exists (S i). split; [now apply occurs_cons|]. split; [|rewrite E; f_equal; lia].
      intros [|j] Hj Ho; [apply HN; now apply occurs_O|]. apply (F j); [lia|]. now apply occurs_S in Ho.
    + right. split; auto. intros [|j] Ho; [apply HN; now apply occurs_O|]. apply (F j). now apply occurs_S in Ho.
Qed.
Lemma in_set_ok u : forall fuel m p c, str m p u -> byte c -> (length u < fuel)%nat ->
  (In c u /\ in_set fuel m p (s8 c) = Some true) \/ (~ In c u /\ in_set fuel m p (s8 c) = Some false).
Proof.
  induction u as [|b u IH]; intros [|fuel] m p c H Hc Hf; cbn in Hf; try lia; cbn [in_set].
  - apply str_nil in H. rewrite (ldc_ok _ _ _ H). right. split; auto.
  - apply str_cons in H as (Cb & B0 & H). rewrite (ldc_ok _ _ _ B0). cbn [obind]. rewrite chr_nz by auto.
    rewrite s8_inj by auto using chr_byte. destruct (Z.eqb_spec b c) as [->|Hn]; [left; split; auto; now left|].
    destruct (IH fuel m (p + 1) c H Hc) as [[Hi E]|[Hi E]]; [lia|left|right]; split; auto; [now right|intros [|]; congruence].
Qed.
Lemma in_set0_ok u : forall fuel m p c, str m p u -> byte c -> (length u < fuel)%nat ->
  (In c (u ++ [0]) /\ in_set0 fuel m p (s8 c) = Some true) \/ (~ In c (u ++ [0]) /\ in_set0 fuel m p (s8 c) = Some false).
Proof.
  induction u as [|b u IH]; intros [|fuel] m p c H Hc Hf; cbn in Hf; try lia; cbn [in_set0].
  - apply str_nil in H. rewrite (ldc_ok _ _ _ H). cbn [obind]. rewrite s8_inj by (auto using byte0). destruct (Z.eqb_spec 0 c) as [<-|Hn].
    + left. split; auto. now left.
    + right. split; auto. intros [|[]]; congruence.
  - apply str_cons in H as (Cb & B0 & H). rewrite (ldc_ok _ _ _ B0). cbn [obind]. rewrite chr_nz by auto.
    rewrite s8_inj by auto using chr_byte. destruct (Z.eqb_spec b c) as [->|Hn]; [left; split; auto; now left|].
    destruct (IH fuel m (p + 1) c H Hc) as [[Hi E]|[Hi E]]; [lia|left|right]; split; auto; [now right|intros [|]; congruence].
Qed.
Lemma span_O (P : Z -> Prop) l : match l with [] => True | x :: _ => ~ P x end -> span P l 0.
Proof. intros H. exists [], l. auto. Qed.
Lemma span_S (P : Z -> Prop) x l n : P x -> span P l n -> span P (x :: l) (S n).
Proof. intros H (a & b & -> & HL & HF & HB). exists (x :: a), b. cbn. auto. Qed.
Lemma str_not0 m p l : str m p l -> ~ In 0 l.
Proof. intros [_ H] Hi. rewrite Forall_forall in H. apply H in Hi. unfold chr in Hi. lia. Qed.
Lemma strspn_ok l : forall fuel m s s1 s2 u, str m s1 l -> str m s2 u -> (length l + length u < fuel)%nat ->
  exists n, span (fun b => In b u) l n /\ strspn_loop fuel m s s1 s2 = Some (s1 + Z.of_nat n - s).
Proof.
  induction l as [|a l IH]; intros [|fuel] m s s1 s2 u H1 H2 Hf; cbn in Hf; try lia; cbn [strspn_loop].
  - apply str_nil in H1. rewrite (ldc_ok _ _ _ H1). cbn [obind].
    destruct (in_set_ok u (S fuel) m s2 0 H2 byte0) as [[Hi E]|[Hi E]]; [lia|now apply str_not0 in H2|].
    rewrite E. cbn [obind]. exists 0%nat. split; [now apply span_O|f_equal; lia].
  - apply str_cons in H1 as (Ca & A0 & H1). rewrite (ldc_ok _ _ _ A0). cbn [obind].
    destruct (in_set_ok u (S fuel) m s2 a H2 (chr_byte _ Ca)) as [[Hi E]|[Hi E]]; [lia|..]; rewrite E; cbn [obind].
    + destruct (IH fuel m s (s1 + 1) s2 u H1 H2) as (n & Hn & ->); [lia|]. exists (S n). split; [now apply span_S|f_equal; lia].
    + exists 0%nat. split; [now apply span_O|f_equal; lia].
Qed.
Lemma strcspn_ok l : forall fuel m s s1 s2 u, str m s1 l -> str m s2 u -> (length l + length u < fuel)%nat ->
  exists n, span (fun b => ~ In b u) l n /\ strcspn_loop fuel m s s1 s2 = Some (s1 + Z.of_nat n - s).
Proof.
  induction l as [|a l IH]; intros [|fuel] m s s1 s2 u H1 H2 Hf; cbn in Hf; try lia; cbn [strcspn_loop].
  - apply str_nil in H1. rewrite (ldc_ok _ _ _ H1). cbn [obind].
    destruct (in_set0_ok u (S fuel) m s2 0 H2 byte0) as [[Hi E]|[Hi E]]; [lia| |destruct Hi; apply in_or_app; right; now left].
    rewrite E. cbn [obind]. exists 0%nat. split; [now apply span_O|f_equal; lia].
  - apply str_cons in H1 as (Ca & A0 & H1). rewrite (ldc_ok _ _ _ A0). cbn [obind].
    assert (HA : In a (u ++ [0]) <-> In a u).
    { rewrite in_app_iff. cbn. unfold chr in Ca. intuition lia. }
    destruct (in_set0_ok u (S fuel) m s2 a H2 (chr_byte _ Ca)) as [[Hi E]|[Hi E]]; [lia|..]; rewrite E; cbn [obind]; rewrite HA in Hi.
    + exists 0%nat. split; [apply span_O; tauto|f_equal; lia].
    + destruct (IH fuel m s (s1 + 1) s2 u H1 H2) as (n & Hn & ->); [lia|]. exists (S n). split; [now apply span_S|f_equal; lia].
Qed.
Lemma strpbrk_ok l : forall fuel m s1 s2 u, str m s1 l -> str m s2 u -> (length l + length u < fuel)%nat ->
  (exists n, span (fun b => ~ In b u) l n /\ (n < length l)%nat /\ strpbrk fuel m s1 s2 = Some (s1 + Z.of_nat n)) \/
  ((forall b, In b l -> ~ In b u) /\ strpbrk fuel m s1 s2 = Some 0).
Proof.
  induction l as [|a l IH]; intros [|fuel] m s1 s2 u H1 H2 Hf; cbn in Hf; try lia; cbn [strpbrk].
  - apply str_nil in H1. rewrite (ldc_ok _ _ _ H1). right. split; auto.
  - apply str_cons in H1 as (Ca & A0 & H1). rewrite (ldc_ok _ _ _ A0). cbn [obind]. rewrite chr_nz by auto.
    destruct (in_set_ok u (S fuel) m s2 a H2 (chr_byte _ Ca)) as [[Hi E]|[Hi E]]; [lia|..]; rewrite E; cbn [obind].
    + left. exists 0%nat. split; [apply span_O; tauto|split; [cbn; lia|f_equal; lia]].
    + destruct (IH fuel m (s1 + 1) s2 u H1 H2) as [(n & Hn & HL & ->)|[F ->]]; [lia|left|right].
      * exists (S n). split; [now apply span_S|split; [cbn; lia|f_equal; lia]].
      * split; auto. intros b [<-|Hb]; auto.
Qed.
