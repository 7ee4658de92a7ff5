(** strtok: calls for one string. *)
From Verif Require Import Base BaseLemmas StrSpec StrModel StrLemmas.

Lemma oz_dec (x y : option Z) : x = y \/ x <> y.
Proof. destruct x as [a|], y as [b|]; try (now left); try (now right). destruct (Z.eq_dec a b); [left|right]; congruence. Qed.
Lemma skip_delims_ok l : forall fuel m s d u, str m s l -> str m d u -> (length l + length u < fuel)%nat ->
  exists pre r c, l = pre ++ r /\ Forall (fun b => In b u) pre /\
    skip_delims fuel m s d = Some (c, s + zlen pre) /\
    match r with [] => c = 0 | b :: _ => ~ In b u /\ c = s8 b end.
Proof.
  induction l as [|a l IH]; intros [|fuel] m s d u H1 H2 Hf; cbn in Hf; try lia; cbn [skip_delims].
  - apply str_nil in H1. rewrite (ldc_ok _ _ _ H1). cbn [obind].
    destruct (in_set_ok u (S fuel) m d 0 H2 byte0) as [[Hi E]|[Hi E]]; [lia|now apply str_not0 in H2|].
    rewrite E. cbn [obind]. exists [], [], 0. repeat split; auto. cbn. repeat f_equal. lia.
  - apply str_cons in H1 as (Ca & A0 & H1). rewrite (ldc_ok _ _ _ A0). cbn [obind].
    destruct (in_set_ok u (S fuel) m d a H2 (chr_byte _ Ca)) as [[Hi E]|[Hi E]]; [lia|..]; rewrite E; cbn [obind].
    + destruct (IH fuel m (s + 1) d u H1 H2) as (pre & r & c & -> & HF & -> & HR); [lia|].
      exists (a :: pre), r, c. rewrite zlen_cons. repeat split; auto. do 2 f_equal; lia.
    + exists [], (a :: l), (s8 a). repeat split; auto. cbn. repeat f_equal. lia.
Qed.
Lemma end_field_ok l : forall fuel m s d res u, str m s l -> str m d u -> (length l + length u < fuel)%nat ->
  (Forall (fun b => ~ In b u) l /\ end_field fuel m s d res = Some (res, 0, m)) \/
  exists f x rest m', l = f ++ x :: rest /\ Forall (fun b => ~ In b u) f /\ In x u /\
    end_field fuel m s d res = Some (res, s + zlen f + 1, m') /\
    m' (s + zlen f) = Some 0 /\ forall a, a <> s + zlen f -> m' a = m a.
Proof.
  induction l as [|a l IH]; intros [|fuel] m s d res u H1 H2 Hf; cbn in Hf; try lia; cbn [end_field].
  - apply str_nil in H1. rewrite (ldc_ok _ _ _ H1). left. split; auto.
  - apply str_cons in H1 as (Ca & A0 & H1). rewrite (ldc_ok _ _ _ A0). cbn [obind]. rewrite chr_nz by auto.
    destruct (in_set_ok u (S fuel) m d a H2 (chr_byte _ Ca)) as [[Hi E]|[Hi E]]; [lia|..]; rewrite E; cbn [obind].
    + right. destruct (st_ok m s 0) as (m1 & -> & E1 & E2); [congruence|]. cbn [obind].
      exists [], a, l, m1. change (zlen []) with 0. rewrite Z.add_0_r. repeat split; auto.
    + destruct (IH fuel m (s + 1) d res u H1 H2) as [[HF ->]|(f & x & rest & m' & -> & HF & HI & -> & E1 & E2)]; [lia|left|right].
      * split; auto.
      * exists (a :: f), x, rest, m'. rewrite zlen_cons.
        replace (s + (1 + zlen f)) with (s + 1 + zlen f) by lia. repeat split; auto.
Qed.

(** What one call does, and what is left for the next. *)
Lemma one_ok fuel m q l d u : str m q l -> str m d u -> (length l + length u < fuel)%nat -> q > 0 ->
  (exists c p, Forall (fun b => In b u) l /\ skip_delims fuel m q d = Some (c, p) /\ c = 0) \/
  exists pre f c, skip_delims fuel m q d = Some (c, q + zlen pre) /\ c <> 0 /\
    Forall (fun b => In b u) pre /\ f <> [] /\ Forall (fun b => ~ In b u) f /\
    ((l = pre ++ f /\ end_field fuel m (q + zlen pre + 1) d (q + zlen pre) = Some (q + zlen pre, 0, m)) \/
     exists x rest m', l = pre ++ f ++ x :: rest /\ In x u /\
       end_field fuel m (q + zlen pre + 1) d (q + zlen pre) = Some (q + zlen pre, q + zlen pre + zlen f + 1, m') /\
       m' (q + zlen pre + zlen f) = Some 0 /\ forall a, a <> q + zlen pre + zlen f -> m' a = m a).
Proof.
  intros H1 H2 Hf Hq.
  destruct (skip_delims_ok l fuel m q d u H1 H2 Hf) as (pre & r & c & -> & HF & E & HR).
  destruct r as [|b r].
  - left. exists c, (q + zlen pre). rewrite app_nil_r. auto.
  - right. destruct HR as [Hb ->]. pose proof H1 as H1'. apply str_app in H1' as (_ & _ & H1').
    apply str_cons in H1' as (Cb & B0 & H1'). rewrite app_length in Hf. cbn in Hf.
    assert (Hn : s8 b <> 0). { rewrite <- Z.eqb_neq. now apply chr_nz. }
    destruct (end_field_ok r fuel m (q + zlen pre + 1) d (q + zlen pre) u H1' H2) as [[HG E']|(f & x & rest & m' & -> & HG & HI & E' & E1 & E2)]; [lia|..].
    + exists pre, (b :: r), (s8 b). split; auto. split; auto. split; auto. split; [discriminate|]. split; [constructor; auto|]. left. auto.
    + exists pre, (b :: f), (s8 b). split; auto. split; auto. split; auto. split; [discriminate|]. split; [constructor; auto|]. right.
      exists x, rest, m'. rewrite zlen_cons. replace (q + zlen pre + (1 + zlen f)) with (q + zlen pre + 1 + zlen f) by lia.
      repeat split; auto.
Qed.

Definition res_ptr (t : option (Z * list Z)) : Z := match t with None => 0 | Some (p, _) => p end.
Definition rest_ptr (t : option (Z * list Z)) : Z := match t with None => 0 | Some (p, _) => p end.

Lemma toks_none fuel ds : forall m s, s = 0 ->
  exists rs, strtoks fuel m 0 s (map fst ds) = Some (map res_ptr rs, m) /\ tokens None (map snd ds) rs /\ Forall (fun t => t = None) rs.
Proof.
  induction ds as [|[d u] ds IH]; intros m s ->.
  - exists []. repeat split; auto. constructor.
  - cbn [strtoks map fst snd]. unfold strtok at 1. cbn [Z.eqb obind].
    destruct (IH m 0 eq_refl) as (rs & -> & T & HN). cbn [obind]. exists (None :: rs). repeat split; auto. now constructor.
Qed.
(** The state of the calls: the rest of the string at [q]. *)
Lemma toks_ok fuel ds : forall m last s q l,
  str m q l -> q > 0 -> (s = q \/ (s = 0 /\ last = q)) ->
  (forall d u, In (d, u) ds -> str m d u /\ (d + zlen u < q \/ q + zlen l < d) /\ (length l + length u < fuel)%nat) ->
  exists rs m', strtoks fuel m last s (map fst ds) = Some (map res_ptr rs, m') /\
    tokens (Some (q, l)) (map snd ds) rs /\
    (forall p f, In (Some (p, f)) rs -> str m' p f /\ q <= p /\ p + zlen f <= q + zlen l) /\
    (forall a, m' a <> m a -> m' a = Some 0 /\ exists p f, In (Some (p, f)) rs /\ a = p + zlen f /\ a < q + zlen l).
Proof.
  induction ds as [|[d u] ds IH]; intros m last s q l H Hq Hs HD.
  - exists [], m. split; [reflexivity|]. split; [constructor|]. split; [intros p f []|]. intros a Ha. congruence.
  - cbn [strtoks map fst snd]. unfold strtok at 1.
    assert (ES : (if s =? 0 then last else s) = q). { destruct Hs as [->|[-> ->]]; [|reflexivity]. destruct (Z.eqb_spec q 0); lia. }
    rewrite ES. destruct (Z.eqb_spec q 0) as [|_]; [lia|].
    destruct (HD d u) as (Hu & Hdis & Hf); [now left|].
    assert (HD' : forall d u, In (d, u) ds -> str m d u /\ (d + zlen u < q \/ q + zlen l < d) /\ (length l + length u < fuel)%nat) by (intros; apply HD; now right).
    destruct (one_ok fuel m q l d u H Hu Hf Hq) as [(c & p & HF & -> & ->)|(pre & f & c & -> & Hc & HF & Hn & HG & [[-> E]|(x & rest & m1 & -> & HI & E & E1 & E2)])]; cbn [obind].
    + cbn [Z.eqb obind]. destruct (toks_none fuel ds m 0 eq_refl) as (rs & -> & T & HN). cbn [obind].
      exists (None :: rs), m. split; [reflexivity|]. split; [now constructor|]. split; [|intros a Ha; congruence].
      intros p' f' [Hx|Hx]; [discriminate|]. rewrite Forall_forall in HN. apply HN in Hx. discriminate.
    + destruct (Z.eqb_spec c 0) as [|_]; [contradiction|]. rewrite E. cbn [obind].
      destruct (toks_none fuel ds m 0 eq_refl) as (rs & -> & T & HN). cbn [obind].
      exists (Some (q + zlen pre, f) :: rs), m. split; [reflexivity|]. split; [now constructor|]. split; [|intros a Ha; congruence].
      pose proof (zlen_nonneg pre). pose proof (zlen_nonneg f).
      intros p' f' [Hx|Hx]; [injection Hx as <- <-|rewrite Forall_forall in HN; apply HN in Hx; discriminate].
      rewrite zlen_app. split; [now apply str_app in H as (_ & _ & H)|lia].
    + destruct (Z.eqb_spec c 0) as [|_]; [contradiction|]. rewrite E. cbn [obind].
      pose proof (zlen_nonneg pre). pose proof (zlen_nonneg f). pose proof (zlen_nonneg rest).
      assert (HLl : zlen (pre ++ f ++ x :: rest) = zlen pre + zlen f + 1 + zlen rest) by (rewrite !zlen_app, zlen_cons; lia).
      rewrite HLl in *.
      pose proof (str_app _ _ _ _ H) as (_ & _ & H'). pose proof (str_app _ _ _ _ H') as (_ & _ & H''). apply str_cons in H'' as (_ & X0 & H'').
      destruct (IH m1 (q + zlen pre + zlen f + 1) 0 (q + zlen pre + zlen f + 1) rest) as (rs & m' & -> & T & HR & HO).
      * eapply str_ext; [exact H''|]. intros a Ha. apply E2. lia.
      * lia.
      * right. auto.
      * intros d' u' Hi. destruct (HD' d' u' Hi) as (Y1 & Y2 & Y3). rewrite !app_length in Y3. cbn in Y3. pose proof (zlen_nonneg u').
        split; [eapply str_ext; [exact Y1|]; intros a Ha; apply E2|]; lia.
      * cbn [obind]. exists (Some (q + zlen pre, f) :: rs), m'. split; [reflexivity|]. split; [now apply tok_field|].
        assert (HB : forall a, a <= q + zlen pre + zlen f -> m' a = m1 a).
        { intros a Ha. assert (K : m' a = m1 a \/ m' a <> m1 a) by apply oz_dec.
          destruct K as [K|K]; auto. apply HO in K as (_ & p' & f' & Hi & -> & Hlt). destruct (HR _ _ Hi) as (_ & G1 & G2). pose proof (zlen_nonneg f'). lia. }
        split.
        -- intros p' f' [Hx|Hx].
           ++ injection Hx as <- <-. split; [|lia]. destruct H' as [HBy HCh].
              split; [|now apply Forall_app in HCh]. rewrite <- app_assoc in HBy. apply bytes_app in HBy as [HBy _].
              apply bytes_app. split.
              ** eapply bytes_ext; [exact HBy|]. intros a Ha. rewrite HB by lia. apply E2. lia.
              ** apply bytes_cons. split; [|apply bytes_nil]. now rewrite HB by lia.
           ++ destruct (HR _ _ Hx) as (R1 & R2 & R3). split; auto. lia.
        -- intros a Ha. assert (K : m' a = m1 a \/ m' a <> m1 a) by apply oz_dec.
           destruct K as [K|K].
           ++ assert (a = q + zlen pre + zlen f) as ->. { destruct (Z.eq_dec a (q + zlen pre + zlen f)); auto. rewrite K, E2 in Ha by auto. congruence. }
              split; [congruence|]. exists (q + zlen pre), f. split; [now left|lia].
           ++ apply HO in K as (K & p' & f' & Hi & -> & Hlt). split; auto. exists p', f'. split; [now right|lia].
Qed.
