(** C32, C33, C34: the memory and string functions of the library.  Each theorem: for every
    memory, addresses and contents, the function has a defined result (no access outside of the
    objects described by the hypotheses), returns what the C standard says and changes no other
    byte.  [fuel] is any bound on the number of loop iterations larger than the strings. *)
From Verif Require Import Base BaseLemmas StrSpec StrModel StrLemmas StrTok.

(** C32: overlapping ranges in either direction are fine. *)
Theorem C32_memmove m dst src l : bytes m src l -> Forall byte l -> writable m dst (zlen l) ->
  exists m', memmove m dst src (zlen l) = Some (dst, m') /\ bytes m' dst l /\ only m m' dst (zlen l).
Proof.
  intros H HB Hw. unfold memmove. replace (Z.to_nat (zlen l)) with (length l) by (unfold zlen; lia).
  destruct (Z.ltb_spec src dst).
  - destruct (down_ok l m (dst + zlen l) (src + zlen l)) as (m' & E & B & O); rewrite ?Z.add_simpl_r in *; auto; [lia|].
    rewrite E. cbn. eauto.
  - destruct (up_ok l m dst src) as (m' & E & B & O); auto. rewrite E. cbn. eauto.
Qed.
Print Assumptions C32_memmove.

Theorem C32_memcpy m dst src l : bytes m src l -> Forall byte l -> writable m dst (zlen l) ->
  dst + zlen l <= src \/ src + zlen l <= dst ->
  exists m', memcpy m dst src (zlen l) = Some (dst, m') /\ bytes m' dst l /\ only m m' dst (zlen l).
Proof.
  intros H HB Hw Hd. unfold memcpy. replace (Z.to_nat (zlen l)) with (length l) by (unfold zlen; lia). pose proof (zlen_nonneg l).
  destruct (up_ok l m dst src) as (m' & E & B & O); auto; [lia|]. rewrite E. cbn. eauto.
Qed.
Print Assumptions C32_memcpy.

Theorem C32_memset m s c n : 0 <= n -> writable m s n ->
  exists m', memset m s c n = Some (s, m') /\ bytes m' s (repeat (c mod 256) (Z.to_nat n)) /\ only m m' s n.
Proof.
  intros Hn Hw. unfold memset. destruct (fill_ok (Z.to_nat n) m s c) as (m' & E & B & O).
  - now rewrite Z2Nat.id.
  - rewrite E. cbn. rewrite Z2Nat.id in O by auto. eauto.
Qed.
Print Assumptions C32_memset.

Theorem C32_memcmp m s1 s2 l1 l2 : bytes m s1 l1 -> bytes m s2 l2 -> length l1 = length l2 ->
  exists r, memcmp m s1 s2 (zlen l1) = Some r /\ compared l1 l2 r.
Proof.
  intros H1 H2 HL. unfold memcmp. destruct (Z.eqb_spec (zlen l1) 0) as [E|_].
  - destruct l1; [|cbn in E; unfold zlen in E; cbn in E; lia]. destruct l2; [|discriminate]. exists 0. split; auto. left. auto.
  - unfold zlen. rewrite Nat2Z.id. now apply memcmp_ok.
Qed.
Print Assumptions C32_memcmp.

(** [c] is taken modulo 256, as an unsigned char. *)
Theorem C32_memchr m s c l : bytes m s l -> Forall byte l ->
  (exists i, first_at l (c mod 256) i /\ memchr m s c (zlen l) = Some (s + Z.of_nat i)) \/
  (~ In (c mod 256) l /\ memchr m s c (zlen l) = Some 0).
Proof.
  intros H HB. unfold memchr, zlen. rewrite Nat2Z.id, <- s8_of_u8. apply memchr_ok; auto. apply u8_byte.
Qed.
Print Assumptions C32_memchr.

(** C33 *)
Theorem C33_strlen fuel m s l : str m s l -> (length l < fuel)%nat -> strlen fuel m s = Some (zlen l).
Proof. intros H Hf. unfold strlen. rewrite (skip_ok l) by auto. cbn. f_equal. lia. Qed.
Print Assumptions C33_strlen.

Theorem C33_strcpy fuel m dst src l : str m src l -> writable m dst (zlen l + 1) ->
  dst + zlen l < src \/ src + zlen l < dst -> (length l < fuel)%nat ->
  exists m', strcpy fuel m dst src = Some (dst, m') /\ str m' dst l /\ only m m' dst (zlen l + 1).
Proof.
  intros H Hw Hd Hf. pose proof (zlen_nonneg l). unfold strcpy.
  destruct (copy_ok l fuel m dst src) as (m' & E & S & O); auto; [lia|]. rewrite E. cbn. eauto.
Qed.
Print Assumptions C33_strcpy.

Theorem C33_strcat fuel m s1 s2 l1 l2 : str m s1 l1 -> str m s2 l2 ->
  writable m s1 (zlen l1 + zlen l2 + 1) ->
  s1 + zlen l1 + zlen l2 < s2 \/ s2 + zlen l2 < s1 -> (length l1 + length l2 < fuel)%nat ->
  exists m', strcat fuel m s1 s2 = Some (s1, m') /\ str m' s1 (l1 ++ l2) /\
    only m m' (s1 + zlen l1) (zlen l2 + 1).
Proof.
  intros H1 H2 Hw Hd Hf. pose proof (zlen_nonneg l1). pose proof (zlen_nonneg l2). unfold strcat.
  rewrite (skip_ok l1) by (auto; lia). cbn [obind].
  destruct (copy_ok l2 fuel m (s1 + zlen l1) s2) as (m' & E & S & O); auto; [|lia|lia|].
  - intros a Ha. apply Hw. lia.
  - rewrite E. cbn. exists m'. split; auto. split; auto. destruct H1 as [B1 C1], S as [B2 C2].
    split; [|now apply Forall_app]. rewrite <- app_assoc. apply bytes_app. split; auto.
    apply bytes_app in B1 as [B1 _]. eapply bytes_ext; eauto. intros a Ha. apply O. lia.
Qed.
Print Assumptions C33_strcat.

(** strncpy: at most n characters, padded with null bytes up to n; the source need not be
    terminated if it has n characters. *)
Theorem C33_strncpy m dst src n l : 0 <= n -> nstr m src (Z.to_nat n) l -> writable m dst n ->
  dst + n <= src \/ src + Z.min n (zlen l + 1) <= dst ->
  exists m', strncpy m dst src n = Some (dst, m') /\
    bytes m' dst (l ++ repeat 0 (Z.to_nat n - length l)) /\ only m m' dst n.
Proof.
  intros Hn H Hw Hd. unfold strncpy. pose proof (nstr_len _ _ _ _ H) as HL.
  destruct (ncopy_ok (Z.to_nat n) l m dst src H) as (m1 & k & z & E & Ek & Hz & B1 & O1).
  - now rewrite Z2Nat.id.
  - rewrite Z2Nat.id by auto. lia.
  - rewrite E. cbn [obind]. assert (HZ : zlen (l ++ z) + Z.of_nat k = n) by (unfold zlen; lia).
    pose proof (zlen_nonneg (l ++ z)).
    destruct (fill_ok k m1 (dst + zlen (l ++ z)) 0) as (m' & -> & B2 & O2).
    { intros a Ha. rewrite O1 by lia. apply Hw. lia. }
    cbn [obind]. exists m'. split; auto. split.
    + assert (EL : l ++ repeat 0 (Z.to_nat n - length l) = (l ++ z) ++ repeat 0 k).
      { rewrite <- app_assoc. f_equal. rewrite app_length in Ek.
        destruct Hz as [-> | ->]; cbn in *; [now replace (Z.to_nat n - length l)%nat with k by lia|].
        now replace (Z.to_nat n - length l)%nat with (S k) by lia. }
      rewrite EL. apply bytes_app. split; [|exact B2]. eapply bytes_ext; [exact B1|]. intros a Ha. apply O2. lia.
    + intros a Ha. rewrite O2 by lia. apply O1. lia.
Qed.
Print Assumptions C33_strncpy.

(** strncat: always terminated; writes up to n + 1 bytes after the old string. *)
Theorem C33_strncat fuel m s1 s2 n l1 l2 : 0 <= n -> str m s1 l1 -> nstr m s2 (Z.to_nat n) l2 ->
  writable m s1 (zlen l1 + zlen l2 + 1) ->
  s1 + zlen l1 + zlen l2 < s2 \/ s2 + Z.min n (zlen l2 + 1) <= s1 -> (length l1 < fuel)%nat ->
  exists m', strncat fuel m s1 s2 n = Some (s1, m') /\ str m' s1 (l1 ++ l2) /\
    only m m' (s1 + zlen l1) (zlen l2 + 1).
Proof.
  intros Hn H1 H2 Hw Hd Hf. pose proof (zlen_nonneg l1). pose proof (zlen_nonneg l2). unfold strncat.
  rewrite (skip_ok l1) by (auto; lia). cbn [obind].
  destruct (ncat_ok (Z.to_nat n) l2 m (s1 + zlen l1) s2 H2) as (m1 & E & B2 & O1).
  - intros a Ha. apply Hw. lia.
  - rewrite Z2Nat.id by auto. lia.
  - rewrite E. cbn [obind]. destruct (st_ok m1 (s1 + zlen l1 + zlen l2) 0) as (m' & -> & E1 & E2).
    { rewrite O1 by lia. apply Hw. lia. }
    cbn [obind]. exists m'. split; auto. split.
    + destruct H1 as [B1 C1], H2 as [C2 _]. split; [|now apply Forall_app]. rewrite <- app_assoc.
      apply bytes_app in B1 as [B1 _]. apply bytes_app. split; [|apply bytes_app; split].
      * eapply bytes_ext; [exact B1|]. intros a Ha. rewrite E2 by lia. apply O1. lia.
      * eapply bytes_ext; [exact B2|]. intros a Ha. apply E2. lia.
      * apply bytes_cons. split; [exact E1|apply bytes_nil].
    + intros a Ha. rewrite E2 by lia. apply O1. lia.
Qed.
Print Assumptions C33_strncat.

(** strcmp, strncmp: the bytes, with the terminators, compared as unsigned char; the result is the
    difference at the first mismatch. *)
Theorem C33_strcmp fuel m s1 s2 l1 l2 : str m s1 l1 -> str m s2 l2 -> (length l1 < fuel)%nat ->
  exists r, strcmp fuel m s1 s2 = Some r /\ compared (l1 ++ [0]) (l2 ++ [0]) r.
Proof. apply strcmp_ok. Qed.
Print Assumptions C33_strcmp.

Theorem C33_strncmp m s1 s2 n l1 l2 : nstr m s1 (Z.to_nat n) l1 -> nstr m s2 (Z.to_nat n) l2 -> 0 <= n ->
  exists r, strncmp m s1 s2 n = Some r /\ compared (l1 ++ [0]) (l2 ++ [0]) r.
Proof.
  intros H1 H2 Hn. unfold strncmp. destruct (Z.eqb_spec n 0) as [->|_]; [|now apply strncmp_ok].
  apply nstr_O in H1. apply nstr_O in H2. subst. exists 0. split; auto. left. auto.
Qed.
Print Assumptions C33_strncmp.

(** strchr and strrchr also find the terminator. *)
Theorem C33_strchr fuel m s c l : str m s l -> (length l < fuel)%nat ->
  (exists i, first_at (l ++ [0]) (c mod 256) i /\ strchr fuel m s c = Some (s + Z.of_nat i)) \/
  (~ In (c mod 256) (l ++ [0]) /\ strchr fuel m s c = Some 0).
Proof. intros H Hf. unfold strchr. rewrite <- s8_of_u8. apply strchr_ok; auto. apply u8_byte. Qed.
Print Assumptions C33_strchr.

Theorem C33_strrchr fuel m s c l : str m s l -> (length l < fuel)%nat ->
  (exists i, last_at (l ++ [0]) (c mod 256) i /\ strrchr fuel m s c = Some (s + Z.of_nat i)) \/
  (~ In (c mod 256) (l ++ [0]) /\ strrchr fuel m s c = Some 0).
Proof. intros H Hf. unfold strrchr. rewrite <- s8_of_u8. apply strrchr_ok; auto. apply u8_byte. Qed.
Print Assumptions C33_strrchr.

Theorem C33_strstr fuel m s p l u : str m s l -> str m p u -> (length l < fuel)%nat ->
  (exists i, occurs u l i /\ (forall j, (j < i)%nat -> ~ occurs u l j) /\
     strstr fuel m s p = Some (s + Z.of_nat i)) \/
  ((forall i, ~ occurs u l i) /\ strstr fuel m s p = Some 0).
Proof.
  intros H1 H2 Hf. unfold strstr. destruct u as [|b u].
  - apply str_nil in H2. rewrite (ldc_ok _ _ _ H2). cbn. left. exists 0%nat.
    split; [apply occurs_O; now exists l|]. split; [lia|f_equal; lia].
  - pose proof H2 as H2'. apply str_cons in H2' as (C & B & _). rewrite (ldc_ok _ _ _ B). cbn [obind].
    rewrite chr_nz by auto. now apply strstr_ok.
Qed.
Print Assumptions C33_strstr.

Theorem C33_strspn fuel m s1 s2 l u : str m s1 l -> str m s2 u -> (length l + length u < fuel)%nat ->
  exists n, span (fun b => In b u) l n /\ strspn fuel m s1 s2 = Some (Z.of_nat n).
Proof.
  intros H1 H2 Hf. destruct (strspn_ok l fuel m s1 s1 s2 u H1 H2 Hf) as (n & Hn & E). exists n. split; auto.
  unfold strspn. rewrite E. f_equal. lia.
Qed.
Print Assumptions C33_strspn.

Theorem C33_strcspn fuel m s1 s2 l u : str m s1 l -> str m s2 u -> (length l + length u < fuel)%nat ->
  exists n, span (fun b => ~ In b u) l n /\ strcspn fuel m s1 s2 = Some (Z.of_nat n).
Proof.
  intros H1 H2 Hf. destruct (strcspn_ok l fuel m s1 s1 s2 u H1 H2 Hf) as (n & Hn & E). exists n. split; auto.
  unfold strcspn. rewrite E. f_equal. lia.
Qed.
Print Assumptions C33_strcspn.

(** strpbrk: the first byte of the string that is in the set. *)
Theorem C33_strpbrk fuel m s1 s2 l u : str m s1 l -> str m s2 u -> (length l + length u < fuel)%nat ->
  (exists n, span (fun b => ~ In b u) l n /\ (n < length l)%nat /\ strpbrk fuel m s1 s2 = Some (s1 + Z.of_nat n)) \/
  ((forall b, In b l -> ~ In b u) /\ strpbrk fuel m s1 s2 = Some 0).
Proof. apply strpbrk_ok. Qed.
Print Assumptions C33_strpbrk.

(** C34: any number of calls for a string, each with its own delimiters [ds] (where they are and
    what they are), whatever an earlier string left behind.  The results are the fields in order,
    then null; after all the calls each field stands at the returned address as a terminated
    string; the only bytes that change are single delimiters after a returned field. *)
Theorem C34_strtok fuel m last s l ds : str m s l -> s > 0 ->
  (forall d u, In (d, u) ds ->
     str m d u /\ (d + zlen u < s \/ s + zlen l < d) /\ (length l + length u < fuel)%nat) ->
  exists rs m',
    strtoks fuel m last s (map fst ds) =
      Some (map (fun r => match r with Some (p, _) => p | None => 0 end) rs, m') /\
    tokens (Some (s, l)) (map snd ds) rs /\
    (forall p f, In (Some (p, f)) rs -> str m' p f) /\
    (forall a, m' a <> m a -> m' a = Some 0 /\ exists p f, In (Some (p, f)) rs /\ a = p + zlen f /\ a < s + zlen l).
Proof.
  intros H Hs HD. destruct (toks_ok fuel ds m last s s l H Hs (or_introl eq_refl) HD) as (rs & m' & E & T & HR & HO).
  exists rs, m'. split; [exact E|]. split; auto. split; auto. intros p f Hi. now apply HR in Hi.
Qed.
Print Assumptions C34_strtok.

(** The specification of the fields determines them: for one delimiter set it is the list of the
    maximal runs. *)
Theorem C34_tokens_unique st ds rs1 rs2 : tokens st ds rs1 -> tokens st ds rs2 -> rs1 = rs2.
Proof.
  assert (APP : forall (P : Z -> Prop) (a b a' b' : list Z), a ++ b = a' ++ b' -> Forall P a -> Forall P a' ->
    (b = [] \/ exists x t, b = x :: t /\ ~ P x) -> (b' = [] \/ exists x t, b' = x :: t /\ ~ P x) -> a = a' /\ b = b').
  { intros P a. induction a as [|x a IH]; intros b [|x' a'] b' E F F' Hb Hb'; cbn in E.
    - auto.
    - subst b. inversion F'; subst. destruct Hb as [|(y & t & Hy & Hn)]; [discriminate|]. injection Hy as <- <-. contradiction.
    - subst b'. inversion F; subst. destruct Hb' as [|(y & t & Hy & Hn)]; [discriminate|]. injection Hy as <- <-. contradiction.
    - injection E as <- E. inversion F; inversion F'; subst. destruct (IH b a' b' E) as [-> ->]; auto. }
  intros H. revert rs2. induction H as [st|d ds rs H IH|p l d ds rs F H IH|p pre f d ds rs F Hn G H IH|p pre f x rest d ds rs F Hn G Hx H IH]; intros rs2 H2.
  - now inversion H2.
  - inversion H2; subst. f_equal. auto.
  - remember (Some (p, l)) as st eqn:ES. remember (d :: ds) as dd eqn:ED. destruct H2 as [|d' ds' rs' T|p' l' d' ds' rs' F' T|p' pre' f' d' ds' rs' F' Hn' G' T|p' pre' f' x' rest' d' ds' rs' F' Hn' G' Hx' T]; try discriminate; injection ED as -> ->; injection ES as -> ES.
    + f_equal. auto.
    + subst l. apply Forall_app in F as [_ F]. destruct f'; [congruence|]. inversion F; inversion G'; subst. contradiction.
    + subst l. apply Forall_app in F as [_ F]. destruct f'; [congruence|]. inversion F; inversion G'; subst. contradiction.
  - remember (Some (p, pre ++ f)) as st eqn:ES. remember (d :: ds) as dd eqn:ED. destruct H2 as [|d' ds' rs' T|p' l' d' ds' rs' F' T|p' pre' f' d' ds' rs' F' Hn' G' T|p' pre' f' x' rest' d' ds' rs' F' Hn' G' Hx' T]; try discriminate; injection ED as -> ->; injection ES as -> ES.
    + subst l'. apply Forall_app in F' as [_ F']. destruct f; [congruence|]. inversion F'; inversion G; subst. contradiction.
    + destruct (APP (fun b => In b d) pre' f' pre f ES F' F) as [-> ->].
      * right. destruct f'; [congruence|]. inversion G'; eauto.
      * right. destruct f; [congruence|]. inversion G; eauto.
      * f_equal. auto.
    + destruct (APP (fun b => In b d) pre' (f' ++ x' :: rest') pre f ES F' F) as [-> E].
      * right. destruct f'; [congruence|]. inversion G'; cbn; eauto.
      * right. destruct f; [congruence|]. inversion G; eauto.
      * subst f. apply Forall_app in G as [_ G]. inversion G; subst. contradiction.
  - remember (Some (p, pre ++ f ++ x :: rest)) as st eqn:ES. remember (d :: ds) as dd eqn:ED. destruct H2 as [|d' ds' rs' T|p' l' d' ds' rs' F' T|p' pre' f' d' ds' rs' F' Hn' G' T|p' pre' f' x' rest' d' ds' rs' F' Hn' G' Hx' T]; try discriminate; injection ED as -> ->; injection ES as -> ES.
    + subst l'. apply Forall_app in F' as [_ F']. destruct f; [congruence|]. inversion F'; inversion G; subst. contradiction.
    + destruct (APP (fun b => In b d) pre' f' pre (f ++ x :: rest) ES F' F) as [-> E].
      * right. destruct f'; [congruence|]. inversion G'; eauto.
      * right. destruct f; [congruence|]. inversion G; cbn; eauto.
      * subst f'. apply Forall_app in G' as [_ G']. inversion G'; subst. contradiction.
    + destruct (APP (fun b => In b d) pre' (f' ++ x' :: rest') pre (f ++ x :: rest) ES F' F) as [-> E].
      * right. destruct f'; [congruence|]. inversion G'; cbn; eauto.
      * right. destruct f; [congruence|]. inversion G; cbn; eauto.
      * destruct (APP (fun b => ~ In b d) f' (x' :: rest') f (x :: rest) E G' G) as [-> EX]; [right; eauto 6..|].
        injection EX as -> ->. f_equal. auto.
Qed.
Print Assumptions C34_tokens_unique.

(** Concrete cases that meet the hypotheses. *)
Definition mem_of (l : list (Z * Z)) : mem := fun a => option_map snd (find (fun x => fst x =? a) l).
Definition put (p : Z) (l : list Z) : list (Z * Z) := combine (map (fun i => p + Z.of_nat i) (seq 0 (length l))) l.
(** "a,b;" at 100, ",;" at 200, "," at 210 *)
Definition m0 : mem := mem_of (put 100 [97; 44; 98; 59; 0] ++ put 200 [44; 59; 0] ++ put 210 [44; 0]).
Lemma bytes_b m p l : forallb (fun i => match m (p + Z.of_nat i), nth_error l i with Some a, Some b => a =? b | _, _ => false end) (seq 0 (length l)) = true -> bytes m p l.
Proof.
  intros H i b Hi. rewrite forallb_forall in H. assert (i < length l)%nat by (apply nth_error_Some; congruence).
  specialize (H i). rewrite Hi in H. destruct (m (p + Z.of_nat i)); [f_equal; apply Z.eqb_eq, H, in_seq; lia|].
  discriminate H. apply in_seq. lia.
Qed.
Lemma chr_b l : forallb (fun b => (0 <? b) && (b <? 256)) l = true -> Forall chr l.
Proof. intros H. rewrite forallb_forall in H. apply Forall_forall. intros b Hb. apply H in Hb. unfold chr. lia. Qed.
Example m0_strings : str m0 100 [97; 44; 98; 59] /\ str m0 200 [44; 59] /\ str m0 210 [44].
Proof. repeat split; try (apply bytes_b; vm_compute; reflexivity); apply chr_b; reflexivity. Qed.
Example strtok_case :
  let ds := [(210, [44]); (200, [44; 59]); (200, [44; 59]); (200, [44; 59])] in
  (forall d u, In (d, u) ds ->
     str m0 d u /\ (d + zlen u < 100 \/ 100 + zlen [97; 44; 98; 59] < d) /\ (length [97; 44; 98; 59] + length u < 20)%nat) /\
  option_map fst (strtoks 20 m0 0 100 (map fst ds)) = Some [100; 102; 0; 0].
Proof.
  destruct m0_strings as (_ & S2 & S3). split; [|vm_compute; reflexivity].
  intros d u [E|[E|[E|[E|[]]]]]; injection E as <- <-; (split; [assumption|cbn; lia]).
Qed.
Example memmove_overlap :
  bytes m0 100 [97; 44; 98] /\ writable m0 101 3 /\
  option_map (fun r => map (snd r) [100; 101; 102; 103; 104]) (memmove m0 101 100 3) = Some [Some 97; Some 97; Some 44; Some 98; Some 0].
Proof.
  split; [apply bytes_b; vm_compute; reflexivity|]. split; [|vm_compute; reflexivity].
  intros a Ha. assert (a = 101 \/ a = 102 \/ a = 103) as [->|[->| ->]] by lia; vm_compute; discriminate.
Qed.
Example nstr_case : nstr m0 100 3 [97; 44; 98] /\ nstr m0 100 7 [97; 44; 98; 59] /\ writable m0 210 2.
Proof.
  split; [|split].
  - split; [apply chr_b; reflexivity|left; split; auto; apply bytes_b; vm_compute; reflexivity].
  - split; [apply chr_b; reflexivity|right; split; [cbn; lia|apply m0_strings]].
  - intros a Ha. assert (a = 210 \/ a = 211) as [->| ->] by lia; vm_compute; discriminate.
Qed.
