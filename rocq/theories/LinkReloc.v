(** Relocating through the sliding buffer (C41). *)
From Verif Require Import Base BaseLemmas LexModel LexSpec LexProof LinkModel LinkSpec IdentProof.
From Coq Require Import Sorted.

Lemma digits_len n v : List.length (digits n v) = n.
Proof. revert v; induction n; cbn; auto. Qed.
Lemma digits_bytes n v : bytes (digits n v).
Proof. revert v; induction n; constructor; [apply Z.mod_pos_bound; lia|apply IHn]. Qed.

Lemma number_digits n v : number (digits n v) = v mod 2 ^ (8 * Z.of_nat n).
Proof.
  revert v; induction n; intros.
  - cbn. rewrite Z.mod_1_r. reflexivity.
  - cbn [digits number]. rewrite IHn.
    replace (8 * Z.of_nat (S n)) with (8 + 8 * Z.of_nat n) by lia.
    rewrite Z.pow_add_r by lia. change (2 ^ 8) with 256.
    rewrite Z.rem_mul_r; lia.
Qed.

(** the model's byte assembly *)
Lemma digits4 v : digits 4 v = [u8 v; u8 (Z.shiftr v 8); u8 (Z.shiftr (Z.shiftr v 8) 8); u8 (Z.shiftr (Z.shiftr (Z.shiftr v 8) 8) 8)].
Proof. cbn [digits]. rewrite !Z.shiftr_div_pow2 by lia. reflexivity. Qed.
Lemma digits2 v : digits 2 v = [u8 v; u8 (Z.shiftr v 8)].
Proof. cbn [digits]. rewrite !Z.shiftr_div_pow2 by lia. reflexivity. Qed.
Lemma digits_mod n v : digits n (v mod 2 ^ (8 * Z.of_nat n)) = digits n v.
Proof.
  revert v; induction n; intros; [reflexivity|].
  cbn [digits]. replace (8 * Z.of_nat (S n)) with (8 + 8 * Z.of_nat n) by lia.
  rewrite Z.pow_add_r by lia. change (2 ^ 8) with 256. f_equal.
  - rewrite Z.rem_mul_r by lia. rewrite (Z.mul_comm 256), Z.mod_add by lia. apply Z.mod_mod. lia.
  - rewrite <- (IHn (v / 256)). f_equal. rewrite Z.rem_mul_r by lia.
    rewrite (Z.mul_comm 256). rewrite Z.div_add by lia. rewrite Z.div_small by (apply Z.mod_pos_bound; lia). lia.
Qed.

Lemma zget_mid {A} (a : list A) x c : zget (a ++ x :: c) (zlen a) = Some x.
Proof. rewrite zget_app_r by lia. rewrite Z.sub_diag. reflexivity. Qed.
Lemma zset_mid {A} (a : list A) x y c : zset (a ++ x :: c) (zlen a) y = Some (a ++ y :: c).
Proof.
  rewrite zset_Some by (rewrite zlen_app, zlen_cons; pose proof (zlen_nonneg a); pose proof (zlen_nonneg c); lia).
  f_equal. unfold zlen. rewrite Nat2Z.id. apply lset_app.
Qed.
Lemma zget_mid1 {A} (a : list A) x y c : zget (a ++ x :: y :: c) (zlen a + 1) = Some y.
Proof. rewrite zget_app_r by lia. replace (zlen a + 1 - zlen a) with 1 by lia. reflexivity. Qed.
Lemma zget_mid2 {A} (a : list A) x y z c : zget (a ++ x :: y :: z :: c) (zlen a + 2) = Some z.
Proof. rewrite zget_app_r by lia. replace (zlen a + 2 - zlen a) with 2 by lia. reflexivity. Qed.
Lemma zget_mid3 {A} (a : list A) x y z w c : zget (a ++ x :: y :: z :: w :: c) (zlen a + 3) = Some w.
Proof. rewrite zget_app_r by lia. replace (zlen a + 3 - zlen a) with 3 by lia. reflexivity. Qed.
Lemma zset_mid1 {A} (a : list A) x y v c : zset (a ++ x :: y :: c) (zlen a + 1) v = Some (a ++ x :: v :: c).
Proof.
  replace (a ++ x :: y :: c) with ((a ++ [x]) ++ y :: c) by (rewrite <- app_assoc; reflexivity).
  replace (zlen a + 1) with (zlen (a ++ [x])) by (rewrite zlen_app; reflexivity).
  rewrite zset_mid, <- app_assoc. reflexivity.
Qed.
Lemma zset_mid2 {A} (a : list A) x y z v c : zset (a ++ x :: y :: z :: c) (zlen a + 2) v = Some (a ++ x :: y :: v :: c).
Proof.
  replace (a ++ x :: y :: z :: c) with ((a ++ [x; y]) ++ z :: c) by (rewrite <- app_assoc; reflexivity).
  replace (zlen a + 2) with (zlen (a ++ [x; y])) by (rewrite zlen_app; reflexivity).
  rewrite zset_mid, <- app_assoc. reflexivity.
Qed.
Lemma zset_mid3 {A} (a : list A) x y z w v c : zset (a ++ x :: y :: z :: w :: c) (zlen a + 3) v = Some (a ++ x :: y :: z :: v :: c).
Proof.
  replace (a ++ x :: y :: z :: w :: c) with ((a ++ [x; y; z]) ++ w :: c) by (rewrite <- app_assoc; reflexivity).
  replace (zlen a + 3) with (zlen (a ++ [x; y; z])) by (rewrite zlen_app; reflexivity).
  rewrite zset_mid, <- app_assoc. reflexivity.
Qed.

Definition minus (r : rel) (off : Z) : Z := if relative r then off else 0.

Lemma asm4 b0 b1 b2 b3 : bytes [b0; b1; b2; b3] ->
  u32 (b0 + u32 (Z.shiftl b1 8) + u32 (Z.shiftl b2 16) + u32 (Z.shiftl b3 24)) = number [b0; b1; b2; b3].
Proof.
  intros H. inversion_clear H as [|? ? H0 H']. inversion_clear H' as [|? ? H1 H]. inversion_clear H as [|? ? H2 H'].
  inversion_clear H' as [|? ? H3 _]. rewrite !Z.shiftl_mul_pow2 by lia.
  change (2 ^ 8) with 256. change (2 ^ 16) with 65536. change (2 ^ 24) with 16777216.
  cbn [number]. rewrite (u32_small (b1 * _)), (u32_small (b2 * _)), (u32_small (b3 * _)) by (change (2 ^ 32) with 4294967296; lia).
  rewrite u32_small by (change (2 ^ 32) with 4294967296; lia). lia.
Qed.
Lemma asm2 b0 b1 : bytes [b0; b1] -> u32 (b0 + u32 (Z.shiftl b1 8)) = number [b0; b1].
Proof.
  intros H. inversion_clear H as [|? ? H0 H']. inversion_clear H' as [|? ? H1 _].
  rewrite !Z.shiftl_mul_pow2 by lia. change (2 ^ 8) with 256. cbn [number].
  rewrite (u32_small (b1 * _)) by (change (2 ^ 32) with 4294967296; lia).
  rewrite u32_small by (change (2 ^ 32) with 4294967296; lia). lia.
Qed.

Lemma digits_low n m v : (n <= m)%nat -> digits n (v mod 2 ^ (8 * Z.of_nat m)) = digits n v.
Proof.
  intros. rewrite <- digits_mod. rewrite <- (digits_mod n v). f_equal.
  replace (8 * Z.of_nat m) with (8 * Z.of_nat n + 8 * (Z.of_nat m - Z.of_nat n)) by lia.
  rewrite Z.pow_add_r by lia. rewrite Z.rem_mul_r by lia.
  rewrite (Z.mul_comm (2 ^ _)), Z.mod_add by lia. apply Z.mod_mod. lia.
Qed.

Lemma reloc1_mid a x c r s off : known r -> zlen x = width r -> bytes x ->
  reloc1 (a ++ x ++ c) (zlen a) (r_type r) s off = Ok (a ++ digits (Z.to_nat (width r)) (number x + s - minus r off) ++ c).
Proof.
  intros K L B. unfold minus, reloc1.
  assert (C : (r_type r = 1 \/ r_type r = 2) \/ (r_type r = 20 \/ r_type r = 21)) by (destruct K as [|[|[]]]; auto).
  destruct C as [C|C].
  - assert (E : width r = 4) by (unfold width; destruct C as [-> | ->]; reflexivity). rewrite E in *.
    destruct x as [|b0 [|b1 [|b2 [|b3 [|]]]]]; try (unfold zlen in L; cbn in L; lia).
    replace ((r_type r =? R_386_32) || (r_type r =? R_386_PC32)) with true by (destruct C as [-> | ->]; reflexivity).
    cbn [app]. rewrite zget_mid, zget_mid1, zget_mid2, zget_mid3. cbn [rbind inb].
    rewrite asm4 by auto. rewrite zset_mid. cbn [rbind inb]. rewrite zset_mid1. cbn [rbind inb].
    rewrite zset_mid2. cbn [rbind inb]. rewrite zset_mid3. cbn [rbind inb]. do 2 f_equal.
    change (Z.to_nat 4) with 4%nat.
    set (n := number [b0; b1; b2; b3]).
    rewrite <- (digits_mod 4 (n + s - _)). change (2 ^ (8 * Z.of_nat 4)) with (2 ^ 32).
    change (?v mod 2 ^ 32) with (u32 v). rewrite digits4.
    replace (u32 (n + s - (if relative r then off else 0))) with (if r_type r =? R_386_PC32 then u32 (u32 (n + s) - off) else u32 (n + s)); [reflexivity|].
    unfold relative, R_386_PC32. destruct C as [-> | ->]; cbn.
    + f_equal. lia.
    + unfold u32. apply wrap_sub_l.
  - assert (E : width r = 2) by (unfold width; destruct C as [-> | ->]; reflexivity). rewrite E in *.
    destruct x as [|b0 [|b1 [|]]]; try (unfold zlen in L; cbn in L; lia).
    replace ((r_type r =? R_386_32) || (r_type r =? R_386_PC32)) with false by (destruct C as [-> | ->]; reflexivity).
    replace ((r_type r =? R_386_16) || (r_type r =? R_386_PC16)) with true by (destruct C as [-> | ->]; reflexivity).
    cbn [app]. rewrite zget_mid, zget_mid1. cbn [rbind inb].
    rewrite asm2 by auto. rewrite zset_mid. cbn [rbind inb]. rewrite zset_mid1. cbn [rbind inb]. do 2 f_equal.
    change (Z.to_nat 2) with 2%nat.
    set (n := number [b0; b1]).
    rewrite <- (digits_low 2 4 (n + s - _)) by lia. change (2 ^ (8 * Z.of_nat 4)) with (2 ^ 32).
    change (?v mod 2 ^ 32) with (u32 v). rewrite digits2.
    replace (u32 (n + s - (if relative r then off else 0))) with (if r_type r =? R_386_PC16 then u32 (u32 (n + s) - off) else u32 (n + s)); [reflexivity|].
    unfold relative, R_386_PC16. destruct C as [-> | ->]; cbn.
    + f_equal. lia.
    + unfold u32. apply wrap_sub_l.
Qed.

Lemma width_cases r : width r = 4 \/ width r = 2.
Proof. unfold width. destruct (_ || _); auto. Qed.

Lemma firstn_zlen {A} (a b : list A) : firstn (Z.to_nat (zlen a)) (a ++ b) = a.
Proof. unfold zlen. rewrite Nat2Z.id, firstn_app, Nat.sub_diag, firstn_all. cbn. apply app_nil_r. Qed.
Lemma skipn_zlen {A} (a b : list A) : skipn (Z.to_nat (zlen a)) (a ++ b) = b.
Proof. unfold zlen. rewrite Nat2Z.id, skipn_app, Nat.sub_diag, skipn_all. reflexivity. Qed.

Lemma field_mid a x c r : zlen a = r_offset r -> zlen x = width r -> field (a ++ x ++ c) r = number x.
Proof. intros E L. unfold field. rewrite <- E, <- L, skipn_zlen, firstn_zlen. reflexivity. Qed.

Lemma patch_mid a x c base r s : zlen a = r_offset r -> zlen x = width r ->
  patch (a ++ x ++ c) base r s = a ++ digits (Z.to_nat (width r)) (number x + s - minus r (u32 (r_offset r + base))) ++ c.
Proof.
  intros E L. unfold patch, relocated. rewrite (field_mid a x c r E L).
  rewrite <- E at 1. rewrite firstn_zlen.
  replace (r_offset r + width r) with (zlen (a ++ x)) by (rewrite zlen_app; lia).
  rewrite (app_assoc a x c), skipn_zlen. f_equal. f_equal.
  assert (W : width r = Z.of_nat (Z.to_nat (width r))) by (destruct (width_cases r) as [-> | ->]; reflexivity).
  rewrite W at 2. rewrite digits_mod.
  rewrite <- (digits_low _ 4 (number x + s - (if relative r then base + r_offset r else 0))) by (destruct (width_cases r) as [-> | ->]; vm_compute; lia).
  rewrite <- (digits_low _ 4 (number x + s - minus r (u32 (r_offset r + base)))) by (destruct (width_cases r) as [-> | ->]; vm_compute; lia).
  f_equal. change (2 ^ (8 * Z.of_nat 4)) with (2 ^ 32). change (?v mod 2 ^ 32) with (u32 v).
  unfold minus. destruct (relative r); [|reflexivity]. unfold u32. rewrite wrap_sub_r. f_equal. lia.
Qed.

Lemma bytes_app a b : bytes (a ++ b) <-> bytes a /\ bytes b.
Proof. apply Forall_app. Qed.

(** where a field inside a section is *)
Lemma field_split w r : inside w r -> exists a x c, w = a ++ x ++ c /\ zlen a = r_offset r /\ zlen x = width r.
Proof.
  intros [I1 I2]. exists (firstn (Z.to_nat (r_offset r)) w), (firstn (Z.to_nat (width r)) (skipn (Z.to_nat (r_offset r)) w)),
    (skipn (Z.to_nat (width r)) (skipn (Z.to_nat (r_offset r)) w)).
  rewrite !firstn_skipn. split; [reflexivity|]. unfold zlen in *. rewrite !firstn_length, skipn_length.
  destruct (width_cases r) as [E|E]; rewrite E in *; lia.
Qed.

Lemma patch_ok w base r s : inside w r -> bytes w -> zlen (patch w base r s) = zlen w /\ bytes (patch w base r s).
Proof.
  intros In B. destruct (field_split w r In) as (a & x & c & -> & E & L). rewrite (patch_mid a x c base r s E L).
  apply bytes_app in B as [B1 B]. apply bytes_app in B as [B2 B3].
  assert (D : zlen (digits (Z.to_nat (width r)) (number x + s - minus r (u32 (r_offset r + base)))) = width r).
  { unfold zlen. rewrite digits_len. destruct (width_cases r) as [-> | ->]; reflexivity. }
  split.
  - rewrite !zlen_app. lia.
  - rewrite !bytes_app. repeat split; auto. apply digits_bytes.
Qed.

Section Slide.
Variable sval : rel -> res Z.
Variable base : Z.
Definition s (r : rel) : Z := match sval r with Ok v => v | _ => 0 end.
Definition good (r : rel) : Prop := known r /\ sval r = Ok (s r).
Lemma good_dec r : good r \/ ~ good r.
Proof.
  unfold good, known, s. destruct (sval r); [|right; intros [_ H]; discriminate|right; intros [_ H]; discriminate].
  destruct (Z.eq_dec (r_type r) 1), (Z.eq_dec (r_type r) 2), (Z.eq_dec (r_type r) 20), (Z.eq_dec (r_type r) 21); try solve [left; split; [tauto|reflexivity]].
  right. intros [H _]. tauto.
Qed.
Lemma bad_reloc1 buf i r off : ~ good r -> forall x, rbind (sval r) (fun v => reloc1 buf i (r_type r) v off) <> Ok x.
Proof.
  intros NG x. unfold good, s in NG. destruct (sval r); cbn [rbind]; try discriminate.
  assert (NK : ~ known r) by tauto. unfold known in NK. unfold reloc1, R_386_32, R_386_PC32, R_386_16, R_386_PC16.
  destruct (r_type r =? 1) eqn:E1; [lia|]. destruct (r_type r =? 2) eqn:E2; [lia|]. destruct (r_type r =? 20) eqn:E3; [lia|]. destruct (r_type r =? 21) eqn:E4; [lia|].
  discriminate.
Qed.

Lemma relocs_ok rels : forall pre live post stale,
  Sorted byOffset rels -> Forall (inside (pre ++ live ++ post)) rels ->
  bytes (pre ++ live ++ post) ->
  Forall (fun r => zlen pre <= r_offset r) rels ->
  Forall (fun r => r_offset r < zlen pre + FBUF -> r_offset r + width r <= zlen pre + zlen live) rels ->
  zlen pre + FBUF < 2 ^ 32 ->
  (Exists (fun r => ~ good r) rels /\ forall x, relocs sval base (live ++ stale) (zlen pre) rels <> Ok x) \/
  exists live' rels1 rels2, rels = rels1 ++ rels2 /\ Forall good rels1 /\
    relocs sval base (live ++ stale) (zlen pre) rels = Ok (live' ++ stale, rels2) /\
    zlen live' = zlen live /\ patchAll (pre ++ live ++ post) base s rels1 = pre ++ live' ++ post /\
    bytes (pre ++ live' ++ post) /\
    Forall (fun r => zlen pre + FBUF <= r_offset r) rels2.
Proof.
  induction rels as [|r rels IH]; intros pre live post stale ST I B G F N.
  { right. exists live, [], []. repeat split; auto. }
  cbn [relocs]. pose proof (zlen_nonneg pre) as P. rewrite u32_small by (unfold FBUF in *; lia).
  destruct (r_offset r <? zlen pre + FBUF) eqn:E.
  - inversion_clear I as [|? ? I1 I2]. inversion_clear G as [|? ? G1 G2]. inversion_clear F as [|? ? F1 F2].
    inversion_clear ST as [|? ? ST1 ST2]. destruct (good_dec r) as [[K1 K2]|NG].
    2:{ left. split; [left; exact NG|]. intros x Hx.
        destruct (rbind (sval r) (fun v => reloc1 (live ++ stale) (r_offset r - zlen pre) (r_type r) v (u32 (r_offset r + base)))) as [y| |] eqn:Hy.
        - exact (bad_reloc1 _ _ _ _ NG _ Hy).
        - destruct (sval r) eqn:Hs; cbn [rbind] in *; try discriminate. rewrite Hy in Hx. discriminate.
        - destruct (sval r) eqn:Hs; cbn [rbind] in *; try discriminate. rewrite Hy in Hx. discriminate. }
    rewrite K2. cbn [rbind].
    assert (IL : exists a x c, live = a ++ x ++ c /\ zlen a = r_offset r - zlen pre /\ zlen x = width r).
    { destruct (field_split live (mkRel (r_offset r - zlen pre) (r_sym r) (r_type r))) as (a & x & c & H1 & H2 & H3).
      - split; cbn [r_offset]; [lia|]. change (width (mkRel _ _ _)) with (width r). lia.
      - exists a, x, c. auto. }
    destruct IL as (a & x & c & -> & La & Lx).
    replace ((a ++ x ++ c) ++ stale) with (a ++ x ++ (c ++ stale)) by (rewrite !app_assoc; reflexivity).
    rewrite <- La. rewrite reloc1_mid; [|auto|auto|].
    2:{ rewrite !bytes_app in B. tauto. }
    cbn [rbind]. set (y := digits _ _).
    assert (Ly : zlen y = zlen x). { unfold y, zlen. rewrite digits_len. unfold zlen in Lx. lia. }
    assert (PM : patch (pre ++ (a ++ x ++ c) ++ post) base r (s r) = pre ++ (a ++ y ++ c) ++ post).
    { replace (pre ++ (a ++ x ++ c) ++ post) with ((pre ++ a) ++ x ++ (c ++ post)) by (rewrite !app_assoc; reflexivity).
      rewrite patch_mid; [|rewrite zlen_app; lia|auto]. fold y. rewrite !app_assoc. reflexivity. }
    pose proof (patch_ok _ base r (s r) I1 B) as [PL PB]. rewrite PM in PL, PB.
    replace (a ++ y ++ c ++ stale) with ((a ++ y ++ c) ++ stale) by (rewrite !app_assoc; reflexivity).
    destruct (IH pre (a ++ y ++ c) post stale) as [[X1 X2]|(live' & r1 & r2 & E1 & EG & E2 & E3 & E4 & E5 & E6)]; auto.
    { revert I2. apply Forall_impl. intros q [Q1 Q2]. split; [auto|]. rewrite PL. auto. }
    { revert F2. apply Forall_impl. intros q Q Q'. specialize (Q Q'). rewrite !zlen_app in *. lia. }
    right. exists live', (r :: r1), r2. rewrite E2. split; [cbn; congruence|]. split; [constructor; [split; auto|auto]|]. repeat split; auto.
    + rewrite E3, !zlen_app. lia.
    + cbn [patchAll]. rewrite PM. exact E4.
  - right. exists live, [], (r :: rels). repeat split; auto.
    constructor; [lia|]. apply Sorted_StronglySorted in ST; [|intros x y z; unfold byOffset; lia].
    inversion_clear ST as [|? ? _ ST2]. revert ST2. apply Forall_impl. unfold byOffset. lia.
Qed.

Lemma patchAll_app w r1 r2 : patchAll w base s (r1 ++ r2) = patchAll (patchAll w base s r1) base s r2.
Proof. revert w; induction r1; intros; cbn; auto. Qed.

Lemma Sorted_tail r1 r2 : Sorted byOffset (r1 ++ r2) -> Sorted byOffset r2.
Proof. induction r1; cbn; auto. intros H. apply IHr1. inversion H; auto. Qed.

Lemma slide_ok fuel : forall pre live stale input rels out,
  (Z.to_nat (zlen live + zlen input) < fuel)%nat ->
  zlen live + zlen stale = FBUF + 3 ->
  (zlen live = 3 \/ (zlen live < 3 /\ input = [])) ->
  Sorted byOffset rels -> Forall (inside (pre ++ live ++ input)) rels ->
  bytes (pre ++ live ++ input) ->
  Forall (fun r => zlen pre <= r_offset r) rels ->
  (live <> [] -> zlen (pre ++ live ++ input) + FBUF <= 2 ^ 32) ->
  (Exists (fun r => ~ good r) rels /\ forall x, slide sval base fuel (live ++ stale) (zlen live) (u32 (zlen pre)) (zlen input) input rels out <> Ok x) \/
  exists buf' w', Forall good rels /\ slide sval base fuel (live ++ stale) (zlen live) (u32 (zlen pre)) (zlen input) input rels out = Ok (buf', out ++ w') /\
    pre ++ w' = patchAll (pre ++ live ++ input) base s rels /\ zlen buf' = FBUF + 3.
Proof.
  induction fuel as [|fuel IH]; intros pre live stale input rels out FU LS LC ST I B G N; [lia|].
  cbn [slide].
  pose proof (zlen_nonneg pre) as Pp. pose proof (zlen_nonneg live) as Pl. pose proof (zlen_nonneg stale) as Ps. pose proof (zlen_nonneg input) as Pi.
  destruct (zlen live =? 0) eqn:E0.
  { assert (live = []) as -> by (destruct live; [auto|rewrite zlen_cons in *; pose proof (zlen_nonneg live); lia]).
    assert (input = []) as -> by (destruct LC as [LC|[]]; [change (zlen (@nil Z)) with 0 in LC; lia|auto]).
    assert (rels = []) as ->.
    { destruct rels as [|r rels]; [auto|]. inversion_clear I as [|? ? [I1 I2] _]. inversion_clear G as [|? ? G1 _].
      rewrite !zlen_app in I2. change (zlen (@nil Z)) with 0 in I2. destruct (width_cases r); lia. }
    right. exists ([] ++ stale), []. split; [auto|]. rewrite !app_nil_r. split; [reflexivity|]. split; [|cbn [app]; change (zlen (@nil Z)) with 0 in LS; lia].
    reflexivity. }
  assert (Lne : live <> []) by (intros ->; cbn in E0; lia).
  specialize (N Lne). rewrite !zlen_app in N.
  assert (zlen pre < 2 ^ 32 - FBUF) by lia.
  rewrite (u32_small (zlen pre)) by (unfold FBUF in *; lia).
  set (csz := if FBUF <? zlen input then FBUF else zlen input).
  assert (C : 0 <= csz <= zlen input /\ csz <= FBUF /\ (csz = zlen input \/ csz = FBUF)).
  { unfold csz, FBUF in *. destruct (1024 <? zlen input) eqn:E; lia. }
  clearbody csz.
  unfold fread. destruct (zlen input <? csz) eqn:E1; [lia|]. destruct (zlen (live ++ stale) <? zlen live + csz) eqn:E2; [rewrite zlen_app in E2; destruct LC as [|[]]; unfold FBUF in *; lia|].
  cbn [rbind]. rewrite firstn_zlen.
  set (i1 := firstn (Z.to_nat csz) input). set (i2 := skipn (Z.to_nat csz) input).
  assert (Ei : input = i1 ++ i2) by (symmetry; apply firstn_skipn).
  assert (Li : zlen i1 = csz). { unfold i1, zlen. rewrite firstn_length. unfold zlen in *. lia. }
  clearbody i1 i2. subst input. rewrite zlen_app in *.
  set (stale' := skipn (Z.to_nat (zlen live + csz)) (live ++ stale)).
  assert (Ls : zlen stale' = FBUF + 3 - zlen live - csz). { unfold stale', zlen. rewrite skipn_length, app_length. unfold zlen in *. lia. }
  clearbody stale'.
  replace (live ++ i1 ++ stale') with ((live ++ i1) ++ stale') by (rewrite !app_assoc; reflexivity).
  replace (pre ++ live ++ i1 ++ i2) with (pre ++ (live ++ i1) ++ i2) in * by (rewrite !app_assoc; reflexivity).
  destruct (relocs_ok rels pre (live ++ i1) i2 stale') as [[X1 X2]|(live' & r1 & r2 & R1 & RG & R2 & R3 & R4 & R5 & R6)]; auto.
  { clear - I LC C Li Pi. apply Forall_forall. intros r Hr. rewrite Forall_forall in I. destruct (I r Hr) as [_ J].
    intros Q. rewrite !zlen_app in *. pose proof (zlen_nonneg i2). destruct (width_cases r); destruct C as (C1 & C2 & [C3|C3]); try lia;
    destruct LC as [L|[L E]]; try lia; destruct i1; try discriminate; unfold zlen in *; cbn in *; unfold FBUF in *; lia. }
  { lia. }
  { left. split; [exact X1|]. intros x Hx. destruct (relocs sval base ((live ++ i1) ++ stale') (zlen pre) rels) as [y| |] eqn:Hy; [exact (X2 _ eq_refl)|discriminate|discriminate]. }
  rewrite R2. cbn [rbind]. rewrite zlen_app in R3.
  set (L := live') in *. clearbody L. clear live'.
  assert (FL : FBUF = 1024) by reflexivity.
  assert (LL : zlen live + csz <= FBUF + 3) by (destruct LC as [|[]]; lia).
  pose proof (zlen_nonneg i2) as P2.
  set (wsz := if FBUF <? zlen live + csz then FBUF else zlen live + csz).
  assert (WZ : 0 <= wsz <= FBUF /\ wsz <= zlen live + csz /\ (wsz = zlen live + csz \/ wsz = FBUF)).
  { unfold wsz, FBUF in *. destruct (1024 <? zlen live + csz) eqn:E; lia. }
  assert (L1 : zlen (L ++ stale') = FBUF + 3) by (rewrite zlen_app; lia).
  destruct (zlen (L ++ stale') <? FBUF + (zlen live + csz - wsz)) eqn:E3; [lia|].
  set (o := firstn (Z.to_nat wsz) (L ++ stale')).
  set (live2 := firstn (Z.to_nat (zlen live + csz - wsz)) (skipn (Z.to_nat FBUF) (L ++ stale'))).
  assert (OL : L = o ++ live2 /\ zlen o = wsz /\ zlen live2 = zlen live + csz - wsz).
  { unfold o, live2. unfold wsz in *. destruct (FBUF <? zlen live + csz) eqn:E4.
    - rewrite firstn_app. replace (Z.to_nat FBUF - List.length L)%nat with 0%nat by (unfold zlen in *; lia).
      cbn [firstn]. rewrite app_nil_r. rewrite skipn_app. replace (Z.to_nat FBUF - List.length L)%nat with 0%nat by (unfold zlen in *; lia).
      cbn [skipn]. rewrite firstn_app. rewrite skipn_length.
      replace (Z.to_nat (zlen live + csz - FBUF) - (List.length L - Z.to_nat FBUF))%nat with 0%nat by (unfold zlen in *; lia).
      cbn [firstn]. rewrite app_nil_r. rewrite (firstn_all2 (n := Z.to_nat (_ - FBUF))) by (rewrite skipn_length; unfold zlen in *; lia).
      rewrite firstn_skipn. split; [auto|]. unfold zlen in *. rewrite firstn_length, skipn_length. lia.
    - rewrite Z.sub_diag. cbn [Z.to_nat firstn]. rewrite app_nil_r.
      replace (zlen live + csz) with (zlen L) by lia. rewrite firstn_zlen. split; [auto|]. split; [lia|reflexivity]. }
  destruct OL as (OL & Lo & L2). clearbody o live2.
  set (stale2 := skipn (Z.to_nat (zlen live + csz - wsz)) (L ++ stale')).
  assert (LS2 : zlen stale2 = FBUF + 3 - (zlen live + csz - wsz)). { unfold stale2, zlen. rewrite skipn_length. unfold zlen in *. lia. }
  clearbody stale2. subst L.
  (* the state after one round *)
  assert (NX : live2 = [] \/ wsz = FBUF).
  { destruct live2; [auto|right]. rewrite zlen_cons in *. pose proof (zlen_nonneg live2). lia. }
  destruct NX as [-> | WF].
  - (* everything has been written *)
    change (zlen (@nil Z)) with 0 in L2.
    assert (i2 = []) as ->.
    { destruct C as (_ & _ & [C|C]); [destruct i2; [auto|rewrite zlen_cons in *; pose proof (zlen_nonneg i2); lia]|].
      destruct LC as [L3|[L3 E5]]; [lia|]. destruct i1; [destruct i2; [auto|discriminate]|discriminate]. }
    destruct fuel as [|fuel]; [cbn in FU; lia|].
    assert (r2 = []) as ->.
    { rewrite R1 in I. apply Forall_app in I as [_ I]. destruct r2 as [|r r2]; [auto|].
      inversion_clear I as [|? ? [_ I2] _]. inversion_clear R6 as [|? ? R7 _].
      rewrite !zlen_app in I2. change (zlen (@nil Z)) with 0 in I2. destruct (width_cases r); lia. }
    right. exists ([] ++ stale2), o. split; [rewrite R1, app_nil_r; auto|].
    replace (zlen live + csz - wsz) with 0 by lia. cbn [slide]. change (0 =? 0) with true. split; [reflexivity|].
    split; [|cbn [app]; lia].
    rewrite R1, patchAll_app, R4, !app_nil_r.
    reflexivity.
  - replace (zlen live + csz - wsz) with (zlen live2) by lia.
    replace (zlen i1 + zlen i2 - csz) with (zlen i2) by lia.
    replace (u32 (zlen pre + FBUF)) with (u32 (zlen (pre ++ o))) by (f_equal; rewrite zlen_app; lia).
    destruct (IH (pre ++ o) live2 stale2 i2 r2 (out ++ o)) as [[X1 X2]|(buf' & w' & SG & S1 & S2 & S3)].
    + lia.
    + lia.
    + destruct C as (_ & _ & [C|C]).
      * assert (i2 = []) as -> by (destruct i2; [auto|rewrite zlen_cons in *; pose proof (zlen_nonneg i2); lia]).
        destruct (Z.eq_dec (zlen live2) 3); [auto|right; split; [lia|auto]].
      * destruct LC as [L3|[L3 E5]]; [left; lia|]. destruct i1; [change (zlen (@nil Z)) with 0 in Li; lia|discriminate].
    + rewrite R1 in ST. eapply Sorted_tail; eauto.
    + rewrite R1 in I. apply Forall_app in I as [_ I]. revert I. apply Forall_impl. intros q [Q1 Q2]. split; [auto|].
      rewrite !zlen_app in *. lia.
    + rewrite <- app_assoc in R5. rewrite <- app_assoc. exact R5.
    + revert R6. apply Forall_impl. intros q Q. rewrite zlen_app. lia.
    + intros _. rewrite !zlen_app in *. lia.
    + left. split; [rewrite R1; apply Exists_app; right; exact X1|exact X2].
    + right. exists buf', (o ++ w'). split; [rewrite R1; apply Forall_app; auto|].
      rewrite S1. rewrite <- app_assoc. split; [reflexivity|]. split; [|exact S3].
      rewrite R1, patchAll_app, R4. rewrite app_assoc, S2. rewrite <- !app_assoc. reflexivity.
Qed.

Theorem relocWrite_ok buf w rels out :
  zlen buf = FBUF + 3 -> Sorted byOffset rels -> Forall (inside w) rels -> bytes w ->
  zlen w + FBUF <= 2 ^ 32 ->
  (Exists (fun r => ~ good r) rels /\ forall x, relocWrite sval base buf (zlen w) w rels out <> Ok x) \/
  exists buf', Forall good rels /\ relocWrite sval base buf (zlen w) w rels out = Ok (buf', out ++ patchAll w base s rels) /\ zlen buf' = FBUF + 3.
Proof.
  intros LB ST I B N. unfold relocWrite. pose proof (zlen_nonneg w) as Pw.
  set (csz := if 3 <? zlen w then 3 else zlen w).
  assert (C : 0 <= csz <= zlen w /\ csz <= 3 /\ (csz = zlen w \/ csz = 3)).
  { unfold csz. destruct (3 <? zlen w) eqn:E; lia. }
  clearbody csz. unfold fread. destruct (zlen w <? csz) eqn:E1; [lia|]. destruct (zlen buf <? 0 + csz) eqn:E2; [unfold FBUF in *; lia|].
  cbn [rbind Z.to_nat firstn app].
  set (i1 := firstn (Z.to_nat csz) w). set (i2 := skipn (Z.to_nat csz) w).
  assert (Ei : w = i1 ++ i2) by (symmetry; apply firstn_skipn).
  assert (Li : zlen i1 = csz). { unfold i1, zlen. rewrite firstn_length. unfold zlen in *. lia. }
  clearbody i1 i2. subst w. rewrite zlen_app in *.
  destruct (slide_ok (S (Z.to_nat (zlen i1 + zlen i2))) [] i1 (skipn (Z.to_nat (0 + csz)) buf) i2 rels out) as [[X1 X2]|(buf' & w' & SG & S1 & S2 & S3)]; auto.
  - assert (zlen (skipn (Z.to_nat (0 + csz)) buf) = FBUF + 3 - csz). { unfold zlen in *. rewrite skipn_length. lia. } lia.
  - destruct C as (_ & C3 & [C|C]); [|left; lia]. pose proof (zlen_nonneg i2).
    assert (i2 = []) as -> by (destruct i2; [auto|rewrite zlen_cons in *; pose proof (zlen_nonneg i2); lia]).
    destruct (Z.eq_dec (zlen i1) 3); [auto|right; split; [lia|auto]].
  - apply Forall_forall. intros r Hr. rewrite Forall_forall in I. destruct (I r Hr). change (zlen (@nil Z)) with 0. lia.
  - intros _. cbn [app]. rewrite !zlen_app. lia.
  - left. split; [exact X1|]. replace (zlen i1 + zlen i2 - csz) with (zlen i2) by lia. rewrite <- Li.
    change (u32 (zlen [])) with 0 in X2. rewrite Li in *. exact X2.
  - right. exists buf'. split; [exact SG|]. replace (zlen i1 + zlen i2 - csz) with (zlen i2) by lia. rewrite <- Li.
    change (u32 (zlen [])) with 0 in S1. rewrite Li in *. rewrite S1. cbn [app] in S2. rewrite S2. auto.
Qed.
End Slide.
