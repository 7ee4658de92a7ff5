(** Proofs about character constants and string literals. *)
From Verif Require Import Base BaseLemmas LexSpec LexModel LexProof CharSpec CharModel.

Lemma lor_add a b k : 0 <= k -> 0 <= b < 2 ^ k -> Z.lor (a * 2 ^ k) b = a * 2 ^ k + b.
Proof.
  intros K B. symmetry. apply Z.add_nocarry_lxor in K || idtac. rewrite <- Z.lxor_lor.
  - apply Z.add_nocarry_lxor. apply Z.bits_inj'. intros n N. rewrite Z.land_spec, Z.bits_0.
    destruct (Z.ltb_spec n k).
    + rewrite Z.mul_pow2_bits_low by lia. reflexivity.
    + replace b with (b mod 2 ^ k) by (apply Z.mod_small; lia). rewrite Z.mod_pow2_bits_high by lia. apply andb_false_r.
  - apply Z.bits_inj'. intros n N. rewrite Z.land_spec, Z.bits_0.
    destruct (Z.ltb_spec n k).
    + rewrite Z.mul_pow2_bits_low by lia. reflexivity.
    + replace b with (b mod 2 ^ k) by (apply Z.mod_small; lia). rewrite Z.mod_pow2_bits_high by lia. apply andb_false_r.
Qed.
Lemma push k ch d : 0 <= k -> 0 <= d < 2 ^ k -> 0 <= ch -> ch * 2 ^ k < 2 ^ 32 -> Z.lor (u32 (Z.shiftl ch k)) d = ch * 2 ^ k + d.
Proof.
  intros K D C L. rewrite Z.shiftl_mul_pow2 by lia. unfold u32, wrap. rewrite Z.mod_small by nia. apply lor_add; lia.
Qed.

Lemma isnl_iff c : isnl c = true <-> c = 10 \/ c = 13 \/ c = 0.
Proof. unfold isnl. lia. Qed.
Lemma hexdig_some c d : hexdig c = Some d -> hexdigit c /\ d = digit c /\ 0 <= d < 16.
Proof.
  unfold hexdig, hexdigit, digit. intros H. destruct ((48 <=? c) && (c <=? 57)) eqn:A; [injection H as <-; replace (c <=? 57) with true by lia; lia|].
  destruct ((65 <=? c) && (c <=? 70)) eqn:B; [injection H as <-; replace (c <=? 57) with false by lia; replace (c <=? 70) with true by lia; lia|].
  destruct ((97 <=? c) && (c <=? 102)) eqn:E; [|discriminate H]. injection H as <-. replace (c <=? 57) with false by lia; replace (c <=? 70) with false by lia; lia.
Qed.
Lemma hexdig_none c : hexdig c = None -> ~ hexdigit c.
Proof.
  unfold hexdig, hexdigit. intros H. destruct ((48 <=? c) && (c <=? 57)) eqn:A; [discriminate H|].
  destruct ((65 <=? c) && (c <=? 70)) eqn:B; [discriminate H|]. destruct ((97 <=? c) && (c <=? 102)) eqn:E; [discriminate H|lia].
Qed.
Lemma hexdig_hex c : hexdigit c -> exists d, hexdig c = Some d.
Proof. intros H. destruct (hexdig c) eqn:E; [eauto|]. destruct (hexdig_none c E H). Qed.

Definition numf (base v : Z) (ds : list Z) : Z := fold_left (fun v c => v * base + digit c) ds v.
Lemma numf_bounds ds : forall v, Forall hexdigit ds -> 0 <= v -> v * 16 ^ zlen ds <= numf 16 v ds < (v + 1) * 16 ^ zlen ds.
Proof.
  induction ds as [|c ds IH]; intros v F V; unfold numf; cbn [fold_left].
  - change (zlen (@nil Z)) with 0. lia.
  - inversion F as [|? ? H F']; subst. destruct (hexdig_hex c H) as [d D]. apply hexdig_some in D. destruct D as (_ & ED & B).
    rewrite <- ED. fold (numf 16 (v * 16 + d) ds). specialize (IH (v * 16 + d) F' ltac:(lia)).
    replace (zlen (c :: ds)) with (zlen ds + 1) by (unfold zlen; cbn [List.length]; lia). rewrite Z.pow_add_r by (unfold zlen; lia).
    assert (0 < 16 ^ zlen ds) by (apply Z.pow_pos_nonneg; unfold zlen; lia). nia.
Qed.
Lemma hexloop_ok lim ds : forall cnt ch r, lim <= 8 -> 0 <= cnt <= lim -> 0 <= ch < 16 ^ cnt -> Forall hexdigit ds -> nostart hexdigit r ->
  hexloop true lim cnt ch (ds ++ r) = if cnt + zlen ds <=? lim then Ok (numf 16 ch ds, cnt + zlen ds, r) else Err.
Proof.
  induction ds as [|c ds IH]; intros cnt ch r L C H F N.
  - change (zlen (@nil Z)) with 0. replace (cnt + 0 <=? lim) with true by lia. cbn [app]. destruct r as [|x r]; cbn [hexloop]; [rewrite Z.add_0_r; reflexivity|].
    cbn [nostart] in N. destruct (hexdig x) eqn:E; [apply hexdig_some in E; destruct E; contradiction|]. rewrite Z.add_0_r. reflexivity.
  - inversion F as [|? ? HC F']; subst. destruct (hexdig_hex c HC) as [d D]. cbn [app hexloop]. rewrite D. apply hexdig_some in D. destruct D as (_ & ED & B).
    replace (zlen (c :: ds)) with (zlen ds + 1) by (unfold zlen; cbn [List.length]; lia).
    destruct ((lim <? cnt + 1) && true) eqn:E; [replace (cnt + (zlen ds + 1) <=? lim) with false by (unfold zlen in *; lia); reflexivity|].
    assert (P : 16 ^ cnt <= 16 ^ 7) by (apply Z.pow_le_mono_r; lia). change (16 ^ 7) with 268435456 in P.
    rewrite (push 4 ch d) by lia. rewrite IH; [|lia|lia| |assumption|assumption].
    + replace (cnt + 1 + zlen ds) with (cnt + (zlen ds + 1)) by lia. unfold numf. cbn [fold_left]. rewrite ED. reflexivity.
    + rewrite Z.pow_add_r by lia. lia.
Qed.
Lemma hex_split l : exists ds r, l = ds ++ r /\ Forall hexdigit ds /\ nostart hexdigit r.
Proof.
  induction l as [|c l IH].
  - exists [], []. split; [reflexivity|]. split; [constructor|exact I].
  - destruct (hexdig c) eqn:E.
    + destruct IH as (ds & r & -> & F & N). exists (c :: ds), r. apply hexdig_some in E. split; [reflexivity|]. split; [constructor; tauto|assumption].
    + exists [], (c :: l). split; [reflexivity|]. split; [constructor|]. cbn. apply hexdig_none; assumption.
Qed.
Lemma zeroes_ok l : exists n, l = repeat 48 n ++ zeroes l /\ nostart (eq 48) (zeroes l).
Proof.
  induction l as [|c l IH]; [exists O; split; [reflexivity|exact I]|].
  destruct (Z.eq_dec c 48) as [-> |N].
  - destruct IH as (n & E & ST). exists (S n). cbn [zeroes repeat app]. rewrite Z.eqb_refl. split; [congruence|assumption].
  - exists O. assert (E : zeroes (c :: l) = c :: l).
    { cbn [zeroes]. replace (c =? 48) with false by lia. reflexivity. }
    rewrite E. split; [reflexivity|]. cbn. congruence.
Qed.
Lemma zeroes_zeros n l : nostart (eq 48) l -> zeroes (repeat 48 n ++ l) = l.
Proof.
  intros N. induction n as [|n IH]; [|exact IH]. cbn [repeat app]. destruct (zeroes_ok l) as (k & E & ST). destruct k; [cbn in E; congruence|].
  rewrite E in N. cbn in N. congruence.
Qed.
Lemma numf_zeros n ds : numf 16 0 (repeat 48 n ++ ds) = numf 16 0 ds.
Proof. induction n as [|n IH]; [reflexivity|]. cbn [repeat app]. unfold numf in *. cbn [fold_left]. exact IH. Qed.
Lemma zeros_hex n : Forall hexdigit (repeat 48 n).
Proof. apply Forall_forall. intros x I. apply repeat_spec in I. subst. unfold hexdigit. lia. Qed.
(** without leading zeroes, the number of digits decides whether the value fits *)
Lemma fits_digits size ds : 0 <= size -> Forall hexdigit ds -> nostart (eq 48) ds -> (numf 16 0 ds < 256 ^ size <-> zlen ds <= 2 * size).
Proof.
  intros S F N. change 256 with (16 ^ 2). rewrite <- Z.pow_mul_r by lia. split; intros H.
  - destruct ds as [|c ds]; [change (zlen (@nil Z)) with 0; lia|]. cbn in N. inversion F as [|? ? HC F']; subst.
    destruct (hexdig_hex c HC) as [d D]. pose proof (hexdig_some c d D) as (_ & ED & B). assert (d <> 0).
    { unfold hexdigit in HC. unfold digit in ED. destruct (c <=? 57) eqn:C1; [lia|]. destruct (c <=? 70) eqn:C2; lia. }
    unfold numf in H. cbn [fold_left] in H. rewrite <- ED in H. fold (numf 16 (0 * 16 + d) ds) in H. pose proof (numf_bounds ds (0 * 16 + d) F' ltac:(lia)) as [L _].
    replace (zlen (c :: ds)) with (zlen ds + 1) by (unfold zlen; cbn [List.length]; lia).
    destruct (Z.ltb_spec (zlen ds) (2 * size)); [lia|exfalso]. assert (16 ^ (2 * size) <= 16 ^ zlen ds) by (apply Z.pow_le_mono_r; lia).
    assert (0 < 16 ^ zlen ds) by (apply Z.pow_pos_nonneg; unfold zlen; lia). nia.
  - pose proof (numf_bounds ds 0 F ltac:(lia)) as [_ L]. assert (16 ^ zlen ds <= 16 ^ (2 * size)) by (apply Z.pow_le_mono_r; lia). lia.
Qed.

(** ** octal digits *)
Lemma isoct_iff c : isoct c = true <-> octdigit c.
Proof. unfold isoct, octdigit. lia. Qed.
Lemma oct_digit c : octdigit c -> digit c = c - 48 /\ 0 <= c - 48 < 8.
Proof. unfold octdigit, digit. intros. replace (c <=? 57) with true by lia. lia. Qed.
Lemma octloop_ok n : forall ch ds r, 0 <= ch -> (ch + 1) * 8 ^ Z.of_nat n <= 2 ^ 32 -> Forall octdigit ds -> zlen ds <= Z.of_nat n -> (zlen ds < Z.of_nat n -> nostart octdigit r) ->
  octloop n ch (ds ++ r) = (numf 8 ch ds, r).
Proof.
  induction n as [|n IH]; intros ch ds r C B F L N.
  - destruct ds as [|c ds]; [reflexivity|]. unfold zlen in L. cbn [List.length] in L. lia.
  - destruct ds as [|c ds].
    + cbn [app octloop]. destruct r as [|x r]; [reflexivity|]. cbn in N. destruct (isoct x) eqn:E; [|reflexivity]. apply isoct_iff in E. destruct N; [change (zlen (@nil Z)) with 0; lia|assumption].
    + inversion F as [|? ? H F']; subst. cbn [app octloop]. rewrite (proj2 (isoct_iff c) H). destruct (oct_digit c H) as [ED D].
      assert (0 < 8 ^ Z.of_nat n) by (apply Z.pow_pos_nonneg; lia).
      rewrite Nat2Z.inj_succ, Z.pow_succ_r in B by lia. rewrite (push 3 ch (c - 48)) by nia.
      assert (EL : zlen (c :: ds) = zlen ds + 1) by (unfold zlen; cbn [List.length]; lia).
      rewrite IH; [|lia| |assumption|lia|intros; apply N; lia].
      * unfold numf. cbn [fold_left]. rewrite ED. reflexivity.
      * change (2 ^ 3) with 8. nia.
Qed.

(** ** one character *)
Definition csize (wide : bool) (wsz : Z) : Z := if wide then wsz else 1.
Definition okw (wide : bool) (wsz : Z) : Prop := wide = true -> wsz = 2 \/ wsz = 4.

Lemma oct_split d q : octdigit d -> exists ds r, d :: q = ds ++ r /\ 1 <= zlen ds <= 3 /\ Forall octdigit ds /\ (zlen ds < 3 -> nostart octdigit r).
Proof.
  intros D. destruct q as [|x q].
  - exists [d], []. split; [reflexivity|]. split; [cbv; split; discriminate|]. split; [auto|]. intros _. exact I.
  - destruct (isoct x) eqn:X.
    + apply isoct_iff in X. destruct q as [|y q].
      * exists [d; x], []. split; [reflexivity|]. split; [cbv; split; discriminate|]. split; [auto|]. intros _. exact I.
      * destruct (isoct y) eqn:Y.
        -- apply isoct_iff in Y. exists [d; x; y], q. split; [reflexivity|]. split; [cbv; split; discriminate|]. split; [auto|]. intros H. cbv in H. discriminate H.
        -- exists [d; x], (y :: q). split; [reflexivity|]. split; [cbv; split; discriminate|]. split; [auto|]. intros _ H. apply isoct_iff in H. congruence.
    + exists [d], (x :: q). split; [reflexivity|]. split; [cbv; split; discriminate|]. split; [auto|]. intros _ H. apply isoct_iff in H. congruence.
Qed.

Lemma self_ok wide l v r : self true wide l = Ok (v, r) -> l = v :: r /\ isnl v = false /\ (wide = true -> v <= 127).
Proof.
  destruct l as [|c l]; [discriminate|]. cbn [self]. destruct (isnl c) eqn:N; [discriminate|].
  destruct (wide && (127 <? c) && true) eqn:W; [discriminate|]. intros E. injection E as <- <-. split; [reflexivity|]. split; [assumption|]. intros ->. lia.
Qed.
Lemma self_mk wide v r : isnl v = false -> (wide = true -> v <= 127) -> self true wide (v :: r) = Ok (v, r).
Proof.
  intros N W. cbn [self]. rewrite N. destruct (wide && (127 <? v) && true) eqn:E; [|reflexivity]. destruct wide; [specialize (W eq_refl); lia|discriminate E].
Qed.
Lemma simpleEsc_in k v : simpleEsc k = Some v -> In (k, v) simple /\ v < 256.
Proof.
  unfold simpleEsc. intros H.
  assert (G : forall a b (X : option Z), (if k =? a then Some b else X) = Some v -> In (a, b) simple -> b < 256 -> (X = Some v -> In (k, v) simple /\ v < 256) -> In (k, v) simple /\ v < 256).
  { intros a b X E I B N. destruct (Z.eqb_spec k a) as [-> |]; [injection E as <-; auto|auto]. }
  unfold simple in *.
  do 7 (apply (G _ _ _ H); [repeat (first [left; reflexivity|right])|lia|clear H; intros H]). discriminate H.
Qed.
Lemma numf_number b ds : number b ds = numf b 0 ds. Proof. reflexivity. Qed.

Lemma gcv_sound wide wsz l v rest : okw wide wsz -> getCharValue true wide wsz l = Ok (v, rest) ->
  exists e, l = e ++ rest /\ accepted wide (csize wide wsz) rest e v.
Proof.
  intros OKW H. assert (LIM : (if wide then wsz * 2 else 2) = 2 * csize wide wsz /\ 1 <= csize wide wsz <= 4).
  { unfold csize. destruct wide; [destruct (OKW eq_refl)|]; lia. }
  destruct LIM as [LIM SZ]. unfold getCharValue in H. rewrite LIM in H. destruct l as [|c p]; [discriminate H|].
  destruct (Z.eqb_spec c 92) as [-> |C].
  - destruct p as [|d q]; [discriminate H|]. destruct (isnl d) eqn:NL; [discriminate H|].
    destruct (Z.eqb_spec d 120) as [-> |D].
    + destruct q as [|x q]; [discriminate H|]. destruct (isnl x) eqn:NX; [discriminate H|].
      destruct (zeroes_ok (x :: q)) as (n & EZ & NZ). destruct (hex_split (zeroes (x :: q))) as (ds & r & ES & F & NR).
      assert (ND : nostart (eq 48) ds) by (destruct ds; [exact I|]; rewrite ES in NZ; exact NZ).
      rewrite ES in H. rewrite (hexloop_ok (2 * csize wide wsz) ds 0 0 r) in H by (try assumption; try lia).
      destruct (0 + zlen ds <=? 2 * csize wide wsz) eqn:L; [|discriminate H]. cbn [rbind] in H.
      destruct ((if x =? 48 then 1 else 0) + (0 + zlen ds) =? 0) eqn:ZZ; [discriminate H|]. injection H as <- <-.
      exists (92 :: 120 :: repeat 48 n ++ ds). split; [rewrite EZ, ES; cbn [app]; rewrite <- app_assoc; reflexivity|].
      apply ac_c; [|cbn; intros d [= <-] O'; unfold octdigit in O'; lia]. rewrite <- (numf_zeros n ds), <- numf_number. apply cc_hex.
      * intros E. apply app_eq_nil in E. destruct E as [E1 ->]. destruct n; [|discriminate E1]. cbn [repeat app] in EZ.
        change (zlen (@nil Z)) with 0 in ZZ.
        destruct (Z.eqb_spec x 48) as [-> |]; [|lia]. rewrite <- EZ in NZ. cbn in NZ. congruence.
      * apply Forall_app. split; [apply zeros_hex|assumption].
      * assumption.
      * rewrite numf_number, numf_zeros. apply fits_digits; [lia|assumption|assumption|lia].
    + destruct (isoct d) eqn:OC.
      * apply isoct_iff in OC. destruct (oct_split d q OC) as (ds & r & E & L & F & N). rewrite E in H.
        rewrite (octloop_ok 3 0 ds r) in H by (try assumption; try (cbv; discriminate); lia).
        destruct (Z.eqb_spec (Z.shiftr (numf 8 0 ds) 8) 0) as [S0|]; [|discriminate H]. cbn [negb] in H. injection H as <- <-.
        rewrite Z.shiftr_div_pow2 in S0 by lia. change (2 ^ 8) with 256 in S0. assert (B : numf 8 0 ds < 256) by lia.
        exists (92 :: ds). split; [rewrite E; reflexivity|]. apply ac_c; [|intros; exact B]. rewrite <- numf_number. apply cc_octal; try assumption.
        rewrite numf_number. assert (256 ^ 1 <= 256 ^ csize wide wsz) by (apply Z.pow_le_mono_r; lia). lia.
      * destruct (simpleEsc d) as [w|] eqn:SE.
        -- injection H as <- <-. apply simpleEsc_in in SE. exists [92; d]. split; [reflexivity|]. apply ac_c; [apply cc_simple; tauto|intros; tauto].
        -- apply self_ok in H. destruct H as (E & N & W). injection E as -> ->. exists [92; v]. split; [reflexivity|].
           assert (NL' := N). unfold isnl in NL'. destruct (in_dec Z.eq_dec v (map fst simple)) as [IN|NIN].
           ++ assert (SV : In (v, v) simple).
              { unfold simpleEsc in SE. repeat match type of SE with (if ?b then _ else _) = _ => destruct b eqn:?X; [inversion SE|] end.
                cbn in IN. cbn. repeat (destruct IN as [IN|IN]; [subst v; first [exfalso; lia|repeat (first [left; reflexivity|right])]|]). destruct IN. }
              apply ac_c; [apply cc_simple; assumption|]. intros. cbn in IN. repeat (destruct IN as [IN|IN]; [lia|]). destruct IN.
           ++ apply ac_other; try lia; try assumption. intros O'. apply isoct_iff in O'. congruence.
  - apply self_ok in H. destruct H as (E & N & W). injection E as -> ->. exists [v]. split; [reflexivity|]. unfold isnl in N.
    apply ac_c; [apply cc_plain; try lia; assumption|]. intros d [=].
Qed.

Lemma gcv_complete wide wsz e v rest : okw wide wsz -> accepted wide (csize wide wsz) rest e v -> getCharValue true wide wsz (e ++ rest) = Ok (v, rest).
Proof.
  intros OKW H. assert (LIM : (if wide then wsz * 2 else 2) = 2 * csize wide wsz /\ 1 <= csize wide wsz <= 4).
  { unfold csize. destruct wide; [destruct (OKW eq_refl)|]; lia. }
  destruct LIM as [LIM SZ]. unfold getCharValue. rewrite LIM. destruct H as [e v H V|k K0 K10 K13 KX KO KI KW].
  - destruct H as [c C C0 C10 C13 CW|k v IN|ds L F N B|ds NE F N B].
    + cbn [app]. replace (c =? 92) with false by lia. apply self_mk; [unfold isnl; lia|assumption].
    + cbn [app]. change (92 =? 92) with true. cbv iota. cbn [simple In] in IN.
      repeat (destruct IN as [IN|IN]; [injection IN as <- <-; first [reflexivity|match goal with |- _ = Ok (?c, rest) => change (self true wide (c :: rest) = Ok (c, rest)) end; apply self_mk; [reflexivity|intros _; lia]]|]). destruct IN.
    + destruct ds as [|d ds]; [change (zlen (@nil Z)) with 0 in L; lia|]. pose proof (Forall_inv F) as D. assert (D' := D). unfold octdigit in D'.
      change ((92 :: d :: ds) ++ rest) with (92 :: d :: ds ++ rest). change (92 =? 92) with true. cbv iota.
      replace (isnl d) with false by (unfold isnl; lia). replace (d =? 120) with false by lia. rewrite (proj2 (isoct_iff d) D).
      change (d :: ds ++ rest) with ((d :: ds) ++ rest). rewrite (octloop_ok 3 0 (d :: ds) rest) by (try assumption; try (cbv; discriminate); lia).
      specialize (V d eq_refl D). rewrite numf_number in *. assert (0 <= numf 8 0 (d :: ds)).
      { clear -F. assert (G : forall ds v, 0 <= v -> Forall octdigit ds -> 0 <= numf 8 v ds).
        { clear. induction ds as [|c ds IH]; intros v V F; [exact V|]. unfold numf. cbn [fold_left]. inversion F as [|? ? O' F']; subst. apply oct_digit in O'. apply IH; [lia|assumption]. }
        apply G; [lia|assumption]. }
      rewrite Z.shiftr_div_pow2 by lia. change (2 ^ 8) with 256. rewrite Z.div_small by lia. reflexivity.
    + change ((92 :: 120 :: ds) ++ rest) with (92 :: 120 :: ds ++ rest). change (92 =? 92) with true. cbv iota. change (isnl 120) with false. change (120 =? 120) with true. cbv iota.
      destruct ds as [|x ds]; [contradiction|]. assert (HX := Forall_inv F). assert (isnl x = false) as NX by (unfold isnl, hexdigit in *; lia).
      change ((x :: ds) ++ rest) with (x :: ds ++ rest). cbv iota. rewrite NX.
      destruct (zeroes_ok (x :: ds)) as (n & EZ & NZ). set (ts := zeroes (x :: ds)) in *.
      assert (FT : Forall hexdigit ts) by (rewrite EZ in F; apply Forall_app in F; tauto).
      assert (ER : zeroes (x :: ds ++ rest) = ts ++ rest).
      { change (x :: ds ++ rest) with ((x :: ds) ++ rest). rewrite EZ, <- app_assoc. apply zeroes_zeros. destruct ts; [|exact NZ]. cbn [app]. destruct rest as [|y rest]; [exact I|]. cbn in *. intros <-. apply N. unfold hexdigit. lia. }
      rewrite ER. rewrite (hexloop_ok (2 * csize wide wsz) ts 0 0 rest) by (try assumption; lia).
      rewrite numf_number in *. rewrite EZ, numf_zeros in *. apply fits_digits in B; [|lia|assumption|assumption].
      replace (0 + zlen ts <=? 2 * csize wide wsz) with true by lia. cbn [rbind].
      assert (ZZ : (if x =? 48 then 1 else 0) + (0 + zlen ts) =? 0 = false).
      { destruct n as [|n]; [cbn [repeat app] in EZ; rewrite <- EZ; replace (zlen (x :: ds)) with (zlen ds + 1) by (unfold zlen; cbn [List.length]; lia); unfold zlen; destruct (x =? 48); lia|].
        cbn [repeat app] in EZ. injection EZ as -> _. unfold zlen. change (48 =? 48) with true. lia. }
      rewrite ZZ. reflexivity.
  - cbn [app]. change (92 =? 92) with true. cbv iota. replace (isnl k) with false by (unfold isnl; lia). replace (k =? 120) with false by lia.
    destruct (isoct k) eqn:O'; [apply isoct_iff in O'; contradiction|]. destruct (simpleEsc k) as [w|] eqn:SE.
    + apply simpleEsc_in in SE. destruct KI. exact (in_map fst _ _ (proj1 SE)).
    + apply self_mk; [unfold isnl; lia|assumption].
Qed.


Lemma gcv_noob wide wsz l : getCharValue true wide wsz l <> Oob.
Proof.
  assert (HL : forall lim ds cnt ch, hexloop true lim cnt ch ds <> Oob).
  { induction ds as [|c ds IH]; intros cnt ch; [discriminate|]. cbn [hexloop]. destruct (hexdig c); [|discriminate]. destruct ((lim <? cnt + 1) && true); [discriminate|apply IH]. }
  assert (SL : forall l, self true wide l <> Oob).
  { intros [|c l']; [discriminate|]. cbn [self]. destruct (isnl c); [discriminate|]. destruct (wide && (127 <? c) && true); discriminate. }
  unfold getCharValue. destruct l as [|c p]; [discriminate|]. destruct (c =? 92); [|apply SL]. destruct p as [|d q]; [discriminate|].
  destruct (isnl d); [discriminate|]. destruct (d =? 120).
  - destruct q as [|x q]; [discriminate|]. destruct (isnl x); [discriminate|]. specialize (HL (if wide then wsz * 2 else 2) (zeroes (x :: q)) 0 0).
    destruct (hexloop true (if wide then wsz * 2 else 2) 0 0 (zeroes (x :: q))) as [[[ch cnt] r]| |]; [|discriminate|congruence].
    cbn [rbind]. destruct ((if x =? 48 then 1 else 0) + cnt =? 0); discriminate.
  - destruct (isoct d); [|destruct (simpleEsc d); [discriminate|apply SL]]. destruct (octloop 3 0 (d :: q)) as [ch r]. destruct (negb (Z.shiftr ch 8 =? 0)); discriminate.
Qed.
Lemma accepted_unique wide wsz e1 r1 v1 e2 r2 v2 : okw wide wsz -> accepted wide (csize wide wsz) r1 e1 v1 -> accepted wide (csize wide wsz) r2 e2 v2 ->
  e1 ++ r1 = e2 ++ r2 -> v1 = v2 /\ r1 = r2 /\ e1 = e2.
Proof.
  intros W A1 A2 E. apply (gcv_complete _ _ _ _ _ W) in A1, A2. rewrite E, A2 in A1. injection A1 as -> ->. split; [reflexivity|]. split; [reflexivity|]. exact (app_inv_tail _ _ _ E).
Qed.
Lemma accepted_ne wide size next e v : accepted wide size next e v -> e <> [].
Proof. intros [e' v' H _|]; [destruct H|]; discriminate. Qed.
(** the first character is no end of line *)
Lemma accepted_nonl wide size next e v : accepted wide size next e v -> forall c t, e = c :: t -> isnl c = false.
Proof.
  intros [e' v' H _|k ? ? ? ? ? ? ?] c t E; [|injection E as <- _; reflexivity].
  destruct H; injection E as <- _; try reflexivity. unfold isnl. lia.
Qed.
Lemma number_nonneg b ds : 0 <= b -> Forall hexdigit ds -> 0 <= number b ds.
Proof.
  intros B. rewrite numf_number. assert (G : forall ds v, 0 <= v -> Forall hexdigit ds -> 0 <= numf b v ds).
  { clear ds. induction ds as [|c ds IH]; intros v V F; [exact V|]. unfold numf. cbn [fold_left]. inversion F as [|? ? H F']; subst. destruct (hexdig_hex c H) as [d D]. apply hexdig_some in D. apply IH; [nia|assumption]. }
  intros F. apply G; [lia|assumption].
Qed.
Lemma accepted_range wide wsz next e v : okw wide wsz -> accepted wide (csize wide wsz) next e v -> Forall (fun c => 0 <= c < 256) e -> 0 <= v < 256 ^ csize wide wsz.
Proof.
  intros W H B. assert (P : 256 ^ 1 <= 256 ^ csize wide wsz) by (apply Z.pow_le_mono_r; [lia|]; unfold csize; destruct wide; [destruct (W eq_refl)|]; lia).
  destruct H as [e v H _|k ? ? ? ? ? ? ?].
  - destruct H as [c ? ? ? ? ?|k v IN|ds L F N X|ds NE F N X].
    + apply Forall_inv in B. lia.
    + cbn in IN. repeat (destruct IN as [IN|IN]; [injection IN as <- <-; lia|]). destruct IN.
    + split; [|exact X]. apply number_nonneg; [lia|]. revert F. apply Forall_impl. unfold octdigit, hexdigit. lia.
    + split; [|exact X]. apply number_nonneg; [lia|assumption].
  - apply Forall_inv_tail, Forall_inv in B. lia.
Qed.

(** ** the text printed for a string, read back *)
Lemma unum_read n k : 0 <= n < 256 -> operands Item (unum n ++ k) = operands (Number n) k.
Proof.
  intros N. unfold unum. destruct (n <? 10) eqn:A; [|destruct (n <? 100) eqn:B]; cbn [app operands];
    repeat match goal with |- context [?a =? 34] => replace (a =? 34) with false by lia end;
    repeat match goal with |- context [(48 <=? ?a) && (?a <=? 57)] => replace ((48 <=? a) && (a <=? 57)) with true by lia end;
    f_equal; f_equal; lia.
Qed.
Definition rel (quot : bool) (m : rmode) (pend : list Z) : Prop :=
  if quot then m = Quoted /\ pend = [] else exists n, 0 <= n < 256 /\ m = Number n /\ pend = [n].
Lemma dump_step quot len ch m pend : len <> 0 -> 0 <= ch < 256 -> rel quot m pend ->
  exists m' pend', rel (fst (dumpChar quot len ch)) m' pend' /\
    forall k R, operands m' k = Some (pend' ++ R) -> operands m (snd (dumpChar quot len ch) ++ k) = Some (pend ++ ch :: R).
Proof.
  intros L C H. unfold dumpChar. replace (ch <? 0) with false by lia. replace (len =? 0) with false by lia. cbv zeta.
  destruct ((32 <=? ch) && (ch <=? 126) && negb (ch =? 34)) eqn:P; cbn [fst snd].
  - exists Quoted, []. split; [split; reflexivity|]. intros k R E. destruct quot; cbn [rel] in H.
    + destruct H as [-> ->]. cbn [app operands]. replace (ch =? 34) with false by lia. replace (ch =? 10) with false by lia. rewrite E. reflexivity.
    + destruct H as (n & N & -> & ->). cbn [app operands]. change ((48 <=? 44) && (44 <=? 57)) with false. replace (n <? 256) with true by lia. change (44 =? 44) with true.
      change (34 =? 34) with true. cbv iota. replace (ch =? 34) with false by lia. replace (ch =? 10) with false by lia. rewrite E. reflexivity.
  - exists (Number ch), [ch]. split; [exists ch; auto|]. intros k R E. replace (u8 ch) with ch by (unfold u8, wrap; change (2 ^ 8) with 256; lia).
    destruct quot; cbn [rel] in H.
    + destruct H as [-> ->]. change (([] ++ [34] ++ [44] ++ unum ch) ++ k) with (34 :: 44 :: (unum ch ++ k)). cbn [operands]. change (34 =? 34) with true. change (44 =? 44) with true. cbv iota.
      rewrite unum_read by lia. exact E.
    + destruct H as (n & N & -> & ->). change (([] ++ [] ++ [44] ++ unum ch) ++ k) with (44 :: (unum ch ++ k)). cbn [operands]. change ((48 <=? 44) && (44 <=? 57)) with false.
      replace (n <? 256) with true by lia. change (44 =? 44) with true. cbv iota. rewrite unum_read by lia. rewrite E. reflexivity.
Qed.
Lemma dump_first ch : 0 <= ch < 256 -> exists m pend, rel (fst (dumpChar false 0 ch)) m pend /\
    forall k R, operands m k = Some (pend ++ R) -> defines (snd (dumpChar false 0 ch) ++ k) = Some (ch :: R).
Proof.
  intros C. unfold dumpChar. replace (ch <? 0) with false by lia. change (0 =? 0) with true. cbv zeta iota.
  destruct ((32 <=? ch) && (ch <=? 126) && negb (ch =? 34)) eqn:P; cbn [fst snd].
  - exists Quoted, []. split; [split; reflexivity|]. intros k R E. cbn [app defines operands]. change (34 =? 34) with true. cbv iota.
    replace (ch =? 34) with false by lia. replace (ch =? 10) with false by lia. rewrite E. reflexivity.
  - exists (Number ch), [ch]. split; [exists ch; auto|]. intros k R E. replace (u8 ch) with ch by (unfold u8, wrap; change (2 ^ 8) with 256; lia).
    change (([9; 100; 98; 9] ++ [] ++ [] ++ unum ch) ++ k) with (9 :: 100 :: 98 :: 9 :: (unum ch ++ k)). cbn [defines]. rewrite unum_read by lia. exact E.
Qed.
Lemma dump_last quot len m pend : len <> 0 -> rel quot m pend -> operands m (snd (dumpChar quot len (-1))) = Some pend.
Proof.
  intros L H. unfold dumpChar. change (-1 <? 0) with true. replace (len =? 0) with false by lia. cbn [snd]. destruct quot; cbn [rel] in H.
  - destruct H as [-> ->]. reflexivity.
  - destruct H as (n & N & -> & ->). cbn [app operands]. change ((48 <=? 10) && (10 <=? 57)) with false. replace (n <? 256) with true by lia. reflexivity.
Qed.
Lemma u8_range x : 0 <= u8 x < 256. Proof. unfold u8, wrap. change (2 ^ 8) with 256. lia. Qed.
Lemma u8_idem x : u8 x = x mod 256. Proof. reflexivity. Qed.
Lemma dumps n : forall quot len ch m pend, 0 < len -> rel quot m pend ->
  exists m' pend', rel (fst (dumpBytes n quot len ch)) m' pend' /\
    forall k R, operands m' k = Some (pend' ++ R) -> operands m (snd (dumpBytes n quot len ch) ++ k) = Some (pend ++ bytes n ch ++ R).
Proof.
  induction n as [|n IH]; intros quot len ch m pend L H.
  - exists m, pend. split; [exact H|]. intros k R E. exact E.
  - destruct (dump_step quot len (u8 ch) m pend ltac:(lia) (u8_range ch) H) as (m1 & p1 & R1 & S1). cbn [dumpBytes].
    destruct (dumpChar quot len (u8 ch)) as [q o]. cbn [fst snd] in *. destruct (IH q (len + 1) (Z.shiftr ch 8) m1 p1 ltac:(lia) R1) as (m2 & p2 & R2 & S2).
    destruct (dumpBytes n q (len + 1) (Z.shiftr ch 8)) as [q' o']. cbn [fst snd] in *. exists m2, p2. split; [exact R2|]. intros k R E.
    rewrite <- app_assoc. specialize (S2 k R E). specialize (S1 _ _ S2). rewrite S1. cbn [bytes app]. rewrite Z.shiftr_div_pow2 by lia. reflexivity.
Qed.
Fixpoint outs (n : nat) (quot : bool) (len : Z) (vs : list Z) : list Z :=
  match vs with
  | [] => snd (dumpChar quot len (-1))
  | v :: vs => snd (dumpBytes n quot len v) ++ outs n (fst (dumpBytes n quot len v)) (len + 1) vs
  end.
Lemma outs_read n vs : forall quot len m pend, 0 < len -> rel quot m pend -> operands m (outs n quot len vs) = Some (pend ++ flat_map (bytes n) vs).
Proof.
  induction vs as [|v vs IH]; intros quot len m pend L H.
  - cbn [outs flat_map]. rewrite app_nil_r. apply dump_last; [lia|assumption].
  - cbn [outs flat_map]. destruct (dumps n quot len v m pend L H) as (m' & p' & R' & S'). apply S'. apply IH; [lia|assumption].
Qed.
Lemma outs_defines n vs : (0 < n)%nat -> defines (outs n false 0 vs) = Some (flat_map (bytes n) vs).
Proof.
  intros N. destruct vs as [|v vs]; [reflexivity|]. destruct n as [|n]; [lia|]. cbn [outs flat_map dumpBytes].
  destruct (dump_first (u8 v) (u8_range v)) as (m1 & p1 & R1 & S1). destruct (dumpChar false 0 (u8 v)) as [q o]. cbn [fst snd] in *.
  destruct (dumps n q (0 + 1) (Z.shiftr v 8) m1 p1 ltac:(lia) R1) as (m2 & p2 & R2 & S2). destruct (dumpBytes n q (0 + 1) (Z.shiftr v 8)) as [q' o']. cbn [fst snd] in *.
  rewrite <- app_assoc. rewrite (S1 _ (bytes n (Z.shiftr v 8) ++ flat_map (bytes (S n)) vs)).
  - cbn [bytes app]. rewrite Z.shiftr_div_pow2 by lia. reflexivity.
  - apply S2. apply (outs_read (S n)); [lia|assumption].
Qed.

(** ** literals *)
Section lit.
Context (wide : bool) (wsz : Z) (OKW : okw wide wsz).
Notation A := (accepted wide (csize wide wsz)).
Notation n := (Z.to_nat (csize wide wsz)).
Lemma getString_ok l vs rest : literal A 34 l vs rest -> forall fuel quot len size, (List.length l < fuel)%nat -> 0 <= size ->
  getString fuel wide wsz quot len size l =
    if size + csize wide wsz * zlen vs <=? MAXU then Ok (outs n quot len vs, len + zlen vs, size + csize wide wsz * zlen vs, rest)
    else if zlen vs =? 0 then Ok (outs n quot len vs, len + zlen vs, size + csize wide wsz * zlen vs, rest) else Err.
Proof.
  assert (SZ : 1 <= csize wide wsz <= 4) by (unfold csize; destruct wide; [destruct (OKW eq_refl)|]; lia).
  induction 1 as [rest|e t v vs rest NQ AC LI IH]; intros fuel quot len size FU S0; (destruct fuel as [|fuel]; [lia|]); cbn [getString].
  - change (34 =? 34) with true. cbn [orb]. cbv iota. change (zlen (@nil Z)) with 0. change (0 =? 0) with true. destruct (dumpChar quot len (-1)) as [q o] eqn:D.
    cbn [outs]. rewrite D, Z.mul_0_r, !Z.add_0_r. destruct (size <=? MAXU); reflexivity.
  - pose proof (accepted_ne _ _ _ _ _ AC) as NE. destruct e as [|c e]; [contradiction|]. cbn [app]. cbn [nostart] in NQ.
    pose proof (accepted_nonl _ _ _ _ _ AC c e eq_refl) as NL. rewrite NL. replace (c =? 34) with false by lia. cbn [orb]. cbv iota.
    change (c :: e ++ t) with ((c :: e) ++ t). rewrite (gcv_complete wide wsz _ _ _ OKW AC). cbn [rbind]. fold (csize wide wsz).
    replace (zlen (v :: vs)) with (zlen vs + 1) by (unfold zlen; cbn [List.length]; lia). cbn [outs].
    destruct (dumpBytes n quot len v) as [q o]. cbn [fst snd].
    assert (0 <= zlen vs) by (unfold zlen; lia). replace (zlen vs + 1 =? 0) with false by lia.
    destruct (MAXU - csize wide wsz <? size) eqn:M; [replace (size + csize wide wsz * (zlen vs + 1) <=? MAXU) with false by nia; reflexivity|].
    rewrite IH; [|cbn [app List.length] in FU; rewrite app_length in FU; lia|lia].
    replace (size + csize wide wsz + csize wide wsz * zlen vs) with (size + csize wide wsz * (zlen vs + 1)) by lia.
    destruct (size + csize wide wsz * (zlen vs + 1) <=? MAXU) eqn:LE.
    + cbn [rbind]. replace (len + 1 + zlen vs) with (len + (zlen vs + 1)) by lia. reflexivity.
    + destruct (zlen vs =? 0) eqn:Z0; [exfalso; nia|reflexivity].
Qed.
Lemma getString_inv fuel : forall quot len size l x, (List.length l < fuel)%nat -> getString fuel wide wsz quot len size l = x ->
  match x with Ok _ => exists vs rest, literal A 34 l vs rest | Err => True | Oob => False end.
Proof.
  induction fuel as [|fuel IH]; intros quot len size l x FU E; [lia|]. cbn [getString] in E.
  destruct l as [|c l]; [subst; exact I|]. destruct ((c =? 34) || isnl c) eqn:ST.
  - destruct (c =? 34) eqn:C; [|subst; exact I]. destruct (dumpChar quot len (-1)) as [q o]. subst x. apply Z.eqb_eq in C. subst c. exists [], l. constructor.
  - pose proof (gcv_noob wide wsz (c :: l)) as NO. destruct (getCharValue true wide wsz (c :: l)) as [[v r]| |] eqn:G; [|subst; exact I|congruence].
    cbn [rbind] in E. apply (gcv_sound _ _ _ _ _ OKW) in G. destruct G as (e & EL & AC). destruct (dumpBytes _ quot len v) as [q o].
    destruct (MAXU - _ <? size); [subst; exact I|].
    pose proof (accepted_ne _ _ _ _ _ AC) as NE. assert (LR : (List.length r < fuel)%nat).
    { assert (LE : (List.length (c :: l) = List.length e + List.length r)%nat) by (rewrite EL, app_length; reflexivity). destruct e; [contradiction|]. cbn [List.length] in *. lia. }
    fold (csize wide wsz) in E. specialize (IH q (len + 1) (size + csize wide wsz) r _ LR eq_refl).
    destruct (getString fuel wide wsz q (len + 1) (size + csize wide wsz) r) as [[[[o' len'] size'] r']| |]; cbn [rbind] in E; subst x; [|exact I|exact IH].
    destruct IH as (vs & rest & LI). exists (v :: vs), rest. rewrite EL. apply li_char; [|assumption|assumption].
    destruct e as [|c' e]; [contradiction|]. injection EL as <- _. cbn. intros <-. discriminate ST.
Qed.
End lit.

(** ** character constants *)
Section chr.
Context (wide : bool) (wsz : Z) (OKW : okw wide wsz).
Notation A := (accepted wide (csize wide wsz)).
Notation byte := (fun c => 0 <= c < 256).
Lemma literal_q l vs rest : literal A 39 l vs rest -> quoteOrNl l = (zlen vs =? 0).
Proof.
  destruct 1 as [rest|e t v vs rest NQ AC LI]; [reflexivity|]. replace (zlen (v :: vs)) with (zlen vs + 1) by (unfold zlen; cbn [List.length]; lia).
  pose proof (accepted_ne _ _ _ _ _ AC) as NE. destruct e as [|c e]; [contradiction|]. cbn [app quoteOrNl]. cbn [nostart] in NQ. rewrite (accepted_nonl _ _ _ _ _ AC c e eq_refl).
  assert (0 <= zlen vs) by (unfold zlen; lia). lia.
Qed.
Definition join (v : Z) (vs : list Z) : Z := fold_left (fun a v => a * 256 + v) vs v.
Lemma chars_ok l vs rest : literal A 39 l vs rest -> forall fuel maxc v cnt, vs <> [] -> Forall byte l -> (List.length l < fuel)%nat ->
  (if wide then maxc = 1 /\ v = 0 /\ 0 <= cnt else maxc <= 4 /\ 0 <= cnt <= maxc /\ 0 <= v < 256 ^ cnt) ->
  chars fuel wide wsz maxc v cnt l = if cnt + zlen vs <=? maxc then Ok (join v vs, cnt + zlen vs, 39 :: rest) else Err.
Proof.
  induction 1 as [rest|e t w vs rest NQ AC LI IH]; intros fuel maxc v cnt NE B FU INV; [contradiction|].
  destruct fuel as [|fuel]; [lia|]. cbn [chars]. rewrite (gcv_complete wide wsz _ _ _ OKW AC). cbn [rbind].
  apply Forall_app in B. destruct B as [BE BT]. pose proof (accepted_range _ _ _ _ _ OKW AC BE) as WR.
  replace (zlen (w :: vs)) with (zlen vs + 1) by (unfold zlen; cbn [List.length]; lia). assert (0 <= zlen vs) by (unfold zlen; lia).
  destruct (maxc <? cnt + 1) eqn:M; [replace (cnt + (zlen vs + 1) <=? maxc) with false by lia; reflexivity|].
  assert (EV : Z.lor (u32 (Z.shiftl v 8)) w = v * 256 + w).
  { destruct wide; [destruct INV as (_ & -> & _); reflexivity|]. unfold csize in WR. change (256 ^ 1) with 256 in WR. apply (push 8); [lia|exact WR|lia|].
    assert (256 ^ cnt <= 256 ^ 3) by (apply Z.pow_le_mono_r; lia). change (256 ^ 3) with 16777216 in *. lia. }
  rewrite EV, (literal_q _ _ _ LI). destruct (zlen vs =? 0) eqn:Z0.
  - replace (cnt + (zlen vs + 1) <=? maxc) with true by lia. destruct vs; [|unfold zlen in Z0; cbn [List.length] in Z0; lia]. inversion LI; subst.
    unfold join. cbn [fold_left]. replace (cnt + 1) with (cnt + (zlen (@nil Z) + 1)) by (unfold zlen; cbn [List.length]; lia). reflexivity.
  - assert (VN : vs <> []) by (intros ->; discriminate Z0).
    pose proof (accepted_ne _ _ _ _ _ AC) as EN. assert (LF : (List.length t < fuel)%nat) by (rewrite app_length in FU; destruct e; [contradiction|cbn [List.length] in FU; lia]).
    destruct wide eqn:EW.
    + destruct INV as (-> & -> & C0). replace (cnt + (zlen vs + 1) <=? 1) with false by lia. clear IH.
      destruct fuel as [|fuel]; [lia|]. cbn [chars]. inversion LI as [|e' t' w' vs' r' NQ' AC' LI']; subst; [contradiction|]. rewrite (gcv_complete true wsz _ _ _ OKW AC'). cbn [rbind].
      replace (1 <? cnt + 1 + 1) with true by lia. reflexivity.
    + rewrite IH; [|assumption|assumption|assumption|].
      * replace (cnt + 1 + zlen vs) with (cnt + (zlen vs + 1)) by lia. unfold join. cbn [fold_left]. reflexivity.
      * split; [lia|]. split; [lia|]. rewrite Z.pow_add_r by lia. unfold csize in WR. change (256 ^ 1) with 256 in *. lia.
Qed.
Lemma chars_inv fuel : forall maxc v cnt l x, (List.length l < fuel)%nat -> quoteOrNl l = false -> chars fuel wide wsz maxc v cnt l = x ->
  match x with
  | Ok (_, _, q :: r) => q = 39 -> exists vs, literal A 39 l vs r /\ vs <> []
  | Ok (_, _, []) => True
  | Err => True
  | Oob => False
  end.
Proof.
  induction fuel as [|fuel IH]; intros maxc v cnt l x FU QN E; [lia|]. cbn [chars] in E.
  pose proof (gcv_noob wide wsz l) as NO. destruct (getCharValue true wide wsz l) as [[w r]| |] eqn:G; [|subst; exact I|congruence].
  cbn [rbind] in E. apply (gcv_sound _ _ _ _ _ OKW) in G. destruct G as (e & EL & AC). destruct (maxc <? cnt + 1); [subst; exact I|].
  pose proof (accepted_ne _ _ _ _ _ AC) as NE. assert (NQ : nostart (eq 39) e) by (destruct e; [exact I|]; rewrite EL in QN; cbn in QN; cbn; intros <-; discriminate QN).
  destruct (quoteOrNl r) eqn:Q.
  - subst x. destruct r as [|q r]; [exact I|]. intros ->. exists [w]. split; [|discriminate]. rewrite EL. apply li_char; [assumption|assumption|constructor].
  - assert (LR : (List.length r < fuel)%nat) by (rewrite EL, app_length in FU; destruct e; [contradiction|cbn [List.length] in FU; lia]).
    specialize (IH maxc _ (cnt + 1) r x LR Q E). destruct x as [[[a b] [|q r']]| |]; [exact I| |exact I|exact IH].
    intros ->. destruct (IH eq_refl) as (vs & LI & VN). exists (w :: vs). split; [|discriminate]. rewrite EL. apply li_char; assumption.
Qed.
End chr.
Lemma join_bound vs : Forall (fun v => 0 <= v < 256) vs -> forall v k, 0 <= k -> 0 <= v < 256 ^ k -> 0 <= join v vs < 256 ^ (k + zlen vs).
Proof.
  induction 1 as [|w vs W F IH]; intros v k K V; unfold join; cbn [fold_left].
  - change (zlen (@nil Z)) with 0. rewrite Z.add_0_r. exact V.
  - specialize (IH (v * 256 + w) (k + 1) ltac:(lia)). rewrite Z.pow_add_r in IH by lia. replace (zlen (w :: vs)) with (zlen vs + 1) by (unfold zlen; cbn [List.length]; lia).
    replace (k + (zlen vs + 1)) with (k + 1 + zlen vs) by lia. apply IH. lia.
Qed.
Lemma literal_vals wide wsz q l vs rest : okw wide wsz -> literal (accepted wide (csize wide wsz)) q l vs rest -> Forall (fun c => 0 <= c < 256) l -> Forall (fun v => 0 <= v < 256 ^ csize wide wsz) vs.
Proof.
  intros W. induction 1 as [|e t v vs rest NQ AC LI IH]; intros B; [constructor|]. apply Forall_app in B. constructor; [eapply accepted_range; eauto; tauto|tauto].
Qed.
