(** GetNumber: equations for its loops, integer constants. *)
From Verif Require Import Base BaseLemmas FpModel FloatSpec NumModel NumSpec StrtolSpec StrtolProof.

Ltac Zify.zify_post_hook ::= idtac.
Ltac dlia := Z.div_mod_to_equations; lia.

(** Longest prefix satisfying a test, and what follows. *)
Fixpoint tw (P : Z -> bool) (s : list Z) : list Z :=
  match s with c :: t => if P c then c :: tw P t else [] | [] => [] end.
Fixpoint dw (P : Z -> bool) (s : list Z) : list Z :=
  match s with c :: t => if P c then dw P t else s | [] => [] end.

Lemma tw_dw P s : s = tw P s ++ dw P s.
Proof. induction s as [|c t IH]; [reflexivity|]. cbn [tw dw]. destruct (P c); [cbn [app]; congruence|reflexivity]. Qed.
Lemma tw_all P s : Forall (fun c => P c = true) (tw P s).
Proof. induction s as [|c t IH]; cbn [tw]; [constructor|]. destruct (P c) eqn:E; constructor; auto. Qed.
Lemma tw_app P a b : Forall (fun c => P c = true) a -> P (peek b) = false -> tw P (a ++ b) = a /\ dw P (a ++ b) = b.
Proof.
  intros F B. induction F as [|c t H F IH]; cbn [app tw dw].
  - destruct b as [|c t]; [auto|]. cbn [peek] in B. cbn [tw dw]. now rewrite B.
  - rewrite H. destruct IH as (-> & ->). auto.
Qed.
Lemma dw_peek P s : P 0 = false -> P (peek (dw P s)) = false.
Proof. intros Z0. induction s as [|c t IH]; cbn [dw]; [exact Z0|]. destruct (P c) eqn:E; [exact IH|cbn [peek]; exact E]. Qed.

Lemma is_dec_digit c : is_dec c = digitb 10 c.
Proof.
  unfold is_dec, digitb, dval. destruct ((48 <=? c) && (c <=? 57)) eqn:E; [symmetry; lia|].
  destruct ((65 <=? c) && (c <=? 90)) eqn:F; [symmetry; lia|]. destruct ((97 <=? c) && (c <=? 122)) eqn:G; [symmetry; lia|reflexivity].
Qed.
Lemma is_hex_digit c : is_hex c = digitb 16 c.
Proof.
  unfold is_hex, is_dec, digitb, dval. destruct ((48 <=? c) && (c <=? 57)) eqn:E; [cbn; symmetry; lia|].
  destruct ((65 <=? c) && (c <=? 90)) eqn:F; [lia|]. destruct ((97 <=? c) && (c <=? 122)) eqn:G; [lia|lia].
Qed.
Lemma hex_digit_val c : is_hex c = true -> dval c = Some (hex_digit c).
Proof.
  unfold is_hex, is_dec, dval, hex_digit. intros H.
  destruct ((48 <=? c) && (c <=? 57)) eqn:E; [replace (c >=? 97) with false by lia; replace (c >=? 65) with false by lia; reflexivity|].
  destruct ((65 <=? c) && (c <=? 90)) eqn:F.
  - replace (c >=? 97) with false by lia. replace (c >=? 65) with true by lia. f_equal. lia.
  - destruct ((97 <=? c) && (c <=? 122)) eqn:G; [|lia]. replace (c >=? 97) with true by lia. f_equal. lia.
Qed.
Lemma is_dec_val c : is_dec c = true -> dval c = Some (c - 48).
Proof. unfold is_dec, dval. intros ->. reflexivity. Qed.

(** The wrap-around test is exact. *)
Lemma overflows_ok n base ch : 0 <= n < 2 ^ 32 -> 2 <= base <= 16 -> 0 <= ch < base ->
  overflows n base ch = negb (n * base + ch <? 2 ^ 32) /\
  (n * base + ch < 2 ^ 32 -> u32 (u32 (n * base) + ch) = n * base + ch).
Proof.
  intros N B C. unfold overflows. set (m := n * base) in *.
  assert (M : 0 <= m) by (unfold m; nia).
  destruct (Z_lt_le_dec m (2 ^ 32)) as [S|S].
  - rewrite (u32_small m) by lia. unfold m at 1. rewrite Z.div_mul by lia. rewrite Z.eqb_refl. cbn [negb orb].
    destruct (Z_lt_le_dec (m + ch) (2 ^ 32)).
    + rewrite u32_small by lia. split; [lia|reflexivity].
    + split; [|lia].
      replace (u32 (m + ch)) with (m + ch - 2 ^ 32); [lia|].
      unfold u32, wrap. apply (Z.mod_unique_pos _ _ 1); lia.
  - split; [|lia].
    assert (u32 m / base < n).
    { apply Z.div_lt_upper_bound; [lia|]. replace (base * n) with m by (unfold m; lia).
      unfold u32, wrap. pose proof (Z.mod_pos_bound m (2 ^ 32)). lia. }
    replace (u32 m / base =? n) with false by lia. cbn [negb orb]. lia.
Qed.

Lemma val_cons b n c t : val_from b n (c :: t) = val_from b (n * b + match dval c with Some v => v | None => 0 end) t.
Proof. reflexivity. Qed.

Lemma hex_loop_eq s : forall n cnt, 0 <= n < 2 ^ 32 ->
  hex_loop true s n cnt =
  if val_from 16 n (tw is_hex s) <? 2 ^ 32
  then Some (dw is_hex s, val_from 16 n (tw is_hex s), cnt + zlen (tw is_hex s)) else None.
Proof.
  induction s as [|c t IH]; intros n cnt N; cbn [hex_loop tw dw].
  - unfold val_from; cbn [fold_left]. replace (n <? 2 ^ 32) with true by lia. rewrite zlen_nil. do 2 f_equal. lia.
  - destruct (is_hex c) eqn:H.
    + pose proof (hex_digit_val c H) as V. pose proof H as H2. rewrite is_hex_digit in H2. unfold digitb in H2. rewrite V in H2.
      pose proof (dval_range c _ V) as R.
      destruct (overflows_ok n 16 (hex_digit c) N ltac:(lia) ltac:(lia)) as (O & U). rewrite O. cbn [andb].
      rewrite val_cons, V.
      destruct (Z.ltb_spec (n * 16 + hex_digit c) (2 ^ 32)) as [S|S]; cbn [negb].
      * rewrite U by lia. rewrite IH by lia. rewrite zlen_cons, Z.add_assoc. reflexivity.
      * pose proof (val_from_ge 16 (tw is_hex t) (n * 16 + hex_digit c) ltac:(lia) ltac:(lia)).
        replace (val_from _ _ _ <? 2 ^ 32) with false by lia. reflexivity.
    + unfold val_from; cbn [fold_left]. replace (n <? 2 ^ 32) with true by lia. rewrite zlen_nil. do 2 f_equal. lia.
Qed.

Lemma exp_digits_eq s : forall n cnt, 0 <= n <= INT_MAX ->
  exp_digits true s n cnt =
  if val_from 10 n (tw is_dec s) <=? INT_MAX
  then Some (dw is_dec s, val_from 10 n (tw is_dec s), cnt + zlen (tw is_dec s)) else None.
Proof.
  unfold INT_MAX.
  induction s as [|c t IH]; intros n cnt N; cbn [exp_digits tw dw].
  - unfold val_from; cbn [fold_left]. replace (n <=? 2 ^ 31 - 1) with true by lia. rewrite zlen_nil. do 2 f_equal. lia.
  - destruct (is_dec c) eqn:H.
    + pose proof (is_dec_val c H) as V. assert (0 <= c - 48 < 10) by (unfold is_dec in H; lia).
      destruct (overflows_ok n 10 (c - 48) ltac:(lia) ltac:(lia) ltac:(lia)) as (O & U). rewrite O.
      rewrite val_cons, V. change ((2 ^ 32 - 1) / 2) with (2 ^ 31 - 1).
      destruct (Z.ltb_spec (n * 10 + (c - 48)) (2 ^ 32)) as [S|S]; cbn [negb orb].
      * rewrite U by lia. destruct (Z.gtb_spec (n * 10 + (c - 48)) (2 ^ 31 - 1)).
        -- pose proof (val_from_ge 10 (tw is_dec t) (n * 10 + (c - 48)) ltac:(lia) ltac:(lia)).
           replace (val_from _ _ _ <=? 2 ^ 31 - 1) with false by lia. reflexivity.
        -- rewrite IH by lia. rewrite zlen_cons, Z.add_assoc. reflexivity.
      * pose proof (val_from_ge 10 (tw is_dec t) (n * 10 + (c - 48)) ltac:(lia) ltac:(lia)).
        replace (val_from _ _ _ <=? 2 ^ 31 - 1) with false by lia. reflexivity.
    + unfold val_from; cbn [fold_left]. replace (n <=? 2 ^ 31 - 1) with true by lia. rewrite zlen_nil. do 2 f_equal. lia.
Qed.

(** Leading zeros and digits of the integral part. *)
Definition strip (ds : list Z) : list Z := skip_zeros ds.
Lemma strip_tw s : tw is_dec (skip_zeros s) = strip (tw is_dec s) /\ dw is_dec (skip_zeros s) = dw is_dec s.
Proof.
  induction s as [|c t (IH1 & IH2)]; [auto|]. cbn [skip_zeros tw dw].
  destruct (Z.eqb_spec c 48) as [->|N].
  - change (is_dec 48) with true. cbv iota. unfold strip. cbn [skip_zeros]. change (48 =? 48) with true. cbv iota. auto.
  - cbn [tw dw]. destruct (is_dec c) eqn:E; [|auto]. unfold strip. cbn [skip_zeros].
    replace (c =? 48) with false by lia. auto.
Qed.

Lemma digit_nums_app a b : digit_nums (a ++ b) = digit_nums a ++ digit_nums b.
Proof. apply map_app. Qed.
Lemma zlen_nums a : zlen (digit_nums a) = zlen a.
Proof. unfold zlen, digit_nums. now rewrite map_length. Qed.

Lemma int_digits_eq s : forall ds mexp,
  int_digits s ds mexp =
  (dw is_dec s, firstn (Z.to_nat (Z.max 112 (zlen ds))) (ds ++ digit_nums (tw is_dec s)),
   mexp + Z.max 0 (zlen ds + zlen (tw is_dec s) - Z.max 112 (zlen ds))).
Proof.
  induction s as [|c t IH]; intros ds mexp; cbn [int_digits tw dw].
  - change (digit_nums []) with (@nil Z). change (zlen (@nil Z)) with 0. rewrite app_nil_r. rewrite firstn_all2 by (unfold zlen; lia). f_equal. lia.
  - destruct (is_dec c) eqn:E.
    + unfold MAX_CONST_DIGITS. destruct (Z.ltb_spec (zlen ds) 112) as [L|L].
      * rewrite IH. rewrite zlen_app, !zlen_cons, zlen_nil. cbn [digit_nums map]. rewrite <- app_assoc.
        cbn [app]. f_equal; [f_equal; f_equal; lia|]. lia.
      * rewrite IH. rewrite zlen_cons. cbn [digit_nums map]. pose proof (zlen_nonneg (tw is_dec t)).
        f_equal; [|lia]. f_equal. rewrite !firstn_app.
        replace (Z.to_nat (Z.max 112 (zlen ds)) - length ds)%nat with O by (unfold zlen in *; lia).
        reflexivity.
    + change (digit_nums []) with (@nil Z). change (zlen (@nil Z)) with 0. rewrite app_nil_r. rewrite firstn_all2 by (unfold zlen; lia). f_equal. lia.
Qed.

Lemma frac_digits_eq s : forall ds mexp,
  frac_digits s ds mexp =
  (dw is_dec s, firstn (Z.to_nat (Z.max 112 (zlen ds))) (ds ++ digit_nums (tw is_dec s)),
   mexp - zlen (tw is_dec s)).
Proof.
  induction s as [|c t IH]; intros ds mexp; cbn [frac_digits tw dw].
  - change (digit_nums []) with (@nil Z). change (zlen (@nil Z)) with 0. rewrite app_nil_r. rewrite firstn_all2 by (unfold zlen; lia). f_equal. lia.
  - destruct (is_dec c) eqn:E.
    + unfold MAX_CONST_DIGITS. destruct (Z.ltb_spec (zlen ds) 112) as [L|L].
      * rewrite IH. rewrite zlen_app, !zlen_cons, zlen_nil. cbn [digit_nums map]. rewrite <- app_assoc.
        cbn [app]. f_equal; [f_equal; f_equal; lia|]. lia.
      * rewrite IH. rewrite zlen_cons. cbn [digit_nums map]. pose proof (zlen_nonneg (tw is_dec t)).
        f_equal; [|lia]. f_equal. rewrite !firstn_app.
        replace (Z.to_nat (Z.max 112 (zlen ds)) - length ds)%nat with O by (unfold zlen in *; lia).
        reflexivity.
    + change (digit_nums []) with (@nil Z). change (zlen (@nil Z)) with 0. rewrite app_nil_r. rewrite firstn_all2 by (unfold zlen; lia). f_equal. lia.
Qed.

Lemma frac_zeros_eq s : forall mexp,
  let '(s', m) := frac_zeros s mexp in
  s' = skip_zeros s /\ m = mexp - (zlen s - zlen (skip_zeros s)) /\
  zlen (tw is_dec s) - zlen (strip (tw is_dec s)) = mexp - m.
Proof.
  induction s as [|c t IH]; intros mexp; cbn [frac_zeros skip_zeros tw].
  - unfold strip. cbn [skip_zeros]. change (zlen (@nil Z)) with 0. repeat split; lia.
  - destruct (Z.eqb_spec c 48) as [->|N].
    + specialize (IH (mexp - 1)). destruct (frac_zeros t (mexp - 1)) as [s' m].
      change (is_dec 48) with true. cbv iota. unfold strip in *. cbn [skip_zeros]. change (48 =? 48) with true. cbv iota.
      rewrite !zlen_cons. destruct IH as (A & B & C). repeat split; [exact A|lia|lia].
    + assert (E : strip (tw is_dec (c :: t)) = tw is_dec (c :: t)).
      { unfold strip. cbn [tw]. destruct (is_dec c); [|reflexivity]. cbn [skip_zeros]. now replace (c =? 48) with false by lia. }
      cbn [tw] in E. rewrite E. split; [reflexivity|]. lia.
Qed.

(** ** Integers *)
Definition vnum (b n : Z) (ds : list Z) : Z := fold_left (fun n d => n * b + d) ds n.
Lemma vnum_val b ds : forall n, Forall (fun c => is_dec c = true) ds -> vnum b n (digit_nums ds) = val_from b n ds.
Proof.
  induction ds as [|c t IH]; intros n F; [reflexivity|]. inversion F; subst. rewrite val_cons, is_dec_val by assumption.
  cbn [digit_nums map]. unfold vnum. cbn [fold_left]. now apply IH.
Qed.
Lemma vnum_ge b ds : forall n, Forall (fun d => 0 <= d) ds -> 1 <= b -> 0 <= n -> n * b ^ zlen ds <= vnum b n ds.
Proof.
  induction ds as [|d t IH]; intros n F B N; [rewrite zlen_nil; cbn [vnum fold_left]; change (b ^ 0) with 1; unfold vnum; cbn [fold_left]; lia|].
  inversion F; subst. rewrite zlen_cons, Z.pow_add_r by (pose proof (zlen_nonneg t); lia). rewrite Z.pow_1_r.
  unfold vnum in *. cbn [fold_left]. specialize (IH (n * b + d) ltac:(assumption) B ltac:(nia)).
  assert (0 < b ^ zlen t) by (apply Z.pow_pos_nonneg; [lia|apply zlen_nonneg]). nia.
Qed.

Lemma fold_int_eq base ds : 2 <= base <= 16 -> forall n, Forall (fun d => 0 <= d) ds -> 0 <= n < 2 ^ 32 ->
  match fold_int true base ds n with
  | inr m => m = vnum base n ds /\ m < 2 ^ 32 /\ Forall (fun d => d < base) ds
  | inl TooBig => 2 ^ 32 <= vnum base n ds
  | inl BadOctal => ~ Forall (fun d => d < base) ds
  | inl _ => False
  end.
Proof.
  intros B. induction ds as [|d t IH]; intros n F N; cbn [fold_int].
  - unfold vnum; cbn [fold_left]. repeat split; auto; lia.
  - inversion F as [|? ? D F']; subst. destruct (Z.geb_spec d base).
    + intros G. inversion G; lia.
    + destruct (overflows_ok n base d N B ltac:(lia)) as (O & U). rewrite O. cbn [andb].
      destruct (Z.ltb_spec (n * base + d) (2 ^ 32)) as [S|S]; cbn [negb].
      * rewrite U by lia. specialize (IH (n * base + d) F' ltac:(nia)).
        destruct (fold_int true base t (n * base + d)) as [[]|m]; auto.
        -- intros G. apply IH. now inversion G.
        -- destruct IH as (I1 & I2 & I3). split; [exact I1|]. split; [exact I2|]. constructor; [lia|exact I3].
      * pose proof (vnum_ge base t (n * base + d) F' ltac:(lia) ltac:(nia)) as G.
        assert (1 <= base ^ zlen t) by (assert (0 < base ^ zlen t) by (apply Z.pow_pos_nonneg; [lia|apply zlen_nonneg]); lia).
        unfold vnum in *. cbn [fold_left]. nia.
Qed.

Lemma strip_head s : match strip s with [] => True | c :: _ => c <> 48 end.
Proof. unfold strip. induction s as [|c t IH]; cbn [skip_zeros]; [exact I|]. destruct (Z.eqb_spec c 48); [exact IH|assumption]. Qed.
Lemma strip_all P s : Forall P s -> Forall P (strip s).
Proof. unfold strip. induction 1 as [|c t H F IH]; cbn [skip_zeros]; [constructor|]. destruct (c =? 48); [exact IH|now constructor]. Qed.
Lemma strip_val b s : val_from b 0 (strip s) = val_from b 0 s.
Proof.
  unfold strip. induction s as [|c t IH]; [reflexivity|]. cbn [skip_zeros].
  destruct (Z.eqb_spec c 48) as [->|]; [|reflexivity]. rewrite IH, val_cons. reflexivity.
Qed.

(** Suffixes. *)
Lemma int_suffix_sound s : let '(r, u, l) := int_suffix s in exists sf, s = sf ++ r /\ int_suffix_text sf u l.
Proof.
  unfold int_suffix. destruct (is_u (peek s)) eqn:U.
  - destruct s as [|a t]; [discriminate|]. cbn [peek tl] in *.
    assert (UA : u_char a) by (unfold is_u in U; unfold u_char; lia).
    destruct (is_l (peek t)) eqn:L; cbn [negb andb].
    + destruct t as [|b t]; [discriminate|]. cbn [peek tl] in *. exists [a; b]. split; [reflexivity|].
      constructor; [exact UA|]. unfold is_l in L; unfold l_char; lia.
    + exists [a]. split; [reflexivity|]. now constructor.
  - destruct (is_l (peek s)) eqn:L; cbn [negb andb].
    + destruct s as [|a t]; [discriminate|]. cbn [peek tl] in *.
      assert (LA : l_char a) by (unfold is_l in L; unfold l_char; lia).
      destruct (is_u (peek t)) eqn:U2.
      * destruct t as [|b t]; [discriminate|]. cbn [peek tl] in *. exists [a; b]. split; [reflexivity|].
        constructor; [exact LA|]. unfold is_u in U2; unfold u_char; lia.
      * exists [a]. split; [reflexivity|]. now constructor.
    + exists []. split; [reflexivity|constructor].
Qed.

Lemma ends_peek rest : ends rest -> ~ pp_char (peek rest).
Proof. destruct rest as [|c t]; cbn [peek]; [intros _; unfold pp_char; lia|intros E; exact E]. Qed.

Lemma int_suffix_complete sf u l rest : int_suffix_text sf u l -> ends rest -> int_suffix (sf ++ rest) = (rest, u, l).
Proof.
  intros H E. apply ends_peek in E. unfold pp_char in E.
  assert (NU : is_u (peek rest) = false) by (unfold is_u; lia).
  assert (NL : is_l (peek rest) = false) by (unfold is_l; lia).
  unfold int_suffix. destruct H as [|a A|a A|a b A B|a b A B]; cbn [app peek tl].
  - now rewrite NU, NL.
  - replace (is_u a) with true by (unfold is_u, u_char in *; lia). cbn [peek tl]. now rewrite NL.
  - replace (is_u a) with false by (unfold is_u, l_char in *; lia). cbn [peek tl].
    replace (is_l a) with true by (unfold is_l, l_char in *; lia). cbn [negb andb peek tl]. now rewrite NU.
  - replace (is_u a) with true by (unfold is_u, u_char in *; lia). cbn [peek tl].
    replace (is_l b) with true by (unfold is_l, l_char in *; lia). cbn [negb andb]. reflexivity.
  - replace (is_u a) with false by (unfold is_u, l_char in *; lia). cbn [peek tl].
    replace (is_l a) with true by (unfold is_l, l_char in *; lia). cbn [negb andb peek tl].
    replace (is_u b) with true by (unfold is_u, u_char in *; lia). reflexivity.
Qed.

Lemma s32_u32 v : 0 <= v < 2 ^ 32 -> u32 (s32 v) = v.
Proof. intros V. unfold u32, s32. rewrite wrap_swrap by lia. now apply wrap_small. Qed.

(** Ranges and types. *)
Lemma finish_int_eq sw s n radix : sw = 2 \/ sw = 4 -> 0 <= n < 2 ^ 32 -> 
  let '(r, u, l) := int_suffix s in
  match int_type (8 * sw) radix n u l with
  | Some un => finish_int true sw s n (radix =? 10) = NTok (if un then TokNumUint else TokNumInt) (s32 n) r
  | None => exists e, finish_int true sw s n (radix =? 10) = NErr e
  end.
Proof.
  intros SW N. unfold finish_int, int_type. destruct (int_suffix s) as [[r u] l]. cbn [negb].
  rewrite !Z.shiftr_div_pow2 by lia. rewrite !Z.div_div by lia.
  change (2 ^ 8 * 2 ^ 8) with (2 ^ 16).
  change (2 ^ 8 * (2 ^ 12 * 2 ^ 12)) with (2 ^ 32). change (2 ^ 8 * (2 ^ 12 * 2 ^ 11)) with (2 ^ 31).
  assert (Q16 : (n / 2 ^ 16 =? 0) = (n <? 2 ^ 16)) by (clear - N; dlia).
  assert (Q15 : (n / 2 ^ 15 =? 0) = (n <? 2 ^ 15)) by (clear - N; dlia).
  assert (Q31 : (n / 2 ^ 31 =? 0) = (n <? 2 ^ 31)) by (clear - N; dlia).
  assert (Q32 : (n / 2 ^ 32 =? 0) = true) by (clear - N; dlia).
  rewrite Q16, Q15, Q31, Q32.
  destruct SW as [-> | ->].
  - change (8 * 2 - 1) with 15. change (8 * 2) with 16. change (16 =? 16) with true. change (2 =? 2) with true.
    change (2 =? 4) with false. cbn [andb orb]. rewrite !orb_false_r.
    destruct l; cbn [andb orb]; rewrite ?orb_true_r, ?orb_false_r; [eauto|].
    destruct (Z.ltb_spec n (2 ^ 16)); cbn [negb].
    + destruct u; cbn [negb andb orb]; [reflexivity|].
      destruct (Z.ltb_spec n (2 ^ 15)); [reflexivity|].
      destruct (radix =? 10); cbn [negb]; eauto.
    + replace (n <? 2 ^ 15) with false by lia. rewrite andb_false_r. cbn [andb]. eauto.
  - change (8 * 4 - 1) with 31. change (8 * 4) with 32. change (32 =? 16) with false. change (4 =? 2) with false.
    change (4 =? 4) with true. cbn [andb orb negb].
    replace (n <? 2 ^ 32) with true by lia. cbn [andb].
    destruct u; cbn [negb andb orb]; [reflexivity|].
    destruct (Z.ltb_spec n (2 ^ 31)); [reflexivity|].
    destruct (radix =? 10); cbn [negb]; eauto.
Qed.

Lemma int_type_range w radix n u l un : w = 16 \/ w = 32 -> int_type w radix n u l = Some un -> n < 2 ^ w /\ (un = false -> n < 2 ^ (w - 1)).
Proof.
  unfold int_type. intros W. destruct (_ && l); [discriminate|].
  destruct (negb u && (n <? 2 ^ (w - 1))) eqn:A.
  - intros H; apply some_inj in H; subst un.
    assert (n < 2 ^ (w - 1)) by lia. assert (2 ^ (w - 1) <= 2 ^ w) by (apply Z.pow_le_mono_r; lia). split; [lia|auto].
  - destruct ((n <? 2 ^ w) && _) eqn:B; [|discriminate]. intros H; apply some_inj in H; subst un.
    split; [lia|discriminate].
Qed.

Lemma Forall_dec_digit ds : Forall (fun c => is_dec c = true) ds <-> Forall (is_digit 10) ds.
Proof.
  split; intros F; eapply Forall_impl; try exact F; cbv beta; intros c H.
  - apply digitb_spec. now rewrite <- is_dec_digit.
  - rewrite is_dec_digit. now apply digitb_spec.
Qed.
Lemma Forall_hex_digit ds : Forall (fun c => is_hex c = true) ds <-> Forall (is_digit 16) ds.
Proof.
  split; intros F; eapply Forall_impl; try exact F; cbv beta; intros c H.
  - apply digitb_spec. now rewrite <- is_hex_digit.
  - rewrite is_hex_digit. now apply digitb_spec.
Qed.
Lemma digit8_dec c : is_digit 8 c <-> is_dec c = true /\ c - 48 < 8.
Proof.
  rewrite <- digitb_spec. unfold digitb, dval, is_dec.
  destruct ((48 <=? c) && (c <=? 57)) eqn:E; [lia|].
  destruct ((65 <=? c) && (c <=? 90)) eqn:F; [lia|]. destruct ((97 <=? c) && (c <=? 122)) eqn:G; [lia|].
  split; [discriminate|intros (A & _); discriminate].
Qed.

Lemma firstn_zall {A} (l : list A) k : zlen l <= k -> firstn (Z.to_nat k) l = l.
Proof. intros. apply firstn_all2. unfold zlen in *. lia. Qed.

(** The integer branch after hex is ruled out. *)
Definition int_branch (sw : Z) (s : list Z) : num_result :=
  let lz := peek s =? 48 in
  let base := if lz then 8 else 10 in
  let D := strip (tw is_dec s) in
  match fold_int true base (firstn 112 (digit_nums D)) 0 with
  | inl e => NErr e
  | inr n => finish_int true sw (dw is_dec s) n (negb lz)
  end.

Lemma get_number_int sw s : zlen s < 2 ^ 31 ->
  (peek s =? 48) && ((peek1 s =? 120) || (peek1 s =? 88)) = false ->
  let r := dw is_dec s in peek r <> 46 -> peek r <> 101 -> peek r <> 69 ->
  get_number true sw s = Some (int_branch sw s).
Proof.
  intros L NH r R1 R2 R3. unfold get_number. rewrite NH.
  destruct (strip_tw s) as (ST & SD).
  rewrite int_digits_eq, ST, SD. fold r. change (zlen (@nil Z)) with 0. change (Z.max 112 0) with 112. cbn [app].
  assert (LT : 0 <= zlen (strip (tw is_dec s)) < 2 ^ 31).
  { split; [apply zlen_nonneg|]. eapply Z.le_lt_trans; [|exact L].
    rewrite (tw_dw is_dec s) at 2. rewrite zlen_app. pose proof (zlen_nonneg (dw is_dec s)).
    assert (zlen (strip (tw is_dec s)) <= zlen (tw is_dec s)); [|lia].
    clear. unfold strip. induction (tw is_dec s) as [|c t IH]; cbn [skip_zeros]; [lia|]. destruct (c =? 48); rewrite ?zlen_cons; lia. }
  replace (fits_int _) with true by (unfold fits_int; lia). cbn [guard obind].
  replace (peek r =? 46) with false by lia. replace (fits_int _) with true by (unfold fits_int; lia). cbn [guard obind].
  replace (peek r =? 101) with false by lia. replace (peek r =? 69) with false by lia. cbn [orb].
  unfold int_branch. fold r. change (Z.to_nat 112) with 112%nat.
  destruct (fold_int true _ _ 0); reflexivity.
Qed.

(** The stored digits are all of them, or the value is too big anyway. *)
Lemma int_branch_spec sw s : sw = 2 \/ sw = 4 -> 
  let lz := peek s =? 48 in let base := if lz then 8 else 10 in
  let ds := tw is_dec s in let v := val_from base 0 ds in
  let '(r, u, l) := int_suffix (dw is_dec s) in
  if forallb (digitb base) ds then
    match int_type (8 * sw) base v u l with
    | Some un => int_branch sw s = NTok (if un then TokNumUint else TokNumInt) (s32 v) r
    | None => exists e, int_branch sw s = NErr e
    end
  else exists e, int_branch sw s = NErr e.
Proof.
  intros SW lz base ds v. destruct (int_suffix (dw is_dec s)) as [[r u] l] eqn:SF.
  assert (B : base = 8 \/ base = 10) by (unfold base; destruct lz; auto).
  assert (FD : Forall (fun c => is_dec c = true) ds) by apply tw_all.
  assert (FS : Forall (fun c => is_dec c = true) (strip ds)) by (now apply strip_all).
  assert (NN : forall l, Forall (fun c => is_dec c = true) l -> Forall (fun d => 0 <= d <= 9) (digit_nums l)).
  { intros l0. unfold digit_nums. induction 1 as [|c t H F IH]; cbn [map]; constructor; [unfold is_dec in H; lia|exact IH]. }
  pose proof (NN _ FS) as NS.
  unfold int_branch. fold lz. fold base. fold ds.
  set (X := digit_nums (strip ds)) in *.
  assert (VX : vnum base 0 X = v) by (unfold X; rewrite vnum_val by exact FS; apply strip_val).
  assert (F1 : Forall (fun d => 0 <= d) (firstn 112 X)).
  { rewrite <- (firstn_skipn 112 X) in NS. apply Forall_app in NS as (A & _). eapply Forall_impl; [|exact A]. cbv beta. lia. }
  pose proof (fold_int_eq base (firstn 112 X) ltac:(lia) 0 F1 ltac:(lia)) as FI.
  (* digits below the base *)
  assert (DB : forallb (digitb base) ds = true <-> Forall (fun d => d < base) X).
  { unfold X. clear - FD B. split.
    - intros H. rewrite forallb_forall in H.
      assert (G : Forall (fun c => digitb base c = true) ds) by (apply Forall_forall; exact H).
      apply (strip_all _ _) in G. unfold digit_nums. rewrite Forall_map. eapply Forall_impl; [|exact G].
      cbv beta. intros c C. unfold digitb, dval in C.
      destruct ((48 <=? c) && (c <=? 57)) eqn:E1; [lia|]. destruct ((65 <=? c) && (c <=? 90)) eqn:E2; [lia|].
      destruct ((97 <=? c) && (c <=? 122)) eqn:E3; [lia|discriminate].
    - intros H. unfold digit_nums in H. rewrite Forall_map in H.
      induction FD as [|c t C F IH]; [reflexivity|]. cbn [forallb]. unfold strip in *. cbn [skip_zeros] in H.
      assert (DC : c - 48 < base -> digitb base c = true) by (intros; unfold digitb; rewrite is_dec_val by exact C; lia).
      destruct (Z.eqb_spec c 48) as [->|N].
      + rewrite IH by exact H. rewrite DC by lia. reflexivity.
      + inversion H as [|? ? H1 H2]; subst. rewrite DC by exact H1. cbn [andb].
        apply forallb_forall. intros x I. rewrite Forall_forall in H2, F. specialize (H2 x I). specialize (F x I). cbv beta in *.
        unfold digitb. rewrite is_dec_val by exact F. lia. }
  destruct (Z_lt_le_dec 112 (zlen X)) as [LONG|SHORT].
  - (* more digits than are stored: too big *)
    assert (HD : exists x t, firstn 112 X = x :: t /\ 1 <= x /\ zlen t = 111).
    { pose proof (strip_head ds) as SH. unfold X in *. destruct (strip ds) as [|c t] eqn:E; [rewrite zlen_nums, zlen_nil in LONG; lia|].
      exists (c - 48), (firstn 111 (digit_nums t)). split; [reflexivity|]. split.
      - inversion FS as [|? ? C _]; subst. unfold is_dec in C. lia.
      - rewrite zlen_nums, zlen_cons in LONG. unfold zlen in *. rewrite firstn_length. unfold digit_nums. rewrite map_length. lia. }
    destruct HD as (x & t & HX & X1 & LT). rewrite HX in *.
    assert (BIG : 2 ^ 32 <= vnum base 0 (x :: t)).
    { inversion F1 as [|? ? F2 F3]; subst. pose proof (vnum_ge base t x F3 ltac:(lia) ltac:(lia)) as G. rewrite LT in G.
      unfold vnum in *. cbn [fold_left]. change (0 * base + x) with x.
      assert (8 ^ 111 <= base ^ 111) by (apply Z.pow_le_mono_l; lia).
      assert (2 ^ 32 <= 8 ^ 111) by (vm_compute; discriminate). nia. }
    assert (VB : 2 ^ 32 <= v).
    { rewrite <- VX. rewrite <- (firstn_skipn 112 X), HX. unfold vnum in *. rewrite fold_left_app.
      assert (FS2 : Forall (fun d => 0 <= d) (skipn 112 X)).
      { rewrite <- (firstn_skipn 112 X) in NS. apply Forall_app in NS as (_ & A). eapply Forall_impl; [|exact A]. cbv beta. lia. }
      set (w := fold_left (fun n d : Z => n * base + d) (x :: t) 0) in *.
      pose proof (vnum_ge base (skipn 112 X) w FS2 ltac:(lia) ltac:(lia)) as G. unfold vnum in G.
      assert (0 < base ^ zlen (skipn 112 X)) by (apply Z.pow_pos_nonneg; [lia|apply zlen_nonneg]). nia. }
    assert (ER : exists e, fold_int true base (x :: t) 0 = inl e).
    { destruct (fold_int true base (x :: t) 0); [eauto|]. exfalso. lia. }
    destruct ER as (e & ER). rewrite ER.
    destruct (forallb (digitb base) ds); [|eauto].
    destruct (int_type (8 * sw) base v u l) eqn:IT; [|eauto].
    apply int_type_range in IT; [|lia]. destruct SW as [-> | ->]; change (8 * 2) with 16 in *; change (8 * 4) with 32 in *; lia.
  - rewrite firstn_all2 in * by (unfold zlen in SHORT; lia). rewrite VX in FI.
    destruct (fold_int true base X 0) as [[]|m] eqn:FE; try contradiction.
    + (* too big *)
      destruct (forallb (digitb base) ds); [|eauto].
      destruct (int_type (8 * sw) base v u l) eqn:IT; [|eauto].
      apply int_type_range in IT; [|lia]. destruct SW as [-> | ->]; change (8 * 2) with 16 in *; change (8 * 4) with 32 in *; lia.
    + destruct (forallb (digitb base) ds) eqn:FB; [|eauto]. exfalso. apply FI. now apply DB.
    + destruct FI as (-> & V32 & FB). rewrite (proj2 DB FB).
      assert (V0 : 0 <= v) by (unfold v; apply val_from_ge; lia).
      pose proof (finish_int_eq sw (dw is_dec s) v base SW ltac:(lia)) as FIN. rewrite SF in FIN.
      replace (negb lz) with (base =? 10) by (unfold base; destruct lz; reflexivity). exact FIN.
Qed.
