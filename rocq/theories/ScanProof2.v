(** scanf: input items of the floating point conversions. *)
From Verif Require Import Base BaseLemmas CtypeModel FpModel FloatSpec FpProof FpMain StrtolSpec StrtolProof NumModel NumSpec NumProof NumFloat NumProps
  StrtofSpec StrtofModel StrtofProof StrtofProof2 StrtofProof3 StrtofProps ScanModel ScanSpec ScanProof.

Ltac Zify.zify_post_hook ::= idtac.

(** ** The automaton *)
Inductive gs := G0 | G1 | GW (w : list Z) | GInt | GDot (b : bool) | GE | GES | GED.
Definition gdelta1 (c : Z) : option gs :=
  if upper c =? 73 then Some (GW [78; 70; 73; 78; 73; 84; 89])
  else if upper c =? 78 then Some (GW [65; 78])
  else if is_dec c then Some GInt else if c =? 46 then Some (GDot false) else None.
Definition gdelta (s : gs) (c : Z) : option gs :=
  match s with
  | G0 => if (c =? 45) || (c =? 43) then Some G1 else gdelta1 c
  | G1 => gdelta1 c
  | GW [] => None
  | GW (l :: t) => if upper c =? l then Some (GW t) else None
  | GInt => if is_dec c then Some GInt else if c =? 46 then Some (GDot true) else if upper c =? 69 then Some GE else None
  | GDot b => if is_dec c then Some (GDot true) else if (upper c =? 69) && b then Some GE else None
  | GE => if (c =? 45) || (c =? 43) then Some GES else if is_dec c then Some GED else None
  | GES => if is_dec c then Some GED else None
  | GED => if is_dec c then Some GED else None
  end.
Definition gacc (s : gs) : bool :=
  match s with GW w => (zlen w =? 0) || (zlen w =? 5) | GInt | GDot true | GED => true | _ => false end.

Lemma dec_not c : is_dec c = true -> (c =? 45) = false /\ (c =? 43) = false /\ (c =? 46) = false /\ upper c = c /\ c <> 69 /\ c <> 73 /\ c <> 78.
Proof. unfold is_dec, upper. intros H. replace ((97 <=? c) && (c <=? 122)) with false by lia. lia. Qed.
Lemma dend_gint ds : Forall (fun c => is_dec c = true) ds -> dend gdelta GInt ds = Some GInt.
Proof. induction 1 as [|c t D F IH]; [reflexivity|]. cbn [dend gdelta]. now rewrite D. Qed.
Lemma dend_gdot b ds : Forall (fun c => is_dec c = true) ds -> dend gdelta (GDot b) ds = Some (GDot (b || negb (zlen ds =? 0))).
Proof.
  intros F. revert b. induction F as [|c t D F IH]; intros b; [now rewrite orb_false_r|]. cbn [dend gdelta]. rewrite D, IH.
  rewrite zlen_cons. pose proof (zlen_nonneg t). replace (1 + zlen t =? 0) with false by lia. now rewrite orb_true_r.
Qed.
Lemma dend_ged ds : Forall (fun c => is_dec c = true) ds -> dend gdelta GED ds = Some GED.
Proof. induction 1 as [|c t D F IH]; [reflexivity|]. cbn [dend gdelta]. now rewrite D. Qed.
Lemma dend_word w : forall t, Forall capital w -> forall x, Forall2 letter w t -> dend gdelta (GW (w ++ x)) t = Some (GW x).
Proof.
  intros t C x F. induction F as [|u c ut ct L F IH]; [reflexivity|]. inversion C as [|? ? U C']; subst. cbn [app dend gdelta].
  apply (letter_upper u c U) in L. rewrite L, Z.eqb_refl. now apply IH.
Qed.

Lemma exp_run et ex : exp_text et ex -> exists c t, et = c :: t /\ upper c = 69 /\ is_dec c = false /\ (c =? 46) = false /\ dend gdelta GE t = Some GED.
Proof.
  assert (E1 : forall ds, ds <> [] -> dec_text ds -> dend gdelta GES ds = Some GED /\ dend gdelta GE ds = Some GED).
  { intros [|c ds] NE F; [congruence|]. apply Forall_dec_digit in F. inversion F as [|? ? D F']; subst. cbn [dend gdelta]. rewrite D.
    destruct (dec_not c D) as (-> & -> & _). cbn [orb]. split; now apply dend_ged. }
  intros [e sg ds v He Hs NE F V|e ds v He NE F V].
  - exists e, (sg ++ ds). split; [reflexivity|]. split; [destruct He as [-> | ->]; reflexivity|]. split; [unfold is_dec; lia|]. split; [lia|].
    destruct Hs as [-> | ->]; cbn [app]; [now apply E1|]. cbn [dend gdelta]. change ((43 =? 45) || (43 =? 43)) with true. cbv iota. now apply E1.
  - exists e, (45 :: ds). split; [reflexivity|]. split; [destruct He as [-> | ->]; reflexivity|]. split; [unfold is_dec; lia|]. split; [lia|].
    cbn [dend gdelta]. change ((45 =? 45) || (45 =? 43)) with true. cbv iota. now apply E1.
Qed.

Lemma form_run body v : fform body v -> exists s, dend gdelta G1 body = Some s /\ gacc s = true.
Proof.
  intros F. destruct F as [t F|t F|t F|ip et ex DI NE X|ip fp et ex DI DF NE X].
  - inversion F as [|? c ? t1 L F1]; subst. apply letter_upper in L; [|lia]. cbn [dend gdelta]. unfold gdelta1. rewrite L. cbn [Z.eqb Pos.eqb].
    rewrite <- (app_nil_r [65; 78]). exists (GW []). split; [|reflexivity]. apply dend_word; [repeat constructor; lia|exact F1].
  - inversion F as [|? c ? t1 L F1]; subst. apply letter_upper in L; [|lia]. cbn [dend gdelta]. unfold gdelta1. rewrite L. cbn [Z.eqb Pos.eqb].
    exists (GW [73; 78; 73; 84; 89]). split; [|reflexivity]. apply (dend_word [78; 70]); [repeat constructor; lia|exact F1].
  - inversion F as [|? c ? t1 L F1]; subst. apply letter_upper in L; [|lia]. cbn [dend gdelta]. unfold gdelta1. rewrite L. cbn [Z.eqb Pos.eqb].
    exists (GW []). split; [|reflexivity]. rewrite <- (app_nil_r [78; 70; 73; 78; 73; 84; 89]). apply dend_word; [repeat constructor; lia|exact F1].
  - apply Forall_dec_digit in DI. destruct ip as [|c ip]; [congruence|]. inversion DI as [|? ? D DI']; subst.
    destruct (dec_not c D) as (_ & _ & _ & U & N1 & N2 & N3). cbn [app dend gdelta]. unfold gdelta1. rewrite U.
    replace (c =? 73) with false by lia. replace (c =? 78) with false by lia. rewrite D. rewrite dend_app, (dend_gint ip DI').
    destruct X as [(-> & _)|X]; [exists GInt; auto|]. destruct (exp_run et ex X) as (e & t & -> & UE & ND & NP & R).
    cbn [dend gdelta]. rewrite ND, NP, UE. cbn [Z.eqb Pos.eqb]. exists GED. auto.
  - apply Forall_dec_digit in DI, DF.
    assert (R1 : forall b, b = negb (zlen ip =? 0) -> dend gdelta G1 (ip ++ 46 :: fp ++ et) = dend gdelta (GDot b) (fp ++ et)).
    { intros b ->. destruct ip as [|c ip]; [reflexivity|]. inversion DI as [|? ? D DI']; subst.
      destruct (dec_not c D) as (_ & _ & _ & U & N1 & N2 & N3). cbn [app dend gdelta]. unfold gdelta1. rewrite U.
      replace (c =? 73) with false by lia. replace (c =? 78) with false by lia. rewrite D. rewrite dend_app, (dend_gint ip DI').
      cbn [dend gdelta]. change (is_dec 46) with false. cbn [Z.eqb Pos.eqb]. rewrite zlen_cons. pose proof (zlen_nonneg ip).
      now replace (1 + zlen ip =? 0) with false by lia. }
    rewrite (R1 _ eq_refl), dend_app, (dend_gdot _ fp DF).
    assert (B : negb (zlen ip =? 0) || negb (zlen fp =? 0) = true).
    { destruct ip as [|c ip]; [|rewrite zlen_cons; pose proof (zlen_nonneg ip); now replace (1 + zlen ip =? 0) with false by lia].
      destruct fp as [|c fp]; [cbn in NE; congruence|]. rewrite zlen_cons. pose proof (zlen_nonneg fp). now replace (1 + zlen fp =? 0) with false by lia. }
    rewrite B. destruct X as [(-> & _)|X]; [exists (GDot true); auto|]. destruct (exp_run et ex X) as (e & t & -> & UE & ND & NP & R).
    cbn [dend gdelta]. rewrite ND, UE. cbn [Z.eqb Pos.eqb andb]. exists GED. auto.
Qed.
Lemma float_run l neg v : float_seq l neg v -> exists s, dend gdelta G0 l = Some s /\ gacc s = true.
Proof.
  intros (sg & body & -> & SG & F). destruct (form_run body v F) as (s & R & A).
  destruct SG as [(-> & _)|[(-> & _)|(-> & _)]]; cbn [app]; [|exists s; auto|exists s; auto].
  destruct body as [|c t]; [cbn in R; injection R as <-; discriminate A|].
  exists s. split; [|exact A]. cbn [dend gdelta] in *. replace ((c =? 45) || (c =? 43)) with false; [exact R|]. symmetry.
  unfold gdelta1 in R. destruct (Z.eqb_spec c 45) as [->|]; [discriminate R|]. destruct (Z.eqb_spec c 43) as [->|]; [discriminate R|reflexivity].
Qed.

(** ** Digits kept *)
Lemma nums_snoc l c : digit_nums (l ++ [c]) = digit_nums l ++ [c - 48].
Proof. unfold digit_nums. apply map_app. Qed.
Lemma first_snoc (X : list Z) y : firstn 112 (X ++ [y]) = if zlen (firstn 112 X) <? 112 then firstn 112 X ++ [y] else firstn 112 X.
Proof.
  unfold zlen. rewrite firstn_length. destruct (Z.ltb_spec (Z.of_nat (Nat.min 112 (length X))) 112) as [L|L].
  - rewrite firstn_app, (firstn_all2 X) by lia. rewrite (firstn_all2 [y]) by (cbn [length]; lia). reflexivity.
  - rewrite firstn_app. replace (112 - length X)%nat with O by lia. cbn [firstn]. apply app_nil_r.
Qed.
Lemma nil_len (A : Type) (l : list A) : zlen l = 0 -> l = [].
Proof. destruct l as [|a l]; [reflexivity|]. rewrite zlen_cons. pose proof (zlen_nonneg l). lia. Qed.
Lemma ds0_len ip : zlen (firstn 112 (digit_nums (strip ip))) = Z.min 112 (zlen (strip ip)).
Proof. rewrite <- (zlen_nums (strip ip)). unfold zlen. rewrite firstn_length. lia. Qed.
Lemma mant_dot ip : mant true ip [] = mant false ip [].
Proof.
  unfold mant. destruct (Z.eqb_spec (zlen (firstn 112 (digit_nums (strip ip)))) 0) as [E|E].
  - assert (S0 : strip ip = []).
    { rewrite ds0_len in E. apply nil_len. pose proof (zlen_nonneg (strip ip)). lia. }
    rewrite S0. reflexivity.
  - change (digit_nums []) with (@nil Z). change (zlen (@nil Z)) with 0. rewrite app_nil_r, Z.sub_0_r. f_equal. apply firstn_all2. rewrite firstn_length. lia.
Qed.
Lemma mant_int_zero ip : strip ip = [] -> strip (ip ++ [48]) = [] /\ mant false (ip ++ [48]) [] = mant false ip [].
Proof. intros S0. assert (S1 : strip (ip ++ [48]) = []) by now rewrite strip_app, S0. split; [exact S1|]. unfold mant. now rewrite S0, S1. Qed.
Lemma strip_snoc ip c : strip ip <> [] \/ c <> 48 -> strip (ip ++ [c]) = strip ip ++ [c].
Proof.
  intros H. rewrite strip_app. destruct (strip ip) as [|d t] eqn:E; [|reflexivity]. destruct H as [H|H]; [congruence|].
  unfold strip. cbn [skip_zeros]. now replace (c =? 48) with false by lia.
Qed.
Lemma mant_int ip c : strip ip <> [] \/ c <> 48 ->
  mant false (ip ++ [c]) [] = let '(d, m) := mant false ip [] in if zlen d <? 112 then (d ++ [c - 48], m) else (d, m + 1).
Proof.
  intros H. unfold mant. rewrite (strip_snoc ip c H), nums_snoc, first_snoc, zlen_app. change (zlen [c]) with 1.
  assert (E : zlen (firstn 112 (digit_nums (strip ip))) = Z.min 112 (zlen (strip ip))).
  { rewrite <- (zlen_nums (strip ip)). unfold zlen. rewrite firstn_length. lia. }
  rewrite E. pose proof (zlen_nonneg (strip ip)). destruct (Z.ltb_spec (Z.min 112 (zlen (strip ip))) 112); f_equal; lia.
Qed.
Lemma mant_frac_zero ip fp : strip ip = [] -> strip fp = [] ->
  strip (fp ++ [48]) = [] /\ mant true ip (fp ++ [48]) = let '(d, m) := mant true ip fp in (d, m - 1).
Proof.
  intros S0 S1. assert (S2 : strip (fp ++ [48]) = []) by now rewrite strip_app, S1. split; [exact S2|]. unfold mant.
  rewrite S0, S1, S2, zlen_app. change (zlen [48]) with 1. cbn [digit_nums map firstn]. change (zlen (@nil Z) =? 0) with true. cbv iota. f_equal. lia.
Qed.
Lemma mant_frac ip fp c : strip ip <> [] \/ strip fp <> [] \/ c <> 48 ->
  mant true ip (fp ++ [c]) = let '(d, m) := mant true ip fp in (if zlen d <? 112 then d ++ [c - 48] else d, m - 1).
Proof.
  intros H. unfold mant. rewrite zlen_app. change (zlen [c]) with 1.
  destruct (Z.eqb_spec (zlen (firstn 112 (digit_nums (strip ip)))) 0) as [E|E].
  - rewrite ds0_len in E. assert (S0 : strip ip = []) by (apply nil_len; pose proof (zlen_nonneg (strip ip)); lia).
    rewrite strip_snoc by (destruct H as [H|H]; [congruence|exact H]). rewrite nums_snoc, first_snoc. f_equal. lia.
  - rewrite nums_snoc, app_assoc, first_snoc. f_equal. lia.
Qed.

(** ** What the loop must achieve *)
Definition fgood (sgn : Z) (v : fvars) (fv : fval) (text : list Z) : Prop :=
  fsign v = sgn /\
  match fv with
  | FNan => fword v = W_NAN
  | FInf => fword v = W_INF
  | FNum ds e => fword v = [] /\ exists dot ip fp ex, ds = digit_nums (ip ++ fp) /\ e = ex - zlen fp /\ dec_text ip /\ dec_text fp /\
      (dot = false -> fp = []) /\ (fds v, fmexp v) = mant dot ip fp /\ zlen ip + zlen fp <= zlen text /\
      feexp v = Z.min (Z.abs ex) INT_CAP /\ (if fesign v =? 45 then ex <= 0 else 0 <= ex)
  end.

Definition outcome (s0 : gs) (pre : list Z) (sgn : Z) (inp : list Z) (w ch : Z) (res : option (conv fvars)) : Prop :=
  exists C r s, inp = C ++ r /\ zlen C <= w /\ dend gdelta s0 C = Some s /\ stuck gdelta s (w - zlen C) r /\
    ((exists v' fv, fform (pre ++ C) fv /\ fgood sgn v' fv (pre ++ C) /\ res = Some (Got v' r (ch + zlen C))) \/
     (gacc s = false /\ (exists ext fv, fform (pre ++ C ++ ext) fv) /\ exists e, res = Some (Fail e r) /\ (e = true -> r = []))).

Lemma out_step s0 s1 pre sgn c t w ch res : 0 < w -> gdelta s0 c = Some s1 ->
  outcome s1 (pre ++ [c]) sgn t (w - 1) (ch + 1) res -> outcome s0 pre sgn (c :: t) w ch res.
Proof.
  intros W D (C & r & s & EC & LC & DC & ST & REST). exists (c :: C), r, s. rewrite zlen_cons.
  split; [cbn [app]; congruence|]. split; [lia|]. split; [cbn [dend]; now rewrite D|].
  split; [now replace (w - (1 + zlen C)) with (w - 1 - zlen C) by lia|]. rewrite <- !app_assoc in REST. cbn [app] in REST.
  destruct REST as [(v' & fv & F & G & R)|(A & (ext & fv & F) & e & R & E)].
  - left. exists v', fv. split; [exact F|]. split; [exact G|]. rewrite R. do 2 f_equal. lia.
  - right. split; [exact A|]. split; [|exists e; auto]. exists ext, fv. cbn [app]. rewrite <- app_assoc in F. exact F.
Qed.
Lemma out_got s0 pre sgn inp w ch v' fv : 0 <= w -> stuck gdelta s0 w inp -> fform pre fv -> fgood sgn v' fv pre ->
  outcome s0 pre sgn inp w ch (Some (Got v' inp ch)).
Proof.
  intros W ST F G. exists [], inp, s0. change (zlen (@nil Z)) with 0. rewrite Z.sub_0_r, Z.add_0_r, app_nil_r.
  split; [reflexivity|]. split; [exact W|]. split; [reflexivity|]. split; [exact ST|]. left. exists v', fv. auto.
Qed.
Lemma out_fail s0 pre sgn inp w ch e : 0 <= w -> stuck gdelta s0 w inp -> gacc s0 = false -> (exists ext fv, fform (pre ++ ext) fv) -> (e = true -> inp = []) ->
  outcome s0 pre sgn inp w ch (Some (Fail e inp)).
Proof.
  intros W ST A X E. exists [], inp, s0. change (zlen (@nil Z)) with 0. rewrite Z.sub_0_r.
  split; [reflexivity|]. split; [exact W|]. split; [reflexivity|]. split; [exact ST|]. right. split; [exact A|]. split; [exact X|]. exists e. auto.
Qed.
(** The start state does not matter as long as the next character leads to the same place. *)
Lemma out_start s0 s1 pre sgn inp w ch res : (forall c t, inp = c :: t -> gdelta s0 c = gdelta s1 c) -> gacc s0 = gacc s1 ->
  outcome s1 pre sgn inp w ch res -> outcome s0 pre sgn inp w ch res.
Proof.
  intros H A (C & r & s & EC & LC & DC & ST & REST). exists C, r, (match C with [] => s0 | _ => s end).
  split; [exact EC|]. split; [exact LC|]. destruct C as [|c C].
  - cbn [dend] in DC. injection DC as <-. cbn [app] in EC. subst r. split; [reflexivity|].
    split. { destruct ST as [ST|(c & t & E & D)]; [left; exact ST|right; exists c, t; split; [exact E|]]. now rewrite (H c t E). }
    destruct REST as [REST|(NA & REST)]; [left; exact REST|right]. split; [congruence|exact REST].
  - split; [cbn [dend] in *; now rewrite (H c (C ++ r) EC)|]. split; [exact ST|exact REST].
Qed.

(** ** The phases, from the last *)
Ltac fstep := cbn [float_loop]; cbn [fw fch fds fmexp fsign fword fwidx fgotint fgotfrct fgotexp fesign feexp take_f set_num set_exp set_word set_sign].
Lemma is_dec_decb c : decb c = is_dec c. Proof. reflexivity. Qed.
Lemma byte_any c : byte c -> -1 <= c < 256. Proof. unfold byte. lia. Qed.

(** One turn of the loop on a character, and at the end of the input. *)
Lemma turn_char c t v : 0 < fw v -> byte c ->
  next (fw v) (c :: t) = (c, t, false) /\ ungetc c t = c :: t /\ toupper c = Some (upper c) /\ test isdigit c = Some (is_dec c) /\ (c <? 0) = false /\ (c >=? 0) = true.
Proof.
  intros W B. split; [now apply next_char|]. split; [now apply unget_char|]. split; [now apply toupper_ok|].
  split; [rewrite <- is_dec_decb; apply test_digit; now apply byte_any|]. unfold byte in B. lia.
Qed.

Ltac turn c t v PW B :=
  let T1 := fresh in let T2 := fresh in let T3 := fresh in let T4 := fresh in let T5 := fresh in let T6 := fresh in
  destruct (turn_char c t v PW B) as (T1 & T2 & T3 & T4 & T5 & T6); rewrite T1; rewrite ?T2, T3, T4; cbn [obind]; rewrite ?T5, ?T6; clear T1 T2 T3 T4 T5 T6.

Lemma cap_step E d ee : 0 <= E -> 0 <= d <= 9 -> ee = Z.min E INT_CAP ->
  (if negb (u32 (ee * 10) / 10 =? ee) || (u32 (u32 (ee * 10) + d) <? u32 (ee * 10)) || (u32 (u32 (ee * 10) + d) >? INT_CAP) then INT_CAP
   else u32 (u32 (ee * 10) + d)) = Z.min (E * 10 + d) INT_CAP.
Proof.
  intros HE HD ->. change INT_CAP with 2147483647. set (e := Z.min E 2147483647). assert (R : 0 <= e <= 2147483647) by lia.
  unfold u32, wrap. change (2 ^ 32) with 4294967296.
  destruct (Z.lt_ge_cases (e * 10) 4294967296) as [L|L].
  - rewrite (Z.mod_small (e * 10)) by lia. rewrite Z.div_mul by lia. rewrite Z.eqb_refl. cbn [negb orb].
    destruct (Z.lt_ge_cases (e * 10 + d) 4294967296) as [L2|L2].
    + rewrite (Z.mod_small (e * 10 + d)) by lia. replace (e * 10 + d <? e * 10) with false by lia. cbn [orb].
      destruct (Z.gtb_spec (e * 10 + d) 2147483647); lia.
    + replace ((e * 10 + d) mod 4294967296) with (e * 10 + d - 4294967296) by (apply Z.mod_unique with (q := 1); lia).
      replace (e * 10 + d - 4294967296 <? e * 10) with true by lia. cbn [orb]. lia.
  - replace ((e * 10) mod 4294967296 / 10 =? e) with false.
    + cbn [negb orb]. lia.
    + symmetry. apply Z.eqb_neq. pose proof (Z.mod_pos_bound (e * 10) 4294967296 ltac:(lia)).
      assert (X : (e * 10) mod 4294967296 <= e * 10 - 4294967296).
      { pose proof (Z.div_mod (e * 10) 4294967296 ltac:(lia)). assert (1 <= e * 10 / 4294967296) by (apply Z.div_le_lower_bound; lia). lia. }
      assert ((e * 10) mod 4294967296 / 10 <= (e * 10 - 4294967296) / 10) by (apply Z.div_le_mono; lia).
      assert ((e * 10 - 4294967296) / 10 < e); [|lia]. apply Z.div_lt_upper_bound; lia.
Qed.

(** Text of the mantissa. *)
Definition mtext (dot : bool) (ip fp : list Z) : list Z := ip ++ if dot then 46 :: fp else [].
Lemma form_mant dot ip fp et ex : dec_text ip -> dec_text fp -> (dot = false -> fp = []) -> ip ++ fp <> [] -> et = [] /\ ex = 0 \/ exp_text et ex ->
  fform (mtext dot ip fp ++ et) (FNum (digit_nums (ip ++ fp)) (ex - zlen fp)).
Proof.
  intros DI DF ND NE X. unfold mtext. destruct dot.
  - rewrite <- app_assoc. cbn [app]. now apply ff_frac.
  - rewrite (ND eq_refl) in *. rewrite !app_nil_r in *. change (zlen (@nil Z)) with 0. rewrite Z.sub_0_r. now apply ff_int.
Qed.
Lemma mtext_len dot ip fp : (dot = false -> fp = []) -> zlen ip + zlen fp <= zlen (mtext dot ip fp).
Proof. intros ND. unfold mtext. rewrite zlen_app. destruct dot; [rewrite zlen_cons; lia|]. rewrite (ND eq_refl). lia. Qed.

(** The mantissa as the variables hold it. *)
Definition numv (sgn : Z) (dot : bool) (ip fp : list Z) (v : fvars) : Prop :=
  fsign v = sgn /\ fword v = [] /\ (fds v, fmexp v) = mant dot ip fp /\ dec_text ip /\ dec_text fp /\ (dot = false -> fp = []).
Definition exps (sg : list Z) (es : Z) : Prop := (sg = [] /\ es = 0) \/ (sg = [43] /\ es = 43) \/ (sg = [45] /\ es = 45).
Lemma exps_text e sg es ds : e = 101 \/ e = 69 -> exps sg es -> ds <> [] -> dec_text ds ->
  exists ex, exp_text (e :: sg ++ ds) ex /\ Z.abs ex = val_from 10 0 ds /\ (if es =? 45 then ex <= 0 else 0 <= ex).
Proof.
  intros He X NE F. pose proof (value_exists 10 ds F) as V. pose proof (val_from_ge 10 ds 0 ltac:(lia) ltac:(lia)) as P.
  destruct X as [(-> & ->)|[(-> & ->)|(-> & ->)]]; cbn [Z.eqb Pos.eqb app].
  - exists (val_from 10 0 ds). split; [apply (exp_pos e [] ds); auto|]. lia.
  - exists (val_from 10 0 ds). split; [apply (exp_pos e [43] ds); auto|]. lia.
  - exists (- val_from 10 0 ds). split; [apply (exp_neg e ds); auto|]. lia.
Qed.

Lemma val_snoc ds c : is_dec c = true -> val_from 10 0 (ds ++ [c]) = val_from 10 0 ds * 10 + (c - 48).
Proof.
  intros D. unfold val_from. rewrite fold_left_app. cbn [fold_left]. unfold dval. unfold is_dec in D. rewrite D. reflexivity.
Qed.
Lemma dec_snoc ds c : dec_text ds -> is_dec c = true -> dec_text (ds ++ [c]).
Proof. intros F D. apply Forall_app. split; [exact F|]. constructor; [|constructor]. apply digitb_spec. now rewrite <- is_dec_digit. Qed.
Lemma zero_digit : dec_text [48].
Proof. constructor; [|constructor]. exists 0. split; [apply (dv_dec 48); lia|lia]. Qed.

Lemma phase_exp sgn dot ip fp e sg inp : e = 101 \/ e = 69 -> Forall byte inp -> ip ++ fp <> [] ->
  forall fuel v D s0, numv sgn dot ip fp v -> exps sg (fesign v) -> dec_text D -> feexp v = Z.min (val_from 10 0 D) INT_CAP ->
  (fgotexp v =? 2) = negb (zlen D =? 0) -> gacc s0 = negb (zlen D =? 0) ->
  (forall c t, inp = c :: t -> gdelta s0 c = if is_dec c then Some GED else None) ->
  0 <= fw v -> (length inp < fuel)%nat ->
  outcome s0 (mtext dot ip fp ++ e :: sg ++ D) sgn inp (fw v) (fch v) (float_loop fuel F_EXP inp v).
Proof.
  intros He FB NE. induction inp as [|c t IH]; intros fuel v D s0 N X FD EE GX A0 H0 W FU; (destruct fuel as [|fuel]; [cbn in FU; lia|]).
  all: destruct N as (N1 & N2 & N3 & N4 & N5 & N6).
  all: assert (GOT : zlen D <> 0 -> exists fv, fform (mtext dot ip fp ++ e :: sg ++ D) fv /\ fgood sgn v fv (mtext dot ip fp ++ e :: sg ++ D)).
  1,3: intros ND; destruct (exps_text e sg (fesign v) D He X ltac:(intros Q; subst D; now cbn in ND) FD) as (ex & XT & XA & XS);
       exists (FNum (digit_nums (ip ++ fp)) (ex - zlen fp)); split; [apply form_mant; auto|];
       split; [exact N1|]; split; [exact N2|]; exists dot, ip, fp, ex; rewrite XA; rewrite zlen_app; pose proof (mtext_len dot ip fp N6); pose proof (zlen_nonneg (e :: sg ++ D));
       repeat (split; [first [reflexivity|assumption|lia]|]); exact XS.
  all: assert (STOP : forall inp0 w0 e0, 0 <= w0 -> stuck gdelta s0 w0 inp0 -> (e0 = true -> inp0 = []) ->
         outcome s0 (mtext dot ip fp ++ e :: sg ++ D) sgn inp0 w0 (fch v)
           (if fgotexp v =? 2 then Some (Got v inp0 (fch v)) else Some (Fail e0 inp0))).
  1,3: intros inp0 w0 e0 W0 ST E0; rewrite GX; destruct (Z.eqb_spec (zlen D) 0) as [Z0|NZ]; cbn [negb];
       [apply out_fail; auto;
        apply nil_len in Z0; subst D; exists [48]; destruct (exps_text e sg (fesign v) [48] He X ltac:(discriminate) zero_digit) as (ex & XT & _);
        eexists; rewrite <- app_assoc; cbn [app]; rewrite app_nil_r; apply form_mant; eauto
       |destruct (GOT NZ) as (fv & F & G); eapply out_got; eauto].
  - fstep. destruct (next_end (fw v) [] W ltac:(right; reflexivity)) as (stop & -> & EST).
    change (toupper EOF) with (Some EOF). change (test isdigit EOF) with (Some false). cbn [obind]. rewrite unget_eof. fstep.
    replace (stop || (EOF >=? 0)) with stop by (now rewrite orb_false_r).
    apply STOP; [exact W|left; right; reflexivity|reflexivity].
  - pose proof (Forall_inv FB) as B; pose proof (Forall_inv_tail FB) as FB'. destruct (read_cases (fw v) (c :: t) W) as [AE|(c0 & t0 & Q & PW)].
    + fstep. destruct (next_end (fw v) _ W AE) as (stop & -> & EST).
      change (toupper EOF) with (Some EOF). change (test isdigit EOF) with (Some false). cbn [obind]. rewrite unget_eof.
      replace (stop || (EOF >=? 0)) with stop by (now rewrite orb_false_r). fstep.
      apply STOP; [exact W|left; exact AE|]. destruct stop; [discriminate|]. intros _. now apply EST.
    + injection Q as <- <-. fstep. turn c t v PW B.
      specialize (H0 c t eq_refl). destruct (is_dec c) eqn:DC.
      * apply (out_step s0 GED); [exact PW|exact H0|].
        rewrite (cap_step (val_from 10 0 D) (c - 48) (feexp v)); [|apply val_from_ge; lia|unfold is_dec in DC; lia|exact EE].
        rewrite <- (val_snoc D c DC). rewrite <- app_assoc. cbn [app]. rewrite <- app_assoc.
        set (v2 := set_exp (take_f v) 2 (fesign v) (Z.min (val_from 10 0 (D ++ [c])) INT_CAP)).
        change (fw v - 1) with (fw v2). change (fch v + 1) with (fch v2).
        assert (LD : (zlen (D ++ [c]) =? 0) = false) by (rewrite zlen_app; change (zlen [c]) with 1; pose proof (zlen_nonneg D); lia).
        apply (IH FB' fuel v2 (D ++ [c]) GED).
        -- split; [exact N1|]. auto.
        -- exact X.
        -- now apply dec_snoc.
        -- reflexivity.
        -- now rewrite LD.
        -- now rewrite LD.
        -- reflexivity.
        -- cbn. lia.
        -- cbn in FU. lia.
      * rewrite orb_true_r. cbn [negb]. apply STOP; [lia|right; eauto|discriminate].
Qed.

Lemma phase_exp_sign sgn dot ip fp e inp : e = 101 \/ e = 69 -> Forall byte inp -> ip ++ fp <> [] ->
  forall fuel v, numv sgn dot ip fp v -> fesign v = 0 -> feexp v = 0 -> fgotexp v = 1 -> 0 <= fw v -> (length inp + 1 < fuel)%nat ->
  outcome GE (mtext dot ip fp ++ [e]) sgn inp (fw v) (fch v) (float_loop fuel F_EXP_SIGN inp v).
Proof.
  intros He FB NE fuel v N E0 X0 G1 W FU. destruct fuel as [|fuel]; [lia|]. pose proof N as (N1 & N2 & N3 & N4 & N5 & N6).
  destruct (read_cases (fw v) inp W) as [AE|(c & t & -> & PW)].
  - fstep. destruct (next_end (fw v) inp W AE) as (stop & -> & EST).
    change (toupper EOF) with (Some EOF). change (test isdigit EOF) with (Some false). cbn [obind]. rewrite unget_eof. cbn.
    apply out_fail; [exact W|left; exact AE|reflexivity| |].
    + exists [48]. destruct (exps_text e [] 0 [48] He ltac:(left; auto) ltac:(discriminate) zero_digit) as (ex & XT & _).
      eexists. rewrite <- app_assoc. cbn [app] in *. apply form_mant; eauto.
    + destruct stop; [discriminate|]. intros _. now apply EST.
  - pose proof (Forall_inv FB) as B; pose proof (Forall_inv_tail FB) as FB'. fstep. turn c t v PW B.
    destruct ((c =? 45) || (c =? 43)) eqn:SC.
    + apply (out_step GE GES); [exact PW|cbn [gdelta]; now rewrite SC|]. rewrite <- app_assoc. cbn [app].
      set (v2 := set_exp (take_f v) (fgotexp v) c (feexp v)). change (fw v - 1) with (fw v2). change (fch v + 1) with (fch v2).
      replace [e; c] with (e :: [c] ++ []) by reflexivity.
      apply (phase_exp sgn dot ip fp e [c]); cbn [v2 set_exp take_f fw fch fesign feexp fgotexp]; try assumption.
      * destruct (Z.eqb_spec c 45) as [->|]; [right; right; auto|right; left; split; [f_equal|]; lia].
      * constructor.
      * cbn. now rewrite G1.
      * reflexivity.
      * reflexivity.
      * lia.
      * cbn [length] in FU. lia.
    + replace [e] with (e :: [] ++ []) by reflexivity.
      apply (phase_exp sgn dot ip fp e []); try assumption.
      * left. auto.
      * constructor.

      * now rewrite G1.
      * reflexivity.
      * intros c0 t0 Q. injection Q as <- <-. cbn [gdelta]. now rewrite SC.
      * cbn [length] in *. lia.
Qed.
