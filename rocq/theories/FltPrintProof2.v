(** printff as a whole. *)
From Verif Require Import Base BaseLemmas LexModel DoPrintModel DoPrintSpec DoPrintProof CvtModel CvtSpec IdentProof CvtProof CvtProof2 FltPrintModel FltPrintSpec FltPrintProof.

(** * trailing zeros *)
Lemma strip_snoc s c : strip (s ++ [c]) = if c =? 48 then strip s else s ++ [c].
Proof.
  induction s as [|x s IH]; cbn [List.app strip]; [reflexivity|]. rewrite IH. destruct (c =? 48); [reflexivity|].
  destruct s; reflexivity.
Qed.
Lemma strip_zeros s n : strip (s ++ repeat 48 n) = strip s.
Proof.
  induction n as [|n IH]; [rewrite app_nil_r; reflexivity|]. replace (repeat 48 (S n)) with (repeat 48 n ++ [48]) by (symmetry; apply repeat_cons).
  rewrite app_assoc, strip_snoc. cbn. exact IH.
Qed.
Lemma dropZeros_ok n : forall b o, 0 <= o -> o + Z.of_nat n <= zlen b ->
  exists m, dropZeros n b (o + Z.of_nat n - 1) = Ok m /\ 0 <= m <= Z.of_nat n /\ slice o m b = strip (slice o (Z.of_nat n) b).
Proof.
  induction n as [|n IH]; intros b o O L.
  - exists 0. split; [reflexivity|]. split; [lia|]. reflexivity.
  - cbn [dropZeros]. rewrite get_ok by lia. cbn [rbind]. replace (Z.of_nat (S n)) with (Z.of_nat n + 1) in * by lia.
    rewrite slice_snoc by lia. rewrite strip_snoc. replace (o + (Z.of_nat n + 1) - 1) with (o + Z.of_nat n) by lia.
    destruct (Z.eqb_spec (at_ b (o + Z.of_nat n)) 48) as [Q|Q].
    + destruct (IH b o O ltac:(lia)) as (m & E & M & S). exists m. split; [exact E|]. split; [lia|exact S].
    + exists (Z.of_nat n + 1). split; [reflexivity|]. split; [lia|]. apply slice_snoc; lia.
Qed.

(** * the parts *)
Lemma bodyDot I F p (h : bool) : zlen F = p -> I ++ (if negb (p =? 0) || h then [46] else []) ++ F = body I F h.
Proof.
  intros L. unfold body. destruct F as [|c F].
  - change (zlen (@nil Z)) with 0 in L. subst p. cbn. destruct h; reflexivity.
  - rewrite zlen_cons in L. pose proof (zlen_nonneg F). destruct (Z.eqb_spec p 0); [lia|]. reflexivity.
Qed.
Lemma fixedParts_len R w p I F : fixedParts R w p I F -> zlen F = p.
Proof. intros (q & _ & _ & _ & L & _). exact L. Qed.
Lemma fixedParts_nearest w p I F : fixedParts rounds w p I F -> fixedParts nearest w p I F.
Proof. intros (q & R & H). exists q. split; [apply rounds_nearest; exact R|exact H]. Qed.
Lemma expText_ok up E : -99 <= E <= 99 -> expText up E (expChars up E).
Proof.
  intros H. unfold expText, expChars. set (a := Z.abs E). assert (A : 0 <= a <= 99) by lia. 
  exists [a / 10 + 48; a mod 10 + 48]. pose proof (Z.div_mod a 10 ltac:(lia)). pose proof (Z.mod_pos_bound a 10 ltac:(lia)).
  assert (0 <= a / 10 <= 9) by lia. split; [constructor; [lia|constructor; [lia|constructor]]|].
  split; [unfold number; cbn [valueOf]; lia|]. split; [cbn; lia|]. split; [cbn; lia|]. reflexivity.
Qed.

Definition offset (b : list Z) : Z := if at_ b 0 =? 48 then 1 else 0.
Definition roomy (s : settings) : Prop :=
  match con s with
  | CF | CUF => thePrec s + 1 < 2 ^ 31
  | CE | CUE => thePrec s + 2 < 2 ^ 31
  | _ => gPrec s + 4 < 2 ^ 31
  end.
Definition assembled (b : list Z) (icnt : Z) (dot : bool) (fcnt fz : Z) (e : list Z) : list Z :=
  slice (offset b) icnt b ++ (if dot then [46] else []) ++ slice (offset b + icnt) fcnt b ++ repeat 48 (Z.to_nat fz) ++ e.
Lemma set0_ok b : zlen b = 152 -> exists b', set b 0 48 = Ok b' /\ zlen b' = 152 /\ at_ b' 0 = 48.
Proof.
  intros L. destruct (set_ok b 0 48 ltac:(lia)) as (b' & E & L' & G). exists b'. split; [exact E|]. split; [lia|].
  unfold at_. rewrite G. reflexivity.
Qed.

(** the end of [finiteParts]: the trailing zeros of %g *)
Lemma trimmed (alt : bool) b icnt fcnt fz p e :
  zlen b = 152 -> 1 <= icnt -> 0 <= fcnt -> 0 <= fz -> fcnt + fz = p -> offset b + icnt + fcnt <= 152 ->
  let I := slice (offset b) icnt b in let F := slice (offset b + icnt) fcnt b ++ repeat 48 (Z.to_nat fz) in
  let dot := negb (p =? 0) || alt in
  exists dot' fcnt' fz',
    (if negb alt then
       let! c := get b 0 in
       let! n := dropZeros (Z.to_nat fcnt) b ((if c =? 48 then 1 else 0) + icnt + fcnt - 1) in
       Ok (b, icnt, 0, dot && negb (n =? 0), n, 0, e)
     else Ok (b, icnt, 0, dot, fcnt, fz, e)) = Ok (b, icnt, 0, dot', fcnt', fz', e) /\
    0 <= fcnt' /\ 0 <= fz' /\ offset b + icnt + fcnt' <= 152 /\
    assembled b icnt dot' fcnt' fz' e = body I (if alt then F else strip F) alt ++ e.
Proof.
  intros L I1 F0 Z0 FP OB I F dot. pose proof (eq_refl : offset b = (if at_ b 0 =? 48 then 1 else 0)) as OE.
  assert (OR : 0 <= offset b) by (unfold offset; destruct (at_ b 0 =? 48); lia).
  destruct alt; cbn [negb].
  - exists dot, fcnt, fz. split; [reflexivity|]. split; [lia|]. split; [lia|]. split; [lia|].
    unfold assembled. fold I. rewrite <- (bodyDot I F p true); [unfold dot, F; rewrite <- !app_assoc; reflexivity|].
    unfold F. rewrite zlen_app, slice_len, zlen_repeat by lia. lia.
  - rewrite get_ok by lia. cbn [rbind]. rewrite <- OE.
    replace (offset b + icnt + fcnt - 1) with (offset b + icnt + Z.of_nat (Z.to_nat fcnt) - 1) by lia.
    destruct (dropZeros_ok (Z.to_nat fcnt) b (offset b + icnt) ltac:(lia) ltac:(lia)) as (m & -> & M & S). cbn [rbind].
    rewrite Z2Nat.id in M, S by lia.
    exists (dot && negb (m =? 0)), m, 0. split; [reflexivity|]. split; [lia|]. split; [lia|]. split; [lia|].
    unfold assembled. fold I. cbn [Z.to_nat repeat List.app]. unfold F. rewrite strip_zeros, <- S. unfold body.
    rewrite <- !app_assoc. f_equal. rewrite !app_assoc. f_equal. f_equal. destruct (Z.eqb_spec m 0) as [-> | NZ].
    + rewrite andb_false_r. reflexivity.
    + unfold dot. rewrite orb_false_r. destruct (Z.eqb_spec p 0); [lia|]. cbn [negb andb]. rewrite slice_cons by lia. reflexivity.
Qed.
Lemma untrimmed b icnt fcnt fz p (alt : bool) e : zlen b = 152 -> 1 <= icnt -> 0 <= fcnt -> 0 <= fz -> fcnt + fz = p -> offset b + icnt + fcnt <= 152 ->
  assembled b icnt (negb (p =? 0) || alt) fcnt fz e = body (slice (offset b) icnt b) (slice (offset b + icnt) fcnt b ++ repeat 48 (Z.to_nat fz)) alt ++ e.
Proof.
  intros L I1 F0 Z0 FP OB. assert (OR : 0 <= offset b) by (unfold offset; destruct (at_ b 0 =? 48); lia).
  unfold assembled. rewrite <- (bodyDot _ _ p alt); [rewrite <- !app_assoc; reflexivity|].
  rewrite zlen_app, slice_len, zlen_repeat by lia. lia.
Qed.

Lemma finiteParts_ok D s w b : same D s -> isFloat (con s) -> finite w -> zlen b = 152 -> at_ b 0 = 48 -> roomy s ->
  exists b' icnt dot fcnt fz e, finiteParts D (ofBits w) b = Ok (b', icnt, 0, dot, fcnt, fz, e) /\ zlen b' = 152 /\
    0 <= icnt /\ 0 <= fcnt /\ 0 <= fz /\ offset b' + icnt + fcnt <= 152 /\
    let t := assembled b' icnt dot fcnt fz e in
    finiteText nearest s w t /\
    (match con s with CE | CUE => tieFree w (thePrec s) | CG | CUG => tieFree w (gPrec s - 1) | _ => True end -> finiteText rounds s w t).
Proof.
  intros (_ & _ & AL & _ & _ & PS & _ & CV) IF FI BL B0 RM. unfold finiteParts, finiteText. rewrite CV, AL.
  assert (PP : 0 <= thePrec s /\ (if precision D <? 0 then 6 else precision D) = thePrec s).
  { unfold thePrec. destruct (prec s) as [p|]; [|destruct (precision D <? 0) eqn:Q; [split; lia|lia]].
    destruct PS as [-> PS]. destruct (p <? 0) eqn:Q; [lia|]. split; [lia|reflexivity]. }
  destruct PP as [PN PE].
  assert (GP : (if precision D <? 0 then 6 else if precision D =? 0 then 1 else precision D) = gPrec s /\ 1 <= gPrec s).
  { unfold gPrec. rewrite <- PE. destruct (precision D <? 0) eqn:Q; [cbn; lia|]. destruct (precision D =? 0) eqn:Q2; lia. }
  destruct GP as [GP GN]. unfold roomy in RM.
  assert (CASES : (con s = CF \/ con s = CUF) \/ (con s = CE \/ con s = CUE) \/ (con s = CG \/ con s = CUG))
    by (destruct (con s); cbn in IF; tauto).
  destruct CASES as [CF_|[CE_|CG_]].
  - (* %f *)
    assert (X : thePrec s + 1 < 2 ^ 31) by (destruct CF_ as [E|E]; rewrite E in RM; exact RM).
    destruct (fixed_ok w b (thePrec s) FI BL B0 PN X) as (b' & icnt & fcnt & fz & FE & L' & G). cbv zeta in G. fold (offset b') in G.
    destruct G as (I1 & F0 & Z0 & FZ & OB & FP).
    exists b', icnt, (negb (thePrec s =? 0) || hash s), fcnt, fz, [].
    assert (FT : fText rounds w (thePrec s) (hash s) (assembled b' icnt (negb (thePrec s =? 0) || hash s) fcnt fz [])).
    { eexists _, _. split; [exact FP|]. rewrite (untrimmed b' icnt fcnt fz (thePrec s) (hash s) []) by auto. apply app_nil_r. }
    assert (FT' : fText nearest w (thePrec s) (hash s) (assembled b' icnt (negb (thePrec s =? 0) || hash s) fcnt fz [])).
    { destruct FT as (I & F & P & E). exists I, F. split; [apply fixedParts_nearest; exact P|exact E]. }
    split; [|split; [exact L'|split; [lia|split; [lia|split; [lia|split; [lia|]]]]]].
    + destruct CF_ as [E|E]; rewrite E; change (Z.lor (cvText CF) 32) with 102; change (Z.lor (cvText CUF) 32) with 102;
        cbn [Z.eqb Pos.eqb andb]; rewrite PE, FE; reflexivity.
    + cbv zeta. destruct CF_ as [E|E]; rewrite E; auto.
  - (* %e *)
    assert (X : thePrec s + 2 < 2 ^ 31) by (destruct CE_ as [E|E]; rewrite E in RM; exact RM).
    destruct (scientific_ok w b (thePrec s) FI BL B0 PN X) as (b' & fcnt & fz & E & SE & L' & G). cbv zeta in G. fold (offset b') in G.
    destruct G as (F0 & Z0 & FZ & ER & EN & ERd).
    assert (OB : offset b' + 1 + fcnt <= 152) by (unfold offset; destruct (at_ b' 0 =? 48); lia).
    exists b', 1, (negb (thePrec s =? 0) || hash s), fcnt, fz, (expChars (isUpper (con s)) E).
    assert (AS : forall up, assembled b' 1 (negb (thePrec s =? 0) || hash s) fcnt fz (expChars up E) =
      body (slice (offset b') 1 b') (slice (offset b' + 1) fcnt b' ++ repeat 48 (Z.to_nat fz)) (hash s) ++ expChars up E)
      by (intros up; apply untrimmed; auto; lia).
    assert (TX : forall R up, expParts R w (thePrec s) E (slice (offset b') 1 b') (slice (offset b' + 1) fcnt b' ++ repeat 48 (Z.to_nat fz)) ->
      eText R w (thePrec s) (hash s) up (assembled b' 1 (negb (thePrec s =? 0) || hash s) fcnt fz (expChars up E))).
    { intros R up EP. eexists _, _, _, _. split; [exact EP|]. split; [apply expText_ok; lia|]. apply AS. }
    split; [|split; [exact L'|split; [lia|split; [lia|split; [lia|split; [lia|]]]]]].
    + destruct CE_ as [C|C]; rewrite C; change (Z.lor (cvText CE) 32) with 101; change (Z.lor (cvText CUE) 32) with 101;
        cbn [Z.eqb Pos.eqb andb]; rewrite PE, SE; reflexivity.
    + cbv zeta. destruct CE_ as [C|C]; rewrite C; auto.
  - (* %g *)
    set (P := gPrec s) in *. assert (X : P + 4 < 2 ^ 31) by (destruct CG_ as [E|E]; rewrite E in RM; exact RM).
    destruct (scientific_ok w b (P - 1) FI BL B0 ltac:(lia) ltac:(lia)) as (b1 & fcnt & fz & E & SE & L1 & G). cbv zeta in G. fold (offset b1) in G.
    destruct G as (F0 & Z0 & FZ & ER & EN & ERd).
    assert (OB : offset b1 + 1 + fcnt <= 152) by (unfold offset; destruct (at_ b1 0 =? 48); lia).
    assert (MAIN : exists b' icnt dot fcnt fz e,
      (let! (b, icnt, iz, dot, fcnt, fz, e) :=
         let! (b, fcnt, fz, pow10) := scientific (ofBits w) b (P - 1) in
         if (-4 <=? pow10) && (pow10 <? P) then
           let! p := int (P - (pow10 + 1)) in
           let! b := set b 0 48 in
           let! (b, icnt, iz, fcnt, fz) := fixed (ofBits w) b p in
           Ok (b, icnt, iz, negb (p =? 0) || hash s, fcnt, fz, [])
         else Ok (b, 1, 0, negb (P - 1 =? 0) || hash s, fcnt, fz, expChars (isUpper (con s)) pow10) in
       if negb (hash s) then
         let! c := get b 0 in
         let! n := dropZeros (Z.to_nat fcnt) b ((if c =? 48 then 1 else 0) + icnt + fcnt - 1) in
         Ok (b, icnt, iz, dot && negb (n =? 0), n, 0, e)
       else Ok (b, icnt, iz, dot, fcnt, fz, e)) = Ok (b', icnt, 0, dot, fcnt, fz, e) /\ zlen b' = 152 /\
      0 <= icnt /\ 0 <= fcnt /\ 0 <= fz /\ offset b' + icnt + fcnt <= 152 /\
      gText nearest w P (hash s) (isUpper (con s)) (assembled b' icnt dot fcnt fz e) /\
      (tieFree w (P - 1) -> gText rounds w P (hash s) (isUpper (con s)) (assembled b' icnt dot fcnt fz e))).
    { rewrite SE. cbn [rbind]. destruct ((-4 <=? E) && (E <? P)) eqn:QG.
      - unfold int. destruct (P - (E + 1) <? 2 ^ 31) eqn:QI; [|lia]. cbn [rbind]. set (p := P - (E + 1)) in *.
        destruct (set0_ok b1 L1) as (b2 & -> & L2 & Z2). cbn [rbind].
        destruct (fixed_ok w b2 p FI L2 Z2 ltac:(lia) ltac:(lia)) as (b3 & icnt & fcnt' & fz' & -> & L3 & G). cbv zeta in G. fold (offset b3) in G.
        destruct G as (I1 & F0' & Z0' & FZ' & OB' & FP). cbn [rbind].
        destruct (trimmed (hash s) b3 icnt fcnt' fz' p [] L3 I1 F0' Z0' FZ' OB') as (dot' & fcnt'' & fz'' & TE & F0'' & Z0'' & OB'' & AS).
        exists b3, icnt, dot', fcnt'', fz'', []. rewrite TE. split; [reflexivity|]. split; [exact L3|]. split; [lia|]. split; [exact F0''|]. split; [exact Z0''|]. split; [exact OB''|].
        rewrite AS, app_nil_r.
        assert (BLD : forall R : Z -> Z -> Z -> Prop, expParts R w (P - 1) E (slice (offset b1) 1 b1) (slice (offset b1 + 1) fcnt b1 ++ repeat 48 (Z.to_nat fz)) ->
          fixedParts R w p (slice (offset b3) icnt b3) (slice (offset b3 + icnt) fcnt' b3 ++ repeat 48 (Z.to_nat fz')) ->
          gText R w P (hash s) (isUpper (con s))
            (body (slice (offset b3) icnt b3) (if hash s then slice (offset b3 + icnt) fcnt' b3 ++ repeat 48 (Z.to_nat fz') else strip (slice (offset b3 + icnt) fcnt' b3 ++ repeat 48 (Z.to_nat fz'))) (hash s))).
        { intros R EP FP'. eexists E, _, _. split; [exact EP|]. cbv zeta. rewrite QG. eexists _, _. split; [|reflexivity].
          replace (P - 1 - E) with p by (unfold p; lia). exact FP'. }
        split; [apply BLD; [exact EN|apply fixedParts_nearest; exact FP]|]. intros TF. apply BLD; [apply ERd; exact TF|exact FP].
      - cbn [rbind]. destruct (trimmed (hash s) b1 1 fcnt fz (P - 1) (expChars (isUpper (con s)) E) L1 ltac:(lia) ltac:(lia) Z0 FZ OB)
          as (dot' & fcnt'' & fz'' & TE & F0'' & Z0'' & OB'' & AS).
        exists b1, 1, dot', fcnt'', fz'', (expChars (isUpper (con s)) E). rewrite TE. split; [reflexivity|]. split; [exact L1|]. split; [lia|]. split; [exact F0''|].
        split; [exact Z0''|]. split; [exact OB''|]. rewrite AS.
        assert (BLD : forall R : Z -> Z -> Z -> Prop, expParts R w (P - 1) E (slice (offset b1) 1 b1) (slice (offset b1 + 1) fcnt b1 ++ repeat 48 (Z.to_nat fz)) ->
          gText R w P (hash s) (isUpper (con s))
            (body (slice (offset b1) 1 b1) (if hash s then slice (offset b1 + 1) fcnt b1 ++ repeat 48 (Z.to_nat fz) else strip (slice (offset b1 + 1) fcnt b1 ++ repeat 48 (Z.to_nat fz))) (hash s) ++ expChars (isUpper (con s)) E)).
        { intros R EP. eexists E, _, _. split; [exact EP|]. cbv zeta. rewrite QG. eexists. split; [apply expText_ok; lia|reflexivity]. }
        split; [apply BLD; exact EN|]. intros TF. apply BLD. apply ERd. exact TF. }
    destruct MAIN as (b' & icnt & dot & fcnt' & fz' & e & ME & L' & I0 & F0' & Z0' & OB' & TN & TR).
    exists b', icnt, dot, fcnt', fz', e. split; [|split; [exact L'|split; [exact I0|split; [exact F0'|split; [exact Z0'|split; [exact OB'|]]]]]].
    + destruct CG_ as [C|C]; rewrite C in *; change (Z.lor (cvText CG) 32) with 103; change (Z.lor (cvText CUG) 32) with 103;
        cbn [Z.eqb Pos.eqb andb negb]; rewrite GP; exact ME.
    + cbv zeta. destruct CG_ as [C|C]; rewrite C in *; auto.
Qed.

(** * the whole *)
Definition signOf (s : settings) (w : Z) : list Z :=
  if 2 ^ 31 <=? w then [45] else if plus s then [43] else if space s then [32] else [].
Definition bodyText R (s : settings) (w : Z) (t : list Z) : Prop :=
  let a := w mod 2 ^ 31 in
  let infinite := 255 * 2 ^ 23 in
  if a =? infinite then t = infText (isUpper (con s))
  else if infinite <? a then t = nanText (isUpper (con s))
  else finiteText R s a t.
Lemma fltText_body R s w out : fltText R s w out <-> exists t, bodyText R s w t /\ out = padded s (255 * 2 ^ 23 <=? w mod 2 ^ 31) (signOf s w) t.
Proof. reflexivity. Qed.

Lemma finish D s sg sgl nz lz t i (dot : bool) f fz e : same D s ->
  sgl = (if sg =? 0 then [] else [sg]) -> lz = (zero s && negb (left s)) && negb nz -> 
  t = i ++ (if dot then [46] else []) ++ f ++ repeat 48 (Z.to_nat fz) ++ e ->
  forall len, len = zlen (sgl ++ t) ->
  (if ljust D || lz then [] else pad 32 (width D - len)) ++ (if sg =? 0 then [] else [sg]) ++
  (if lz then pad 48 (width D - len) else []) ++
  i ++ pad 48 0 ++ (if dot then [46] else []) ++ f ++ pad 48 fz ++ e ++
  (if ljust D then pad 32 (if lz then 0 else width D - len) else []) = padded s nz sgl t.
Proof.
  intros SM SG LZ T len LEN. rewrite <- (padded_ok D s nz lz sgl t len SM LEN LZ). rewrite <- SG.
  assert (LJ : ljust D = left s) by apply SM. rewrite T. cbn [pad Z.to_nat repeat List.app]. rewrite <- !app_assoc. cbn [pad]. unfold pad. cbn [Z.to_nat repeat List.app].
  destruct lz.
  - assert (LL : left s = false) by (destruct (left s); [rewrite andb_false_r in LZ; discriminate LZ|reflexivity]).
    rewrite LJ, LL. cbn [orb negb andb]. reflexivity.
  - rewrite andb_false_r. reflexivity.
Qed.
Lemma fetch_ok b i n : 0 <= n -> 0 <= i -> i + n <= zlen b -> fetch b i n = Ok (slice i n b).
Proof. intros N I L. unfold fetch. destruct ((n <? 0) || (i <? 0) || (zlen b <? i + n)) eqn:Q; [lia|reflexivity]. Qed.
Lemma finiteParts_same D D' s x b : same D s -> same D' s -> finiteParts D x b = finiteParts D' x b.
Proof.
  intros (_ & _ & A & _ & _ & P & _ & C) (_ & _ & A' & _ & _ & P' & _ & C'). unfold finiteParts. rewrite A, A', C, C'.
  assert (E : precision D = precision D' \/ (precision D <? 0) = true /\ (precision D' <? 0) = true) by (destruct (prec s); [left; lia|right; lia]).
  destruct E as [-> | [-> ->]]; reflexivity.
Qed.
Lemma printff_ok junk D0 s w : same D0 s -> isFloat (con s) -> 0 <= w < 2 ^ 32 -> zlen junk = 152 -> 255 * 2 ^ 23 <= w mod 2 ^ 31 \/ roomy s ->
  exists t, bodyText nearest s w t /\ (fair s w -> bodyText rounds s w t) /\
    forall D, same D s -> printff junk D w = if 2 ^ 31 <=? zlen (signOf s w ++ t) then Oob else Ok (padded s (255 * 2 ^ 23 <=? w mod 2 ^ 31) (signOf s w) t).
Proof.
  intros SM0 IF WR JL RM. destruct (set0_ok junk JL) as (b & SB0 & L & Z0). unfold bodyText. cbv zeta.
  set (a := w mod 2 ^ 31) in *. assert (AR : 0 <= a < 2 ^ 31) by (apply Z.mod_pos_bound; lia).
  assert (PRE : forall D, same D s -> signOf s w = (let sg := if 2 ^ 31 <=? w then 45 else sign D in if sg =? 0 then [] else [sg]) /\
    negb (Z.lor (conv D) 32 =? conv D) = isUpper (con s)).
  { intros D SM. split.
    - unfold signOf. cbv zeta. destruct (2 ^ 31 <=? w); [reflexivity|]. destruct SM as (_ & -> & _). destruct (plus s); [reflexivity|]. destruct (space s); reflexivity.
    - destruct SM as (_ & _ & _ & _ & _ & _ & _ & ->). destruct (con s); cbn in IF; try contradiction; reflexivity. }
  change (255 * 2 ^ 23) with 2139095040 in *.
  destruct (2139095040 <=? a) eqn:QA.
  - set (t := if a =? 2139095040 then infText (isUpper (con s)) else nanText (isUpper (con s))).
    exists t.
    assert (TT : forall R, if a =? 2139095040 then t = infText (isUpper (con s)) else if 2139095040 <? a then t = nanText (isUpper (con s)) else finiteText R s a t).
    { intros R. unfold t. destruct (a =? 2139095040) eqn:Q1; [reflexivity|]. destruct (2139095040 <? a) eqn:Q2; [reflexivity|lia]. }
    split; [apply TT|]. split; [intros; apply TT|].
    intros D SM. destruct (PRE D SM) as (SG & UP). cbv zeta in SG. unfold printff. rewrite SB0. cbn [rbind]. fold a. rewrite QA.
    set (sg := if 2 ^ 31 <=? w then 45 else sign D) in *.
    assert (SL : zlen (signOf s w) = if sg =? 0 then 0 else 1) by (rewrite SG; destruct (sg =? 0); reflexivity).
    set (ch := if a =? 2139095040 then (105, 110, 102) else (110, 97, 110)).
    assert (CH : exists c1 c2 c3, ch = (c1, c2, c3) /\ t = [if isUpper (con s) then c1 - 32 else c1; if isUpper (con s) then c2 - 32 else c2; if isUpper (con s) then c3 - 32 else c3]).
    { unfold ch, t, infText, nanText. destruct (a =? 2139095040), (isUpper (con s)); eexists _, _, _; split; reflexivity. }
    destruct CH as (c1 & c2 & c3 & -> & TE). rewrite UP. set (u1 := if isUpper (con s) then c1 - 32 else c1) in *.
    set (u2 := if isUpper (con s) then c2 - 32 else c2) in *. set (u3 := if isUpper (con s) then c3 - 32 else c3) in *.
    destruct (set_ok b 1 u1 ltac:(lia)) as (b1 & -> & L1 & G1). cbn [rbind]. destruct (set_ok b1 2 u2 ltac:(lia)) as (b2 & -> & L2 & G2). cbn [rbind].
    destruct (set_ok b2 3 u3 ltac:(lia)) as (b3 & -> & L3 & G3). cbn [rbind]. destruct (set_ok b3 4 0 ltac:(lia)) as (b4 & -> & L4 & G4). cbn [rbind].
    assert (A0 : at_ b4 0 = 48) by (rewrite (at_set _ _ _ _ G4), (at_set _ _ _ _ G3), (at_set _ _ _ _ G2), (at_set _ _ _ _ G1); exact Z0).
    assert (SB : slice 1 3 b4 = t).
    { rewrite TE. rewrite slice_cons, (slice_cons (1 + 1)), (slice_cons (1 + 1 + 1)) by lia. change (slice (1 + 1 + 1 + 1) (3 - 1 - 1 - 1) b4) with (@nil Z).
      rewrite !(at_set _ _ _ _ G4), !(at_set _ _ _ _ G3), !(at_set _ _ _ _ G2), !(at_set _ _ _ _ G1). reflexivity. }
    assert (TL : zlen t = 3) by (rewrite TE; reflexivity).
    rewrite zlen_app, SL, TL. unfold int. change (zlen (@nil Z)) with 0.
    destruct ((if sg =? 0 then 0 else 1) + 3 + 0 + 0 + 0 + 0 + 0 <? 2 ^ 31) eqn:QI, (2 ^ 31 <=? (if sg =? 0 then 0 else 1) + 3) eqn:QJ; try (exfalso; destruct (sg =? 0); lia); cbn [rbind].
    rewrite get_ok by lia. cbn [rbind]. rewrite A0. change (48 =? 48) with true. cbv iota. rewrite !fetch_ok by lia. cbn [rbind]. rewrite SB. f_equal.
    rewrite (finish D s sg (signOf s w) true false t t false [] 0 [] SM SG); [reflexivity|rewrite andb_false_r; reflexivity| |].
    + cbn [Z.to_nat repeat List.app]. rewrite app_nil_r. reflexivity.
    + rewrite zlen_app, SL, TL. lia.
  - destruct (a =? 2139095040) eqn:Q1; [lia|]. destruct (2139095040 <? a) eqn:Q2; [lia|].
    assert (RM' : roomy s) by (destruct RM as [RM|RM]; [lia|exact RM]).
    assert (FIN : finite a) by (unfold finite; lia).
    destruct (finiteParts_ok D0 s a b SM0 IF FIN L Z0 RM') as (b' & icnt & dot & fcnt & fz & e & FPE & L' & I0 & F0 & ZZ & OB & TN & TR).
    cbv zeta in TN, TR. set (t := assembled b' icnt dot fcnt fz e) in *. exists t. split; [exact TN|]. split.
    { intros FA. apply TR. unfold fair in FA. cbv zeta in FA. fold a in FA. destruct (con s); try exact Logic.I; tauto. }
    intros D SM. destruct (PRE D SM) as (SG & UP). cbv zeta in SG. unfold printff. rewrite SB0. cbn [rbind]. fold a. rewrite QA.
    set (sg := if 2 ^ 31 <=? w then 45 else sign D) in *.
    assert (SL : zlen (signOf s w) = if sg =? 0 then 0 else 1) by (rewrite SG; destruct (sg =? 0); reflexivity).
    rewrite (finiteParts_same D D0 s _ _ SM SM0), FPE. cbn [rbind].
    assert (OR : 0 <= offset b') by (unfold offset; destruct (at_ b' 0 =? 48); lia).
    assert (TL : zlen t = icnt + (if dot then 1 else 0) + fcnt + fz + zlen e).
    { unfold t, assembled. rewrite !zlen_app, !slice_len, zlen_repeat by lia. destruct dot; cbn [zlen length Z.of_nat]; change (zlen [46]) with 1; change (zlen (@nil Z)) with 0; lia. }
    rewrite zlen_app, SL. unfold int.
    replace ((if sg =? 0 then 0 else 1) + icnt + 0 + (if dot then 1 else 0) + fcnt + fz + zlen e) with ((if sg =? 0 then 0 else 1) + zlen t) by lia.
    set (len := (if sg =? 0 then 0 else 1) + zlen t) in *.
    destruct (len <? 2 ^ 31) eqn:QI, (2 ^ 31 <=? len) eqn:QJ; try lia; cbn [rbind]; [|reflexivity].
    rewrite get_ok by lia. cbn [rbind]. fold (offset b'). rewrite !fetch_ok by lia. cbn [rbind]. f_equal.
    apply (finish D s sg (signOf s w) false (lzeroes D) t (slice (offset b') icnt b') dot (slice (offset b' + icnt) fcnt b') fz e SM SG).
    + rewrite andb_true_r. apply SM.
    + reflexivity.
    + rewrite zlen_app, SL. reflexivity.
Qed.

(** * the texts are unique *)
Lemma atLeast_mono w X Y : X <= Y -> atLeast w Y -> atLeast w X.
Proof.
  intros XY A. unfold atLeast in *.
  assert (E : forall X, 10 ^ Z.max X 0 = up10 X /\ 10 ^ Z.max (- X) 0 = up10 (- X)) by (intros; split; reflexivity).
  (* multiply out to a common power *)
  set (k := Z.max (Z.abs X) (Z.abs Y)). assert (KX : Z.abs X <= k) by (unfold k; clear; lia). assert (KY : Z.abs Y <= k) by (unfold k; clear; lia). clearbody k.
  assert (M : forall Z0, Z.abs Z0 <= k -> 10 ^ k * 10 ^ Z.max Z0 0 = 10 ^ (k + Z0) * 10 ^ Z.max (- Z0) 0).
  { clear A. intros Z0 H. rewrite <- !Z.pow_add_r by (clear - H; lia). f_equal. clear - H. lia. }
  assert (KP : 0 < 10 ^ k) by (apply Z.pow_pos_nonneg; lia).
  assert (F : forall Z0, Z.abs Z0 <= k -> (2 ^ 150 * 10 ^ Z.max Z0 0 <= scaled w * 10 ^ Z.max (- Z0) 0 <-> 2 ^ 150 * 10 ^ (k + Z0) <= scaled w * 10 ^ k)).
  { intros Z0 H. assert (P : 0 < 10 ^ Z.max (- Z0) 0) by (apply Z.pow_pos_nonneg; clear; lia). specialize (M Z0 H).
    rewrite (Z.mul_le_mono_pos_l _ _ (10 ^ k) KP).
    replace (10 ^ k * (2 ^ 150 * 10 ^ Z.max Z0 0)) with (2 ^ 150 * 10 ^ (k + Z0) * 10 ^ Z.max (- Z0) 0) by (rewrite <- Z.mul_assoc, <- M; ring).
    replace (10 ^ k * (scaled w * 10 ^ Z.max (- Z0) 0)) with (scaled w * 10 ^ k * 10 ^ Z.max (- Z0) 0) by ring.
    symmetry. apply Z.mul_le_mono_pos_r. exact P. }
  apply (F X KX). apply (F Y KY) in A. eapply Z.le_trans; [|exact A]. apply Z.mul_le_mono_nonneg_l; [clear; lia|]. apply Z.pow_le_mono_r; clear - XY KX; lia.
Qed.
Lemma leading_unique w X Y : leading w X -> leading w Y -> X = Y.
Proof.
  intros [A NA] [B NB]. destruct (Z.lt_trichotomy X Y) as [L|[E|L]]; [|exact E|].
  - exfalso. apply NA. eapply atLeast_mono; [|exact B]. lia.
  - exfalso. apply NB. eapply atLeast_mono; [|exact A]. lia.
Qed.
Lemma leading_zero w X : scaled w = 0 -> ~ leading w X.
Proof. intros S [A _]. unfold atLeast in A. rewrite S in A. pose proof (up10_pos X) as U. unfold up10 in U. lia. Qed.
Lemma fixedParts_unique w p I F I' F' : fixedParts rounds w p I F -> fixedParts rounds w p I' F' -> I = I' /\ F = F'.
Proof.
  intros (q & R & DI & DF & LF & NF) (q' & R' & DI' & DF' & LF' & NF'). assert (q = q') by (eapply rounds_unique; [|exact R|exact R']; lia). subst q'.
  split; [eapply decimalOf_unique; eassumption|]. apply digits_unique; auto; congruence.
Qed.
Lemma app_split (I F I' F' : list Z) : zlen I = zlen I' -> I ++ F = I' ++ F' -> I = I' /\ F = F'.
Proof.
  revert I'. induction I as [|c I IH]; intros [|c' I'] L E; rewrite ?zlen_cons in L; change (zlen (@nil Z)) with 0 in L.
  - auto.
  - pose proof (zlen_nonneg I'). lia.
  - pose proof (zlen_nonneg I). lia.
  - cbn [List.app] in E. injection E as -> E. destruct (IH I' ltac:(lia) E) as [-> ->]. auto.
Qed.
Lemma expParts_unique w p E I F E' I' F' : expParts rounds w p E I F -> expParts rounds w p E' I' F' -> E = E' /\ I = I' /\ F = F'.
Proof.
  intros (LI & LF & DI & DF & H) (LI' & LF' & DI' & DF' & H').
  assert (G : E = E' /\ number (I ++ F) = number (I' ++ F')).
  { destruct H as [(S & N & ->)|(X & q & LX & R & H)], H' as [(S' & N' & ->)|(X' & q' & LX' & R' & H')].
    - split; congruence.
    - exfalso. eapply leading_zero; eassumption.
    - exfalso. eapply leading_zero; eassumption.
    - assert (X = X') by (eapply leading_unique; eassumption). subst X'.
      assert (q = q') by (eapply rounds_unique; [|exact R|exact R']; pose proof (up10_pos (X - p)) as U; unfold up10 in U; lia). subst q'.
      destruct H as [(A & -> & ->)|(A & -> & ->)], H' as [(A' & -> & ->)|(A' & -> & ->)]; split; try reflexivity; lia. }
  destruct G as [-> N]. split; [reflexivity|]. apply app_split; [congruence|]. apply digits_unique.
  - apply decimal_app; auto.
  - apply decimal_app; auto.
  - rewrite !zlen_app. congruence.
  - exact N.
Qed.
Lemma expText_unique up E t t' : Z.abs E < 100 -> expText up E t -> expText up E t' -> t = t'.
Proof.
  intros B (ds & D & N & L & H & ->) (ds' & D' & N' & L' & H' & ->). do 2 f_equal.
  assert (G : forall s, decimal s -> number s = Z.abs E -> 2 <= zlen s -> (2 < zlen s -> hd 48 s <> 48) -> zlen s = 2).
  { intros s DS NS LS HS. destruct (Z.eq_dec (zlen s) 2) as [|NE]; [assumption|]. exfalso. pose proof (hd_big s DS (HS ltac:(lia))) as HB.
    assert (10 ^ 2 <= 10 ^ (zlen s - 1)) by (apply Z.pow_le_mono_r; lia). change (10 ^ 2) with 100 in *. lia. }
  assert (EQ : ds = ds').
  { apply digits_unique; [exact D|exact D'|rewrite (G ds), (G ds') by auto; reflexivity|congruence]. }
  rewrite EQ. reflexivity.
Qed.
Lemma scaled_range w : finite w -> 0 <= scaled w < 2 ^ 280.
Proof.
  intros F. destruct (ofBits_ok w F) as (m & ex & _ & MR & ER & SC & _). rewrite SC.
  assert (P : 0 < 2 ^ (ex + 150)) by (apply Z.pow_pos_nonneg; lia).
  assert (P2 : 2 ^ (ex + 150) <= 2 ^ 256) by (apply Z.pow_le_mono_r; lia).
  split; [apply Z.mul_nonneg_nonneg; lia|]. apply Z.lt_le_trans with (2 ^ 24 * 2 ^ (ex + 150)); [apply Z.mul_lt_mono_pos_r; lia|].
  apply Z.le_trans with (2 ^ 24 * 2 ^ 256); [apply Z.mul_le_mono_nonneg_l; lia|]. apply Z.leb_le. reflexivity.
Qed.
Lemma leading_range w X : finite w -> leading w X -> -61 <= X <= 60.
Proof.
  intros F [A NA]. pose proof (scaled_range w F) as SR. split.
  - destruct (Z.le_gt_cases (-61) X) as [|G]; [assumption|exfalso]. apply NA. apply (atLeast_mono w (X + 1) (-60)); [lia|].
    assert (S1 : scaled w <> 0) by (intros S0; eapply leading_zero; [exact S0|split; eassumption]).
    unfold atLeast. change (Z.max (-60) 0) with 0. change (Z.max (- (-60)) 0) with 60. rewrite Z.pow_0_r, Z.mul_1_r.
    apply Z.le_trans with (1 * 10 ^ 60); [apply Z.leb_le; reflexivity|]. apply Z.mul_le_mono_nonneg_r; lia.
  - destruct (Z.le_gt_cases X 60) as [|G]; [assumption|exfalso]. apply (atLeast_mono w 60 X) in A; [|lia].
    unfold atLeast in A. change (Z.max 60 0) with 60 in A. change (Z.max (-60) 0) with 0 in A. rewrite Z.pow_0_r, Z.mul_1_r in A.
    assert (2 ^ 280 < 2 ^ 150 * 10 ^ 60) by (apply Z.ltb_lt; reflexivity). lia.
Qed.
Lemma expParts_range w p E I F : finite w -> expParts rounds w p E I F -> Z.abs E < 100.
Proof.
  intros FI (_ & _ & _ & _ & [(_ & _ & ->)|(X & q & LX & _ & H)]); [lia|]. pose proof (leading_range w X FI LX). lia.
Qed.
Lemma finiteText_unique s w t t' : finite w -> finiteText rounds s w t -> finiteText rounds s w t' -> t = t'.
Proof.
  intros FI.
  assert (F_ : forall p h t t', fText rounds w p h t -> fText rounds w p h t' -> t = t').
  { intros p h u u' (I & F & P & ->) (I' & F' & P' & ->). destruct (fixedParts_unique _ _ _ _ _ _ P P') as [-> ->]. reflexivity. }
  assert (E_ : forall p h up t t', eText rounds w p h up t -> eText rounds w p h up t' -> t = t').
  { intros p h up u u' (E & I & F & e & P & X & ->) (E' & I' & F' & e' & P' & X' & ->).
    destruct (expParts_unique _ _ _ _ _ _ _ _ P P') as (<- & <- & <-). rewrite (expText_unique up E e e'); auto. eapply expParts_range; eassumption. }
  assert (G_ : forall p h up t t', gText rounds w p h up t -> gText rounds w p h up t' -> t = t').
  { intros p h up u u' (E & I & F & P & X) (E' & I' & F' & P' & X').
    destruct (expParts_unique _ _ _ _ _ _ _ _ P P') as (<- & <- & <-). cbv zeta in X, X'. destruct ((-4 <=? E) && (E <? p)).
    - destruct X as (I2 & F2 & Q & ->), X' as (I2' & F2' & Q' & ->). destruct (fixedParts_unique _ _ _ _ _ _ Q Q') as [-> ->]. reflexivity.
    - destruct X as (e & X & ->), X' as (e' & X' & ->). rewrite (expText_unique up E e e'); auto. eapply expParts_range; eassumption. }
  unfold finiteText. destruct (con s); eauto.
Qed.
Lemma bodyText_unique s w t t' : bodyText rounds s w t -> bodyText rounds s w t' -> t = t'.
Proof.
  unfold bodyText. cbv zeta. assert (0 <= w mod 2 ^ 31 < 2 ^ 31) by (apply Z.mod_pos_bound; lia).
  destruct (w mod 2 ^ 31 =? 255 * 2 ^ 23) eqn:Q1; [congruence|]. destruct (255 * 2 ^ 23 <? w mod 2 ^ 31) eqn:Q2; [congruence|].
  apply finiteText_unique. unfold finite. lia.
Qed.

(** the length of the text bounds the precision *)
Lemma text_len s w t : isFloat (con s) -> w mod 2 ^ 31 < 255 * 2 ^ 23 -> bodyText rounds s w t -> zlen t < 2 ^ 31 -> 0 <= thePrec s -> fair s w -> roomy s.
Proof.
  intros IF FI BT L P FA. unfold bodyText in BT. cbv zeta in BT.
  destruct (w mod 2 ^ 31 =? 255 * 2 ^ 23) eqn:Q1; [lia|]. destruct (255 * 2 ^ 23 <? w mod 2 ^ 31) eqn:Q2; [lia|].
  assert (BL : forall I F h, zlen F <= zlen (body I F h) - zlen I) by (intros; unfold body; rewrite !zlen_app; match goal with |- context [zlen ?x] => pose proof (zlen_nonneg x) end; destruct F as [|? ?]; [destruct h|]; repeat rewrite ?zlen_cons, ?zlen_nil; pose proof (zlen_nonneg I); lia).
  assert (F_ : forall p h, fText rounds (w mod 2 ^ 31) p h t -> p + 1 < 2 ^ 31).
  { intros p h (I & F & PT & ->). pose proof (fixedParts_len _ _ _ _ _ PT) as FL. destruct PT as (q & _ & (_ & _ & NE & _) & _).
    specialize (BL I F h). destruct I as [|c I]; [congruence|]. rewrite zlen_cons in BL. pose proof (zlen_nonneg I). lia. }
  assert (E_ : forall p h up, eText rounds (w mod 2 ^ 31) p h up t -> p + 2 < 2 ^ 31).
  { intros p h up (E & I & F & e & (LI & LF & _) & (ds & _ & _ & LD & _ & ->) & ->). specialize (BL I F h). rewrite !zlen_app in L.
    change (zlen [if up then 69 else 101; if E <? 0 then 45 else 43]) with 2 in L. lia. }
  unfold roomy, fair, finiteText in *. cbv zeta in FA. destruct (con s); try contradiction; eauto; tauto.
Qed.
Lemma printff_faithful junk : zlen junk = 152 -> faithful (printff junk) (fun s w out => fair s w /\ fltText rounds s w out).
Proof.
  intros JL D s w out SM IF WR (FA & TX) LO. apply fltText_body in TX. destruct TX as (t & BT & ->).
  fold (signOf s w) in LO |- *. fold (bodyText rounds s w t) in BT.
  pose proof (padded_len s (255 * 2 ^ 23 <=? w mod 2 ^ 31) (signOf s w) t) as PL. pose proof (zlen_nonneg (signOf s w)).
  assert (P0 : 0 <= thePrec s) by (destruct SM as (_ & _ & _ & _ & _ & PS & _); unfold thePrec; destruct (prec s); lia).
  assert (RM : 255 * 2 ^ 23 <= w mod 2 ^ 31 \/ roomy s).
  { destruct (Z.le_gt_cases (255 * 2 ^ 23) (w mod 2 ^ 31)) as [|LT]; [left; assumption|right]. eapply text_len; eauto. lia. }
  destruct (printff_ok junk D s w SM IF WR JL RM) as (t' & _ & BT' & PE). rewrite (PE D SM). specialize (BT' FA).
  rewrite (bodyText_unique s w t' t BT' BT). rewrite zlen_app. destruct (2 ^ 31 <=? zlen (signOf s w) + zlen t) eqn:Q; [lia|reflexivity].
Qed.
