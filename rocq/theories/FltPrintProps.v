(** C45: what printf, snprintf and sprintf print when the floating point conversions %e, %f and %g
    are among those of the format.  [junk]: what the array of digits holds before it is used. *)
From Verif Require Import Base BaseLemmas LexModel DoPrintModel DoPrintSpec DoPrintProof CvtModel CvtSpec CvtProof FltPrintModel FltPrintSpec FltPrintProof FltPrintProof2.

Definition fairText (s : settings) (w : Z) (out : list Z) : Prop := fair s w /\ fltText rounds s w out.

(** Partial: without the arguments that are not [fair], see C45_tie_refuted and C45_huge_refuted,
    and those not [tame], see C35_hash_refuted *)
Theorem C45_printf_partial : forall junk items args out st r, zlen junk = 152 -> 0 <= r ->
  Forall legal items -> printsAll fairText tame 0 items args out st -> zlen out < 2 ^ 31 ->
  exists k, doprint (printff junk) (format items) args (fresh r false) = Done (if r <? zlen out then -1 else zlen out) k /\
    outp k = firstn (Z.to_nat r) out /\ (zlen out <= r -> stores k = st).
Proof.
  intros junk items args out st r JL R LG PA L.
  destruct (doprint_ok (printff junk) fairText items args out st r false (printff_faithful junk JL) R LG PA L) as (k & E & O & S).
  exists k. split; [exact E|]. split; [exact O|]. auto.
Qed.
Theorem C45_snprintf_partial : forall junk items args out st buf n, zlen junk = 152 -> 0 <= n <= zlen buf ->
  Forall legal items -> printsAll fairText tame 0 items args out st -> zlen out < 2 ^ 31 ->
  vsnprintf (printff junk) buf n (format items) args =
  Ok (zlen out,
      if n =? 0 then buf else
      let s := firstn (Z.to_nat (n - 1)) out in s ++ [0] ++ skipn (length s + 1) buf).
Proof.
  intros junk items args out st buf n JL N LG PA L. unfold vsnprintf.
  destruct (doprint_ok (printff junk) fairText items args out st (if n =? 0 then 0 else n - 1) true (printff_faithful junk JL) ltac:(destruct (n =? 0) eqn:Q; lia) LG PA L)
    as (k & E & O & S).
  rewrite E. cbn [negb andb]. destruct (n =? 0) eqn:Q; [reflexivity|]. unfold deposit. rewrite O. unfold cut.
  set (s := firstn _ out). assert (LS : zlen s <= n - 1) by (unfold s, zlen; rewrite firstn_length; lia).
  destruct (zlen buf <? zlen s + 1) eqn:Q2; [lia|]. reflexivity.
Qed.
Theorem C45_sprintf_partial : forall junk items args out st buf, zlen junk = 152 -> zlen out < zlen buf ->
  Forall legal items -> printsAll fairText tame 0 items args out st -> zlen out < 2 ^ 31 - 1 ->
  vsprintf (printff junk) buf (format items) args = Ok (zlen out, out ++ [0] ++ skipn (length out + 1) buf).
Proof.
  intros junk items args out st buf JL N LG PA L. unfold vsprintf.
  destruct (doprint_ok (printff junk) fairText items args out st (2 ^ 31 - 2) true (printff_faithful junk JL) ltac:(lia) LG PA ltac:(lia)) as (k & E & O & S).
  rewrite E. cbn [negb andb]. unfold deposit. rewrite O. unfold cut.
  rewrite firstn_all2 by (unfold zlen in L; lia). destruct (zlen buf <? zlen out + 1) eqn:Q2; [lia|]. reflexivity.
Qed.

(** Every float, every conversion, every precision: there is a text, it shows a value nearest to
    the argument among those with as many digits, and it is what is printed; it is the only one
    that rounds halves to even when [fair], for %f always *)
Theorem C45_nearest : forall junk d args s w, zlen junk = 152 -> legal (Conv d) -> settled d args s [AFlt w] ->
  isFloat (fconv d) -> 0 <= w < 2 ^ 32 -> thePrec s + 4 < 2 ^ 31 ->
  exists out, fltText nearest s w out /\ (fair s w -> fltText rounds s w out) /\
    (zlen out < 2 ^ 31 -> forall r, 0 <= r ->
     exists k, doprint (printff junk) (format [Conv d]) args (fresh r false) = Done (if r <? zlen out then -1 else zlen out) k /\
       outp k = firstn (Z.to_nat r) out).
Proof.
  intros junk d args s w JL LG SE IF WR PR.
  destruct (parse_ok d args s [AFlt w] [] LG SE) as (D & _ & SM).
  assert (CS : con s = fconv d) by (destruct SE; reflexivity).
  assert (IFS : isFloat (con s)) by (rewrite CS; exact IF).
  assert (P0 : 0 <= thePrec s) by (destruct SM as (_ & _ & _ & _ & _ & PS & _); unfold thePrec; destruct (prec s); lia).
  assert (RM : roomy s) by (unfold roomy, gPrec; destruct (con s), (thePrec s =? 0); lia).
  destruct (printff_ok junk D s w SM IFS WR JL (or_intror RM)) as (t & BN & BR & PE).
  exists (padded s (255 * 2 ^ 23 <=? w mod 2 ^ 31) (signOf s w) t).
  split; [apply fltText_body; exists t; auto|]. split; [intros FA; apply fltText_body; exists t; auto|].
  intros L r R.
  destruct (doprint_ok (printff junk) (fun s w o => forall D, same D s -> printff junk D w = Ok o) [Conv d] args
    (padded s (255 * 2 ^ 23 <=? w mod 2 ^ 31) (signOf s w) t) [] r false) as (k & E & O & _).
  - intros D' s' w' o SM' _ _ F _. apply F. exact SM'.
  - exact R.
  - constructor; [exact LG|constructor].
  - rewrite <- (app_nil_r (padded _ _ _ _)). change (@nil (Z * Z * Z)) with (@nil (Z * Z * Z) ++ []). eapply ACons; [|constructor].
    eapply PFloat; [exact SE|exact IF|exact WR|]. intros D' SM'. rewrite (PE D' SM'). rewrite zlen_app.
    pose proof (padded_len s (255 * 2 ^ 23 <=? w mod 2 ^ 31) (signOf s w) t). destruct (2 ^ 31 <=? zlen (signOf s w) + zlen t) eqn:Q; [lia|reflexivity].
  - exact L.
  - exists k. split; [exact E|exact O].
Qed.
(** the specification gives at most one text *)
Theorem C45_unique : forall s w out out', fltText rounds s w out -> fltText rounds s w out' -> out = out'.
Proof.
  intros s w out out' A B. apply fltText_body in A, B. destruct A as (t & A & ->), B as (t' & B & ->).
  fold (bodyText rounds s w t) in A. fold (bodyText rounds s w t') in B. rewrite (bodyText_unique s w t t' A B). reflexivity.
Qed.

(** ** what goes wrong.  %.0e of 250.0: halves round to even, so 2e+02 *)
Definition zeros : list Z := repeat 0 152.
Definition oneE (p : list Z) (c : cv) : item := Conv (Directive [] FNone (FDigits p) SNone c).
Definition exactText (s : settings) (w : Z) (out : list Z) : Prop := fltText rounds s w out.
Definition w250 : Z := 1132068864.
Lemma rounds_250 : expParts rounds w250 0 2 [50] [].
Proof.
  split; [reflexivity|]. split; [reflexivity|]. split; [repeat constructor; lia|]. split; [constructor|]. right. exists 2, 2.
  split; [split; [apply Z.leb_le; reflexivity|unfold atLeast; intros A; apply Z.leb_le in A; discriminate A]|].
  split; [|left; split; [reflexivity|split; reflexivity]]. unfold rounds. right. split; reflexivity.
Qed.
Theorem C45_tie_refuted : exists items args out, Forall legal items /\ printsAll exactText tame 0 items args out [] /\
  forall r, zlen out <= r -> forall n k, doprint (printff zeros) (format items) args (fresh r false) = Done n k -> outp k <> out.
Proof.
  exists [oneE [48] CE], [AFlt w250], [50; 101; 43; 48; 50]. split; [|split].
  - constructor; [|constructor]. cbn. split; [constructor|]. split; [exact Logic.I|]. split; [|auto]. split; [repeat constructor; lia|reflexivity].
  - change [50; 101; 43; 48; 50] with ([50; 101; 43; 48; 50] ++ []). change (@nil (Z * Z * Z)) with (@nil (Z * Z * Z) ++ []). eapply ACons; [|constructor].
    eapply PFloat with (s := Settings false false false false false 0 (Some 0) SNone CE) (w := w250).
    + apply (Settled (Directive [] FNone (FDigits [48]) SNone CE) [AFlt w250] [AFlt w250] [AFlt w250] 0 false (Some 0)); cbn; auto.
    + exact Logic.I.
    + unfold w250. lia.
    + exists [50; 101; 43; 48; 50]. split; [|reflexivity]. 
      change (eText rounds w250 0 false false [50; 101; 43; 48; 50]). exists 2, [50], [], [101; 43; 48; 50]. split; [exact rounds_250|]. split; [|reflexivity].
      exists [48; 50]. split; [repeat constructor; lia|]. split; [reflexivity|]. split; [vm_compute; discriminate|]. split; [vm_compute; discriminate|reflexivity].
  - intros r R n k. assert (E : doprint (printff zeros) (format [oneE [48] CE]) [AFlt w250] (fresh r false) =
      let k := puts [51; 101; 43; 48; 50] (fresh r false) in Done (if cnt1 k then -1 else s32 (cnt0 k)) k) by reflexivity.
    rewrite E. cbv zeta. rewrite puts_kputs by (cbn in *; lia). intros A. injection A as _ A. rewrite <- A. unfold kputs, fresh.
    cbn [outp room List.app]. change (zlen [50; 101; 43; 48; 50]) with 5 in R.
    replace (cut r [51; 101; 43; 48; 50]) with [51; 101; 43; 48; 50] by (symmetry; apply firstn_all2; cbn; lia). discriminate.
Qed.
(** %.2147483647g of 1.0: all the zeros after the point are dropped, so the text is 1; the
    computation overflows instead *)
Definition w1 : Z := 127 * 2 ^ 23.
Lemma gText_one P : 1 <= P -> gText rounds w1 P false false [49].
Proof.
  intros PP. set (F := repeat 48 (Z.to_nat (P - 1))).
  assert (SC : scaled w1 = 2 ^ 150) by reflexivity.
  assert (PW : 0 < 10 ^ (P - 1)) by (apply Z.pow_pos_nonneg; lia).
  destruct (decimal_zeros (Z.to_nat (P - 1))) as [DZ NZ].
  assert (LF : zlen F = P - 1) by (unfold F; rewrite zlen_repeat; lia).
  exists 0, [49], F. split.
  - split; [reflexivity|]. split; [exact LF|]. split; [repeat constructor; lia|]. split; [exact DZ|]. right. exists 0, (10 ^ (P - 1)).
    split; [split; unfold atLeast; rewrite SC; [cbn; lia|intros A; apply Z.leb_le in A; discriminate A]|]. rewrite Z.sub_0_r, Z.sub_0_l, SC.
    replace (Z.max (P - 1) 0) with (P - 1) by lia. replace (Z.max (- (P - 1)) 0) with 0 by lia. split.
    + left. rewrite Z.pow_0_r. replace (2 ^ 150 * 10 ^ (P - 1) - 10 ^ (P - 1) * (2 ^ 150 * 1)) with 0 by ring. reflexivity.
    + left. split; [apply Z.pow_lt_mono_r; lia|]. split; [reflexivity|]. unfold F. rewrite number_app, NZ. fold F. rewrite LF. change (number [49]) with 1. ring.
  - cbv zeta. destruct ((-4 <=? 0) && (0 <? P)) eqn:Q; [|lia]. exists [49], F. split.
    + exists (10 ^ (P - 1)). replace (P - 1 - 0) with (P - 1) by lia. rewrite SC. split; [|split].
      * left. replace (2 ^ 150 * 10 ^ (P - 1) - 10 ^ (P - 1) * 2 ^ 150) with 0 by ring. reflexivity.
      * rewrite Z.div_same by lia. split; [repeat constructor; lia|]. split; [reflexivity|]. split; [discriminate|]. cbn. lia.
      * rewrite Z.mod_same by lia. split; [exact DZ|]. split; [exact LF|exact NZ].
    + unfold F. change (repeat 48 (Z.to_nat (P - 1))) with ([] ++ repeat 48 (Z.to_nat (P - 1))). rewrite strip_zeros. reflexivity.
Qed.
Definition huge : list Z := [50; 49; 52; 55; 52; 56; 51; 54; 52; 55].
Theorem C45_huge_refuted : exists items args, Forall legal items /\ printsAll exactText tame 0 items args [49] [] /\
  forall r n k, doprint (printff zeros) (format items) args (fresh r false) <> Done n k.
Proof.
  exists [oneE huge CG], [AFlt w1]. split; [|split].
  - constructor; [|constructor]. cbn. split; [constructor|]. split; [exact Logic.I|]. split; [|auto]. split; [repeat constructor; lia|reflexivity].
  - change (printsAll exactText tame 0 [oneE huge CG] [AFlt w1] ([49] ++ []) ([] ++ [])). eapply ACons; [|constructor].
    eapply PFloat with (s := Settings false false false false false 0 (Some (number huge)) SNone CG) (w := w1).
    + apply (Settled (Directive [] FNone (FDigits huge) SNone CG) [AFlt w1] [AFlt w1] [AFlt w1] 0 false (Some (number huge))); cbn; auto.
    + exact Logic.I.
    + unfold w1. lia.
    + exists [49]. split; [|reflexivity]. change (gText rounds w1 (number huge) false false [49]). apply gText_one. vm_compute. discriminate.
  - intros r n k E. assert (X : doprint (printff zeros) (format [oneE huge CG]) [AFlt w1] (fresh r false) = Undef) by reflexivity.
    rewrite X in E. discriminate E.
Qed.

(** ** the hypotheses are met:  the format <%8.2f|%#.3E|%d|%g> with 10.125, -0.1, 7 and 2^40 *)
Definition w10 : Z := 1092747264.   (* 10.125: half way, to even *)
Definition wm01 : Z := 3184315597.
Definition w2p40 : Z := 1400897536.
Definition demo : list item :=
  [Conv (Directive [] (FDigits [56]) (FDigits [50]) SNone CF); Lit 124; Conv (Directive [35] FNone (FDigits [51]) SL CUE); Lit 124;
   Conv (Directive [] FNone FNone SNone CD); Lit 124; Conv (Directive [] FNone FNone SNone CG)].
Definition demoArgs : list arg := [AFlt w10; AFlt wm01; AInt 7; AFlt w2p40].
Definition demoOut : list Z :=   (*    10.12|-1.000E-01|7|1.09951e+12 *)
  [32; 32; 32; 49; 48; 46; 49; 50] ++ [124] ++ [45; 49; 46; 48; 48; 48; 69; 45; 48; 49] ++ [124] ++ [55] ++ [124] ++
  [49; 46; 48; 57; 57; 53; 49; 101; 43; 49; 50] ++ [].
Lemma ex_f : fText rounds w10 2 false [49; 48; 46; 49; 50].
Proof.
  exists [49; 48], [49; 50]. split; [|reflexivity]. exists 1012. split; [right; split; reflexivity|]. split.
  - change (1012 / 10 ^ 2) with 10. split; [repeat constructor; lia|]. split; [reflexivity|]. split; [discriminate|]. cbn. lia.
  - split; [repeat constructor; lia|]. split; reflexivity.
Qed.
Ltac lead := split; [apply Z.leb_le; vm_compute; reflexivity|intros A; apply Z.leb_le in A; vm_compute in A; discriminate A].
Lemma ex_e : eText rounds (wm01 mod 2 ^ 31) 3 true true [49; 46; 48; 48; 48; 69; 45; 48; 49].
Proof.
  exists (-1), [49], [48; 48; 48], [69; 45; 48; 49]. split; [|split; [|reflexivity]].
  - split; [reflexivity|]. split; [reflexivity|]. split; [repeat constructor; lia|]. split; [repeat constructor; lia|]. right. exists (-1), 1000.
    split; [lead|]. split; [|left; split; [reflexivity|split; reflexivity]]. left. apply Z.ltb_lt. vm_compute. reflexivity.
  - exists [48; 49]. split; [repeat constructor; lia|]. split; [reflexivity|]. split; [vm_compute; discriminate|]. split; [vm_compute; discriminate|reflexivity].
Qed.
Lemma ex_g : gText rounds w2p40 6 false false [49; 46; 48; 57; 57; 53; 49; 101; 43; 49; 50].
Proof.
  exists 12, [49], [48; 57; 57; 53; 49]. split.
  - split; [reflexivity|]. split; [reflexivity|]. split; [repeat constructor; lia|]. split; [repeat constructor; lia|]. right. exists 12, 109951.
    split; [lead|]. split; [|left; split; [reflexivity|split; reflexivity]]. left. apply Z.ltb_lt. vm_compute. reflexivity.
  - cbv zeta. change ((-4 <=? 12) && (12 <? 6)) with false. cbv iota. exists [101; 43; 49; 50]. split; [|reflexivity].
    exists [49; 50]. split; [repeat constructor; lia|]. split; [reflexivity|]. split; [vm_compute; discriminate|]. split; [vm_compute; discriminate|reflexivity].
Qed.
Lemma ex_fair : tieFree w2p40 5.
Proof.
  intros X LX _ (q & H). assert (X = 12) as -> by (apply (leading_unique w2p40); [exact LX|lead]).
  change (scaled w2p40) with (2 ^ 150 * 2 ^ 40) in H. change (12 - 5) with 7 in H.
  replace (2 * (2 ^ 150 * 2 ^ 40 - q * (2 ^ 150 * 10 ^ 7))) with (2 ^ 150 * (2 * (2 ^ 40 - q * 10 ^ 7))) in H by ring.
  apply Z.mul_reg_l in H; [|apply Z.pow_nonzero; lia]. lia.
Qed.
Example demo_legal : Forall legal demo.
Proof.
  repeat (apply Forall_cons; [|]); [..|apply Forall_nil];
    cbn [legal flags fwidth fprec fsize fconv]; repeat split; try lia; try discriminate; auto;
    repeat (apply Forall_cons; [cbn; lia|]); apply Forall_nil.
Qed.
Example demo_prints : printsAll fairText tame 0 demo demoArgs demoOut ([] ++ [] ++ [] ++ [] ++ [] ++ [] ++ [] ++ []).
Proof.
  unfold demo, demoOut, demoArgs.
  eapply ACons.
  { eapply PFloat with (s := Settings false false false false false 8 (Some 2) SNone CF) (w := w10).
    - eapply (Settled (Directive [] (FDigits [56]) (FDigits [50]) SNone CF) _ _ _ 8 false (Some 2)); cbn; auto.
    - exact Logic.I.
    - unfold w10; lia.
    - split; [exact Logic.I|]. eexists. split; [exact ex_f|reflexivity]. }
  eapply ACons; [apply PLit|].
  eapply ACons.
  { eapply PFloat with (s := Settings false false false true false 0 (Some 3) SL CUE) (w := wm01).
    - eapply (Settled (Directive [35] FNone (FDigits [51]) SL CUE) _ _ _ 0 false (Some 3)); cbn; auto.
    - exact Logic.I.
    - unfold wm01; lia.
    - split.
      + intros X LX H. exfalso. assert (X = -1) as -> by (apply (leading_unique (wm01 mod 2 ^ 31)); [exact LX|lead]). cbn in H. lia.
      + eexists. split; [exact ex_e|reflexivity]. }
  eapply ACons; [apply PLit|].
  eapply ACons.
  { eapply PInt with (s := Settings false false false false false 0 None SNone CD) (w := 7).
    - eapply (Settled (Directive [] FNone FNone SNone CD) _ _ _ 0 false None); cbn; auto.
    - exact Logic.I.
    - lia.
    - exact Logic.I.
    - exists [55]. split; [split; [constructor; [cbn; lia|constructor]|split; [reflexivity|discriminate]]|]. reflexivity. }
  eapply ACons; [apply PLit|].
  eapply ACons; [|apply ANil].
  eapply PFloat with (s := Settings false false false false false 0 None SNone CG) (w := w2p40).
  - eapply (Settled (Directive [] FNone FNone SNone CG) _ _ _ 0 false None); cbn; auto.
  - exact Logic.I.
  - unfold w2p40; lia.
  - split; [split; [exact ex_fair|reflexivity]|]. eexists. split; [exact ex_g|reflexivity].
Qed.
Example demo_run : vsnprintf (printff zeros) (repeat 1 8) 6 (format demo) demoArgs = Ok (33, [32; 32; 32; 49; 48; 0; 1; 1]).
Proof. vm_compute. reflexivity. Qed.

Print Assumptions C45_printf_partial.
Print Assumptions C45_snprintf_partial.
Print Assumptions C45_sprintf_partial.
Print Assumptions C45_nearest.
Print Assumptions C45_unique.
Print Assumptions C45_tie_refuted.
Print Assumptions C45_huge_refuted.
