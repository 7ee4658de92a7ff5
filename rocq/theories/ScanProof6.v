(** scanf: the format, and the whole. *)
From Verif Require Import Base BaseLemmas CtypeModel StrtolSpec StrtolProof NumSpec StrtofSpec StrtofModel StrtofProof3
  ScanModel ScanSpec ScanProof ScanProof2 ScanProof3 ScanProof4 ScanProof5.

Ltac Zify.zify_post_hook ::= idtac.

(** ** Parsing a directive *)
Lemma val_from_cons b n c t : val_from b n (c :: t) = val_from b (n * b + match dval c with Some v => v | None => 0 end) t.
Proof. reflexivity. Qed.
Lemma digit10 c : is_digit 10 c -> 48 <= c <= 57 /\ dval c = Some (c - 48).
Proof.
  intros D. apply digitb_spec in D. unfold digitb, dval in *.
  destruct ((48 <=? c) && (c <=? 57)) eqn:E; [split; [lia|reflexivity]|].
  destruct ((65 <=? c) && (c <=? 90)) eqn:E2; [lia|]. destruct ((97 <=? c) && (c <=? 122)) eqn:E3; [lia|discriminate].
Qed.
Lemma get_width_ok w x rest : Forall (is_digit 10) w -> 0 < x < 256 -> decb x = false -> forall n, 0 <= n -> val_from 10 n w < 2 ^ 31 ->
  get_width (w ++ x :: rest) n = Some (inr (val_from 10 n w, x, rest)).
Proof.
  intros F X DX. induction F as [|c t D F IH]; intros n N V.
  - cbn [app get_width]. replace (x =? 0) with false by lia. rewrite test_digit by lia. cbn [obind]. now rewrite DX.
  - cbn [app get_width]. destruct (digit10 c D) as (R & DV). replace (c =? 0) with false by lia. rewrite test_digit by lia. cbn [obind].
    replace (decb c) with true by (unfold decb; lia). rewrite val_from_cons, DV in *.
    pose proof (val_from_ge 10 t (n * 10 + (c - 48)) ltac:(lia) ltac:(lia)).
    replace (n * 10 + (c - 48) <? 2 ^ 31) with true by lia. cbn [guard obind]. apply IH; lia.
Qed.

Definition first_ok (x : Z) : Prop := 0 < x < 256 /\ decb x = false /\ x <> 42 /\ x <> 37.
Definition letter_ok (l : Z) : Prop := first_ok l /\ l <> 104 /\ l <> 108 /\ l <> 76 /\ l <> 106 /\ l <> 122 /\ l <> 116.
Lemma kletter_ok k : kind_ok k -> letter_ok (kletter k) /\ kletter k <> 110.
Proof.
  intros K. unfold letter_ok, first_ok, decb. destruct k as [| | | | | | |c| | |]; try (cbn; lia).
  cbn in K. destruct K as [<-|[<-|[<-|[<-|[<-|[<-|[]]]]]]]; cbn; lia.
Qed.

Lemma get_spec_ok (asg : bool) w n sz l rest : letter_ok l -> width_ok w -> has_width w n ->
  get_spec ((if asg then [] else [42]) ++ w ++ size_text sz ++ l :: rest) = Some (inr (Spec asg (width_of n) (lmod_of sz) l, rest)) /\
  exists x y, (if asg then [] else [42]) ++ w ++ size_text sz ++ l :: rest = x :: y /\ x <> 37.
Proof.
  intros (LO & L1 & L2 & L3 & L4 & L5 & L6) WO HW. pose proof LO as (LB & LD & LS & LP).
  (* the size and the letter *)
  assert (SZ : exists x r1, size_text sz ++ l :: rest = x :: r1 /\ first_ok x /\
    forall (K : Z -> Z -> option (unit + spec * list Z)),
    (let? (lmod, fmt) :=
       (if x =? 104 then let? c' := at0 r1 in Some (if c' =? 104 then (72, tl r1) else (104, r1))
        else if (x =? 108) || (x =? 76) then Some (x, r1)
        else if (x =? 106) || (x =? 122) || (x =? 116) then Some (x, r1)
        else Some (0, r1)) in
     letf (c, fmt) := (if lmod =? 0 then Some (inr (x, fmt)) else fmt_next fmt) in
     Some (inr (Spec asg (width_of n) lmod c, fmt))) = Some (inr (Spec asg (width_of n) (lmod_of sz) l, rest))).
  { assert (N0 : (l =? 0) = false) by lia. assert (N4 : (l =? 104) = false) by lia.
    destruct sz; cbn [size_text app]; eexists _, _; (split; [reflexivity|]); (split; [try exact LO; unfold first_ok, decb; lia|]); intros _;
      cbn [at0 tl obind Z.eqb Pos.eqb orb lmod_of fmt_next]; rewrite ?N4; cbn [at0 tl obind Z.eqb Pos.eqb orb lmod_of fmt_next]; rewrite ?N0; try reflexivity.
    replace (l =? 108) with false by lia. replace (l =? 76) with false by lia. replace (l =? 106) with false by lia.
    replace (l =? 122) with false by lia. replace (l =? 116) with false by lia. reflexivity. }
  destruct SZ as (x & r1 & E1 & (XB & XD & XS & XP) & SZ). specialize (SZ (fun _ _ => None)). rewrite E1.
  (* the width *)
  assert (WD : exists y r2, w ++ x :: r1 = y :: r2 /\ 0 < y < 256 /\ y <> 42 /\ y <> 37 /\
    (let? d := test isdigit y in
     (if d then letf (width, c, fmt) := get_width (y :: r2) 0 in (if width =? 0 then Some (inl tt) else Some (inr (width, c, fmt)))
      else Some (inr (-1, y, r2)))) = Some (inr (width_of n, x, r1))).
  { destruct n as [n|]; cbn [has_width] in HW; [destruct HW as (NE & V)|subst w].
    - destruct WO as [->|(F & n' & V' & R)]; [congruence|].
      assert (n' = n) by (rewrite <- (value_fun _ _ _ V), <- (value_fun _ _ _ V'); reflexivity). subst n'.
      destruct w as [|y t]; [congruence|]. exists y, (t ++ x :: r1). pose proof (digit10 y (Forall_inv F)) as (YR & _).
      split; [reflexivity|]. split; [lia|]. split; [lia|]. split; [lia|].
      rewrite test_digit by lia. cbn [obind]. replace (decb y) with true by (unfold decb; lia).
      change (y :: t ++ x :: r1) with ((y :: t) ++ x :: r1). pose proof (value_fun _ _ _ V) as VF.
      rewrite get_width_ok; [|exact F|exact XB|exact XD|lia|lia]. rewrite VF. now replace (n =? 0) with false by lia.
    - exists x, r1. split; [reflexivity|]. repeat (split; [assumption|]). rewrite test_digit by lia. cbn [obind]. now rewrite XD. }
  destruct WD as (y & r2 & E2 & YB & YS & YP & WD). rewrite E2.
  assert (Y0 : (y =? 0) = false) by lia. assert (Y42 : (y =? 42) = false) by lia.
  split.
  - destruct asg; cbn [app].
    + unfold get_spec. cbn [fmt_next]. rewrite Y0, Y42. cbv iota beta.
      destruct (test isdigit y) as [dg|]; [|discriminate WD]. cbn [obind] in *. rewrite WD. exact SZ.
    + unfold get_spec. cbn [fmt_next]. change (42 =? 0) with false. change (42 =? 42) with true. cbv iota. cbn [fmt_next]. rewrite Y0. cbv iota beta. change (42 =? 42) with true. cbv iota beta.
      destruct (test isdigit y) as [dg|]; [|discriminate WD]. cbn [obind] in *.
      rewrite WD. exact SZ.
  - destruct asg; cbn [app]; eexists _, _; (split; [reflexivity|]); [exact YP|lia].
Qed.

(** ** White space in the format *)
Fixpoint drop_white (l : list item) : list item := match l with White _ :: l => drop_white l | _ => l end.
Lemma drop_len l : (length (drop_white l) <= length l)%nat.
Proof. induction l as [|i l IH]; [auto|]. destruct i; cbn [drop_white length]; lia. Qed.
Lemma text_first i : legal i -> exists c t, text i = c :: t /\ 0 < c < 256 /\ (spaceb c = match i with White _ => true | _ => false end).
Proof.
  intros L. destruct i as [c|c| |s|d]; cbn [text app].
  - exists c, []. split; [reflexivity|]. cbn in L. pose proof L as L'. apply spaceb_spec in L'. unfold is_space in L. split; [lia|exact L'].
  - exists c, []. cbn in L. destruct L as (R & NS & _). split; [reflexivity|]. split; [lia|]. rewrite <- spaceb_spec in NS. now destruct (spaceb c).
  - exists 37, [37]. auto with zarith.
  - eexists 37, _. split; [reflexivity|]. split; [lia|reflexivity].
  - eexists 37, _. split; [reflexivity|]. split; [lia|reflexivity].
Qed.
Lemma fmt_space_ok l : Forall legal l -> fmt_space (format l ++ [0]) = Some (format (drop_white l) ++ [0]).
Proof.
  intros F. induction F as [|i l L F IH]; [reflexivity|]. destruct (text_first i L) as (c & t & ET & R & SP).
  assert (STEP : forall x, fmt_space (c :: x) = if spaceb c then fmt_space x else Some (c :: x)).
  { intros x. cbn [fmt_space]. rewrite test_space by (unfold byte; lia). reflexivity. }
  cbn [format]. rewrite <- app_assoc. destruct i as [c'|c'| |s|d].
  - cbn [text] in *. injection ET as -> <-. cbn [app]. rewrite STEP, SP. cbn [drop_white]. exact IH.
  - cbn [drop_white format]. rewrite <- app_assoc, ET. cbn [app]. now rewrite STEP, SP.
  - cbn [drop_white format]. rewrite <- app_assoc, ET. cbn [app]. now rewrite STEP, SP.
  - cbn [drop_white format]. rewrite <- app_assoc, ET. cbn [app]. now rewrite STEP, SP.
  - cbn [drop_white format]. rewrite <- app_assoc, ET. cbn [app]. now rewrite STEP, SP.
Qed.

Lemma drop_percent l b : percent_ok b l -> percent_ok true (drop_white l) \/ drop_white l = l.
Proof. destruct l as [|[] l]; auto. cbn [percent_ok drop_white]. intros H. left. induction l as [|[] l IH]; auto. Qed.
Lemma drop_percent1 l : percent_ok true l -> percent_ok true (drop_white l).
Proof. induction l as [|[] l IH]; auto. Qed.
Lemma drop_count1 l : count_ok true l -> count_ok true (drop_white l).
Proof. induction l as [|[] l IH]; auto. Qed.
Lemma drop_legal l : Forall legal l -> Forall legal (drop_white l).
Proof. induction l as [|[] l IH]; intros F; auto. cbn [drop_white]. exact (IH (Forall_inv_tail F)). Qed.
Lemma drop_needs l : needs (drop_white l) = needs l.
Proof. induction l as [|[] l IH]; auto. Qed.
Lemma drop_scans exact l inp k args n out st rest : ~ starts_with is_space inp ->
  scans exact (drop_white l) inp k args n out st rest -> scans exact l inp k args n out st rest.
Proof.
  intros NS. induction l as [|i l IH]; auto. destruct i; auto. cbn [drop_white]. intros H. apply (sc_white exact c l inp [] inp).
  - now apply skips_none.
  - change (zlen (@nil Z)) with 0. rewrite Z.add_0_r. auto.
Qed.

(** ** The whole *)
(** The value returned when [cnt] assignments were made before. *)
Definition ret_ok (cnt n : Z) (st : status) (rest : list Z) (ret : Z) : Prop :=
  ret = returned (cnt + n) st \/ (cnt + n = 0 /\ st = Mismatch /\ rest = [] /\ ret = -1).

Lemma format_len l : (length l <= length (format l))%nat.
Proof.
  induction l as [|i l IH]; [auto|]. cbn [format length]. rewrite app_length.
  assert (1 <= length (text i))%nat by (destruct i; cbn [text app length]; lia). lia.
Qed.

Lemma scan_ok m : forall l, (length l < m)%nat -> forall fuel s k after seen,
  (length l < fuel)%nat -> Forall legal l -> percent_ok after l -> (after = true -> ~ starts_with is_space (q_inp s)) ->
  Forall byte (q_inp s) -> zlen (q_inp s) <= 2 ^ 30 -> 0 <= q_cnt s -> needs l <= zlen (q_args s) ->
  (q_ch s = k \/ (q_inp s = [] /\ seen = true)) ->
  exists ret rest out, scan fuel (format l ++ [0]) s = Some (ret, rest, q_out s ++ out) /\ (exists pre, q_inp s = pre ++ rest) /\
    (count_ok seen l \/ rest <> [] -> exists n st, scans 112 l (q_inp s) k (q_args s) n out st rest /\ ret_ok (q_cnt s) n st rest ret).
Proof.
  induction m as [|m IH]; intros l LM fuel s k after seen FU LG PO AF FB LI CN ND CH; [lia|].
  destruct fuel as [|fuel]; [lia|]. destruct l as [|i l].
  { exists (q_cnt s), (q_inp s), []. cbn. rewrite app_nil_r. split; [reflexivity|]. split; [exists []; reflexivity|]. intros _.
    exists 0, Done. split; [constructor|]. left. cbn. lia. }
  pose proof (Forall_inv LG) as L1. pose proof (Forall_inv_tail LG) as LG'. cbn [length] in LM, FU.
  assert (LITERAL : forall c x, 0 < c < 256 -> legal (Lit c) \/ c = 37 ->
    (forall n out st rest, scans 112 (Lit c :: l) (q_inp s) k (q_args s) n out st rest -> scans 112 (i :: l) (q_inp s) k (q_args s) n out st rest) ->
    (count_ok seen (i :: l) -> count_ok seen l) -> percent_ok false l -> needs l <= zlen (q_args s) ->
    x = (let '(c2, inp) := fgetc (q_inp s) in
          if c2 =? c then scan fuel (format l ++ [0]) (Sst inp (q_ch s + 1) (q_cnt s) (q_args s) (q_out s))
          else if negb (c2 =? EOF) then Some (q_cnt s, ungetc c2 inp, q_out s)
          else Some ((if q_cnt s =? 0 then EOF else q_cnt s), inp, q_out s)) ->
    exists ret rest out, x = Some (ret, rest, q_out s ++ out) /\ (exists pre, q_inp s = pre ++ rest) /\
    (count_ok seen (i :: l) \/ rest <> [] -> exists n st, scans 112 (i :: l) (q_inp s) k (q_args s) n out st rest /\ ret_ok (q_cnt s) n st rest ret)).
  { intros c x CR LC SC CO PO' ND' ->. destruct (q_inp s) as [|c2 inp] eqn:EI; cbn [fgetc].
    - replace (EOF =? c) with false by (unfold EOF; lia). change (EOF =? EOF) with true. cbn [negb].
      exists (if q_cnt s =? 0 then EOF else q_cnt s), [], []. rewrite app_nil_r. split; [reflexivity|]. split; [exists []; reflexivity|]. intros _.
      exists 0, Ended. split; [apply SC; constructor|]. left. cbn [returned]. rewrite Z.add_0_r. reflexivity.
    - pose proof (Forall_inv FB) as B. destruct (Z.eqb_spec c2 c) as [->|NC].
      + destruct (IH l ltac:(lia) fuel (Sst inp (q_ch s + 1) (q_cnt s) (q_args s) (q_out s)) (k + 1) false seen) as (ret & rest & out & R & (pre & P) & G);
          cbn [q_inp q_ch q_cnt q_args q_out]; try assumption; try lia; [exact (Forall_inv_tail FB)|rewrite zlen_cons in LI; lia| |].
        * destruct CH as [CH|(CH & _)]; [left; lia|discriminate CH].
        * cbn [q_inp q_ch q_cnt q_args q_out] in *. exists ret, rest, out. split; [exact R|]. split; [exists (c :: pre); cbn [app]; congruence|].
          intros H. destruct G as (n & st & S & T); [tauto|]. exists n, st. split; [apply SC; now constructor|exact T].
      + replace (c2 =? EOF) with false by (unfold EOF, byte in *; lia). cbn [negb]. rewrite unget_char by exact B.
        exists (q_cnt s), (c2 :: inp), []. rewrite app_nil_r. split; [reflexivity|]. split; [exists []; reflexivity|]. intros _.
        exists 0, Mismatch. split; [apply SC; now constructor|]. left. cbn. lia. }
  destruct i as [c|c| |sz|d].
  - (* white space *)
    cbn [format text app scan at0 obind tl]. cbn in L1. pose proof L1 as SP. apply spaceb_spec in SP. unfold is_space in L1.
    replace (c =? 0) with false by lia. rewrite test_space by (unfold byte; lia). cbn [obind]. rewrite SP, fmt_space_ok by exact LG'. cbn [obind].
    destruct (skip_in_ok (q_inp s) FB (q_ch s)) as (ws & r & SK & _ & ->). cbn [obind]. pose proof SK as (E & FW & NS).
    pose proof (drop_len l).
    destruct (IH (drop_white l) ltac:(lia) fuel (Sst r (q_ch s + zlen ws + (if zlen r =? 0 then 1 else 0)) (q_cnt s) (q_args s) (q_out s)) (k + zlen ws) true true)
      as (ret & rest & out & R & (pre & P) & G); cbn [q_inp q_ch q_cnt q_args q_out]; try assumption; try lia.
    + now apply drop_legal.
    + now apply drop_percent1.
    + auto.
    + rewrite E in FB. apply Forall_app in FB. tauto.
    + rewrite E, zlen_app in LI. pose proof (zlen_nonneg ws). lia.
    + now rewrite drop_needs.
    + destruct CH as [CH|(CH & _)].
      * destruct (Z.eqb_spec (zlen r) 0) as [Z0|Z0]; [right; split; [now apply nil_len|reflexivity]|left; lia].
      * right. split; [|reflexivity]. rewrite CH in E. symmetry in E. apply app_eq_nil in E. tauto.
    + cbn [q_inp q_ch q_cnt q_args q_out] in *. exists ret, rest, out. split; [exact R|]. split; [exists (ws ++ pre); rewrite <- app_assoc; congruence|].
      intros HC. destruct G as (n & st & S & T); [destruct HC as [HC|HC]; [left; cbn in HC; now apply drop_count1|auto]|].
      exists n, st. split; [|exact T]. apply (sc_white 112 c l (q_inp s) ws r); [exact SK|]. now apply drop_scans.
  - (* an ordinary character *)
    cbn [format text app scan at0 obind tl]. cbn in L1. pose proof L1 as (CR & NS & N37). rewrite <- spaceb_spec in NS.
    replace (c =? 0) with false by lia. rewrite test_space by (unfold byte; lia). cbn [obind]. destruct (spaceb c); [congruence|].
    destruct (format l ++ [0]) as [|c1 f1] eqn:EF; [destruct (format l); discriminate EF|]. cbn [at0 obind]. rewrite <- EF in *.
    replace (c =? 37) with false by lia. cbn [negb orb]. apply (LITERAL c); auto; lia.
  - (* %% *)
    cbn [format text app scan at0 obind tl]. change (37 =? 0) with false. change (test isspace 37) with (Some false). cbn [obind at0 tl]. change (37 =? 37) with true. cbn [negb orb].
    destruct PO as (-> & PO). apply (LITERAL 37); auto; try lia. intros n out st rest H. apply (sc_percent 112 l (q_inp s) [] (q_inp s)).
    + apply skips_none. auto.
    + change (zlen (@nil Z)) with 0. now rewrite Z.add_0_r.
  - (* %n *)
    cbn [format text]. rewrite <- !app_assoc. cbn [app scan at0 obind tl]. change (37 =? 0) with false. change (test isspace 37) with (Some false). cbn [obind at0 tl].
    destruct (get_spec_ok true [] None sz 110 (format l ++ [0])) as (GS & x & y & EX & NX); [unfold letter_ok, first_ok, decb; lia|left; reflexivity|reflexivity|].
    cbn [app] in GS, EX. rewrite EX in *. cbn [at0 obind]. change (37 =? 37) with true. replace (x =? 37) with false by lia. cbn [negb orb]. rewrite GS. cbn [obind s_conv s_lmod].
    change (110 =? 110) with true. cbv iota. cbn [needs] in ND.
    assert (0 <= needs l) by (clear; induction l as [|[] l IH]; cbn [needs]; try lia; destruct (assigns d); lia).
    destruct (q_args s) as [|p args] eqn:EA; [change (zlen (@nil Z)) with 0 in ND; lia|]. cbn [get_arg obind]. rewrite zlen_cons in ND. rewrite int_size_ok.
    set (x1 := PutInt p (bytes sz) (q_ch s mod 2 ^ (8 * bytes sz))).
    destruct (IH l ltac:(lia) fuel (Sst (q_inp s) (q_ch s) (q_cnt s) args (q_out s ++ [x1])) k false seen) as (ret & rest & out & R & P & G);
      cbn [q_inp q_ch q_cnt q_args q_out]; try assumption; try lia.
    cbn [q_inp q_ch q_cnt q_args q_out] in *. exists ret, rest, (x1 :: out). split; [rewrite R, <- app_assoc; reflexivity|]. split; [exact P|].
    intros Hc. destruct G as (n & st & S & T); [cbn in Hc; tauto|]. exists n, st. split; [|exact T].
    assert (q_ch s = k) as EK.
    { destruct CH as [CH|(CH & SE)]; [exact CH|]. cbn in Hc. destruct Hc as [(Q & _)|Q]; [congruence|]. destruct P as (pre & P). rewrite CH in P. symmetry in P. apply app_eq_nil in P. tauto. }
    unfold x1. rewrite EK. now constructor.
  - (* a conversion *)
    cbn [format text]. rewrite kind_text_eq, <- !app_assoc. cbn [app scan at0 obind tl]. change (37 =? 0) with false. change (test isspace 37) with (Some false). cbn [obind at0 tl].
    cbn [legal] in L1. destruct L1 as (WO & KO & _). destruct (kletter_ok _ KO) as (LO & N110).
    assert (HW : exists n, has_width (width d) n /\ match n with Some n => 0 < n < 2 ^ 31 | None => True end).
    { destruct (width d) as [|c w] eqn:EW; [exists None; split; [reflexivity|exact I]|]. destruct WO as [WO|(F & n & V & R)]; [discriminate WO|].
      exists (Some n). split; [split; [discriminate|exact V]|exact R]. }
    destruct HW as (n & HW & NW).
    destruct (get_spec_ok (assigns d) (width d) n (siz d) (kletter (knd d)) (ktail (knd d) ++ format l ++ [0]) LO WO HW) as (GS & x & y & EX & NX).
    rewrite EX in *. cbn [at0 obind]. change (37 =? 37) with true. replace (x =? 37) with false by lia. cbn [negb orb]. rewrite GS. cbn [obind s_conv].
    replace (kletter (knd d) =? 110) with false by lia. rewrite conv_letter_ok by exact KO.
    (* white space *)
    assert (LD : exists ws r, leading (knd d) (q_inp s) ws r /\
      (if (kconv (knd d) =? 99) || (kconv (knd d) =? 91) then Some (q_inp s, q_ch s) else skip_in (q_inp s) (q_ch s)) = Some (r, q_ch s + zlen ws) /\
      q_inp s = ws ++ r /\ match knd d with KS => ~ starts_with is_space r | _ => True end).
    { destruct (skip_in_ok (q_inp s) FB (q_ch s)) as (ws & r & SK & SI & _). pose proof SK as (E & _ & NS).
      destruct (knd d); try (exists ws, r; cbn [leading kconv kletter]; auto; fail).
      - exists [], (q_inp s). cbn [leading kconv kletter]. change (zlen (@nil Z)) with 0. rewrite Z.add_0_r. auto.
      - exists [], (q_inp s). cbn [leading kconv kletter]. change (zlen (@nil Z)) with 0. rewrite Z.add_0_r. auto. }
    destruct LD as (ws & r & LD & SI & EI & NS). rewrite (do_conv_eq _ _ _ _ r _ SI). destruct r as [|c0 r0].
    { cbn [obind]. exists (if q_cnt s =? 0 then EOF else q_cnt s), [], []. rewrite app_nil_r. split; [reflexivity|]. split; [exists (q_inp s); now rewrite app_nil_r|]. intros _.
      exists 0, Ended. split; [eapply sc_conv_end, LD|]. left. cbn [returned]. now rewrite Z.add_0_r. }
    set (inp' := c0 :: r0) in *. assert (NE : inp' <> []) by discriminate.
    assert (FB' : Forall byte inp') by (rewrite EI in FB; apply Forall_app in FB; tauto).
    assert (LI' : zlen inp' <= 2 ^ 30) by (rewrite EI, zlen_app in LI; pose proof (zlen_nonneg ws); lia).
    assert (NN : 0 <= needs l) by (clear; induction l as [|[] l IH]; cbn [needs]; try lia; destruct (assigns d); lia).
    assert (AR : assigns d = true -> q_args s <> []).
    { intros A E. cbn [needs] in ND. rewrite A, E in ND. change (zlen (@nil Z)) with 0 in ND. lia. }
    assert (CHE : q_ch s = k).
    { destruct CH as [CH|(CH & _)]; [exact CH|]. rewrite CH in EI. destruct ws; discriminate EI. }
    destruct (conv2_ok d n inp' (q_ch s + zlen ws) s (ktail (knd d) ++ format l ++ [0]) FB' LI' NE NW KO AR NS (format l ++ [0]) eq_refl)
      as (it & rest & II & [(NM & e & out & EO & -> & ER)|[(MA & AS & ->)|(MA & AS & p & args & x1 & EA & SX & ->)]]); cbn [obind].
    + exists (if e && (q_cnt s =? 0) then EOF else q_cnt s), rest, out. split; [reflexivity|]. pose proof II as (EII & _).
      split; [exists (ws ++ it); rewrite <- app_assoc; congruence|]. intros _. exists 0, Mismatch.
      split; [eapply sc_conv_no; eauto|]. unfold ret_ok. cbn [returned]. rewrite Z.add_0_r.
      destruct e; cbn [andb]; [|auto]. destruct (Z.eqb_spec (q_cnt s) 0); [right; unfold EOF; auto|auto].
    + pose proof II as (EII & _). cbn [needs] in ND. rewrite AS in ND.
      assert (FR : Forall byte rest) by (rewrite EII in FB'; apply Forall_app in FB'; tauto).
      assert (LR : zlen rest <= 2 ^ 30) by (rewrite EII, zlen_app in LI'; pose proof (zlen_nonneg it); lia).
      destruct (IH l ltac:(lia) fuel (Sst rest (q_ch s + zlen ws + zlen it) (q_cnt s) (q_args s) (q_out s)) (k + zlen ws + zlen it) false seen)
        as (ret & rest' & out & R & (pre & P) & G); cbn [q_inp q_ch q_cnt q_args q_out]; try assumption; try lia.
      cbn [q_inp q_ch q_cnt q_args q_out] in *. exists ret, rest', out. split; [exact R|].
      split; [exists (ws ++ it ++ pre); rewrite EI, EII, P, !app_assoc; reflexivity|].
      intros H. destruct G as (n' & st & S & T); [exact H|]. exists n', st. split; [|exact T]. eapply sc_conv_skip; eauto.
    + pose proof II as (EII & _). cbn [needs] in ND. rewrite AS in ND. rewrite EA, zlen_cons in ND.
      assert (FR : Forall byte rest) by (rewrite EII in FB'; apply Forall_app in FB'; tauto).
      assert (LR : zlen rest <= 2 ^ 30) by (rewrite EII, zlen_app in LI'; pose proof (zlen_nonneg it); lia).
      destruct (IH l ltac:(lia) fuel (Sst rest (q_ch s + zlen ws + zlen it) (q_cnt s + 1) args (q_out s ++ [x1])) (k + zlen ws + zlen it) false seen)
        as (ret & rest' & out & R & (pre & P) & G); cbn [q_inp q_ch q_cnt q_args q_out]; try assumption; try lia.
      cbn [q_inp q_ch q_cnt q_args q_out] in *. exists ret, rest', (x1 :: out). split; [rewrite R, <- app_assoc; reflexivity|].
      split; [exists (ws ++ it ++ pre); rewrite EI, EII, P, !app_assoc; reflexivity|].
      intros H. destruct G as (n' & st & S & T); [exact H|]. exists (n' + 1), st. rewrite EA. split; [eapply sc_conv; eauto|].
      unfold ret_ok in *. now replace (q_cnt s + (n' + 1)) with (q_cnt s + 1 + n') by lia.
Qed.

Lemma doscan_ok l inp args : Forall legal l -> percent_ok false l -> Forall byte inp -> zlen inp <= 2 ^ 30 -> needs l <= zlen args ->
  exists ret rest out, doscan (format l ++ [0]) inp args = Some (ret, rest, out) /\ (exists pre, inp = pre ++ rest) /\
    (count_ok false l \/ rest <> [] -> exists n st, scans 112 l inp 0 args n out st rest /\ ret_ok 0 n st rest ret).
Proof.
  intros LG PO FB LI ND. unfold doscan. pose proof (format_len l).
  destruct (scan_ok (S (length l)) l ltac:(lia) (length (format l ++ [0])) (Sst inp 0 0 args []) 0 false false) as (ret & rest & out & R & P & G);
    cbn [q_inp q_ch q_cnt q_args q_out]; try assumption; try lia; [rewrite app_length; cbn [length]; lia|].
  cbn [q_inp q_ch q_cnt q_args q_out app] in *. eauto 8.
Qed.
