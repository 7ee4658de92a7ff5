(** C58: asctime and ctime. *)
From Coq Require Import String Ascii.
From Verif Require Import Base BaseLemmas TimeModel TimeSpec TimeProof TimeProps LexModel DoPrintModel DoPrintSpec DoPrintProof DoPrintProps AsctimeSpec AsctimeModel.
From Verif Require StrftimeSpec.
Ltac Zify.zify_post_hook ::= idtac.

Lemma dv d : 0 <= d <= 9 -> digitValue (48 + d) = d.
Proof. intros H. unfold digitValue. replace ((48 <=? 48 + d) && (48 + d <=? 57)) with true by lia. lia. Qed.
Lemma ok_dig d : 0 <= d <= 9 -> 0 <= digitValue (48 + d) < 10 /\ (48 + d <= 57 \/ 97 <= 48 + d).
Proof. intros H. rewrite dv by exact H. lia. Qed.

(** numerals of one and of two digits *)
Lemma num0 : numeral 10 false 0 [].
Proof. split; [constructor|]. split; [reflexivity|]. discriminate. Qed.
Lemma num1 n : 1 <= n <= 9 -> numeral 10 false n [48 + n].
Proof. intros H. split; [constructor; [apply ok_dig; lia|constructor]|]. split; [cbn [valueOf]; rewrite dv by lia; lia|cbn [hd]; lia]. Qed.
Lemma divs n b : 0 < b -> n = b * (n / b) + n mod b /\ 0 <= n mod b < b.
Proof. intros H. split; [apply Z.div_mod; lia|apply Z.mod_pos_bound; lia]. Qed.
Lemma num2 n : 10 <= n <= 99 -> numeral 10 false n (two n).
Proof.
  intros H. unfold two. pose proof (divs n 10 ltac:(lia)) as [E M]. split; [constructor; [apply ok_dig; lia|constructor; [apply ok_dig; lia|constructor]]|].
  split; [cbn [valueOf]; rewrite !dv by lia; lia|cbn [hd]; lia].
Qed.
Lemma num4 n : 1000 <= n <= 9999 -> numeral 10 false n (four n).
Proof.
  intros H. unfold four, two. cbn [List.app]. pose proof (divs n 100 ltac:(lia)) as [E M]. pose proof (divs (n / 100) 10 ltac:(lia)) as [E1 M1]. pose proof (divs (n mod 100) 10 ltac:(lia)) as [E2 M2].
  split; [repeat (constructor; [apply ok_dig; lia|]); constructor|].
  split; [cbn [valueOf]; rewrite !dv by lia; lia|cbn [hd]; lia].
Qed.
Lemma u32_small n : 0 <= n < 2 ^ 31 -> u32 n = n /\ s32 (u32 n) = n.
Proof. intros H. assert (E : u32 n = n) by (apply wrap_small; lia). split; [exact E|]. rewrite E. apply swrap_small; lia. Qed.

Definition setD w p := Settings false false false false false w p SNone CD.
Definition setS := Settings false false false false false 0 (Some 3) SNone CS.
Lemma two_text n : 0 <= n <= 99 -> intText (setD 0 (Some 2)) (u32 n) (two n).
Proof.
  intros H. destruct (u32_small n ltac:(lia)) as [_ E]. unfold intText, operand. cbn [setD siz con signed base prec hash plus space]. rewrite E, Z.abs_eq by lia.
  pose proof (divs n 10 ltac:(lia)) as [D M]. replace (n <? 0) with false by lia.
  assert (C : n = 0 \/ 1 <= n <= 9 \/ 10 <= n) by lia. destruct C as [-> | [C | C]].
  - exists []. split; [exact num0|]. reflexivity.
  - exists [48 + n]. split; [now apply num1|]. unfold two, padded. cbn. replace (n / 10) with 0 by lia. replace (n mod 10) with n by lia. reflexivity.
  - exists (two n). split; [apply num2; lia|]. reflexivity.
Qed.
Lemma day_text n : 1 <= n <= 31 -> intText (setD 3 None) (u32 n) (StrftimeSpec.text " " ++ if n <? 10 then [StrftimeSpec.ch " "; 48 + n] else two n).
Proof.
  intros H. destruct (u32_small n ltac:(lia)) as [_ E]. unfold intText, operand. cbn [setD siz con signed base prec hash plus space]. rewrite E, Z.abs_eq by lia.
  replace (n <? 0) with false by lia. destruct (n <? 10) eqn:Q.
  - exists [48 + n]. split; [apply num1; lia|]. reflexivity.
  - exists (two n). split; [apply num2; lia|]. reflexivity.
Qed.
Lemma year_int y s : - 2 ^ 31 <= y < 2 ^ 31 -> year_text y s -> intText (setD 0 None) (u32 y) s.
Proof.
  intros H (core & N & ->). exists core. unfold operand. cbn [setD siz con signed base prec hash plus space]. assert (ES : s32 (u32 y) = y) by (unfold s32, u32; rewrite swrap_wrap; apply swrap_small; lia). rewrite ES.
  split; [exact N|]. unfold padded. cbn [left zero minw setD andb]. match goal with |- _ = repeat 32 ?n ++ _ => replace n with O by (unfold zlen; lia) end. reflexivity.
Qed.

Definition dI w p := Directive [] w p SNone CD.
Definition dS := Directive [] FNone (FDigits [51]) SNone CS.
Definition p2 := Conv (dI FNone (FDigits [50])).
Definition items : list item :=
  [Conv dS; Lit 32; Conv dS; Conv (dI (FDigits [51]) FNone); Lit 32; p2; Lit 58; p2; Lit 58; p2; Lit 32; Conv (dI FNone FNone); Lit 10].
Lemma items_fmt : format items = fmt. Proof. reflexivity. Qed.
Lemma items_legal : Forall legal items.
Proof.
  assert (D0 : Forall (fun c => In c [45; 43; 32; 35; 48]) []) by constructor.
  assert (D1 : forall c, 48 <= c <= 57 -> decimal [c]) by (intros c Hc; constructor; [exact Hc|constructor]).
  unfold items. repeat apply Forall_cons; try apply Forall_nil; cbn; try lia; (split; [exact D0|]); repeat split; try (apply D1; lia); try lia; try discriminate.
Qed.
Lemma pS fl ok n m args t : stringAt m (Some 3) t -> zlen t = 3 -> prints fl ok n (Conv dS) (AStr (Some m) :: args) t [] args.
Proof.
  intros H L. replace t with (padded setS true [] t) at 1.
  - apply PStr with (s := setS) (m := Some m); [|reflexivity|exact H]. apply (Settled dS _ (AStr (Some m) :: args) _ 0 false (Some 3)); cbn; auto.
  - unfold padded. cbn [setS left zero minw andb List.app]. replace (Z.to_nat (0 - zlen t)) with O by lia. reflexivity.
Qed.
Lemma pD fl n w p w' p' v args out : match w with FNone => w' = 0 | FDigits s => w' = number s | FStar => False end ->
  match p with FNone => p' = None | FDigits s => p' = Some (number s) | FStar => False end -> 0 <= v < 2 ^ 32 ->
  intText (setD w' p') v out -> prints fl tame n (Conv (dI w p)) (AInt v :: args) out [] args.
Proof.
  intros Hw Hp Hv H. apply PInt with (s := setD w' p') (w := v); [|exact Logic.I|exact Hv|exact Logic.I|exact H].
  apply (Settled (dI w p) _ (AInt v :: args) _ w' false p'); cbn; [destruct w|destruct p]; try contradiction; auto.
Qed.
Lemma elem_day i : 0 <= i <= 6 -> exists m, elem day i = Ok (AStr (Some m)) /\ stringAt m (Some 3) (short StrftimeSpec.day_names i) /\ zlen (short StrftimeSpec.day_names i) = 3.
Proof.
  intros H. assert (C : i = 0 \/ i = 1 \/ i = 2 \/ i = 3 \/ i = 4 \/ i = 5 \/ i = 6) by lia.
  repeat destruct C as [-> | C]; try subst i; (eexists; split; [reflexivity|]; split; [|reflexivity]; split; [repeat (constructor; [discriminate|]); constructor|]; right; split; [eexists; reflexivity|reflexivity]).
Qed.
Lemma elem_month i : 0 <= i <= 11 -> exists m, elem month i = Ok (AStr (Some m)) /\ stringAt m (Some 3) (short StrftimeSpec.month_names i) /\ zlen (short StrftimeSpec.month_names i) = 3.
Proof.
  intros H. assert (C : i = 0 \/ i = 1 \/ i = 2 \/ i = 3 \/ i = 4 \/ i = 5 \/ i = 6 \/ i = 7 \/ i = 8 \/ i = 9 \/ i = 10 \/ i = 11) by lia.
  repeat destruct C as [-> | C]; try subst i; (eexists; split; [reflexivity|]; split; [|reflexivity]; split; [repeat (constructor; [discriminate|]); constructor|]; right; split; [eexists; reflexivity|reflexivity]).
Qed.
Lemma head_len t : in_range t -> zlen (asctime_head t) = 20.
Proof.
  intros R. unfold asctime_head, zlen. rewrite !app_length. destruct (elem_day _ (r_wday t R)) as (_ & _ & _ & L1). destruct (elem_month _ (r_mon t R)) as (_ & _ & _ & L2). unfold zlen in *.
  destruct (tm_mday t <? 10); cbn [List.length StrftimeSpec.text two]; lia.
Qed.
Ltac pc := match goal with |- printsAll _ _ _ (_ :: _) _ _ _ => change (@nil (Z * Z * Z)) with (@nil (Z * Z * Z) ++ []); eapply ACons end.
Lemma asc_run pf t res s : in_range t -> - 2 ^ 31 <= 1900 + tm_year t < 2 ^ 31 -> year_text (1900 + tm_year t) s -> zlen s <= 11 ->
  asctime pf res t = let out := asctime_head t ++ s ++ [10] in if zlen res <? zlen out + 1 then Oob else Ok (out ++ [0] ++ skipn (List.length out + 1) res).
Proof.
  intros R Y YT LS. destruct (elem_day _ (r_wday t R)) as (md & E1 & S1 & L1). destruct (elem_month _ (r_mon t R)) as (mm & E2 & S2 & L2).
  unfold asctime. rewrite E1, E2. cbn [rbind]. unfold cint. replace ((- 2 ^ 31 <=? 1900 + tm_year t) && (1900 + tm_year t <? 2 ^ 31)) with true by lia. cbn [rbind].
  pose proof (head_len t R) as HL. set (out := asctime_head t ++ s ++ [10]).
  assert (LO : zlen out <= 32) by (unfold out, zlen in *; rewrite !app_length; cbn [List.length]; lia).
  match goal with |- context [vsprintf pf res fmt ?a] => set (args := a) end.
  assert (PA : printsAll noFloat tame 0 items args out []).
  { unfold out, asctime_head. rewrite <- !app_assoc. unfold items, args.
    assert (W : forall z, 0 <= u32 z < 2 ^ 32) by (intros z; apply Z.mod_pos_bound; lia).
    pc; [apply pS; eassumption|]. pc; [apply PLit|]. pc; [apply pS; eassumption|]. match goal with |- context [?x ++ (if ?c then ?a else ?b) ++ ?r] => rewrite (app_assoc x (if c then a else b) r) end.
    pc; [eapply pD with (w' := 3) (p' := None); [reflexivity|reflexivity|apply W|apply day_text, R]|].
    pc; [apply PLit|]. pc; [eapply pD with (w' := 0) (p' := Some 2); [reflexivity|reflexivity|apply W|apply two_text; destruct R; lia]|].
    pc; [apply PLit|]. pc; [eapply pD with (w' := 0) (p' := Some 2); [reflexivity|reflexivity|apply W|apply two_text; destruct R; lia]|].
    pc; [apply PLit|]. pc; [eapply pD with (w' := 0) (p' := Some 2); [reflexivity|reflexivity|apply W|apply two_text; destruct R; lia]|].
    pc; [apply PLit|]. pc; [eapply pD with (w' := 0) (p' := None); [reflexivity|reflexivity|apply W|apply year_int; assumption]|].
    change [10] with ([10] ++ []). pc; [apply PLit|]. constructor. }
  rewrite <- items_fmt. unfold vsprintf.
  destruct (doprint_ok pf noFloat items args out [] (2 ^ 31 - 2) true (noFloat_ok pf) ltac:(lia) items_legal PA ltac:(lia)) as (k & E & O & S).
  rewrite E. unfold deposit. rewrite O. unfold cut. rewrite firstn_all2 by (unfold zlen in LO; lia). cbv zeta.
  destruct (zlen res <? zlen out + 1); reflexivity.
Qed.

(** In the years 1000 to 9999, asctime fills its array of 26 characters with the standard's text. *)
Theorem C58_asctime pf t res : in_range t -> 1000 <= 1900 + tm_year t <= 9999 -> zlen res = 26 ->
  asctime pf res t = Ok (asctime_text t ++ [0]).
Proof.
  intros R Y L. pose proof (num4 _ Y) as N. rewrite (asc_run pf t res (four (1900 + tm_year t))); [|exact R|lia| |reflexivity || (cbn; lia)].
  - pose proof (head_len t R) as HL. unfold asctime_text. set (out := asctime_head t ++ four (1900 + tm_year t) ++ [10]).
    assert (L4 : List.length (four (1900 + tm_year t)) = 4%nat) by reflexivity.
    assert (LO : List.length out = 25%nat) by (unfold out, zlen in *; rewrite !app_length, L4; cbn [List.length]; lia). cbv zeta.
    replace (zlen res <? zlen out + 1) with false by (unfold zlen in *; lia). rewrite LO. rewrite skipn_all2 by (unfold zlen in L; lia). reflexivity.
  - exists (four (1900 + tm_year t)). rewrite Z.abs_eq by lia. split; [exact N|]. replace (1900 + tm_year t <? 0) with false by lia. reflexivity.
Qed.

(** Whatever the year: asctime fits its text into the array exactly for the years -999 to 9999, and writes
    past its end for all others. *)
Lemma value_bound l : Forall (fun c => 0 <= digitValue c < 10 /\ (c <= 57 \/ 97 <= c)) l -> forall a, 0 <= a ->
  a * 10 ^ zlen l <= valueOf 10 digitValue a l < (a + 1) * 10 ^ zlen l.
Proof.
  induction 1 as [|c l H F IH]; intros a A; cbn [valueOf]; [change (zlen (@nil Z)) with 0; lia|].
  specialize (IH (a * 10 + digitValue c) ltac:(lia)). replace (zlen (c :: l)) with (Z.succ (zlen l)) by (unfold zlen; cbn [List.length]; lia).
  rewrite Z.pow_succ_r by (unfold zlen; lia). assert (0 < 10 ^ zlen l) by (apply Z.pow_pos_nonneg; unfold zlen; lia). nia.
Qed.
Lemma numeral_len v core : numeral 10 false v core -> core = [] /\ v = 0 \/ 1 <= zlen core /\ 10 ^ (zlen core - 1) <= v < 10 ^ zlen core.
Proof.
  intros (F & V & HD). destruct core as [|c l]; [left; split; [reflexivity|now rewrite <- V]|]. right. split; [unfold zlen; cbn [List.length]; lia|].
  inversion F as [|c0 l0 H F2]; subst. cbn [valueOf]. replace (0 * 10 + digitValue c) with (digitValue c) by lia.
  pose proof (value_bound l F2 (digitValue c) ltac:(lia)) as B. assert (N : digitValue c <> 0).
  { cbn [hd] in HD. destruct H as [_ H]. unfold digitValue. destruct ((48 <=? c) && (c <=? 57)) eqn:Q1; [lia|]. destruct ((97 <=? c) && (c <=? 102)) eqn:Q2; [lia|]. destruct ((65 <=? c) && (c <=? 70)) eqn:Q3; lia. }
  replace (zlen (c :: l)) with (Z.succ (zlen l)) by (unfold zlen; cbn [List.length]; lia). replace (Z.succ (zlen l) - 1) with (zlen l) by lia.
  rewrite Z.pow_succ_r by (unfold zlen; lia). assert (0 < 10 ^ zlen l) by (apply Z.pow_pos_nonneg; unfold zlen; lia). nia.
Qed.
Lemma year_len y s : - 2 ^ 31 <= y < 2 ^ 31 -> year_text y s -> zlen s <= 11 /\ (zlen s <= 4 <-> -999 <= y <= 9999).
Proof.
  intros H (core & N & ->). apply numeral_len in N. unfold zlen. rewrite !app_length, repeat_length.
  assert (M : forall a b, a <= b -> 10 ^ a <= 10 ^ b) by (intros a b L; apply Z.pow_le_mono_r; lia).
  destruct N as [[-> E]|[L B]]; [assert (y = 0) by lia; subst y; cbn; lia|].
  set (k := zlen core) in *. fold (zlen core). fold k. replace (Z.to_nat (1 - k)) with O by lia.
  assert (K10 : k <= 10) by (destruct (Z.le_gt_cases k 10) as [G|G]; [exact G|exfalso; pose proof (M 10 (k - 1) ltac:(lia)); lia]).
  assert (C : k <= 3 \/ k = 4 \/ 5 <= k) by lia. assert (LK : Z.of_nat (List.length core) = k) by reflexivity.
  destruct C as [C|[C|C]].
  - pose proof (M k 3 C). destruct (y <? 0) eqn:Q; cbn [List.length]; lia.
  - rewrite C in B. destruct (y <? 0) eqn:Q; cbn [List.length]; lia.
  - pose proof (M 4 (k - 1) ltac:(lia)). destruct (y <? 0) eqn:Q; cbn [List.length]; lia.
Qed.
Theorem C58_asctime_years pf t res : in_range t -> - 2 ^ 31 <= 1900 + tm_year t < 2 ^ 31 -> zlen res = 26 ->
  exists s, year_text (1900 + tm_year t) s /\
    if (-999 <=? 1900 + tm_year t) && (1900 + tm_year t <=? 9999)
    then exists rest, asctime pf res t = Ok (asctime_head t ++ s ++ [10; 0] ++ rest)
    else asctime pf res t = Oob.
Proof.
  intros R Y L. set (y := 1900 + tm_year t) in *.
  destruct (numeral_exists 10 false ltac:(lia) (Z.to_nat (Z.abs y)) (Z.abs y) ltac:(lia) ltac:(lia)) as (core & N).
  set (s := (if y <? 0 then [45] else []) ++ repeat 48 (Z.to_nat (1 - zlen core)) ++ core). assert (YT : year_text y s) by (exists core; auto). clearbody s.
  exists s. split; [exact YT|]. destruct (year_len y s Y YT) as [L1 L2]. rewrite (asc_run pf t res s R Y YT L1). pose proof (head_len t R) as HL.
  cbv zeta. set (out := asctime_head t ++ s ++ [10]). assert (LO : zlen out = 21 + zlen s) by (unfold out, zlen in *; rewrite !app_length; cbn [List.length]; lia).
  destruct ((-999 <=? y) && (y <=? 9999)) eqn:Q.
  - replace (zlen res <? zlen out + 1) with false by lia. eexists. unfold out. rewrite <- !app_assoc. reflexivity.
  - replace (zlen res <? zlen out + 1) with true by lia. reflexivity.
Qed.
(** So the natural claim, that asctime is safe for every broken-down time, is false. *)
Theorem C58_asctime_refuted : exists t, in_range t /\ - 2 ^ 31 <= 1900 + tm_year t < 2 ^ 31 /\ forall pf res, zlen res = 26 -> asctime pf res t = Oob.
Proof.
  set (t := mkTm 0 0 0 1 0 8100 6 0 0). assert (R : in_range t) by (split; cbn; lia). exists t. split; [exact R|]. split; [cbn; lia|].
  intros pf res L. destruct (C58_asctime_years pf t res R ltac:(cbn; lia) L) as (s & _ & H). exact H.
Qed.

(** ctime: the standard's text for the time in the Gregorian calendar.  [localtime] is that of Linux; where the
    time zone is not known ([tz] = None), it is also that of DOS. *)
Theorem C58_ctime_partial pf tz t res : 0 <= t < 2 ^ 32 -> zlen res = 26 ->
  let lt := match tz with Some m => u32 (t - m * 60) | None => t end in
  lt < seconds 2106 0 1 0 0 0 ->
  exists r, ctime pf res (localtime_linux tz t) = Ok (asctime_text r ++ [0]) /\
    let y := 1900 + tm_year r in
    1970 <= y /\ valid_date y (tm_mon r) (tm_mday r) /\ valid_clock (tm_hour r) (tm_min r) (tm_sec r) /\
    seconds y (tm_mon r) (tm_mday r) (tm_hour r) (tm_min r) (tm_sec r) = lt /\
    tm_wday r = weekday (day_number y (tm_mon r) (tm_mday r)).
Proof.
  intros H L lt HL. assert (H2 : 0 <= lt < 2 ^ 32) by (unfold lt; destruct tz; [apply Z.mod_pos_bound; lia|exact H]).
  change (seconds 2106 0 1 0 0 0) with (last_day * 86400) in HL.
  destruct (breaktime_ok lt ltac:(lia)) as (r & E & C). cbv zeta in C. destruct C as (Y & V & CL & SE & WD & _).
  exists r. split; [|cbv zeta; split; [lia|auto]]. unfold localtime_linux. fold lt. rewrite E. cbn [ctime].
  apply C58_asctime; [|lia|exact L].
  destruct V as [V1 V2]. destruct CL as (C1 & C2 & C3). assert (ML : month_len (1900 + tm_year r) (tm_mon r) <= 31).
  { unfold month_len. repeat (match goal with |- context [match ?x with _ => _ end] => destruct x end; try lia). }
  constructor; try lia. rewrite WD. unfold weekday. pose proof (Z.mod_pos_bound (day_number (1900 + tm_year r) (tm_mon r) (tm_mday r) + 4) 7). lia.
Qed.
(** In the last weeks a time_t can count, from 2106 on, localtime returns a null pointer and ctime uses it. *)
Theorem C58_ctime_refuted : exists t, 0 <= t < 2 ^ 32 - 1 /\ forall pf res, zlen res = 26 -> ctime pf res (localtime_linux None t) = Oob.
Proof. exists 4291747200. split; [lia|]. intros pf res _. reflexivity. Qed.

Example C58_case pf : asctime pf (repeat 0 26) (mkTm 52 3 1 16 8 73 0 0 0) = Ok (StrftimeSpec.text "Sun Sep 16 01:03:52 1973" ++ [10; 0]) /\
  in_range (mkTm 52 3 1 16 8 73 0 0 0) /\ ctime pf (repeat 0 26) (localtime_linux (Some (-60)) 951868799) = Ok (StrftimeSpec.text "Wed Mar  1 00:59:59 2000" ++ [10; 0]).
Proof. split; [reflexivity|]. split; [split; cbn; lia|]. vm_compute. reflexivity. Qed.

Print Assumptions C58_asctime.
Print Assumptions C58_asctime_years.
Print Assumptions C58_asctime_refuted.
Print Assumptions C58_ctime_partial.
Print Assumptions C58_ctime_refuted.
