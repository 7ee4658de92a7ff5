(** __doprint prints what the specification says. *)
From Verif Require Import Base BaseLemmas LexModel DoPrintModel DoPrintSpec.

(** * the stream *)
(** [cut r l]: what a stream with room for r characters accepts *)
Definition cut (r : Z) (l : list Z) : list Z := firstn (Z.to_nat r) l.
Definition kputs (l : list Z) (k : sink) : sink :=
  if cnt1 k then k else
  Sink (Z.max (room k - zlen l) (Z.min 0 (room k))) (isstr k) (outp k ++ cut (room k) l)
       (cnt0 k + (if isstr k then zlen l else zlen (cut (room k) l)))
       (negb (isstr k) && (Z.max 0 (room k) <? zlen l)) (stores k).
Lemma cut_cons r c l : 0 < r -> cut r (c :: l) = c :: cut (r - 1) l.
Proof. intros R. unfold cut. replace (Z.to_nat r) with (S (Z.to_nat (r - 1))) by lia. reflexivity. Qed.
Lemma cut_0 r l : r <= 0 -> cut r l = [].
Proof. intros R. unfold cut. replace (Z.to_nat r) with O by lia. reflexivity. Qed.
Lemma cut_nil r : cut r [] = [].
Proof. unfold cut. destruct (Z.to_nat r); reflexivity. Qed.
Lemma puts_kputs l : forall k, 0 <= room k -> puts l k = kputs l k.
Proof.
  induction l as [|c l IH]; intros [r s o n e st] R; cbn [room] in R; cbn [puts].
  - unfold kputs. cbn [room isstr outp cnt0 cnt1 stores]. rewrite cut_nil, app_nil_r, zlen_nil. destruct e; [reflexivity|].
    f_equal; try lia; destruct s; lia.
  - destruct e.
    + change (put c (Sink r s o n true st)) with (Sink r s o n true st). rewrite IH by (cbn; lia). reflexivity.
    + unfold put. cbn [room isstr outp cnt0 cnt1 stores]. destruct (0 <? r) eqn:Q; [|destruct s].
      * rewrite IH by (cbn; lia). unfold kputs. cbn [room isstr outp cnt0 cnt1 stores].
        rewrite (cut_cons r) by lia. rewrite <- app_assoc, zlen_cons. rewrite zlen_cons. cbn [List.app].
        f_equal; try lia; destruct s; lia.
      * rewrite IH by (cbn; lia). unfold kputs. cbn [room isstr outp cnt0 cnt1 stores].
        rewrite !cut_0 by lia. rewrite zlen_cons. pose proof (zlen_nonneg l). f_equal; try lia.
      * assert (E : puts l (Sink r false o n true st) = Sink r false o n true st).
        { rewrite IH by (cbn; lia). reflexivity. }
        rewrite E. unfold kputs. cbn [room isstr outp cnt0 cnt1 stores]. rewrite cut_0 by lia. rewrite app_nil_r.
        change (zlen (@nil Z)) with 0.
        pose proof (zlen_nonneg l). rewrite zlen_cons. f_equal; try lia.
Qed.

(** * the format *)
Definition isFlagc (c : Z) : bool := (c =? 45) || (c =? 43) || (c =? 32) || (c =? 35) || (c =? 48).
Lemma flagLoop_ok fl : Forall (fun c => In c [45; 43; 32; 35; 48]) fl ->
  forall lj sg al lz l c t, l = c :: t -> isFlagc c = false -> (lj = true -> lz = false) -> (sg = 0 \/ sg = 32 \/ sg = 43) ->
  flagLoop (fl ++ l) lj sg al lz =
  Ok (lj || existsb (Z.eqb 45) fl,
      if (sg =? 43) || existsb (Z.eqb 43) fl then 43 else if (sg =? 32) || existsb (Z.eqb 32) fl then 32 else 0,
      al || existsb (Z.eqb 35) fl, (lz || existsb (Z.eqb 48) fl) && negb (lj || existsb (Z.eqb 45) fl), l).
Proof.
  induction 1 as [|f fl F _ IH]; intros lj sg al lz l c t -> N I SG.
  - cbn [List.app existsb flagLoop]. unfold isFlagc in N. do 4 (apply Bool.orb_false_elim in N as [N ?]).
    rewrite N, H2, H1, H0, H, !orb_false_r. do 2 f_equal. f_equal. f_equal. f_equal.
    destruct SG as [-> | [-> | ->]]; reflexivity. destruct lj, lz; cbn; auto; discriminate (I eq_refl).
  - assert (D : forall b : bool, b || false = b) by (intros []; reflexivity).
    cbn in F. destruct F as [<- | [<- | [<- | [<- | [<- | []]]]]]; cbn [List.app flagLoop existsb];
      repeat match goal with |- context [Z.eqb (Zpos ?a) (Zpos ?b)] =>
        let v := eval vm_compute in (Z.eqb (Zpos a) (Zpos b)) in change (Z.eqb (Zpos a) (Zpos b)) with v end;
      cbv iota; cbn [orb].
    + rewrite (IH true sg al false _ c t eq_refl N) by auto. cbn [orb]. rewrite !orb_true_r. cbn [orb negb]. rewrite !andb_false_r. reflexivity.
    + rewrite (IH lj 43 al lz _ c t eq_refl N) by auto. cbn [orb]. rewrite !orb_true_r. reflexivity.
    + rewrite (IH lj _ al lz _ c t eq_refl N) by (auto; destruct SG as [-> | [-> | ->]]; cbn; auto).
      do 5 f_equal. rewrite !orb_true_r. destruct SG as [-> | [-> | ->]]; reflexivity.
    + rewrite (IH lj sg true lz _ c t eq_refl N) by auto. rewrite !orb_true_r. reflexivity.
    + rewrite (IH lj sg al _ _ c t eq_refl N) by (auto; intros ->; auto). do 3 f_equal.
      destruct lj; cbn [orb negb andb]; rewrite ?andb_false_r; [reflexivity|]. rewrite orb_true_r. reflexivity.
Qed.

Lemma valueOf_ge b f s : 1 <= b -> Forall (fun c => 0 <= f c) s -> forall acc, 0 <= acc -> acc <= valueOf b f acc s.
Proof.
  intros B. induction 1 as [|c s C _ IH]; intros acc A; cbn [valueOf]; [lia|].
  specialize (IH (acc * b + f c) ltac:(nia)). nia.
Qed.
Lemma isdigit_ok c : isdigit c = true <-> 48 <= c <= 57.
Proof. unfold isdigit. lia. Qed.
Lemma numLoop_ok s : decimal s -> forall acc l c t, l = c :: t -> isdigit c = false -> 0 <= acc ->
  valueOf 10 (fun c => c - 48) acc s < 2 ^ 31 ->
  numLoop acc (s ++ l) = Ok (valueOf 10 (fun c => c - 48) acc s, l).
Proof.
  induction 1 as [|d s D F IH]; intros acc l c t -> N A V; cbn [List.app numLoop valueOf] in *.
  - rewrite N. reflexivity.
  - rewrite (proj2 (isdigit_ok d)) by lia.
    assert (acc * 10 + (d - 48) <= valueOf 10 (fun c => c - 48) (acc * 10 + (d - 48)) s).
    { apply valueOf_ge; [lia| |lia]. revert F. apply Forall_impl. intros; lia. }
    destruct (2 ^ 31 <=? acc * 10 + (d - 48)) eqn:Q; [lia|]. eapply IH; eauto. lia.
Qed.
Lemma number_nonneg s : decimal s -> 0 <= number s.
Proof. intros D. apply (valueOf_ge 10); [lia| |lia]. revert D. apply Forall_impl. intros; lia. Qed.

(** the model's directive for given settings *)
Definition sizeCode (s : size) : Z :=
  match s with SNone => 0 | SHH => 72 | SH => 104 | SL => 108 | SLD => 76 | SJ => 106 | SZ => 122 | ST => 116 end.
Definition same (D : dir) (s : settings) : Prop :=
  ljust D = left s /\ sign D = (if plus s then 43 else if space s then 32 else 0) /\ alt D = hash s /\
  lzeroes D = zero s && negb (left s) /\ (Z.max 0 (width D) = minw s /\ width D < 2 ^ 31) /\
  match prec s with Some p => precision D = p /\ 0 <= p < 2 ^ 31 | None => precision D < 0 end /\
  lmodifier D = sizeCode (siz s) /\ conv D = (match con s with CI => 100 | c => cvText c end).

Lemma s32_range w : - 2 ^ 31 <= s32 w < 2 ^ 31.
Proof. apply (swrap_range 32). lia. Qed.
Lemma parse_ok d args s args' rest : legal (Conv d) -> settled d args s args' ->
  exists D, parse (tl (text (Conv d)) ++ rest) args = Ok (D, rest, args') /\ same D s.
Proof.
  intros (F & W & P & Z) ST. destruct ST as [args args1 args2 w neg p HW HP].
  destruct d as [fl fw fp fs fc]. cbn [flags fwidth fprec fsize fconv text] in *.
  cbn [tl List.app]. rewrite <- !app_assoc.
  set (tail4 := [cvText fc] ++ rest). set (tail3 := sizeText fs ++ tail4).
  set (tail2 := _ ++ tail3). set (tail1 := _ ++ tail2).
  assert (M : parseMod tail3 = Ok (sizeCode fs, tail4)).
  { unfold tail3, tail4. destruct fc, fs; cbn [sizeText cvText List.app sizeCode]; try reflexivity;
      cbn in Z; try discriminate Z; try (now destruct Z); destruct Z as [Z | [Z | Z]]; discriminate Z. }
  assert (T3 : exists c t, tail3 = c :: t /\ isFlagc c = false /\ isdigit c = false /\ c <> 42 /\ c <> 46).
  { unfold tail3, tail4. destruct fs; [destruct fc|..]; cbn [sizeText cvText List.app];
      eexists _, _; (split; [reflexivity|]); repeat split; try discriminate; reflexivity. }
  assert (PP : exists pv, parsePrec tail2 args1 = Ok (pv, tail3, args2) /\
                 match p with Some p => pv = p /\ 0 <= p < 2 ^ 31 | None => pv < 0 end).
  { unfold tail2. destruct T3 as (c & t & -> & _ & TD & T42 & T46). destruct fp as [|ps|]; cbn [List.app].
    - destruct HP as [-> ->]. exists (-1). split; [|lia]. cbn [parsePrec]. rewrite (proj2 (Z.eqb_neq _ _) T46). reflexivity.
    - destruct HP as [-> ->]. exists (number ps). pose proof (number_nonneg ps (proj1 P)). split; [|split; [reflexivity|lia]].
      destruct P as [PD PL]. cbn [parsePrec].
      change (46 =? 46) with true. cbv iota. destruct ps as [|d0 ps]; cbn [List.app].
      + rewrite TD, (proj2 (Z.eqb_neq _ _) T42). reflexivity.
      + inversion_clear PD as [|? ? D0 DS]. rewrite (proj2 (isdigit_ok d0)) by lia.
        change (d0 :: ps ++ c :: t) with ((d0 :: ps) ++ c :: t).
        rewrite (numLoop_ok (d0 :: ps) ltac:(constructor; auto) 0 (c :: t) c t eq_refl TD) by (unfold number in PL; lia || exact PL).
        cbn [rbind]. reflexivity.
    - destruct HP as (a & -> & ->). exists (s32 a). pose proof (s32_range a). split; [|destruct (s32 a <? 0) eqn:Q; lia].
      reflexivity. }
  assert (T2 : exists c t, tail2 = c :: t /\ isFlagc c = false /\ isdigit c = false /\ c <> 42).
  { unfold tail2. destruct T3 as (c & t & -> & TF & TD & T42 & T46).
    destruct fp as [|ps|]; cbn [List.app]; eexists _, _; (split; [reflexivity|]); auto;
      repeat split; try discriminate; reflexivity. }
  assert (WW : forall lj lz, exists wv, parseWidth tail1 args lj lz =
      Ok (lj || neg, lz && negb neg, wv, tail2, args1) /\ Z.max 0 wv = w /\ wv < 2 ^ 31).
  { intros lj lz. unfold tail1. destruct T2 as (c & t & -> & TF & TD & T42). destruct fw as [|ws|]; cbn [List.app].
    - destruct HW as (-> & -> & ->). exists (-1). split; [|lia]. cbn [parseWidth]. rewrite TD, (proj2 (Z.eqb_neq _ _) T42).
      rewrite orb_false_r, andb_true_r. reflexivity.
    - destruct HW as (-> & -> & ->). destruct W as (WD & WN & WH & WL). pose proof (number_nonneg ws WD).
      exists (number ws). split; [|lia]. destruct ws as [|d0 ws]; [congruence|]. cbn [List.app parseWidth].
      pose proof (Forall_inv WD). cbn beta in *. rewrite (proj2 (isdigit_ok d0)) by lia.
      change (d0 :: ws ++ c :: t) with ((d0 :: ws) ++ c :: t).
      rewrite (numLoop_ok (d0 :: ws) WD 0 (c :: t) c t eq_refl TD) by (unfold number in WL; lia || exact WL).
      cbn [rbind]. rewrite orb_false_r, andb_true_r. reflexivity.
    - destruct HW as (a & -> & NM & -> & ->). exists (Z.abs (s32 a)). pose proof (s32_range a). split; [|lia].
      cbn [parseWidth]. change (isdigit 42) with false. change (42 =? 42) with true. cbv iota. cbn [takeInt rbind].
      rewrite (proj2 (Z.eqb_neq _ _) NM). cbn [more rbind]. destruct (s32 a <? 0) eqn:Q.
      + rewrite orb_true_r, andb_false_r. rewrite Z.abs_neq by lia. reflexivity.
      + rewrite orb_false_r, andb_true_r. rewrite Z.abs_eq by lia. reflexivity. }
  assert (T1 : exists c t, tail1 = c :: t /\ isFlagc c = false).
  { unfold tail1. destruct T2 as (c & t & -> & TF & TD & T42). destruct fw as [|ws|]; cbn [List.app]; eauto.
    destruct W as (WD & WN & WH & WL). destruct ws as [|d0 ws]; [congruence|]. cbn [List.app]. eexists _, _; split; [reflexivity|].
    pose proof (Forall_inv WD). cbn in *. unfold isFlagc. lia. }
  destruct T1 as (c1 & t1 & T1 & TF1). destruct PP as (pv & PP & PV).
  specialize (WW (false || existsb (Z.eqb 45) fl)
    ((false || existsb (Z.eqb 48) fl) && negb (false || existsb (Z.eqb 45) fl))).
  destruct WW as (wv & WW & WV). eexists. split.
  - unfold parse. rewrite (flagLoop_ok fl F false 0 false false tail1 c1 t1 T1 TF1) by auto. cbn [rbind].
    rewrite WW. cbn [rbind]. rewrite PP. cbn [rbind]. rewrite M. cbn [rbind]. unfold tail4. cbn [List.app]. reflexivity.
  - unfold same. cbn [ljust sign alt lzeroes width precision lmodifier conv left plus space hash zero minw prec siz con].
    unfold flag. cbn [flags orb]. rewrite Z.eqb_refl || idtac.
    split; [reflexivity|]. split; [reflexivity|]. split; [reflexivity|]. split.
    { destruct (existsb (Z.eqb 48) fl), (existsb (Z.eqb 45) fl), neg; reflexivity. }
    split; [exact WV|]. split; [exact PV|]. split; [reflexivity|]. destruct fc; reflexivity.
Qed.

(** * numerals *)
Lemma valueOf_app b f s1 : forall acc s2, valueOf b f acc (s1 ++ s2) = valueOf b f (valueOf b f acc s1) s2.
Proof. induction s1; intros; cbn [List.app valueOf]; auto. Qed.
Definition okDigit (b : Z) (upper : bool) (c : Z) : Prop :=
  0 <= digitValue c < b /\ (if upper then c <= 70 else c <= 57 \/ 97 <= c).
Lemma digit_at b (upper : bool) c : 2 <= b <= 16 -> okDigit b upper c ->
  zget (if upper then upDigits else lowDigits) (digitValue c) = Some c.
Proof.
  intros B [V U]. unfold digitValue in *.
  assert (E : forall l i v, 0 <= i -> nth_error l (Z.to_nat i) = Some v -> zget l i = Some (v : Z)).
  { intros l i v I H. unfold zget. destruct (i <? 0) eqn:Q; [lia|exact H]. }
  destruct ((48 <=? c) && (c <=? 57)) eqn:Q1.
  { assert (C : In c [48; 49; 50; 51; 52; 53; 54; 55; 56; 57]) by (cbn; lia).
    cbn in C. repeat (destruct C as [<- | C]; [destruct upper; reflexivity|]). destruct C. }
  destruct ((97 <=? c) && (c <=? 102)) eqn:Q2.
  { destruct upper; [lia|]. assert (C : In c [97; 98; 99; 100; 101; 102]) by (cbn; lia).
    cbn in C. repeat (destruct C as [<- | C]; [reflexivity|]). destruct C. }
  destruct ((65 <=? c) && (c <=? 70)) eqn:Q3; [|lia].
  destruct upper; [|lia]. assert (C : In c [65; 66; 67; 68; 69; 70]) by (cbn; lia).
  cbn in C. repeat (destruct C as [<- | C]; [reflexivity|]). destruct C.
Qed.
Lemma value_pos b upper s : 2 <= b -> Forall (okDigit b upper) s -> s <> [] -> hd 49 s <> 48 -> 0 < valueOf b digitValue 0 s.
Proof.
  intros B F NE H. destruct s as [|c s]; [congruence|]. cbn [valueOf hd] in *. inversion_clear F as [|? ? [C U] FS].
  assert (0 < digitValue c).
  { unfold digitValue in *. destruct ((48 <=? c) && (c <=? 57)) eqn:Q1, ((97 <=? c) && (c <=? 102)) eqn:Q2,
      ((65 <=? c) && (c <=? 70)) eqn:Q3; lia. }
  pose proof (valueOf_ge b digitValue s ltac:(lia)) as G.
  specialize (G ltac:(revert FS; apply Forall_impl; unfold okDigit; intros; lia) (0 * b + digitValue c) ltac:(lia)). lia.
Qed.
Lemma digitLoop_ok b upper : 2 <= b <= 16 -> forall s, Forall (okDigit b upper) s -> s <> [] -> hd 49 s <> 48 ->
  forall n acc, (length s <= n)%nat ->
  digitLoop n (if upper then upDigits else lowDigits) b (valueOf b digitValue 0 s) acc = Ok (s ++ acc).
Proof.
  intros B. induction s as [|c s IH] using rev_ind; intros F NE H n acc L; [congruence|].
  apply Forall_app in F as [FS FC]. apply Forall_inv in FC. rewrite valueOf_app. cbn [valueOf].
  rewrite app_length in L. cbn [length] in L. destruct n as [|n]; [lia|]. cbn [digitLoop].
  pose proof (proj1 FC) as DC.
  assert (E : (valueOf b digitValue 0 s * b + digitValue c) mod b = digitValue c).
  { rewrite Z.add_comm, Z.mod_add by lia. apply Z.mod_small. lia. }
  assert (E2 : (valueOf b digitValue 0 s * b + digitValue c) / b = valueOf b digitValue 0 s).
  { rewrite Z.add_comm, Z.div_add by lia. rewrite Z.div_small by lia. lia. }
  rewrite E, E2. rewrite (digit_at b) by auto. cbn [inb rbind]. destruct s as [|c0 s].
  - cbn [valueOf]. reflexivity.
  - cbn [hd] in H. rewrite (proj2 (Z.eqb_neq _ _)).
    2: { pose proof (value_pos b upper (c0 :: s) ltac:(lia) FS ltac:(discriminate) ltac:(exact H)). lia. }
    rewrite IH; [|auto|discriminate|exact H|cbn [length] in *; lia]. rewrite <- app_assoc. reflexivity.
Qed.
Lemma value_big b upper s : 2 <= b -> Forall (okDigit b upper) s -> s <> [] -> hd 49 s <> 48 ->
  b ^ (zlen s - 1) <= valueOf b digitValue 0 s.
Proof.
  intros B. induction s as [|c s IH] using rev_ind; intros F NE H; [congruence|].
  pose proof (value_pos b upper _ B F NE H) as P.
  apply Forall_app in F as [FS FC]. apply Forall_inv in FC. destruct FC as [DC _]. rewrite valueOf_app in *. cbn [valueOf] in *.
  destruct s as [|c0 s].
  - cbn [valueOf] in *. change (zlen ([] ++ [c]) - 1) with 0. rewrite Z.pow_0_r. lia.
  - cbn [hd] in H. specialize (IH FS ltac:(discriminate) H). pose proof (zlen_nonneg s).
    replace (zlen ((c0 :: s) ++ [c]) - 1) with (Z.succ (zlen (c0 :: s) - 1)) by (zl; lia).
    rewrite Z.pow_succ_r by (zl; lia). nia.
Qed.
Lemma numeral_loop b upper v s : 8 <= b <= 16 -> 0 <= v < 2 ^ 32 -> numeral b upper v s ->
  digitLoop 11 (if upper then upDigits else lowDigits) b v [] = Ok (if v =? 0 then [48] else s) /\ (v = 0 <-> s = []).
Proof.
  intros B V (F & E & H). destruct s as [|c s].
  - cbn in E. subst v. split; [|tauto]. destruct upper; cbn [digitLoop]; rewrite Z.mod_0_l by lia; rewrite Z.div_0_l by lia; reflexivity.
  - pose proof (value_pos b upper (c :: s) ltac:(lia) F ltac:(discriminate) ltac:(exact H)) as P.
    pose proof (value_big b upper (c :: s) ltac:(lia) F ltac:(discriminate) ltac:(exact H)) as G. rewrite E in *.
    rewrite (proj2 (Z.eqb_neq _ _)) by lia. split; [|split; [lia|discriminate]]. rewrite <- E.
    assert (zlen (c :: s) <= 11).
    { assert (8 ^ (zlen (c :: s) - 1) <= b ^ (zlen (c :: s) - 1)) by (apply Z.pow_le_mono_l; lia).
      assert (~ 11 <= zlen (c :: s) - 1); [|lia]. intros A.
      assert (8 ^ 11 <= 8 ^ (zlen (c :: s) - 1)) by (apply Z.pow_le_mono_r; lia).
      change (8 ^ 11) with (2 * 2 ^ 32) in *. lia. }
    rewrite (digitLoop_ok b upper ltac:(lia) (c :: s) F ltac:(discriminate) H).
    + rewrite app_nil_r. reflexivity.
    + unfold zlen in *. lia.
Qed.

(** * the digits with precision and octal # *)
Definition specDigits (oct al : bool) (P : option Z) (core : list Z) : list Z :=
  let min := match P with Some p => p | None => 1 end in
  let ds := repeat 48 (Z.to_nat (min - zlen core)) ++ core in
  if oct then if al && negb (hd 0 ds =? 48) then 48 :: ds else ds else ds.
Lemma zlen_repeat (c : Z) n : zlen (repeat c n) = Z.of_nat n.
Proof. unfold zlen. rewrite repeat_length. reflexivity. Qed.
Lemma hd_repeat n core : (0 < n)%nat -> hd 0 (repeat 48 n ++ core) = 48.
Proof. destruct n; [lia|reflexivity]. Qed.
Lemma digits_ok (oct al : bool) P p0 v core :
  match P with Some p => p0 = p /\ 0 <= p < 2 ^ 31 | None => p0 < 0 end -> (v = 0 <-> core = []) -> hd 49 core <> 48 ->
  let ds := if v =? 0 then [48] else core in
  let dcnt := if (0 <=? p0) && (v =? 0) && (p0 =? 0) then 0 else zlen ds in
  let prec := if p0 <? 0 then 1 else p0 in
  let prec := if al && oct && (((v =? 0) && (prec =? 0)) || (negb (v =? 0) && (prec <=? dcnt))) then dcnt + 1 else prec in
  let prec := if prec <? dcnt then dcnt else prec in
  pad 48 (prec - dcnt) ++ firstn (Z.to_nat dcnt) ds = specDigits oct al P core /\ prec = zlen (specDigits oct al P core) /\
  0 <= prec.
Proof.
  intros HP V0 HC. unfold specDigits.
  set (min := match P with Some p => p | None => 1 end).
  assert (HM : (if p0 <? 0 then 1 else p0) = min /\ 0 <= min).
  { unfold min. destruct P; [destruct HP; subst; destruct (z <? 0) eqn:Q; lia|]. destruct (p0 <? 0) eqn:Q; lia. }
  destruct HM as [HM M0].
  assert (HD : forall x, ((0 <=? p0) && (v =? 0) && (p0 =? 0)) = ((v =? 0) && (min =? 0)) :> bool \/ x = x :> Z) by auto.
  assert (HD2 : ((0 <=? p0) && (v =? 0) && (p0 =? 0)) = ((v =? 0) && (min =? 0))).
  { unfold min in *. destruct P; [destruct HP; subst|]; lia. }
  cbv zeta. rewrite HD2, HM. clear HD HD2 HM. destruct (Z.eqb_spec v 0) as [E | E].
  - rewrite (proj1 V0 E). change (zlen (@nil Z)) with 0. cbn [andb negb orb].
    change (zlen [48]) with 1. rewrite app_nil_r, Z.sub_0_r. rewrite orb_false_r. destruct (Z.eqb_spec min 0) as [M | M].
    + rewrite M. change (Z.to_nat 0) with O. cbn [repeat hd firstn]. change (0 =? 48) with false. cbn [negb]. rewrite andb_true_r, andb_true_r.
      destruct oct, al; cbn [andb]; split; try reflexivity; split; reflexivity || discriminate.
    + rewrite !andb_false_r. destruct (min <? 1) eqn:Q; [lia|].
      assert (R : repeat 48 (Z.to_nat min) = pad 48 (min - 1) ++ firstn (Z.to_nat 1) [48]).
      { unfold pad. change (firstn (Z.to_nat 1) [48]) with (repeat 48 1). rewrite <- repeat_app. f_equal. lia. }
      assert (H : hd 0 (repeat 48 (Z.to_nat min)) =? 48 = true) by (destruct (Z.to_nat min) eqn:?; [lia|reflexivity]).
      rewrite H. cbn [negb]. rewrite andb_false_r. rewrite <- R.
      destruct oct; rewrite zlen_repeat; (split; [reflexivity|lia]).
  - assert (NE : core <> []) by tauto. cbn [andb negb orb].
    pose proof (zlen_nonneg core).
    assert (FN : firstn (Z.to_nat (zlen core)) core = core) by (unfold zlen; rewrite Nat2Z.id; apply firstn_all).
    rewrite FN. unfold pad.
    assert (HH : forall b, hd b core <> 48) by (intros b; destruct core; [congruence|exact HC]).
    destruct (al && oct && (min <=? zlen core)) eqn:Q.
    + apply andb_prop in Q as [Q Q2]. apply andb_prop in Q as [-> ->].
      destruct (zlen core + 1 <? zlen core) eqn:Q3; [lia|].
      replace (Z.to_nat (min - zlen core)) with O by lia. cbn [repeat List.app]. rewrite (proj2 (Z.eqb_neq _ _) (HH 0)).
      cbn [andb negb]. replace (Z.to_nat (zlen core + 1 - zlen core)) with 1%nat by lia. cbn [repeat List.app].
      split; [reflexivity|]. zl. lia.
    + assert (HS : (if oct then if al && negb (hd 0 (repeat 48 (Z.to_nat (min - zlen core)) ++ core) =? 48)
          then 48 :: repeat 48 (Z.to_nat (min - zlen core)) ++ core else repeat 48 (Z.to_nat (min - zlen core)) ++ core
          else repeat 48 (Z.to_nat (min - zlen core)) ++ core) = repeat 48 (Z.to_nat (min - zlen core)) ++ core).
      { destruct oct; [|reflexivity]. destruct al; [|reflexivity]. cbn [andb] in Q. rewrite hd_repeat by lia. reflexivity. }
      rewrite HS. rewrite zlen_app, zlen_repeat. destruct (min <? zlen core) eqn:Q3.
      * replace (Z.to_nat (min - zlen core)) with O by lia. replace (Z.to_nat (zlen core - zlen core)) with O by lia.
        split; [reflexivity|]. lia.
      * split; [reflexivity|]. lia.
Qed.

Lemma to_nat_pad w m l : Z.max 0 w = m -> 0 <= l -> Z.to_nat (w - l) = Z.to_nat (m - l).
Proof. lia. Qed.
Lemma padded_ok D s (nozero lz : bool) prefix body len : same D s -> len = zlen (prefix ++ body) ->
  lz = (zero s && negb (left s)) && negb nozero ->
  (if ljust D || lz then [] else pad 32 (width D - len)) ++ prefix ++
  (if negb (ljust D) && lz then pad 48 (width D - len) else []) ++ body ++
  (if ljust D then pad 32 (width D - len) else []) = padded s nozero prefix body.
Proof.
  intros (L & _ & _ & _ & (W & _) & _) -> ->. unfold padded, pad. rewrite L.
  rewrite (to_nat_pad (width D) (minw s)) by (auto; apply zlen_nonneg).
  set (n := Z.to_nat _). clearbody n.
  destruct (left s); cbn [orb andb negb]; rewrite ?andb_false_r, ?andb_true_r; cbn [List.app]; [reflexivity|].
  rewrite ?app_nil_r. destruct (zero s && negb nozero); cbn [List.app]; [reflexivity|]. reflexivity.
Qed.

(** the operand as the code computes it *)
Lemma abs_u32 x : - 2 ^ 31 <= x < 2 ^ 31 ->
  (s32 (u32 x) <? 0) = (x <? 0) /\ (if x <? 0 then u32 (- u32 x) else u32 x) = Z.abs x.
Proof.
  intros R. unfold s32, u32. rewrite swrap_wrap. rewrite swrap_small by lia. split; [reflexivity|].
  unfold wrap. rewrite Zminus_mod_idemp_r || idtac.
  destruct (x <? 0) eqn:Q.
  - rewrite Z.abs_neq by lia. rewrite <- (Zminus_mod_idemp_r 0 x) || idtac. 
    assert (E : x mod 2 ^ 32 = x + 2 ^ 32) by (symmetry; apply Z.mod_unique with (-1); lia). rewrite E.
    symmetry. apply Z.mod_unique with (-1); lia.
  - rewrite Z.abs_eq by lia. apply Z.mod_small. lia.
Qed.
Lemma operand_signed (m : Z) (sz : size) w : 0 <= w < 2 ^ 32 -> m = sizeCode sz ->
  let x := match sz with SHH => s8 w | SH => s16 w | _ => s32 w end in
  u32 (if m =? 72 then s8 w else if m =? 104 then s16 w else w) = u32 x /\ - 2 ^ 31 <= x < 2 ^ 31.
Proof.
  intros W ->. pose proof (swrap_range 8 w ltac:(lia)). pose proof (swrap_range 16 w ltac:(lia)).
  pose proof (swrap_range 32 w ltac:(lia)). unfold s8, s16, s32, u32 in *.
  destruct sz; cbv zeta; change (sizeCode _ =? 72) with true || change (sizeCode _ =? 72) with false;
    cbv iota; try (change (sizeCode SH =? 104) with true || change (sizeCode _ =? 104) with false); cbv iota;
    try (rewrite wrap_swrap by lia); split; try reflexivity;
    repeat match goal with |- context [2 ^ ?k] => let v := eval vm_compute in (2 ^ k) in change (2 ^ k) with v end;
    repeat match goal with H : context [2 ^ ?k] |- _ => let v := eval vm_compute in (2 ^ k) in change (2 ^ k) with v in H end; lia.
Qed.
Lemma operand_unsigned (m : Z) (sz : size) w : 0 <= w < 2 ^ 32 -> m = sizeCode sz ->
  let x := match sz with SHH => u8 w | SH => u16 w | _ => u32 w end in
  (if m =? 72 then u8 w else if m =? 104 then u16 w else w) = x /\ 0 <= x < 2 ^ 32.
Proof.
  intros W ->. pose proof (wrap_range 8 w ltac:(lia)). pose proof (wrap_range 16 w ltac:(lia)).
  unfold u8, u16. 
  destruct sz; cbv zeta; change (sizeCode _ =? 72) with true || change (sizeCode _ =? 72) with false;
    cbv iota; try (change (sizeCode SH =? 104) with true || change (sizeCode _ =? 104) with false); cbv iota;
    rewrite ?(u32_small w W); split; try reflexivity; lia.
Qed.

Lemma printInt_ok D s w out : same D s ->
  match con s with CD | CI | CU | CO | CX | CUX | CP => True | _ => False end -> 0 <= w < 2 ^ 32 ->
  tame s w -> intText s w out -> zlen out < 2 ^ 31 -> printInt D w = Ok out.
Proof.
  intros SM CV W TM (core & NUM & OUT) LEN. cbv zeta in OUT.
  set (nz := match prec s with Some _ => true | None => false end) in OUT.
  set (v := operand s w) in *.
  assert (DS : exists body, specDigits (match con s with CO => true | _ => false end) (hash s) (prec s) core = body) by eauto.
  destruct DS as (body & DS).
  assert (OUT2 : out = padded s nz (if signed (con s) then if v <? 0 then [45] else if plus s then [43] else if space s then [32] else []
      else match con s with CX => if hash s && negb (v =? 0) then [48; 120] else []
           | CUX => if hash s && negb (v =? 0) then [48; 88] else [] | _ => [] end) body).
  { rewrite OUT, <- DS. unfold specDigits. destruct (con s); reflexivity. }
  clear OUT.
  pose proof SM as (E1 & E2 & E3 & E4 & E5 & E6 & E7 & E8).
  assert (LZ : (if 0 <=? precision D then false else lzeroes D) = (zero s && negb (left s)) && negb nz).
  { rewrite E4. unfold nz. destruct (prec s).
    - destruct (0 <=? precision D) eqn:Q; [|lia]. rewrite andb_false_r. reflexivity.
    - destruct (0 <=? precision D) eqn:Q; [lia|]. rewrite andb_true_r. reflexivity. }
  assert (HB : 8 <= base (con s) <= 16) by (destruct (con s); cbn; lia).
  (* magnitude and sign *)
  assert (OPS : signed (con s) = true -> u32 (if lmodifier D =? 72 then s8 w else if lmodifier D =? 104 then s16 w else w) = u32 v /\ - 2 ^ 31 <= v < 2 ^ 31).
  { intros SG. unfold v, operand. rewrite SG. apply (operand_signed (lmodifier D) (siz s) w W E7). }
  assert (OPU : signed (con s) = false -> (if lmodifier D =? 72 then u8 w else if lmodifier D =? 104 then u16 w else w) = v /\ 0 <= v < 2 ^ 32).
  { intros SG. unfold v, operand. rewrite SG. apply (operand_unsigned (lmodifier D) (siz s) w W E7). }
  assert (V32 : 0 <= Z.abs v < 2 ^ 32).
  { destruct (signed (con s)); [destruct (OPS eq_refl)|destruct (OPU eq_refl)]; lia. }
  destruct (numeral_loop _ _ _ _ HB V32 NUM) as [DL V0].
  pose proof (digits_ok (match con s with CO => true | _ => false end) (hash s) (prec s) (precision D) (Z.abs v) core E6 V0
    (proj2 (proj2 NUM))) as DK. cbv zeta in DK. rewrite DS in DK. destruct DK as (DK1 & DK2 & DK3).
  unfold printInt. rewrite LZ, E3.
  destruct (signed (con s)) eqn:SG.
  - assert (C : conv D = 100) by (rewrite E8; destruct (con s); try discriminate SG; reflexivity).
    assert (CO : (match con s with CO => true | _ => false end) = false) by (destruct (con s); try discriminate SG; reflexivity).
    assert (BB : base (con s) = 10) by (destruct (con s); try discriminate SG; reflexivity).
    assert (UP : (match con s with CUX => true | _ => false end) = false) by (destruct (con s); try discriminate SG; reflexivity).
    rewrite CO in DK1, DK2, DK3. rewrite BB, UP in DL. rewrite C.
    change (100 =? 111) with false. change (100 =? 120) with false. change (100 =? 88) with false. change (100 =? 112) with false.
    change (100 =? 100) with true. cbn [orb andb]. cbv iota.
    destruct (OPS eq_refl) as [OP VR]. destruct (abs_u32 v VR) as [A1 A2]. rewrite OP, A1, A2, DL. cbn [rbind].
    rewrite andb_false_r in *. cbn [andb] in *. rewrite DK2. change (zlen (@nil Z)) with 0.
    rewrite DK2 in DK1.
    set (prefix := if v <? 0 then [45] else _) in OUT2.
    assert (PX : (if (if v <? 0 then 45 else sign D) =? 0 then [] else [if v <? 0 then 45 else sign D]) = prefix).
    { unfold prefix. rewrite E2. destruct (v <? 0), (plus s), (space s); reflexivity. }
    assert (PXL : (if (if v <? 0 then 45 else sign D) =? 0 then 0 else 1) = zlen prefix).
    { rewrite <- PX. destruct ((if v <? 0 then 45 else sign D) =? 0); reflexivity. }
    rewrite PX, PXL, Z.add_0_r.
    assert (LL : zlen prefix + zlen body <= zlen out).
    { rewrite OUT2. unfold padded. destruct (left s), (zero s && negb nz); rewrite !zlen_app, zlen_repeat; lia. }
    destruct (2 ^ 31 <=? zlen prefix + zlen body) eqn:Q; [lia|]. f_equal. rewrite OUT2.
    rewrite <- (padded_ok D s nz _ prefix body (zlen prefix + zlen body) SM (eq_sym (zlen_app _ _)) eq_refl).
    rewrite (app_assoc (pad 48 _)), DK1. reflexivity.
  - assert (C : conv D = cvText (con s)) by (rewrite E8; destruct (con s); try discriminate SG; reflexivity).
    assert (ND : (conv D =? 100) = false) by (rewrite C; destruct (con s); try discriminate SG; try contradiction; reflexivity).
    rewrite ND. cbn [andb]. cbv iota. destruct (OPU eq_refl) as [OP VR]. rewrite OP.
    assert (VA : Z.abs v = v) by (apply Z.abs_eq; lia). rewrite VA in *.
    assert (BB : (if conv D =? 111 then 8 else if (conv D =? 120) || (conv D =? 88) || (conv D =? 112) then 16 else 10) = base (con s)).
    { rewrite C; destruct (con s); try contradiction; try discriminate SG; reflexivity. }
    assert (UP : (if conv D =? 88 then upDigits else lowDigits) = (if match con s with CUX => true | _ => false end then upDigits else lowDigits)).
    { rewrite C; destruct (con s); try contradiction; try discriminate SG; reflexivity. }
    rewrite BB, UP, DL. cbn [rbind].
    assert (OC : (conv D =? 111) = match con s with CO => true | _ => false end).
    { rewrite C; destruct (con s); try contradiction; try discriminate SG; reflexivity. }
    rewrite OC, DK2. rewrite DK2 in DK1. cbv iota. change (0 =? 0) with true. cbv iota.
    set (prefix := match con s with CX => _ | _ => _ end) in OUT2.
    assert (PX : (if ((conv D =? 120) || (conv D =? 88)) && hash s && negb (w =? 0) then [48; conv D] else []) = prefix).
    { unfold prefix. rewrite C. unfold tame in TM.
      assert (WV : match con s with CX | CUX => hash s = true -> (w =? 0) = (v =? 0) | _ => True end).
      { destruct (con s); auto; intros HS; specialize (TM HS); fold v in TM;
          (destruct (Z.eqb_spec v 0) as [Z0 | Z0]; [rewrite (TM Z0); reflexivity|]);
          destruct (Z.eqb_spec w 0) as [W0 | W0]; try reflexivity; exfalso; apply Z0; unfold v, operand; rewrite W0;
          destruct (siz s), (signed (con s)); reflexivity. }
      destruct (con s); try contradiction; try discriminate SG; try reflexivity;
        cbn [cvText]; change (120 =? 120) with true; change (88 =? 120) with false; change (88 =? 88) with true; cbn [orb andb];
        (destruct (hash s); [|reflexivity]); rewrite (WV eq_refl); reflexivity. }
    rewrite PX, Z.add_0_l.
    assert (LL : zlen prefix + zlen body <= zlen out).
    { rewrite OUT2. unfold padded. destruct (left s), (zero s && negb nz); rewrite !zlen_app, zlen_repeat; lia. }
    destruct (2 ^ 31 <=? zlen prefix + zlen body) eqn:Q; [lia|]. f_equal. rewrite OUT2.
    rewrite <- (padded_ok D s nz _ prefix body (zlen prefix + zlen body) SM (eq_sym (zlen_app _ _)) eq_refl).
    rewrite (app_assoc (pad 48 _)), DK1. reflexivity.
Qed.

(** * characters and strings *)
Lemma padded_len s nz a b : zlen a + zlen b <= zlen (padded s nz a b).
Proof. unfold padded. destruct (left s), (zero s && negb nz); rewrite !zlen_app, zlen_repeat; lia. Qed.
Lemma padded_plain D s t : same D s ->
  (if ljust D then [] else pad 32 (width D - zlen t)) ++ t ++ (if ljust D then pad 32 (width D - zlen t) else []) = padded s true [] t.
Proof.
  intros SM. rewrite <- (padded_ok D s true false [] t (zlen t) SM eq_refl ltac:(rewrite andb_false_r; reflexivity)).
  destruct (ljust D); reflexivity.
Qed.
Lemma upToNul_ok t : Forall (fun c => c <> 0) t -> forall r, upToNul (t ++ 0 :: r) = Ok t.
Proof.
  induction 1 as [|c t C _ IH]; intros r; cbn [List.app upToNul]; [reflexivity|].
  rewrite (proj2 (Z.eqb_neq _ _) C), IH. reflexivity.
Qed.
Lemma upToPrec_nul t : Forall (fun c => c <> 0) t -> forall p r, zlen t <= p -> upToPrec p (t ++ 0 :: r) = Ok t.
Proof.
  induction 1 as [|c t C _ IH]; intros p r L; cbn [List.app upToPrec];
    (destruct (p <=? 0) eqn:Q; [|]).
  - reflexivity.
  - reflexivity.
  - pose proof (zlen_nonneg t). zl. lia.
  - rewrite (proj2 (Z.eqb_neq _ _) C), IH by (zl; lia). reflexivity.
Qed.
Lemma upToPrec_all t : Forall (fun c => c <> 0) t -> forall r, upToPrec (zlen t) (t ++ r) = Ok t.
Proof.
  induction 1 as [|c t C _ IH]; intros r; cbn [List.app].
  - destruct r; reflexivity.
  - pose proof (zlen_nonneg t). cbn [upToPrec]. rewrite zlen_cons. destruct (1 + zlen t <=? 0) eqn:Q; [lia|].
    rewrite (proj2 (Z.eqb_neq _ _) C). replace (1 + zlen t - 1) with (zlen t) by lia. rewrite IH. reflexivity.
Qed.
Lemma printStr_ok D s m t : same D s -> stringAt match m with Some m => m | None => nullText end (prec s) t ->
  zlen (padded s true [] t) < 2 ^ 31 -> printStr D m = Ok (padded s true [] t).
Proof.
  intros SM (NZ & HT) L. pose proof (padded_len s true [] t) as PL. change (zlen (@nil Z)) with 0 in PL.
  unfold printStr. set (mem := match m with Some m => m | None => nullText end) in *. clearbody mem.
  assert (E : (if precision D <? 0 then upToNul mem else upToPrec (precision D) mem) = Ok t).
  { destruct SM as (_ & _ & _ & _ & _ & E6 & _). destruct HT as [[(r & ->) P] | [(r & ->) P]].
    - destruct (prec s).
      + destruct E6 as [-> B]. destruct (z <? 0) eqn:Q; [lia|]. apply upToPrec_nul; auto.
      + destruct (precision D <? 0) eqn:Q; [|lia]. apply upToNul_ok; auto.
    - rewrite P in E6. destruct E6 as [-> B]. destruct (zlen t <? 0) eqn:Q; [lia|]. apply upToPrec_all; auto. }
  rewrite E. cbn [rbind]. destruct (2 ^ 31 <=? zlen t) eqn:Q; [lia|]. f_equal. apply padded_plain. exact SM.
Qed.

(** * the whole format *)
Definition after (k : sink) (out : list Z) (st : list (Z * Z * Z)) : sink :=
  let k := kputs out k in Sink (room k) (isstr k) (outp k) (cnt0 k) (cnt1 k) (stores k ++ st).
Lemma after_puts out k : 0 <= room k -> puts out k = after k out [].
Proof. intros R. rewrite puts_kputs by auto. unfold after. destruct (kputs out k); cbn. rewrite app_nil_r. reflexivity. Qed.
Lemma kputs_room out k : 0 <= room k -> 0 <= room (kputs out k).
Proof. intros R. unfold kputs. destruct (cnt1 k); cbn [room]; lia. Qed.

(** the stream has counted [n] characters of which it accepted all there was room for; as long as
    there is no error *)
Definition track (r0 : Z) (str : bool) (all : list Z) (st : list (Z * Z * Z)) (k : sink) : Prop :=
  isstr k = str /\ room k = Z.max 0 (r0 - zlen all) /\ outp k = cut r0 all /\
  cnt1 k = negb str && (r0 <? zlen all) /\
  (cnt1 k = false -> cnt0 k = zlen all /\ stores k = st).
Lemma cut_app r a b : 0 <= r -> cut r (a ++ b) = cut r a ++ cut (r - zlen a) b.
Proof. intros R. unfold cut. rewrite firstn_app. do 2 f_equal. unfold zlen. lia. Qed.
Lemma zlen_cut r a : 0 <= r -> zlen (cut r a) = Z.min r (zlen a).
Proof. intros R. unfold cut, zlen. rewrite firstn_length. lia. Qed.
Lemma cut_zero r a : r <= 0 -> cut r a = [].
Proof. apply cut_0. Qed.
Lemma track_puts r0 str all st k out : 0 <= r0 -> track r0 str all st k -> track r0 str (all ++ out) st (puts out k).
Proof.
  intros R0 (T1 & T2 & T3 & T4 & T5). pose proof (zlen_nonneg all). pose proof (zlen_nonneg out).
  rewrite puts_kputs by lia. unfold kputs. destruct (cnt1 k) eqn:C.
  - symmetry in T4. apply andb_prop in T4 as [S Q]. unfold track. rewrite T1, T2, T3, C. zl. rewrite S. cbn [andb].
    split; [reflexivity|]. split; [lia|]. split; [|split; [lia|discriminate]].
    rewrite cut_app by lia. rewrite (cut_zero (r0 - zlen all)) by lia. rewrite app_nil_r. reflexivity.
  - destruct (T5 eq_refl) as [C0 S0]. unfold track. cbn [isstr room outp cnt0 cnt1 stores]. rewrite T1, T2, T3. zl.
    split; [reflexivity|]. split; [lia|]. split.
    { rewrite cut_app by lia. f_equal. destruct (Z.le_gt_cases (r0 - zlen all) 0).
      - rewrite !cut_zero by lia. reflexivity.
      - f_equal. lia. }
    split.
    { destruct str; cbn [negb andb] in *; lia. }
    intros E. split; [|exact S0]. rewrite C0. destruct str; [lia|]. rewrite zlen_cut by lia. cbn [negb andb] in *. lia.
Qed.
Lemma track_store r0 str all st k p n : track r0 str all st k ->
  track r0 str all (st ++ [(p, n, swrap (8 * n) (zlen all))]) (store p n k).
Proof.
  intros (T1 & T2 & T3 & T4 & T5). unfold track, store. cbn [isstr room outp cnt0 cnt1 stores].
  split; auto. split; auto. split; auto. split; auto. intros C. destruct (T5 C) as [-> ->]. auto.
Qed.

Definition faithful (pf : dir -> Z -> res (list Z)) (fl : settings -> Z -> list Z -> Prop) : Prop :=
  forall D s w out, same D s -> isFloat (con s) -> 0 <= w < 2 ^ 32 -> fl s w out -> zlen out < 2 ^ 31 -> pf D w = Ok out.

Lemma sizeCode_out sz : sz <> SLD -> (if sizeCode sz =? 72 then 1 else if sizeCode sz =? 104 then 2 else 4) = outSize sz.
Proof. destruct sz; reflexivity || congruence. Qed.
Lemma conv_step pf fl n d args out st args' r0 str all st0 k :
  faithful pf fl -> legal (Conv d) -> prints fl tame n (Conv d) args out st args' -> zlen out < 2 ^ 31 -> 0 <= r0 ->
  n = zlen all -> track r0 str all st0 k ->
  forall rest, exists D args1 k', parse (tl (text (Conv d)) ++ rest) args = Ok (D, rest, args1) /\
    exec pf D args1 k = Ok (k', args') /\ track r0 str (all ++ out) (st0 ++ st) k'.
Proof.
  intros PF LG PR LN R0 -> T rest.
  inversion PR; subst; clear PR;
    match goal with H : settled d args ?s ?a |- _ =>
      destruct (parse_ok d args s a rest LG H) as (D & PA & SM);
      assert (CSP : con s = fconv d /\ siz s = fsize d) by (inversion H; split; reflexivity); destruct CSP as [CSE SS];
      exists D; eexists; eexists; split; [exact PA|]; pose proof SM as (_ & _ & _ & _ & _ & _ & E7 & E8) end.
  - (* integers *)
    match goal with H : intText s w out |- _ => pose proof (printInt_ok D s w out SM ltac:(rewrite CSE; assumption)
      ltac:(assumption) ltac:(assumption) H LN) as PI end.
    assert (EX : exec pf D (AInt w :: args') k = Ok (puts out k, args')).
    { unfold exec. rewrite E8, CSE. destruct (fconv d); try contradiction;
      (cbn [cvText]; repeat match goal with |- context [Z.eqb (Zpos ?a) (Zpos ?b)] =>
        let v := eval vm_compute in (Z.eqb (Zpos a) (Zpos b)) in change (Z.eqb (Zpos a) (Zpos b)) with v end;
       cbn [isFlt isInt orb]; cbv iota;
       match goal with |- context [isFlt ?c] => change (isFlt c) with false; change (isInt c) with true end; cbv iota;
       rewrite PI; reflexivity). }
    split; [exact EX|]. rewrite app_nil_r. apply track_puts; auto.
  - split.
    { unfold exec. rewrite E8, CSE. match goal with H : fconv d = CC |- _ => rewrite H end. reflexivity. }
    rewrite app_nil_r. unfold printChar. change 1 with (zlen [u8 w]). rewrite (padded_plain D s [u8 w] SM). apply track_puts; auto.
  - match goal with H : stringAt _ _ _ |- _ => pose proof (printStr_ok D s m t SM H LN) as PS end.
    split.
    { unfold exec. rewrite E8, CSE. match goal with H : fconv d = CS |- _ => rewrite H end.
      cbn [cvText]. change (115 =? 110) with false. change (115 =? 99) with false. change (115 =? 115) with true. cbv iota.
      rewrite PS. reflexivity. }
    rewrite app_nil_r. apply track_puts; auto.
  - split.
    { unfold exec. rewrite E8, CSE. match goal with H : fconv d = CN |- _ => rewrite H end. reflexivity. }
    rewrite E7, SS, app_nil_r. rewrite sizeCode_out.
    + apply track_store. exact T.
    + destruct LG as (_ & _ & _ & LG). match goal with H : fconv d = CN |- _ => rewrite H in LG end. exact LG.
  - match goal with H : isFloat (fconv d) |- _ => rename H into FL end.
    match goal with H : fl s w out |- _ => pose proof (PF D s w out SM ltac:(rewrite CSE; exact FL) ltac:(assumption) H LN) as PI end.
    assert (EX : exec pf D (AFlt w :: args') k = Ok (puts out k, args')).
    { unfold exec. rewrite E8, CSE. destruct (fconv d); try contradiction;
      (cbn [cvText]; repeat match goal with |- context [Z.eqb (Zpos ?a) (Zpos ?b)] =>
        let v := eval vm_compute in (Z.eqb (Zpos a) (Zpos b)) in change (Z.eqb (Zpos a) (Zpos b)) with v end;
       cbv iota; match goal with |- context [isFlt ?c] => change (isFlt c) with true end; cbv iota;
       rewrite PI; reflexivity). }
    split; [exact EX|]. rewrite app_nil_r. apply track_puts; auto.
Qed.

Lemma text_conv d : legal (Conv d) -> exists c t, text (Conv d) = 37 :: c :: t /\ c <> 37.
Proof.
  intros (F & W & P & Z). destruct d as [fl fw fp fs fc]. cbn [flags fwidth fprec fsize fconv text] in *. cbn [List.app].
  destruct fl as [|f fl].
  - cbn [List.app]. destruct fw as [|ws|]; cbn [List.app].
    + destruct fp; cbn [List.app]; [|eexists _, _; split; [reflexivity|discriminate]..].
      destruct fs; [destruct fc|..]; cbn [sizeText cvText List.app]; eexists _, _; (split; [reflexivity|discriminate]).
    + destruct W as (WD & WN & _). destruct ws as [|c ws]; [congruence|]. cbn [List.app]. eexists _, _. split; [reflexivity|].
      pose proof (Forall_inv WD). cbn in *. lia.
    + eexists _, _; split; [reflexivity|discriminate].
  - cbn [List.app]. eexists _, _. split; [reflexivity|]. pose proof (Forall_inv F) as F0. cbn in F0. lia.
Qed.

Lemma printLoop_ok pf fl r0 str : faithful pf fl -> 0 <= r0 -> forall items n args out st,
  printsAll fl tame n items args out st -> Forall legal items ->
  forall all st0 k fuel, n = zlen all -> zlen (all ++ out) < 2 ^ 31 -> (length (format items) < fuel)%nat -> track r0 str all st0 k ->
  exists k', printLoop fuel pf (format items) args k = Done (if cnt1 k' then -1 else s32 (cnt0 k')) k' /\
             track r0 str (all ++ out) (st0 ++ st) k'.
Proof.
  intros PF R0 items n args out st. induction 1 as [n args | n i l args out st args' out' st' P PA IH];
    intros LG all st0 k fuel -> LN FU T.
  - rewrite !app_nil_r. exists k. split; [|exact T]. destruct fuel; [cbn in FU; lia|]. reflexivity.
  - inversion_clear LG as [|? ? LI LL]. destruct fuel as [|fuel]; [lia|]. cbn [format] in *.
    rewrite app_assoc in LN. pose proof (zlen_nonneg out'). pose proof (zlen_nonneg all).
    assert (LO : zlen out < 2 ^ 31) by (rewrite !zlen_app in LN; lia).
    rewrite app_length in FU.
    destruct i as [c | | d].
    + inversion P; subst. cbn [text List.app printLoop]. cbn in FU. destruct LI as [_ LI]. rewrite (proj2 (Z.eqb_neq _ _) LI). cbn [negb].
      replace (all ++ c :: out') with ((all ++ [c]) ++ out') by (rewrite <- app_assoc; reflexivity).
      apply (IH LL (all ++ [c]) st0); auto; [zl; lia|lia|].
      change (put c k) with (puts [c] k). apply track_puts; auto.
    + inversion P; subst. cbn [text List.app printLoop]. cbn in FU. change (37 =? 37) with true. cbn [negb]. cbv iota.
      replace (all ++ 37 :: out') with ((all ++ [37]) ++ out') by (rewrite <- app_assoc; reflexivity).
      apply (IH LL (all ++ [37]) st0); auto; [zl; lia|lia|].
      change (put 37 k) with (puts [37] k). apply track_puts; auto.
    + destruct (conv_step pf fl _ d args out st args' r0 str all st0 k PF LI P LO R0 eq_refl T (format l)) as (D & args1 & k' & PR & EX & T').
      destruct (text_conv d LI) as (c & t & TX & NP). rewrite TX in PR, FU |- *. cbn [tl length] in PR, FU.
      cbn [List.app printLoop]. change (37 =? 37) with true. cbn [negb]. cbv iota.
      rewrite (proj2 (Z.eqb_neq _ _) NP). cbn [List.app] in PR. rewrite PR, EX.
      rewrite app_assoc, app_assoc. apply IH; auto; [zl; lia|lia].
Qed.
Lemma doprint_ok pf fl items args out st r0 str : faithful pf fl -> 0 <= r0 -> Forall legal items ->
  printsAll fl tame 0 items args out st -> zlen out < 2 ^ 31 ->
  exists k, doprint pf (format items) args (fresh r0 str) = Done (if negb str && (r0 <? zlen out) then -1 else zlen out) k /\
    outp k = cut r0 out /\ (str = true \/ zlen out <= r0 -> stores k = st).
Proof.
  intros PF R0 LG PA LN.
  destruct (printLoop_ok pf fl r0 str PF R0 items 0 args out st PA LG [] [] (fresh r0 str) (S (length (format items))) eq_refl LN ltac:(lia))
    as (k & E & T).
  { unfold track, fresh. cbn [isstr room outp cnt0 cnt1 stores]. change (zlen (@nil Z)) with 0. split; [reflexivity|]. split; [lia|].
    split; [symmetry; apply cut_nil|]. split; [destruct str; [reflexivity|cbn [negb andb]; lia]|auto]. }
  exists k. unfold doprint. rewrite E. destruct T as (T1 & T2 & T3 & T4 & T5). cbn [List.app] in *. split; [|split; [exact T3|]].
  - f_equal. rewrite T4 in *. destruct (negb str && (r0 <? zlen out)); [reflexivity|]. destruct (T5 eq_refl) as [-> _].
    apply (swrap_small 32); pose proof (zlen_nonneg out); lia.
  - intros H. apply T5. rewrite T4. destruct H as [-> | H]; [reflexivity|]. destruct str; [reflexivity|]. cbn [negb andb]. lia.
Qed.
