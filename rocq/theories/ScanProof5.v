(** scanf: one conversion. *)
From Verif Require Import Base BaseLemmas CtypeModel StrtolSpec StrtolProof NumSpec StrtofSpec StrtofModel StrtofProof3
  ScanModel ScanSpec ScanProof ScanProof2 ScanProof3 ScanProof4.

Ltac Zify.zify_post_hook ::= idtac.

(** ** White space *)
Lemma skip_in_ok inp : Forall byte inp -> forall ch, exists ws r, skips inp ws r /\ skip_in inp ch = Some (r, ch + zlen ws) /\
  in_space inp ch = Some (r, ch + zlen ws + (if zlen r =? 0 then 1 else 0)).
Proof.
  intros FB. induction FB as [|c t B FB IH]; intros ch.
  - exists [], []. split; [split; [reflexivity|split; [constructor|cbn; auto]]|]. cbn. rewrite Z.add_0_r. auto.
  - cbn [skip_in in_space]. rewrite test_space by exact B. cbn [obind]. destruct (spaceb c) eqn:SP.
    + apply spaceb_spec in SP. destruct (IH (ch + 1)) as (ws & r & (E & F & NS) & -> & ->). exists (c :: ws), r.
      split; [split; [cbn [app]; congruence|split; [now constructor|exact NS]]|]. rewrite zlen_cons. split; do 2 f_equal; lia.
    + exists [], (c :: t). split; [split; [reflexivity|split; [constructor|cbn; rewrite <- spaceb_spec; congruence]]|].
      change (zlen (@nil Z)) with 0. rewrite zlen_cons. replace (1 + zlen t =? 0) with false by (pose proof (zlen_nonneg t); lia).
      split; do 2 f_equal; lia.
Qed.
Lemma skips_none inp : ~ starts_with is_space inp -> skips inp [] inp.
Proof. intros N. split; [reflexivity|]. split; [constructor|exact N]. Qed.

(** ** %c *)
Lemma conv_c_ok inp : forall w ch acc, 0 <= w -> exists C r, inp = C ++ r /\ zlen C <= w /\ (zlen C = w \/ r = []) /\
  conv_c inp w ch acc = (r, w - zlen C, ch + zlen C, acc ++ C).
Proof.
  induction inp as [|c t IH]; intros w ch acc W; cbn [conv_c]; destruct (Z.gtb_spec w 0) as [G|G].
  - exists [], []. rewrite (app_nil_r acc). change (zlen (@nil Z)) with 0. rewrite Z.sub_0_r, Z.add_0_r. split; [reflexivity|]. split; [lia|]. auto.
  - exists [], []. rewrite (app_nil_r acc). change (zlen (@nil Z)) with 0. rewrite Z.sub_0_r, Z.add_0_r. split; [reflexivity|]. split; [lia|]. auto.
  - destruct (IH (w - 1) (ch + 1) (acc ++ [c]) ltac:(lia)) as (C & r & -> & L & S & ->). exists (c :: C), r. rewrite zlen_cons, <- app_assoc. cbn [app].
    split; [reflexivity|]. split; [lia|]. split; [destruct S; [left; lia|auto]|]. replace (w - (1 + zlen C)) with (w - 1 - zlen C) by lia. now replace (ch + (1 + zlen C)) with (ch + 1 + zlen C) by lia.
  - exists [], (c :: t). rewrite app_nil_r. change (zlen (@nil Z)) with 0. rewrite Z.sub_0_r, Z.add_0_r. split; [reflexivity|]. split; [lia|]. split; [left; lia|reflexivity].
Qed.
Lemma char_item n w C r : 0 < w -> (match n with Some n => w = n | None => w = 1 end) -> zlen C <= w -> (zlen C = w \/ r = []) -> input_item KC n (C ++ r) C r.
Proof.
  intros W HN L S. split; [reflexivity|]. split; [destruct n; cbn; lia|].
  assert (HN' : (match n with Some n => n | None => 1 end) = w) by (destruct n; lia).
  split.
  - exists (repeat 0 (Z.to_nat (w - zlen C))). cbn. rewrite HN', zlen_app. unfold zlen at 2. rewrite repeat_length. lia.
  - intros l' r' E F (ext & M). cbn in M. rewrite HN', zlen_app in M. pose proof (zlen_nonneg ext).
    destruct S as [S| ->]; [lia|]. rewrite app_nil_r in E. rewrite E, zlen_app. pose proof (zlen_nonneg r'). lia.
Qed.

(** ** %s and %[ *)
Definition cdelta (P : Z -> bool) (u : unit) (c : Z) : option unit := if P c then Some tt else None.
Lemma cend P l : dend (cdelta P) tt l = if forallb P l then Some tt else None.
Proof. induction l as [|c t IH]; [reflexivity|]. cbn [dend forallb]. unfold cdelta at 1. destruct (P c); [exact IH|reflexivity]. Qed.

Lemma conv_s_ok inp : Forall byte inp -> forall w ch acc, 0 <= w -> exists C r, inp = C ++ r /\ zlen C <= w /\
  forallb (fun c => negb (spaceb c)) C = true /\ stuck (cdelta (fun c => negb (spaceb c))) tt (w - zlen C) r /\
  conv_s inp w ch acc = Some (r, ch + zlen C, acc ++ C).
Proof.
  intros FB. induction FB as [|c t B FB IH]; intros w ch acc W; cbn [conv_s]; destruct (Z.gtb_spec w 0) as [G|G].
  1,2: exists [], []; rewrite (app_nil_r acc); change (zlen (@nil Z)) with 0; rewrite Z.sub_0_r, Z.add_0_r;
    (split; [reflexivity|]; split; [lia|]; split; [reflexivity|]; split; [left; right; reflexivity|reflexivity]).
  - rewrite test_space by exact B. cbn [obind]. destruct (spaceb c) eqn:SP.
    + exists [], (c :: t). rewrite app_nil_r. change (zlen (@nil Z)) with 0. rewrite Z.sub_0_r, Z.add_0_r.
      split; [reflexivity|]. split; [lia|]. split; [reflexivity|]. split; [|reflexivity].
      right. exists c, t. split; [reflexivity|]. unfold cdelta. now rewrite SP.
    + destruct (IH (w - 1) (ch + 1) (acc ++ [c]) ltac:(lia)) as (C & r & -> & L & F & ST & ->). exists (c :: C), r. rewrite zlen_cons, <- app_assoc. cbn [app].
      split; [reflexivity|]. split; [lia|]. split; [cbn [forallb]; now rewrite SP|].
      split; [now replace (w - (1 + zlen C)) with (w - 1 - zlen C) by lia|]. do 3 f_equal. lia.
  - exists [], (c :: t). rewrite app_nil_r. change (zlen (@nil Z)) with 0. rewrite Z.sub_0_r, Z.add_0_r.
    split; [reflexivity|]. split; [lia|]. split; [reflexivity|]. split; [left; left; lia|reflexivity].
Qed.

Lemma conv_set_ok set ex inp : forall w ch acc ro, 0 <= w -> exists C r ro', inp = C ++ r /\ zlen C <= w /\
  forallb (fun c => negb (Bool.eqb (existsb (Z.eqb c) set) ex)) C = true /\
  stuck (cdelta (fun c => negb (Bool.eqb (existsb (Z.eqb c) set) ex))) tt (w - zlen C) r /\
  (0 < w -> inp <> [] -> ro' = true) /\ (ro = true -> ro' = true) /\
  conv_set set ex inp w ch acc ro = (r, ch + zlen C, acc ++ C, ro').
Proof.
  induction inp as [|c t IH]; intros w ch acc ro W; cbn [conv_set]; destruct (Z.gtb_spec w 0) as [G|G].
  1,2: exists [], [], ro; rewrite (app_nil_r acc); change (zlen (@nil Z)) with 0; rewrite Z.sub_0_r, Z.add_0_r;
    (split; [reflexivity|]; split; [lia|]; split; [reflexivity|]; split; [left; right; reflexivity|split; [congruence|split; [auto|reflexivity]]]).
  - destruct (Bool.eqb (existsb (Z.eqb c) set) ex) eqn:SP.
    + exists [], (c :: t), true. rewrite app_nil_r. change (zlen (@nil Z)) with 0. rewrite Z.sub_0_r, Z.add_0_r.
      split; [reflexivity|]. split; [lia|]. split; [reflexivity|]. split; [|auto].
      right. exists c, t. split; [reflexivity|]. unfold cdelta. now rewrite SP.
    + destruct (IH (w - 1) (ch + 1) (acc ++ [c]) true ltac:(lia)) as (C & r & ro' & -> & L & F & ST & _ & RO & ->). exists (c :: C), r, ro'.
      rewrite zlen_cons, <- app_assoc. cbn [app].
      split; [reflexivity|]. split; [lia|]. split; [cbn [forallb]; now rewrite SP|].
      split; [now replace (w - (1 + zlen C)) with (w - 1 - zlen C) by lia|]. split; [auto|]. split; [auto|]. now replace (ch + (1 + zlen C)) with (ch + 1 + zlen C) by lia.
  - exists [], (c :: t), ro. rewrite app_nil_r. change (zlen (@nil Z)) with 0. rewrite Z.sub_0_r, Z.add_0_r.
    split; [reflexivity|]. split; [lia|]. split; [reflexivity|]. split; [left; left; lia|]. split; [lia|auto].
Qed.

Lemma get_set_ok fmt set : forall acc, Forall (fun c => 0 < c < 256) set -> (acc = [] -> set <> []) ->
  Forall (fun c => c <> 93) (match acc with [] => tl set | _ => set end) ->
  get_set (set ++ 93 :: fmt) acc = Some (inr (acc ++ set, fmt)).
Proof.
  induction set as [|c t IH]; intros acc F NE N3; cbn [app get_set].
  - change (93 =? 0) with false. change (93 =? 93) with true. destruct acc as [|a acc]; [now destruct NE|].
    rewrite zlen_cons. replace (1 + zlen acc =? 0) with false by (pose proof (zlen_nonneg acc); lia). now rewrite app_nil_r.
  - pose proof (Forall_inv F) as FC. cbv beta in FC. replace (c =? 0) with false by lia.
    assert (Q : (c =? 93) && negb (zlen acc =? 0) = false).
    { destruct acc as [|a acc]; [apply andb_false_r|]. pose proof (Forall_inv N3). cbv beta in *. now replace (c =? 93) with false by lia. }
    rewrite Q, (IH (acc ++ [c])).
    + rewrite <- app_assoc. reflexivity.
    + exact (Forall_inv_tail F).
    + intros X. destruct acc; discriminate X.
    + destruct acc as [|a acc]; cbn [app tl] in *; [exact N3|exact (Forall_inv_tail N3)].
Qed.

(** ** The result of a conversion *)
Definition kletter (k : kind) : Z :=
  match k with KD => 100 | KI => 105 | KU => 117 | KO => 111 | KX => 120 | KUX => 88 | KP => 112 | KF c => c | KC => 99 | KS => 115 | KSet _ _ => 91 end.
Definition ktail (k : kind) : list Z :=
  match k with KSet neg set => (if neg then [94] else []) ++ set ++ [93] | _ => [] end.
Lemma kind_text_eq k : kind_text k = kletter k :: ktail k.
Proof. destruct k; reflexivity. Qed.
Definition kconv (k : kind) : Z := match k with KUX => 120 | KF _ => 101 | _ => kletter k end.
Lemma conv_letter_ok k : kind_ok k -> conv_letter (kletter k) = Some (kconv k).
Proof. intros K. destruct k as [| | | | | | |c| | |]; try reflexivity. cbn in K. destruct K as [<-|[<-|[<-|[<-|[<-|[<-|[]]]]]]]; reflexivity. Qed.
Definition lmod_of (s : size) : Z := match s with SNone => 0 | SHH => 72 | SH => 104 | SL => 108 | SLD => 76 | SJ => 106 | SZ => 122 | ST => 116 end.
Lemma int_size_ok s : int_size (lmod_of s) = bytes s.
Proof. now destruct s. Qed.
Definition width_of (n : option Z) : Z := match n with Some n => n | None => -1 end.

Definition conv_result (d : directive) (n : option Z) (inp' : list Z) (ch : Z) (s : sst) (fmt : list Z) (res : option (done + sst * list Z)) : Prop :=
  exists it rest, input_item (knd d) n inp' it rest /\
  ((~ matching (knd d) n it /\ exists e out,
      (out = [] \/ (knd d = KC /\ assigns d = true /\ exists p args', q_args s = p :: args' /\ out = [PutChars p it])) /\
      res = Some (inl ((if e && (q_cnt s =? 0) then EOF else q_cnt s), rest, q_out s ++ out)) /\ (e = true -> rest = [])) \/
   (matching (knd d) n it /\ assigns d = false /\
      res = Some (inr (Sst rest (ch + zlen it) (q_cnt s) (q_args s) (q_out s), fmt))) \/
   (matching (knd d) n it /\ assigns d = true /\ exists p args x, q_args s = p :: args /\ stored 112 (knd d) (siz d) it p x /\
      res = Some (inr (Sst rest (ch + zlen it) (q_cnt s + 1) args (q_out s ++ [x]), fmt)))).

Lemma u32_mod v m : 0 < m <= 4 -> u32 v mod 2 ^ (8 * m) = v mod 2 ^ (8 * m).
Proof.
  intros M. unfold u32, wrap. assert (H : (2 ^ (8 * m) | 2 ^ 32)).
  { exists (2 ^ (32 - 8 * m)). rewrite <- Z.pow_add_r by lia. f_equal. lia. }
  symmetry. now apply Znumtheory.Zmod_div_mod; [apply Z.pow_pos_nonneg; lia| |].
Qed.

(** What do_conv does after the white space. *)
Definition do_conv2 (sp : spec) (c : Z) (fmt : list Z) (s : sst) (inp : list Z) (ch : Z) : option (done + sst * list Z) :=
  let assign := s_assign sp in
  let leave r := Some (inl r) in
  let fail (e : bool) inp out := leave ((if e && (q_cnt s =? 0) then EOF else q_cnt s), inp, out) in
      let cnt' := q_cnt s + (if assign then 1 else 0) in
      let n_fuel := (2 * length inp + 8)%nat in
      if c =? 99 then
        let? (p, args) := (if assign then get_arg (q_args s) else Some (0, q_args s)) in
        let '(inp', wleft, ch', cs) := conv_c inp (if s_width sp <? 0 then 1 else s_width sp) ch [] in
        let out := if assign then q_out s ++ [PutChars p cs] else q_out s in
        if wleft =? 0 then Some (inr (Sst inp' ch' cnt' args out, fmt))
        else fail true inp' out
      else if c =? 115 then
        let? (p, args) := (if assign then get_arg (q_args s) else Some (0, q_args s)) in
        let? (inp', ch', cs) := conv_s inp (all_width (s_width sp)) ch [] in
        Some (inr (Sst inp' ch' cnt' args (if assign then q_out s ++ [PutChars p (cs ++ [0])] else q_out s), fmt))
      else if c =? 101 then
        let? r := float_loop n_fuel F_SIGN inp (FV (all_width (s_width sp)) ch [] 0 0 [] 0 0 0 0 0 0) in
        match r with
        | Fail e inp' => fail e inp' (q_out s)
        | Got v inp' ch' =>
            if assign then
              let? val := float_value v in
              let? (p, args) := get_arg (q_args s) in
              Some (inr (Sst inp' ch' cnt' args (q_out s ++ [PutInt p 4 val]), fmt))
            else Some (inr (Sst inp' ch' cnt' (q_args s) (q_out s), fmt))
        end
      else if negb (c =? 91) then
        let base := if (c =? 120) || (c =? 112) then 16 else if c =? 111 then 8 else if negb (c =? 105) then 10 else 0 in
        let? r := int_loop n_fuel I_SIGN inp (IV (all_width (s_width sp)) ch 0 false base 0) in
        match r with
        | Fail e inp' => fail e inp' (q_out s)
        | Got (n, sign) inp' ch' =>
            if assign then
              let n := if sign =? 45 then u32 (- n) else n in
              let? (p, args) := get_arg (q_args s) in
              let sz := int_size (s_lmod sp) in
              Some (inr (Sst inp' ch' cnt' args (q_out s ++ [PutInt p sz (n mod 2 ^ (8 * sz))]), fmt))
            else Some (inr (Sst inp' ch' cnt' (q_args s) (q_out s), fmt))
        end
      else
        let? (p, args) := (if assign then get_arg (q_args s) else Some (0, q_args s)) in
        let? c' := at0 fmt in
        let exclude := c' =? 94 in
        let? r := get_set (if exclude then tl fmt else fmt) [] in
        match r with
        | inl _ => leave (EOF, inp, q_out s)
        | inr (set, fmt) =>
            let '(inp', ch', cs, readone) := conv_set set exclude inp (all_width (s_width sp)) ch [] false in
            if zlen cs =? 0 then fail (negb readone) inp' (q_out s)
            else Some (inr (Sst inp' ch' cnt' args (if assign then q_out s ++ [PutChars p (cs ++ [0])] else q_out s), fmt))
        end.
Lemma do_conv_eq sp c fmt s inp ch : 
  (if (c =? 99) || (c =? 91) then Some (q_inp s, q_ch s) else skip_in (q_inp s) (q_ch s)) = Some (inp, ch) ->
  do_conv sp c fmt s = match inp with
    | [] => Some (inl ((if q_cnt s =? 0 then EOF else q_cnt s), [], q_out s))
    | _ => do_conv2 sp c fmt s inp ch end.
Proof. intros E. unfold do_conv. rewrite E. cbn [obind]. destruct inp; reflexivity. Qed.

(** The width of a conversion other than %c. *)
Definition width_fits (n : option Z) (w : Z) (inp : list Z) : Prop := match n with Some n => w = n | None => zlen inp <= w end.
Lemma all_width_ok n inp : (match n with Some n => 0 < n < 2 ^ 31 | None => True end) -> zlen inp <= 2 ^ 30 -> inp <> [] ->
  width_fits n (all_width (width_of n)) inp /\ 0 < all_width (width_of n).
Proof.
  intros N L NE. unfold all_width, width_fits, width_of. destruct n as [n|].
  - replace (n <? 0) with false by lia. lia.
  - change (-1 <? 0) with true. cbv iota. change INT_CAP with (2 ^ 31 - 1). lia.
Qed.

Lemma zlen_pos {A} (l : list A) : l <> [] -> 0 < zlen l.
Proof. destruct l as [|a l]; [congruence|]. rewrite zlen_cons. pose proof (zlen_nonneg l). lia. Qed.

Section Conv.
Variables (d : directive) (n : option Z) (inp : list Z) (ch : Z) (s : sst) (fmt : list Z).
Hypothesis FB : Forall byte inp.
Hypothesis LI : zlen inp <= 2 ^ 30.
Hypothesis NE : inp <> [].
Hypothesis NW : match n with Some n => 0 < n < 2 ^ 31 | None => True end.
Hypothesis KO : kind_ok (knd d).
Hypothesis AR : assigns d = true -> q_args s <> [].
Hypothesis NS : match knd d with KS => ~ starts_with is_space inp | _ => True end.
Let sp := Spec (assigns d) (width_of n) (lmod_of (siz d)) (kletter (knd d)).

Lemma conv2_c : knd d = KC -> conv_result d n inp ch s fmt (do_conv2 sp 99 fmt s inp ch).
Proof.
  intros K. unfold do_conv2. cbv zeta. change (99 =? 99) with true. cbv iota. cbn [sp s_assign s_width].
  set (w := if width_of n <? 0 then 1 else width_of n).
  assert (W : 0 < w /\ match n with Some n => w = n | None => w = 1 end).
  { unfold w, width_of. destruct n as [m|]; [replace (m <? 0) with false by lia; lia|]. change (-1 <? 0) with true. cbv iota. lia. }
  destruct W as (W & HN). destruct (conv_c_ok inp w ch [] ltac:(lia)) as (C & r & EC & LC & SC & R). rewrite R. cbn [app].
  exists C, r. rewrite K, EC. split; [now apply (char_item n w)|].
  assert (HN' : match n with Some n => n | None => 1 end = w) by (destruct n; lia).
  cbn [matching]. rewrite HN'. destruct (Z.eq_dec (zlen C) w) as [E|NE'].
  - right. replace (w - zlen C =? 0) with true by lia. destruct (assigns d).
    + right. destruct (q_args s) as [|p args]; [now destruct AR|]. cbn [get_arg obind]. split; [exact E|]. split; [reflexivity|].
      exists p, args, (PutChars p C). split; [reflexivity|]. split; [reflexivity|reflexivity].
    + left. cbn [obind]. rewrite Z.add_0_r. auto.
  - left. split; [exact NE'|]. destruct SC as [SC| ->]; [congruence|]. replace (w - zlen C =? 0) with false by lia.
    destruct (assigns d).
    + destruct (q_args s) as [|p args]; [now destruct AR|]. cbn [get_arg obind]. exists true, [PutChars p C].
      split; [right; split; [reflexivity|]; split; [reflexivity|]; eauto|]. split; [reflexivity|auto].
    + cbn [obind]. exists true, []. split; [auto|]. rewrite app_nil_r. auto.
Qed.

Lemma conv2_s : knd d = KS -> conv_result d n inp ch s fmt (do_conv2 sp 115 fmt s inp ch).
Proof.
  intros K. unfold do_conv2. cbv zeta. change (115 =? 99) with false. change (115 =? 115) with true. cbv iota. cbn [sp s_assign s_width].
  destruct (all_width_ok n inp NW LI NE) as (WF & W). set (w := all_width (width_of n)) in *.
  destruct (conv_s_ok inp FB w ch [] ltac:(lia)) as (C & r & EC & LC & FC & ST & R). rewrite R. cbn [app obind].
  assert (P : forall l, forallb (fun c => negb (spaceb c)) l = true <-> Forall (fun c => ~ is_space c) l).
  { intros l. rewrite forallb_forall, Forall_forall. split; intros H c I; specialize (H c I); cbv beta in *; rewrite <- spaceb_spec in *; destruct (spaceb c); cbn in *; congruence. }
  assert (NC : C <> []).
  { intros ->. rewrite K in NS. change (zlen (@nil Z)) with 0 in ST. cbn [app] in EC. subst r.
    destruct ST as [[A|A]|(c & t & A & B)]; [lia|congruence|]. rewrite A in NS. cbn in NS. rewrite <- spaceb_spec in NS. unfold cdelta in B.
    destruct (spaceb c); [congruence|discriminate B]. }
  assert (M : matching KS n C) by (split; [exact NC|now apply P]).
  exists C, r. rewrite K. split.
  - eapply (item_ok unit (cdelta (fun c => negb (spaceb c))) KS n inp C r tt tt w EC LC WF); [exists []; rewrite app_nil_r; exact M| | |exact ST].
    + intros l (_ & F). rewrite cend. apply P in F. rewrite F. discriminate.
    + rewrite cend, FC. reflexivity.
  - right. destruct (assigns d).
    + right. destruct (q_args s) as [|p args]; [now destruct AR|]. cbn [get_arg obind]. split; [exact M|]. split; [reflexivity|].
      exists p, args, (PutChars p (C ++ [0])). split; [reflexivity|]. split; [reflexivity|reflexivity].
    + left. cbn [obind]. rewrite Z.add_0_r. auto.
Qed.

Lemma conv2_set neg set fmt' : knd d = KSet neg set -> fmt = ktail (knd d) ++ fmt' -> conv_result d n inp ch s fmt' (do_conv2 sp 91 fmt s inp ch).
Proof.
  intros K EF. unfold do_conv2. cbv zeta. change (91 =? 99) with false. change (91 =? 115) with false. change (91 =? 101) with false. change (91 =? 91) with true.
  cbn [negb]. cbv iota. cbn [sp s_assign s_width].
  destruct (all_width_ok n inp NW LI NE) as (WF & W). set (w := all_width (width_of n)) in *.
  rewrite K in KO, EF. cbn [kind_ok ktail] in KO, EF. destruct KO as (K1 & K2 & K3 & K4).
  assert (EX : exists c', at0 fmt = Some c' /\ (c' =? 94) = neg /\ (if c' =? 94 then tl fmt else fmt) = set ++ 93 :: fmt').
  { rewrite <- !app_assoc in EF. cbn [app] in EF. destruct neg.
    - exists 94. rewrite EF. auto.
    - cbn [app] in EF. destruct set as [|c set]; [congruence|]. exists c. rewrite EF. cbn [app at0]. specialize (K4 eq_refl). cbn in K4.
      replace (c =? 94) with false by lia. auto. }
  destruct EX as (c' & A0 & A1 & A2). rewrite A0. cbn [obind]. rewrite A2, A1, (get_set_ok fmt' set [] K1) by auto. cbn [obind app].
  destruct (conv_set_ok set neg inp w ch [] false ltac:(lia)) as (C & r & ro & EC & LC & FC & ST & RO & _ & R). rewrite R. cbn [app].
  rewrite (RO W NE). set (P := fun c => negb (Bool.eqb (existsb (Z.eqb c) set) neg)) in *.
  assert (EXI : forall c, existsb (Z.eqb c) set = true <-> In c set).
  { intros c. rewrite existsb_exists. split; [intros (x & I & E); apply Z.eqb_eq in E; congruence|]. intros I. exists c. now rewrite Z.eqb_refl. }
  assert (PP : forall l, forallb P l = true <-> Forall (fun c => if neg then ~ In c set else In c set) l).
  { intros l. rewrite forallb_forall, Forall_forall. unfold P. split; intros H c I; specialize (H c I); pose proof (EXI c) as X;
      cbv beta in *; destruct neg, (existsb (Z.eqb c) set); cbn in *; try discriminate; try reflexivity; intuition congruence. }
  assert (CM : could_match (KSet neg set) n C).
  { destruct C as [|c C]; [|exists []; rewrite app_nil_r; split; [discriminate|now apply PP]]. cbn [app]. destruct neg.
    - exists [0]. split; [discriminate|]. constructor; [|constructor]. intros I. rewrite Forall_forall in K1. specialize (K1 0 I). cbv beta in K1. lia.
    - destruct set as [|c set]; [congruence|]. exists [c]. split; [discriminate|]. constructor; [now left|constructor]. }
  exists C, r. rewrite K. split.
  - eapply (item_ok unit (cdelta P) (KSet neg set) n inp C r tt tt w EC LC WF CM); [| |exact ST].
    + intros l (_ & F). rewrite cend. apply PP in F. rewrite F. discriminate.
    + rewrite cend, FC. reflexivity.
  - destruct (Z.eqb_spec (zlen C) 0) as [E|E].
    + left. apply nil_len in E. split; [intros (X & _); congruence|]. exists false, []. split; [auto|]. rewrite app_nil_r. cbn [negb andb].
      split; [|discriminate]. destruct (assigns d); [|reflexivity]. destruct (q_args s) as [|p args]; [now destruct AR|reflexivity].
    + assert (M : matching (KSet neg set) n C) by (split; [intros ->; now cbn in E|now apply PP]).
      right. destruct (assigns d).
      * right. destruct (q_args s) as [|p args]; [now destruct AR|]. cbn [get_arg obind]. split; [exact M|]. split; [reflexivity|].
        exists p, args, (PutChars p (C ++ [0])). split; [reflexivity|]. split; [reflexivity|reflexivity].
      * left. cbn [obind]. rewrite Z.add_0_r. auto.
Qed.

Lemma conv2_f c : knd d = KF c -> conv_result d n inp ch s fmt (do_conv2 sp 101 fmt s inp ch).
Proof.
  intros K. unfold do_conv2. cbv zeta. change (101 =? 99) with false. change (101 =? 115) with false. change (101 =? 101) with true.
  cbv iota. cbn [sp s_assign s_width].
  destruct (all_width_ok n inp NW LI NE) as (WF & W). set (w := all_width (width_of n)) in *.
  change (FV w ch [] 0 0 [] 0 0 0 0 0 0) with (freshv w ch 0).
  destruct (float_loop_ok inp (2 * length inp + 8) w ch FB W NE ltac:(lia)) as (C & r & st & EC & LC & DC & ST & REST).
  assert (MD : forall l, matching (KF c) n l -> dend gdelta G0 l <> None).
  { intros l (ng & v & F). destruct (float_run l ng v F) as (x & -> & _). discriminate. }
  exists C, r. rewrite K.
  destruct REST as [(v' & ng & fv & F & G & SG & ->)|(A & (ext & ng & fv & F) & e & -> & E)]; cbn [obind].
  - assert (M : matching (KF c) n C) by (exists ng, fv; exact F).
    split; [eapply (item_ok gs gdelta (KF c) n inp C r st G0 w EC LC WF); auto; exists []; now rewrite app_nil_r|].
    right. destruct (assigns d); [|left; rewrite Z.add_0_r; auto]. right.
    assert (LC' : zlen C <= 2 ^ 30) by (rewrite EC, zlen_app in LI; pose proof (zlen_nonneg r); lia).
    destruct (float_value_ok _ v' fv C G LC') as (b & -> & CV). cbn [obind]. destruct (q_args s) as [|p args]; [now destruct AR|]. cbn [get_arg obind].
    split; [exact M|]. split; [reflexivity|]. exists p, args, (PutInt p 4 b). split; [reflexivity|]. split; [|reflexivity].
    exists ng, fv, b. rewrite SG in CV. auto.
  - split; [eapply (item_ok gs gdelta (KF c) n inp C r st G0 w EC LC WF); auto; exists ext, ng, fv; exact F|].
    left. split.
    + intros (ng' & v & F'). destruct (float_run C ng' v F') as (x & X & AX). congruence.
    + exists e, []. rewrite app_nil_r. auto.
Qed.

Lemma conv2_i base : int_base (knd d) = Some base -> conv_result d n inp ch s fmt (do_conv2 sp (kconv (knd d)) fmt s inp ch).
Proof.
  intros K. unfold do_conv2. cbv zeta. cbn [sp s_assign s_width s_lmod].
  set (c := kconv (knd d)).
  assert (CB : (c =? 99) = false /\ (c =? 115) = false /\ (c =? 101) = false /\ (c =? 91) = false /\
    (if (c =? 120) || (c =? 112) then 16 else if c =? 111 then 8 else if negb (c =? 105) then 10 else 0) = base /\ int_bases base).
  { unfold c. destruct (knd d); try discriminate K; injection K as <-; unfold int_bases; auto 12. }
  destruct CB as (-> & -> & -> & -> & -> & HB). cbn [negb]. cbv iota.
  destruct (all_width_ok n inp NW LI NE) as (WF & W). set (w := all_width (width_of n)) in *.
  destruct (int_loop_ok base inp (2 * length inp + 8) w ch HB FB W NE ltac:(lia)) as (C & r & st & EC & LC & DC & ST & REST).
  assert (MK : forall l, matching (knd d) n l <-> exists v, int_seq base l v).
  { intros l. assert (Q : matching (knd d) n l <-> exists b v, int_base (knd d) = Some b /\ int_seq b l v) by (destruct (knd d); try discriminate K; reflexivity).
    rewrite Q, K. split; [intros (b & v & E & H); injection E as <-; eauto|intros (v & H); eauto]. }
  assert (MD : forall l, matching (knd d) n l -> dend (idelta base) D0 l <> None).
  { intros l M. apply MK in M. destruct M as (v & F). destruct (int_run base l v HB F) as (x & -> & _). discriminate. }
  exists C, r.
  destruct REST as [(v & m & sg & F & -> & R & V)|(A & (ext & v & F) & e & -> & E)]; cbn [obind].
  - assert (M : matching (knd d) n C) by (apply MK; eauto).
    split; [eapply (item_ok ids (idelta base) (knd d) n inp C r st D0 w EC LC WF); auto; exists []; now rewrite app_nil_r|].
    right. destruct (assigns d); [|left; rewrite Z.add_0_r; auto]. right. rewrite V. destruct (q_args s) as [|p args]; [now destruct AR|]. cbn [get_arg obind].
    split; [exact M|]. split; [reflexivity|]. rewrite int_size_ok. exists p, args. eexists. split; [reflexivity|]. split; [|reflexivity].
    rewrite u32_mod by (destruct (siz d); cbn; lia).
    destruct (knd d); try discriminate K; cbn [stored]; rewrite K; eauto.
  - split; [eapply (item_ok ids (idelta base) (knd d) n inp C r st D0 w EC LC WF); auto; exists ext; apply MK; eauto|].
    left. split.
    + intros M. apply MK in M. destruct M as (v' & F'). destruct (int_run base C v' HB F') as (x & X & AX). congruence.
    + exists e, []. rewrite app_nil_r. auto.
Qed.

Lemma conv2_ok fmt' : fmt = ktail (knd d) ++ fmt' -> conv_result d n inp ch s fmt' (do_conv2 sp (kconv (knd d)) fmt s inp ch).
Proof.
  intros EF. assert (X : exists k, knd d = k) by eauto. destruct X as (k & K).
  assert (SAME : ktail k = [] -> fmt = fmt') by (intros Q; rewrite EF, K, Q; reflexivity).
  destruct k.
  1-7: rewrite <- (SAME eq_refl); eapply conv2_i; rewrite K; reflexivity.
  - rewrite <- (SAME eq_refl). replace (kconv (knd d)) with 101 by now rewrite K. eapply conv2_f, K.
  - rewrite <- (SAME eq_refl). replace (kconv (knd d)) with 99 by now rewrite K. now apply conv2_c.
  - rewrite <- (SAME eq_refl). replace (kconv (knd d)) with 115 by now rewrite K. now apply conv2_s.
  - replace (kconv (knd d)) with 91 by now rewrite K. eapply conv2_set; [exact K|exact EF].
Qed.
End Conv.
