From Verif Require Import Base BaseLemmas CtypeModel StrtolModel StrtolSpec.


Lemma byte_all (P : Z -> bool) :
  forallb P (map Z.of_nat (seq 0 256)) = true -> forall c, byte c -> P c = true.
Proof.
  intros H c Hc. rewrite forallb_forall in H. apply H. apply in_map_iff.
  exists (Z.to_nat c). unfold byte in Hc. split; [lia|]. apply in_seq. lia.
Qed.

Definition spaceb (c : Z) : bool := (c =? 32) || ((9 <=? c) && (c <=? 13)).
Lemma spaceb_spec c : spaceb c = true <-> is_space c.
Proof. unfold spaceb, is_space. lia. Qed.

Lemma isspace_ok c : byte c -> exists t, isspace c = Some t /\ ((t =? 0) = negb (spaceb c)).
Proof.
  intros Hc.
  pose proof (byte_all (fun c => match isspace c with
     | Some t => eqb (t =? 0) (negb (spaceb c)) | None => false end) eq_refl c Hc) as H.
  cbv beta in H. destruct (isspace c) as [t|]; [|discriminate].
  exists t. split; auto. apply eqb_prop. exact H.
Qed.

(** Digit value as a function. *)
Definition dval (c : Z) : option Z :=
  if (48 <=? c) && (c <=? 57) then Some (c - 48)
  else if (65 <=? c) && (c <=? 90) then Some (c - 65 + 10)
  else if (97 <=? c) && (c <=? 122) then Some (c - 97 + 10) else None.

Lemma dval_spec c v : dval c = Some v <-> digit_val c v.
Proof.
  unfold dval. split.
  - destruct ((48 <=? c) && (c <=? 57)) eqn:E1. { intros HH; apply some_inj in HH; subst v. apply dv_dec. lia. }
    destruct ((65 <=? c) && (c <=? 90)) eqn:E2. { intros HH; apply some_inj in HH; subst v. apply dv_upper. lia. }
    destruct ((97 <=? c) && (c <=? 122)) eqn:E3; [|discriminate]. intros HH; apply some_inj in HH; subst v. apply dv_lower. lia.
  - intros H; destruct H as [c H|c H|c H]; unfold dval.
    + replace ((48 <=? c) && (c <=? 57)) with true by lia. reflexivity.
    + replace ((48 <=? c) && (c <=? 57)) with false by lia.
      replace ((65 <=? c) && (c <=? 90)) with true by lia. reflexivity.
    + replace ((48 <=? c) && (c <=? 57)) with false by lia.
      replace ((65 <=? c) && (c <=? 90)) with false by lia.
      replace ((97 <=? c) && (c <=? 122)) with true by lia. reflexivity.
Qed.

Definition digitb (b c : Z) : bool := match dval c with Some v => v <? b | None => false end.
Lemma digitb_spec b c : digitb b c = true <-> is_digit b c.
Proof.
  unfold digitb, is_digit. split.
  - destruct (dval c) eqn:E; [|discriminate]. intros. exists z. rewrite <- dval_spec. split; auto; lia.
  - intros (v & H & L). apply dval_spec in H. rewrite H. lia.
Qed.

Lemma dval_range c v : dval c = Some v -> 0 <= v <= 35.
Proof. unfold dval. repeat match goal with |- context [if ?b then _ else _] => destruct b eqn:? end; intros HH; try discriminate; apply some_inj in HH; lia. Qed.

Lemma digit_char_ok c b : byte c ->
  digit_char c b = Some (match dval c with Some v => if v >=? b then None else Some v | None => None end).
Proof.
  intros Hc. unfold digit_char.
  pose proof (byte_all (fun c => match isdigit c, isalpha c with
     | Some d, Some a =>
        match (if negb (d =? 0) then Some (c - 48)
           else if negb (a =? 0) then Some (Z.land c (-33) - 55) else None), dval c with
        | Some x, Some y => x =? y | None, None => true | _, _ => false end
     | _, _ => false end) eq_refl c Hc) as H.
  cbv beta in H. destruct (isdigit c) as [d|]; [|discriminate].
  destruct (isalpha c) as [a|]; [|discriminate]. cbn [obind].
  destruct (if negb (d =? 0) then _ else _), (dval c); try discriminate; auto.
  apply Z.eqb_eq in H. subst. reflexivity.
Qed.

Lemma digit_char_yes c b v : byte c -> dval c = Some v -> v < b -> digit_char c b = Some (Some v).
Proof. intros. rewrite digit_char_ok by auto. rewrite H0. replace (v >=? b) with false by lia. auto. Qed.
Lemma digit_char_no c b : byte c -> digitb b c = false -> digit_char c b = Some None.
Proof.
  intros. rewrite digit_char_ok by auto. unfold digitb in H0. destruct (dval c); auto.
  replace (z >=? b) with true by lia. auto.
Qed.

Lemma zget_at (pre : list Z) c t p : p = zlen pre -> zget (pre ++ c :: t) p = Some c.
Proof. intros ->. rewrite zget_app_r by lia. now rewrite Z.sub_diag. Qed.

(** Span decomposition. *)
Lemma span (P : Z -> bool) l : In 0 l -> P 0 = false ->
  exists a c t, l = a ++ c :: t /\ forallb P a = true /\ P c = false /\ (c <> 0 -> In 0 t).
Proof.
  intros HI H0. induction l as [|x l IH]; [destruct HI|].
  destruct (P x) eqn:E.
  - destruct HI as [->|HI]; [congruence|]. destruct (IH HI) as (a & c & t & -> & Ha & Hc & Ht).
    exists (x :: a), c, t. simpl. rewrite E. auto.
  - exists [], x, l. repeat split; auto. intros. destruct HI; congruence.
Qed.

Lemma skip_space_ok ws c t : Forall byte ws -> byte c -> forallb spaceb ws = true -> spaceb c = false ->
  forall fuel pre, (length ws < fuel)%nat ->
  skip_space fuel (pre ++ ws ++ c :: t) (zlen pre) = Some (zlen pre + zlen ws).
Proof.
  intros Hb Hc Hs Hn. induction ws as [|w ws IH]; intros fuel pre Hf; (destruct fuel; [simpl in Hf; lia|]).
  - cbn [skip_space app]. rewrite zget_at by reflexivity. cbn [obind].
    destruct (isspace_ok c Hc) as (v & E & F). rewrite E. cbn [obind]. rewrite F, Hn. cbn [negb].
    f_equal. zl. lia.
  - cbn [skip_space app]. rewrite zget_at by reflexivity. cbn [obind].
    inversion Hb; subst. simpl in Hs. apply andb_true_iff in Hs as [Hw Hs].
    destruct (isspace_ok w) as (v & E & F); auto. rewrite E. cbn [obind]. rewrite F, Hw. cbn [negb].
    specialize (IH ltac:(auto) Hs fuel (pre ++ [w]) ltac:(simpl in Hf; lia)).
    rewrite <- app_assoc in IH. cbn [app] in IH.
    replace (zlen pre + 1) with (zlen (pre ++ [w])) by (zl; lia).
    rewrite IH. f_equal. zl. lia.
Qed.

(** Value of a digit list as a function. *)
Definition val_from (b n : Z) (ds : list Z) : Z :=
  fold_left (fun n c => n * b + match dval c with Some v => v | None => 0 end) ds n.

Lemma value_fun b ds n : value b ds n -> val_from b 0 ds = n.
Proof.
  induction 1; [reflexivity|]. unfold val_from in *. rewrite fold_left_app. cbn [fold_left].
  rewrite IHvalue. apply dval_spec in H0. rewrite H0. reflexivity.
Qed.
Lemma value_exists b ds : Forall (is_digit b) ds -> value b ds (val_from b 0 ds).
Proof.
  induction ds as [|c ds IH] using rev_ind; intros H; [constructor|].
  apply Forall_app in H as [H1 H2]. inversion H2 as [|? ? (v & Hv & _) _]; subst.
  unfold val_from. rewrite fold_left_app. cbn [fold_left]. rewrite (proj2 (dval_spec _ _) Hv).
  constructor; auto. 
Qed.

Lemma val_from_ge b ds n : 1 <= b -> 0 <= n -> n <= val_from b n ds.
Proof.
  intros Hb. revert n. induction ds as [|c ds IH]; intros n Hn; [unfold val_from; simpl; lia|].
  unfold val_from in *. cbn [fold_left].
  assert (0 <= match dval c with Some v => v | None => 0 end).
  { destruct (dval c) eqn:E; [apply dval_range in E|]; lia. }
  etransitivity; [|apply IH; nia]. nia.
Qed.

Definition good (V n : Z) (big : bool) : Prop :=
  (big = false /\ n = V /\ V <= ULONG_MAX) \/ (big = true /\ V > ULONG_MAX /\ 0 <= n <= ULONG_MAX).

Lemma digits_ok b ds r t : 2 <= b <= 36 ->
  Forall byte ds -> byte r -> forallb (digitb b) ds = true -> digitb b r = false ->
  forall fuel pre V n big cnt, (length ds < fuel)%nat -> 0 <= V -> good V n big ->
  0 <= cnt -> cnt + zlen ds < 2 ^ 32 ->
  exists n' big',
  digits fuel (pre ++ ds ++ r :: t) (zlen pre) b (ULONG_MAX / b) n big cnt =
    Some (zlen pre + zlen ds, n', big', cnt + zlen ds) /\ good (val_from b V ds) n' big'.
Proof.
  intros Hb Hby Hr Hd Hn. induction ds as [|d ds IH]; intros fuel pre V n big cnt Hf HV HG Hc Hl;
    (destruct fuel; [simpl in Hf; lia|]).
  - cbn [digits app]. rewrite zget_at by reflexivity. cbn [obind].
    exists n, big. zl; rewrite !Z.add_0_r. split; [|exact HG].
    destruct (Z.eqb_spec r 0); [reflexivity|].
    rewrite digit_char_no by auto. reflexivity.
  - cbn [digits app]. rewrite zget_at by reflexivity. cbn [obind].
    inversion Hby as [|? ? Hbd Hbds]; subst. simpl in Hd. apply andb_true_iff in Hd as [Hd Hds].
    unfold digitb in Hd. destruct (dval d) as [v|] eqn:Ev; [|discriminate].
    pose proof (dval_range _ _ Ev) as Rv.
    destruct (Z.eqb_spec d 0). { subst d. discriminate. }
    rewrite (digit_char_yes d b v) by (auto; lia). cbn [obind].
    rewrite zlen_cons in Hl. pose proof (zlen_nonneg ds).
    replace (zlen pre + 1) with (zlen (pre ++ [d])) by (zl; lia).
    replace (pre ++ d :: ds ++ r :: t) with ((pre ++ [d]) ++ ds ++ r :: t) by (rewrite <- app_assoc; reflexivity).
    assert (EC : u32 (cnt + 1) = cnt + 1) by (apply wrap_small; lia). rewrite EC.
    match goal with |- context [digits fuel _ _ _ _ ?nn ?bb _] =>
      destruct (IH ltac:(auto) ltac:(auto) fuel (pre ++ [d]) (V * b + v) nn bb (cnt + 1)) as (n' & big' & E & G')
    end.
    6: { rewrite E. exists n', big'. split.
         - zl. feq; lia.
         - unfold val_from. cbn [fold_left]. rewrite Ev. exact G'. }
    { simpl in Hf. lia. }
    { assert (0 <= V * b) by (apply Z.mul_nonneg_nonneg; lia). lia. }
    2: lia.
    2: lia.
    unfold good in *. unfold ULONG_MAX in *.
    destruct HG as [(-> & -> & HM)|(-> & HM & HnR)].
    + cbn [orb]. destruct (Z.gtb_spec V ((2 ^ 32 - 1) / b)) as [G|G]; cbn [orb].
      * right. split; [reflexivity|]. split. 2: { pose proof (u32_range (u32 (V * b) + v)). lia. }
        assert ((2 ^ 32 - 1) / b + 1 <= V) by lia.
        assert (2 ^ 32 - 1 < b * ((2 ^ 32 - 1) / b + 1)).
        { pose proof (Z.mul_succ_div_gt (2 ^ 32 - 1) b ltac:(lia)). lia. }
        nia.
      * assert (V * b <= 2 ^ 32 - 1).
        { pose proof (Z.mul_div_le (2 ^ 32 - 1) b ltac:(lia)). nia. }
        assert (E1 : u32 (V * b) = V * b) by (apply wrap_small; nia). rewrite E1.
        destruct (Z.gtb_spec (V * b) (2 ^ 32 - 1 - v)) as [G2|G2].
        -- right. split; [reflexivity|]. split; [lia|]. pose proof (u32_range (V * b + v)). lia.
        -- left. split; [reflexivity|]. split; [apply wrap_small; nia|lia].
    + right. cbn [orb]. split; [reflexivity|]. split; [nia|].
      pose proof (u32_range (u32 (n * b) + v)). lia.
Qed.

(** The front part: white space and sign. *)
Definition signb (c : Z) : bool := (c =? 43) || (c =? 45).
Definition neg_of (sg : list Z) : Z := match sg with [45] => 1 | _ => 0 end.

Definition front_ok (ws sg body : list Z) : Prop :=
  forallb spaceb ws = true /\
  ((sg = [] /\ exists c t, body = c :: t /\ spaceb c = false /\ signb c = false) \/
   ((sg = [43] \/ sg = [45]) /\ body <> [])).

Lemma front_steps ws sg body : front_ok ws sg body -> Forall byte (ws ++ sg ++ body) ->
  skip_space (S (length (ws ++ sg ++ body))) (ws ++ sg ++ body) 0 = Some (zlen ws) /\
  get_sign (ws ++ sg ++ body) (zlen ws) = Some (neg_of sg, zlen (ws ++ sg)).
Proof.
  intros (Hw & Hs) HB. apply Forall_app in HB as [HBw HB].
  assert (exists c t, sg ++ body = c :: t /\ spaceb c = false /\ byte c /\
    get_sign (ws ++ c :: t) (zlen ws) = Some (neg_of sg, zlen (ws ++ sg))) as (c & t & E & Hc & Hbc & G).
  { destruct Hs as [(-> & c & t & -> & H1 & H2)|(Hsg & Hb)].
    - exists c, t. inversion HB; subst. split; [reflexivity|]. split; [auto|]. split; [auto|].
      unfold get_sign. rewrite zget_at by reflexivity. cbn [obind].
      unfold signb in H2. replace (c =? 45) with false by lia. replace (c =? 43) with false by lia.
      rewrite app_nil_r. reflexivity.
    - destruct Hsg as [-> | ->]; [exists 43, body | exists 45, body]; (split; [reflexivity|]);
      (split; [reflexivity|]); (split; [unfold byte; lia|]);
      unfold get_sign; rewrite zget_at by reflexivity; cbn [obind Z.eqb Pos.eqb neg_of];
      zl; feq; lia. }
  rewrite E. split; [|exact G].
  pose proof (skip_space_ok ws c t HBw Hbc Hw Hc (S (length (ws ++ c :: t))) []) as K.
  cbn [app] in K. zl. rewrite K; [f_equal; lia|]. rewrite app_length. lia.
Qed.

Lemma front_exists s : In 0 s -> exists ws sg body, s = ws ++ sg ++ body /\ front_ok ws sg body /\ In 0 body.
Proof.
  intros HI. destruct (span spaceb s HI eq_refl) as (ws & c & t & -> & Hw & Hc & Ht).
  destruct (signb c) eqn:E.
  - exists ws, [c], t. assert (c <> 0) by (unfold signb in E; lia). split; [reflexivity|].
    split; [|auto]. split; auto. right. split; [unfold signb in E; assert (c = 43 \/ c = 45) as [->| ->] by lia; auto|].
    specialize (Ht H). destruct t; [destruct Ht|discriminate].
  - exists ws, [], (c :: t). split; [reflexivity|]. split; [split; auto; left; eauto 8|].
    destruct (Z.eq_dec c 0); [left; auto|right; auto].
Qed.

Definition hexpfx (base : Z) (body : list Z) : bool :=
  match body with
  | c :: x :: _ => ((base =? 0) || (base =? 16)) && (c =? 48) && ((x =? 120) || (x =? 88))
  | _ => false
  end.

Definition base_of (base : Z) (body : list Z) : Z :=
  if base =? 0 then match body with c :: _ => if c =? 48 then 8 else 10 | [] => 10 end else base.

Lemma get_prefix_yes base pre c x t : hexpfx base (c :: x :: t) = true ->
  get_prefix (pre ++ c :: x :: t) (zlen pre) base = Some (16, zlen pre + 2, true).
Proof.
  cbn [hexpfx]. intros H. apply andb_true_iff in H as [H H3]. apply andb_true_iff in H as [H1 H2].
  unfold get_prefix. rewrite H1, zget_at by reflexivity. cbn [obind]. rewrite H2.
  replace (pre ++ c :: x :: t) with ((pre ++ [c]) ++ x :: t) by (rewrite <- app_assoc; reflexivity).
  rewrite zget_at by (zl; lia). cbn [obind]. rewrite H3. reflexivity.
Qed.

Lemma get_prefix_no base pre body : hexpfx base body = false -> In 0 body ->
  get_prefix (pre ++ body) (zlen pre) base = Some (base, zlen pre, false) /\
  get_base (pre ++ body) (zlen pre) base = Some (base_of base body).
Proof.
  intros H HI. destruct body as [|c t]; [destruct HI|].
  unfold get_prefix, get_base, base_of. split.
  - destruct ((base =? 0) || (base =? 16)) eqn:E; [|reflexivity].
    rewrite zget_at by reflexivity. cbn [obind]. destruct (Z.eqb_spec c 48); [|reflexivity].
    destruct t as [|x t]; [destruct HI as [HI|[]]; lia|].
    replace (pre ++ c :: x :: t) with ((pre ++ [c]) ++ x :: t) by (rewrite <- app_assoc; reflexivity).
    rewrite zget_at by (zl; lia). cbn [obind].
    cbn [hexpfx] in H. rewrite E in H. replace (c =? 48) with true in H by lia. cbn [andb] in H.
    rewrite H. reflexivity.
  - destruct (base =? 0); [|reflexivity]. rewrite zget_at by reflexivity. reflexivity.
Qed.

(** Complete description of the parsing part: [pfx] is 0x or nothing. *)
Definition split_ok (base : Z) (body pfx : list Z) (b : Z) (ds : list Z) (r : Z) (t : list Z) : Prop :=
  body = pfx ++ ds ++ r :: t /\ forallb (digitb b) ds = true /\ digitb b r = false /\
  ((hexpfx base body = true /\ b = 16 /\ zlen pfx = 2) \/
   (hexpfx base body = false /\ b = base_of base body /\ pfx = [])).

Lemma split_exists base body : In 0 body -> exists pfx b ds r t, split_ok base body pfx b ds r t.
Proof.
  intros HI. destruct (hexpfx base body) eqn:E.
  - destruct body as [|c [|x t0]]; try discriminate.
    assert (HI0 : In 0 t0).
    { cbn [hexpfx] in E. destruct HI as [?|[?|?]]; auto; exfalso; lia. }
    destruct (span (digitb 16) t0 HI0 eq_refl) as (ds & r & t & -> & A & B & _).
    exists [c; x], 16, ds, r, t. repeat split; auto.
  - destruct (span (digitb (base_of base body)) body HI eq_refl) as (ds & r & t & EE & A & B & _).
    exists [], (base_of base body), ds, r, t. repeat split; auto.
Qed.

Definition parse (s : list Z) (base : Z) : option (Z * Z * Z * bool * bool * Z) :=
  let? p := skip_space (S (length s)) s 0 in
  let? (neg, p) := get_sign s p in
  let? (base, p, hexpfx) := get_prefix s p base in
  let? base := get_base s p base in
  let? _ := guard (negb (base =? 0)) in
  let? (p, n, toobig, cnt) := digits (S (length s)) s p base (ULONG_MAX / base) 0 false 0 in
  Some (neg, p, n, toobig, hexpfx, cnt).

Lemma parse_ok base ws sg body pfx b ds r t :
  (base = 0 \/ 2 <= base <= 36) ->
  let s := ws ++ sg ++ body in
  Forall byte s -> In 0 body -> zlen s < 2 ^ 32 ->
  front_ok ws sg body -> split_ok base body pfx b ds r t ->
  2 <= b <= 36 /\
  exists n big, good (val_from b 0 ds) n big /\
  parse s base = Some (neg_of sg, zlen s - zlen (r :: t), n, big, hexpfx base body, zlen ds).
Proof.
  intros Hbase s HB HI HL HF (Ebody & Hds & Hr & Hcase).
  destruct (front_steps ws sg body HF HB) as [F1 F2].
  assert (Hb : 2 <= b <= 36).
  { destruct Hcase as [(_ & -> & _)|(_ & -> & _)]; [lia|]. unfold base_of.
    destruct (Z.eqb_spec base 0); [|lia]. destruct body; [lia|]. destruct (_ =? _); lia. }
  split; [exact Hb|].
  set (pre := ws ++ sg ++ pfx).
  assert (Es : s = pre ++ ds ++ r :: t).
  { unfold s, pre. rewrite Ebody, <- !app_assoc. reflexivity. }
  assert (HBd : Forall byte ds /\ byte r).
  { unfold s in HB. rewrite Ebody in HB. rewrite !Forall_app in HB.
    destruct HB as (_ & _ & _ & HBd & HBr). inversion HBr; auto. }
  destruct HBd as [HBd HBr].
  assert (Hlen : zlen s = zlen pre + zlen ds + zlen (r :: t)).
  { rewrite Es. rewrite !zlen_app. lia. }
  assert (Hlr : 1 <= zlen (r :: t)) by (rewrite zlen_cons; pose proof (zlen_nonneg t); lia).
  pose proof (zlen_nonneg pre) as Hpn. pose proof (zlen_nonneg ds) as Hdn.
  destruct (digits_ok b ds r t Hb HBd HBr Hds Hr (S (length s)) pre 0 0 false 0) as (n & big & ED & G).
  { rewrite Es. rewrite !app_length. lia. }
  { lia. }
  { left. unfold ULONG_MAX. repeat split; lia. }
  { lia. }
  { lia. }
  exists n, big. split; [exact G|].
  unfold parse. unfold s in *. rewrite F1. cbn [obind]. rewrite F2. cbn [obind].
  assert (EP : exists hb bb, get_prefix (ws ++ sg ++ body) (zlen (ws ++ sg)) base = Some (bb, zlen pre, hb)
     /\ get_base (ws ++ sg ++ body) (zlen pre) bb = Some b /\ hb = hexpfx base body).
  { destruct Hcase as [(Hh & -> & Hp)|(Hh & Hb' & ->)].
    - exists true, 16. destruct body as [|c [|x t0]]; try discriminate.
      rewrite app_assoc, (get_prefix_yes base (ws ++ sg) c x t0 Hh).
      unfold pre. rewrite app_assoc, (zlen_app (ws ++ sg) pfx), Hp. auto.
    - exists false, base. unfold pre. rewrite app_nil_r.
      rewrite app_assoc. destruct (get_prefix_no base (ws ++ sg) body Hh HI) as [P1 P2].
      rewrite P1, P2, Hb'. auto. }
  destruct EP as (hb & bb & P1 & P2 & Ehb). rewrite P1. cbn [obind]. rewrite P2. cbn [obind].
  replace (negb (b =? 0)) with true by lia. cbn [guard obind].
  rewrite <- Es in ED. rewrite ED. cbn [obind]. rewrite Ehb. feq; lia.
Qed.


Lemma strtol_parse s base :
  strtol s base =
  let? (neg, p, n, toobig, hexpfx, cnt) := parse s base in
  let toobig := toobig || (n >? ULONG_MAX / 2 + neg) in
  let n := if neg =? 0 then n else u32 (- n) in
  let n := if toobig then ULONG_MAX / 2 + neg else n in
  let (cnt, p) := if (cnt =? 0) && hexpfx then (1, p - 1) else (cnt, p) in
  Some (s32 n, toobig, if cnt =? 0 then 0 else p).
Proof.
  unfold strtol, parse.
  destruct (skip_space _ _ _); [|reflexivity]. cbn [obind].
  destruct (get_sign _ _) as [[? ?]|]; [|reflexivity]. cbn [obind].
  destruct (get_prefix _ _ _) as [[[? ?] ?]|]; [|reflexivity]. cbn [obind].
  destruct (get_base _ _ _); [|reflexivity]. cbn [obind].
  destruct (guard _); [|reflexivity]. cbn [obind].
  destruct (digits _ _ _ _ _ _ _ _) as [[[[? ?] ?] ?]|]; reflexivity.
Qed.

Lemma strtoul_parse s base :
  strtoul s base =
  let? (neg, p, n, toobig, hexpfx, cnt) := parse s base in
  let n := if neg =? 0 then n else u32 (- n) in
  let n := if toobig then ULONG_MAX else n in
  let (cnt, p) := if (cnt =? 0) && hexpfx then (1, p - 1) else (cnt, p) in
  Some (n, toobig, if cnt =? 0 then 0 else p).
Proof.
  unfold strtoul, parse.
  destruct (skip_space _ _ _); [|reflexivity]. cbn [obind].
  destruct (get_sign _ _) as [[? ?]|]; [|reflexivity]. cbn [obind].
  destruct (get_prefix _ _ _) as [[[? ?] ?]|]; [|reflexivity]. cbn [obind].
  destruct (get_base _ _ _); [|reflexivity]. cbn [obind].
  destruct (guard _); [|reflexivity]. cbn [obind].
  destruct (digits _ _ _ _ _ _ _ _) as [[[[? ?] ?] ?]|]; reflexivity.
Qed.

Lemma neg_of_cases sg ws body : front_ok ws sg body ->
  (sg = [45] /\ neg_of sg = 1) \/ ((sg = [] \/ sg = [43]) /\ neg_of sg = 0).
Proof. intros (_ & [(-> & _)|([-> | ->] & _)]); auto. Qed.

Lemma fin_signed V n big neg : neg = 0 \/ neg = 1 -> 0 <= V -> good V n big ->
  let v := if neg =? 0 then V else - V in
  let toobig := big || (n >? ULONG_MAX / 2 + neg) in
  toobig = ((v >? 2 ^ 31 - 1) || (v <? - 2 ^ 31)) /\
  s32 (if toobig then ULONG_MAX / 2 + neg else if neg =? 0 then n else u32 (- n)) = clamp_signed v.
Proof.
  intros Hn HV G. cbv zeta. unfold good, clamp_signed, ULONG_MAX in *.
  change ((2 ^ 32 - 1) / 2) with (2 ^ 31 - 1).
  destruct Hn as [-> | ->]; cbn [Z.eqb].
  - destruct G as [(-> & -> & HM)|(-> & HM & _)]; cbn [orb].
    + destruct (Z.gtb_spec V (2 ^ 31 - 1 + 0)).
      * replace (V >? 2 ^ 31 - 1) with true by lia. split; [reflexivity|]. vm_compute. reflexivity.
      * replace (V >? 2 ^ 31 - 1) with false by lia. replace (V <? - 2 ^ 31) with false by lia.
        split; [reflexivity|]. apply swrap_small; simpl; lia.
    + replace (V >? 2 ^ 31 - 1) with true by lia. split; [reflexivity|]. vm_compute. reflexivity.
  - destruct G as [(-> & -> & HM)|(-> & HM & _)]; cbn [orb].
    + replace (- V >? 2 ^ 31 - 1) with false by lia.
      destruct (Z.gtb_spec V (2 ^ 31 - 1 + 1)).
      * replace (- V <? - 2 ^ 31) with true by lia. split; [reflexivity|]. vm_compute. reflexivity.
      * replace (- V <? - 2 ^ 31) with false by lia. split; [reflexivity|].
        unfold s32, u32. rewrite swrap_wrap. apply swrap_small; simpl; lia.
    + replace (- V >? 2 ^ 31 - 1) with false by lia.
      replace (- V <? - 2 ^ 31) with true by lia. split; [reflexivity|]. vm_compute. reflexivity.
Qed.

Lemma val_nonneg b ds : 1 <= b -> 0 <= val_from b 0 ds.
Proof. intros. apply val_from_ge; lia. Qed.

Lemma zlen_zero_nil {A} (l : list A) : zlen l = 0 <-> l = [].
Proof. split; [|intros ->; reflexivity]. destruct l; auto. rewrite zlen_cons. pose proof (zlen_nonneg l). lia. Qed.

Lemma strtol_master base ws sg body pfx b ds r t :
  (base = 0 \/ 2 <= base <= 36) ->
  let s := ws ++ sg ++ body in
  Forall byte s -> In 0 body -> zlen s < 2 ^ 32 ->
  front_ok ws sg body -> split_ok base body pfx b ds r t ->
  let V := val_from b 0 ds in
  let v := if neg_of sg =? 0 then V else - V in
  let e := if zlen ds =? 0 then (if hexpfx base body then zlen s - zlen (r :: t) - 1 else 0)
           else zlen s - zlen (r :: t) in
  strtol s base = Some (clamp_signed v, (v >? 2 ^ 31 - 1) || (v <? - 2 ^ 31), e) /\
  strtoul s base = Some ((if V >? 2 ^ 32 - 1 then 2 ^ 32 - 1 else u32 v), V >? 2 ^ 32 - 1, e).
Proof.
  intros Hbase s HB HI HL HF HS V v e.
  destruct (parse_ok base ws sg body pfx b ds r t Hbase HB HI HL HF HS) as (Hb & n & big & G & EP).
  fold V in G. assert (HV : 0 <= V) by (apply val_nonneg; lia).
  assert (Hneg : neg_of sg = 0 \/ neg_of sg = 1) by (destruct (neg_of_cases _ _ _ HF) as [[_ ->]|[_ ->]]; auto).
  split.
  - rewrite strtol_parse. unfold s. rewrite EP. cbn [obind].
    destruct (fin_signed V n big (neg_of sg) Hneg HV G) as [T1 T2]. cbv zeta in T1, T2.
    fold v in T1, T2. cbv zeta. rewrite T2, T1. unfold e, s.
    destruct (Z.eqb_spec (zlen ds) 0); [|cbn [andb]; destruct (Z.eqb_spec (zlen ds) 0); [lia|reflexivity]].
    destruct (hexpfx base body); cbn [andb]; [reflexivity|].
    destruct (Z.eqb_spec (zlen ds) 0); [reflexivity|lia].
  - rewrite strtoul_parse. unfold s. rewrite EP. cbn [obind]. cbv zeta. unfold e, s.
    assert (X : (if big then ULONG_MAX else if neg_of sg =? 0 then n else u32 (- n)) =
                (if V >? 2 ^ 32 - 1 then 2 ^ 32 - 1 else u32 v) /\ big = (V >? 2 ^ 32 - 1)).
    { unfold good, ULONG_MAX in *. destruct G as [(-> & -> & HM)|(-> & HM & _)].
      - replace (V >? 2 ^ 32 - 1) with false by lia. split; [|reflexivity]. unfold v.
        destruct (neg_of sg =? 0); [|reflexivity]. symmetry. apply wrap_small. lia.
      - replace (V >? 2 ^ 32 - 1) with true by lia. auto. }
    destruct X as [X1 X2]. rewrite X1, X2.
    destruct (Z.eqb_spec (zlen ds) 0); [|cbn [andb]; destruct (Z.eqb_spec (zlen ds) 0); [lia|reflexivity]].
    destruct (hexpfx base body); cbn [andb]; [reflexivity|].
    destruct (Z.eqb_spec (zlen ds) 0); [reflexivity|lia].
Qed.

(** Link with the declarative specification. *)
Lemma forallb_digit b ds : forallb (digitb b) ds = true <-> Forall (is_digit b) ds.
Proof.
  rewrite forallb_forall, Forall_forall. split; intros H x Hx; apply digitb_spec, H, Hx.
Qed.
Lemma forallb_space ws : forallb spaceb ws = true <-> Forall is_space ws.
Proof.
  rewrite forallb_forall, Forall_forall. split; intros H x Hx; apply spaceb_spec, H, Hx.
Qed.

Lemma digit_not_space_sign b c : b <= 36 -> is_digit b c -> spaceb c = false /\ signb c = false /\ c <> 0.
Proof. intros Hb (v & H & _). unfold spaceb, signb. inversion H; subst; lia. Qed.

Lemma subject_split base s neg b ds rest : (base = 0 \/ 2 <= base <= 36) ->
  In 0 s -> subject base s neg b ds rest ->
  exists ws sg body pfx b' ds' r t,
    s = ws ++ sg ++ body /\ In 0 body /\ front_ok ws sg body /\
    neg = (negb (neg_of sg =? 0)) /\
    split_ok base body pfx b' ds' r t /\
    val_from b 0 ds = val_from b' 0 ds' /\
    zlen s - zlen rest =
      (if zlen ds' =? 0 then (if hexpfx base body then zlen s - zlen (r :: t) - 1 else 0)
       else zlen s - zlen (r :: t)).
Proof.
  intros Hbase HI (ws & sg & pfx & Es & Hws & Hsg & Hne & Hds & Hrest & Hcase).
  apply forallb_space in Hws. pose proof Hds as Hds0. apply forallb_digit in Hds.
  assert (Hb : 2 <= b <= 36).
  { destruct Hcase as [(x & _ & _ & _ & ->)|(_ & [(? & ->)|[(_ & _ & ->)|(_ & _ & ->)]] & _)]; lia. }
  destruct ds as [|d ds0]; [congruence|].
  assert (Hd : is_digit b d) by (inversion Hds0; auto).
  destruct (digit_not_space_sign b d ltac:(lia) Hd) as (Nsp & Nsg & Nz).
  set (body := pfx ++ (d :: ds0) ++ rest) in *.
  assert (HIb : In 0 body /\ In 0 rest).
  { assert (~ In 0 ws). { rewrite forallb_forall in Hws. intros H. apply Hws in H. discriminate. }
    assert (~ In 0 sg). { destruct Hsg as [(-> & _)|[(-> & _)|(-> & _)]]; simpl; intuition lia. }
    assert (~ In 0 (d :: ds0)).
    { rewrite Forall_forall in Hds0. intros H1. destruct (Hds0 _ H1) as (v & H2 & _). inversion H2; lia. }
    assert (~ In 0 pfx).
    { destruct Hcase as [(x & Hx & -> & _)|(-> & _)]; simpl; intuition lia. }
    rewrite Es in HI. apply in_app_or in HI as [HI|HI]; [tauto|].
    apply in_app_or in HI as [HI|HI]; [tauto|]. split; [exact HI|]. unfold body in HI.
    apply in_app_or in HI as [HI|HI]; [tauto|]. apply in_app_or in HI as [HI|HI]; [tauto|exact HI]. }
  destruct HIb as [HIb HIr].
  assert (Hfront : front_ok ws sg body).
  { split; auto. destruct Hsg as [(-> & _)|[(-> & _)|(-> & _)]].
    - left. split; auto. destruct Hcase as [(x & Hx & -> & _)|(-> & _)].
      + exists 48, (x :: (d :: ds0) ++ rest). repeat split.
      + exists d, (ds0 ++ rest). repeat split; auto.
    - right. split; auto. intros H. rewrite H in HIb. destruct HIb.
    - right. split; auto. intros H. rewrite H in HIb. destruct HIb. }
  assert (Hneg : neg = negb (neg_of sg =? 0)).
  { destruct Hsg as [(-> & ->)|[(-> & ->)|(-> & ->)]]; reflexivity. }
  destruct rest as [|r t]; [destruct HIr|].
  assert (Hr : digitb b r = false).
  { destruct (digitb b r) eqn:E; auto. apply digitb_spec in E. exfalso. apply Hrest. exact E. }
  assert (Hzl : zlen (d :: ds0) =? 0 = false).
  { rewrite zlen_cons. pose proof (zlen_nonneg ds0). lia. }
  destruct Hcase as [(x & Hx & -> & Hb16 & ->)|(-> & Hbb & Hno)].
  - exists ws, sg, body, [48; x], 16, (d :: ds0), r, t.
    split; [exact Es|]. split; [exact HIb|]. split; [exact Hfront|]. split; [exact Hneg|].
    split; [|split; [reflexivity|rewrite Hzl; reflexivity]].
    split; [reflexivity|]. split; [exact Hds|]. split; [exact Hr|]. left.
    split; [|auto]. unfold body. cbn [app hexpfx]. lia.
  - destruct (hexpfx base body) eqn:EH.
    + (* "0x" not followed by a hexadecimal digit *)
      assert (base = 0 \/ base = 16) as Hb16.
      { unfold body in EH. cbn [app] in EH. destruct (ds0 ++ r :: t) eqn:E0; cbn [hexpfx] in EH; lia. }
      assert (ds0 = [] /\ d = 48 /\ (r = 120 \/ r = 88)) as (-> & -> & Hr').
      { unfold body in EH. cbn [app] in EH. destruct ds0 as [|d1 ds1].
        - cbn [app hexpfx] in EH. repeat split; lia.
        - exfalso. cbn [app hexpfx] in EH. inversion Hds0 as [|? ? _ Hds1]; subst.
          inversion Hds1 as [|? ? (v & Hv & Hlt) _]; subst.
          assert (v = 33). { assert (d1 = 120 \/ d1 = 88) as [-> | ->] by lia; inversion Hv; lia. }
          assert (b <= 16). { destruct Hbb as [(_ & ->)|[(_ & _ & ->)|(_ & _ & ->)]]; lia. } lia. }
      assert (HIt : In 0 t) by (destruct HIr as [?|?]; [lia|auto]).
      destruct t as [|h t]; [destruct HIt|].
      assert (Hh : digitb 16 h = false).
      { destruct (digitb 16 h) eqn:E; auto. apply digitb_spec in E. exfalso. apply Hno.
        split; auto. split; auto. exists r, h, t. auto. }
      exists ws, sg, body, [48; r], 16, [], h, t.
      split; [exact Es|]. split; [exact HIb|]. split; [exact Hfront|]. split; [exact Hneg|].
      split; [|split].
      * split; [reflexivity|]. split; [reflexivity|]. split; [exact Hh|]. left. auto.
      * destruct Hbb as [(_ & ->)|[(_ & _ & ->)|(_ & _ & ->)]]; reflexivity.
      * rewrite EH. zl0. cbn [Z.eqb]. zl. lia.
    + exists ws, sg, body, [], b, (d :: ds0), r, t.
      split; [exact Es|]. split; [exact HIb|]. split; [exact Hfront|]. split; [exact Hneg|].
      split; [|split; [reflexivity|rewrite Hzl; reflexivity]].
      split; [reflexivity|]. split; [exact Hds|]. split; [exact Hr|]. right.
      split; [exact EH|]. split; [|reflexivity]. unfold base_of, body. cbn [app].
      destruct Hbb as [(H0 & ->)|[(-> & H0 & ->)|(-> & H0 & ->)]]; cbn [Z.eqb].
      * replace (base =? 0) with false by lia. reflexivity.
      * simpl in H0. subst d. reflexivity.
      * simpl in H0. replace (d =? 48) with false by lia. reflexivity.
Qed.

Lemma strtol_converts base s neg b ds rest n : (base = 0 \/ 2 <= base <= 36) ->
  Forall byte s -> In 0 s -> zlen s < 2 ^ 32 ->
  subject base s neg b ds rest -> value b ds n ->
  let v := if neg then - n else n in
  strtol s base = Some (clamp_signed v, (v >? 2 ^ 31 - 1) || (v <? - 2 ^ 31), zlen s - zlen rest) /\
  strtoul s base = Some ((if n >? 2 ^ 32 - 1 then 2 ^ 32 - 1 else v mod 2 ^ 32), n >? 2 ^ 32 - 1,
                         zlen s - zlen rest).
Proof.
  intros Hbase HB HI HL HS HV v.
  destruct (subject_split _ _ _ _ _ _ Hbase HI HS)
    as (ws & sg & body & pfx & b' & ds' & r & t & Es & HIb & HF & Hneg & HSp & EV & EE).
  subst s. destruct (strtol_master base ws sg body pfx b' ds' r t Hbase HB HIb HL HF HSp) as [M1 M2].
  rewrite <- EV, (value_fun _ _ _ HV), <- EE in M1, M2.
  assert (Ev : (if neg_of sg =? 0 then n else - n) = v).
  { unfold v. rewrite Hneg. destruct (neg_of sg =? 0); reflexivity. }
  rewrite Ev in M1, M2. auto.
Qed.

Lemma subject_of_split base ws sg body pfx b ds r t :
  (base = 0 \/ 2 <= base <= 36) ->
  front_ok ws sg body -> split_ok base body pfx b ds r t -> In 0 body ->
  (ds <> [] \/ hexpfx base body = true) ->
  exists neg b' ds' rest, subject base (ws ++ sg ++ body) neg b' ds' rest.
Proof.
  intros Hbase (Hws & Hsg) (Eb & Hds & Hr & Hcase) HIb Hor.
  apply forallb_space in Hws. apply forallb_digit in Hds.
  exists (negb (neg_of sg =? 0)).
  assert (HS : (sg = [] /\ negb (neg_of sg =? 0) = false) \/ (sg = [43] /\ negb (neg_of sg =? 0) = false) \/
               (sg = [45] /\ negb (neg_of sg =? 0) = true)).
  { destruct Hsg as [(-> & _)|([-> | ->] & _)]; auto. }
  assert (Hr' : ~ starts_with (is_digit b) (r :: t)).
  { simpl. rewrite <- digitb_spec. congruence. }
  destruct Hcase as [(Hh & -> & Hp)|(Hh & -> & ->)].
  - destruct pfx as [|c [|x [|? ?]]]; try (zl; lia).
    2: { rewrite !zlen_cons in Hp. pose proof (zlen_nonneg l). lia. }
    subst body. cbn [app hexpfx] in Hh.
    assert (c = 48 /\ (x = 120 \/ x = 88) /\ (base = 0 \/ base = 16)) as (-> & Hx & Hb16) by lia.
    destruct ds as [|d ds0].
    + (* value is the single digit 0 *)
      exists (if base =? 0 then 8 else 16), [48], (x :: r :: t), ws, sg, [].
      split; [reflexivity|]. split; [auto|]. split; [auto|]. split; [discriminate|].
      split. { constructor; [|constructor]. exists 0. split; [apply (dv_dec 48); lia|]. destruct (base =? 0); lia. }
      split. { simpl. intros (v & Hv & Hlt). destruct Hx as [-> | ->]; inversion Hv; subst; destruct (base =? 0); lia. }
      right. split; [reflexivity|]. split.
      { destruct Hb16 as [-> | ->]; [right; left|left]; repeat split; auto; lia. }
      intros (_ & _ & x' & h & r' & E & _ & Hd). injection E as <- <- <-.
      apply Hr'. simpl. exact Hd.
    + exists 16, (d :: ds0), (r :: t), ws, sg, [48; x].
      split; [reflexivity|]. split; [auto|]. split; [auto|]. split; [discriminate|].
      split; [auto|]. split; [auto|]. left. exists x. auto.
  - destruct Hor as [Hne|]; [|congruence]. cbn [app] in Eb.
    exists (base_of base body), ds, (r :: t), ws, sg, []. subst body.
    split; [reflexivity|]. split; [auto|]. split; [auto|]. split; [auto|].
    split; [auto|]. split; [auto|]. right. split; [reflexivity|].
    destruct ds as [|d ds0]; [congruence|]. split.
    + unfold base_of. cbn [app]. destruct (Z.eqb_spec base 0); [|left; auto].
      destruct (Z.eqb_spec d 48); [right; left|right; right]; repeat split; auto.
    + intros (Hb16 & E & x & h & r' & Er & Hx & Hd). injection E as -> ->. injection Er as -> ->.
      cbn [app hexpfx] in Hh. lia.
Qed.

Lemma strtol_noconv base s : (base = 0 \/ 2 <= base <= 36) ->
  Forall byte s -> In 0 s -> zlen s < 2 ^ 32 ->
  (forall neg b ds rest, ~ subject base s neg b ds rest) ->
  strtol s base = Some (0, false, 0) /\ strtoul s base = Some (0, false, 0).
Proof.
  intros Hbase HB HI HL HN.
  destruct (front_exists s HI) as (ws & sg & body & -> & HF & HIb).
  destruct (split_exists base body HIb) as (pfx & b & ds & r & t & HSp).
  assert (ds = [] /\ hexpfx base body = false) as [-> Hh].
  { destruct ds as [|d ds]; [destruct (hexpfx base body) eqn:E; auto|]; exfalso.
    - destruct (subject_of_split base ws sg body pfx b [] r t Hbase HF HSp HIb (or_intror E))
        as (? & ? & ? & ? & S). exact (HN _ _ _ _ S).
    - destruct (subject_of_split base ws sg body pfx b (d :: ds) r t Hbase HF HSp HIb) as (? & ? & ? & ? & S);
        [left; discriminate|]. exact (HN _ _ _ _ S). }
  destruct (strtol_master base ws sg body pfx b [] r t Hbase HB HIb HL HF HSp) as [M1 M2].
  rewrite Hh in M1, M2. cbn in M1, M2. rewrite M1, M2. destruct (neg_of sg =? 0); auto.
Qed.

(** atoi *)
Lemma isdigit_ok c : byte c -> exists d, isdigit c = Some d /\ (d =? 0) = negb (digitb 10 c).
Proof.
  intros Hc.
  pose proof (byte_all (fun c => match isdigit c with
     | Some t => eqb (t =? 0) (negb (digitb 10 c)) | None => false end) eq_refl c Hc) as H.
  cbv beta in H. destruct (isdigit c) as [t|]; [|discriminate].
  exists t. split; auto. apply eqb_prop. exact H.
Qed.

Lemma dec_dval c : digitb 10 c = true -> dval c = Some (c - 48) /\ 0 <= c - 48 <= 9.
Proof. unfold digitb, dval. repeat match goal with |- context [if ?b then _ else _] => destruct b eqn:? end; intros; try discriminate; split; auto; lia. Qed.

Lemma atoi_loop_ok ds r t : Forall byte ds -> byte r -> forallb (digitb 10) ds = true -> digitb 10 r = false ->
  forall fuel pre V, (length ds < fuel)%nat -> 0 <= V <= ULONG_MAX ->
  atoi_loop fuel (pre ++ ds ++ r :: t) (zlen pre) V =
    Some (if val_from 10 V ds >? ULONG_MAX then None else Some (val_from 10 V ds)).
Proof.
  intros Hby Hr Hd Hn. induction ds as [|d ds IH]; intros fuel pre V Hf HV;
    (destruct fuel; [simpl in Hf; lia|]); cbn [atoi_loop app]; rewrite zget_at by reflexivity; cbn [obind].
  - destruct (isdigit_ok r Hr) as (x & E & F). rewrite E. cbn [obind]. rewrite F, Hn. cbn [negb].
    unfold val_from. cbn [fold_left]. replace (V >? ULONG_MAX) with false by lia. reflexivity.
  - inversion Hby as [|? ? Hbd Hbds]; subst. simpl in Hd. apply andb_true_iff in Hd as [Hd Hds].
    destruct (isdigit_ok d Hbd) as (x & E & F). rewrite E. cbn [obind]. rewrite F, Hd. cbn [negb].
    destruct (dec_dval d Hd) as [Ed Rd].
    unfold val_from. cbn [fold_left]. rewrite Ed. fold (val_from 10 (V * 10 + (d - 48)) ds).
    unfold ULONG_MAX in *.
    destruct (Z.gtb_spec V ((2 ^ 32 - 1) / 10)) as [G|G].
    + pose proof (val_from_ge 10 ds (V * 10 + (d - 48)) ltac:(lia) ltac:(lia)).
      replace (val_from 10 (V * 10 + (d - 48)) ds >? 2 ^ 32 - 1) with true by lia. reflexivity.
    + assert (E1 : u32 (V * 10) = V * 10) by (apply wrap_small; lia). rewrite E1.
      destruct (Z.gtb_spec (V * 10) (2 ^ 32 - 1 - (d - 48))) as [G2|G2].
      * pose proof (val_from_ge 10 ds (V * 10 + (d - 48)) ltac:(lia) ltac:(lia)).
        replace (val_from 10 (V * 10 + (d - 48)) ds >? 2 ^ 32 - 1) with true by lia. reflexivity.
      * assert (E2 : u32 (V * 10 + (d - 48)) = V * 10 + (d - 48)) by (apply wrap_small; lia). rewrite E2.
        specialize (IH Hbds Hds fuel (pre ++ [d]) (V * 10 + (d - 48)) ltac:(simpl in Hf; lia) ltac:(lia)).
        rewrite <- app_assoc in IH. cbn [app] in IH.
        replace (zlen pre + 1) with (zlen (pre ++ [d])) by (zl; lia).
        exact IH.
Qed.

Lemma atoi_master ws sg ds r t :
  let s := ws ++ sg ++ ds ++ r :: t in
  Forall byte s -> front_ok ws sg (ds ++ r :: t) ->
  forallb (digitb 10) ds = true -> digitb 10 r = false ->
  let V := val_from 10 0 ds in
  let v := if neg_of sg =? 0 then V else - V in
  atoi s = Some (if (v >? 2 ^ 31 - 1) || (v <? - 2 ^ 31) then 0 else v).
Proof.
  intros s HB HF Hds Hr V v. unfold atoi.
  destruct (front_steps ws sg (ds ++ r :: t) HF HB) as [F1 F2].
  unfold s in *. rewrite F1. cbn [obind]. rewrite F2. cbn [obind].
  rewrite !Forall_app in HB. destruct HB as (_ & _ & HBd & HBr). inversion HBr; subst.
  assert (HV : 0 <= V) by (apply val_nonneg; lia).
  rewrite app_assoc at 2. rewrite (atoi_loop_ok ds r t); auto; unfold ULONG_MAX; try lia.
  2: { rewrite !app_length. lia. }
  fold V. cbn [obind].
  assert (Hneg : neg_of sg = 0 \/ neg_of sg = 1) by (destruct (neg_of_cases _ _ _ HF) as [[_ ->]|[_ ->]]; auto).
  unfold v. destruct (Z.gtb_spec V (2 ^ 32 - 1)) as [G|G].
  - destruct Hneg as [-> | ->]; cbn [Z.eqb]; f_equal.
    + replace (V >? 2 ^ 31 - 1) with true by lia. reflexivity.
    + replace (- V <? - 2 ^ 31) with true by lia. rewrite orb_true_r. reflexivity.
  - destruct (fin_signed V V false (neg_of sg) Hneg HV) as [T1 T2]; [left; unfold ULONG_MAX; auto|].
    cbv zeta in T1, T2. unfold ULONG_MAX in T1, T2. cbn [orb] in T1. rewrite <- T1.
    cbn [orb] in T2. destruct (V >? (2 ^ 32 - 1) / 2 + neg_of sg); [reflexivity|].
    rewrite T2. unfold clamp_signed. symmetry in T1. apply orb_false_iff in T1 as [-> ->]. reflexivity.
Qed.
