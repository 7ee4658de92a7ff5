(** C62: arithmetic on long integers that are pairs of halves. *)
From Verif Require Import Base LngSpec LngModel.
Ltac Zify.zify_post_hook ::= idtac.

Lemma seth_same h p v : seth h p v p = v mod 65536.
Proof. unfold seth. now rewrite Z.eqb_refl. Qed.
Lemma seth_other h p v i : i <> p -> seth h p v i = h i.
Proof. intros H. unfold seth. now replace (i =? p) with false by lia. Qed.
Lemma seth_ok h p v : ok_halves h -> ok_halves (seth h p v).
Proof. intros H i. unfold seth. destruct (i =? p); [apply Z.mod_pos_bound; lia|apply H]. Qed.
Lemma mod_pow W x : W = 2 \/ W = 4 -> (x mod 2 ^ (8 * W)) mod 65536 = x mod 65536.
Proof.
  intros [-> | ->]; [apply Zmod_mod|].
  change (2 ^ (8 * 4)) with (65536 * 65536). pose proof (Z.div_mod x (65536 * 65536) ltac:(lia)) as E.
  rewrite E at 2. rewrite Z.add_comm. replace (65536 * 65536 * (x / (65536 * 65536))) with (65536 * (x / (65536 * 65536)) * 65536) by lia.
  now rewrite Z.mod_add by lia.
Qed.
Lemma small_mod r k q : 0 <= r < k -> (r + q * k) mod k = r.
Proof. intros H. rewrite Z.mod_add by lia. now apply Z.mod_small. Qed.
Lemma mod_is x k r q : x = r + q * k -> 0 <= r < k -> x mod k = r.
Proof. intros -> H. now apply small_mod. Qed.

Lemma add_inner W x y z : W = 2 \/ W = 4 -> ((x + (y + z) mod 2 ^ (8 * W)) mod 2 ^ (8 * W)) mod 65536 = (x + y + z) mod 65536.
Proof. intros H. rewrite mod_pow by exact H. rewrite Z.add_mod, mod_pow, <- Z.add_mod by (auto; lia). f_equal. lia. Qed.
Lemma sub_inner W x y z : W = 2 \/ W = 4 -> ((x - (y + z) mod 2 ^ (8 * W)) mod 2 ^ (8 * W)) mod 65536 = (x - y - z) mod 65536.
Proof. intros H. rewrite mod_pow by exact H. rewrite Zminus_mod, mod_pow, <- Zminus_mod by auto. f_equal. lia. Qed.

Lemma div_cases x : -65536 <= x < 3 * 65536 -> exists q, (q = -1 \/ q = 0 \/ q = 1 \/ q = 2) /\ x mod 65536 = x - 65536 * q /\ 0 <= x - 65536 * q < 65536.
Proof.
  intros H. exists (x / 65536). pose proof (Z.div_mod x 65536 ltac:(lia)). pose proof (Z.mod_pos_bound x 65536 ltac:(lia)). lia.
Qed.

(** Addition and subtraction are exact modulo 2^32, also of a number to or from itself, and change
    nothing else. *)
Theorem C62_add (W p q : Z) (h : halves) : W = 2 \/ W = 4 -> ok_halves h -> same_or_apart p q ->
  let h' := lng_add W p q h in ulong h' p = (ulong h p + ulong h q) mod 2 ^ 32 /\ only_at p h h' /\ ok_halves h'.
Proof.
  intros HW Hh HA h'. pose proof (Hh p) as P0. pose proof (Hh (p + 1)) as P1. pose proof (Hh q) as Q0. pose proof (Hh (q + 1)) as Q1.
  assert (L : h' p = (h p + h q) mod 65536).
  { unfold h', lng_add. rewrite seth_same, mod_pow by exact HW. rewrite !seth_other by (unfold same_or_apart in HA; lia). reflexivity. }
  assert (H : h' (p + 1) = (h (p + 1) + h (q + 1) + b2z (h q >? 65535 - h p)) mod 65536).
  { unfold h', lng_add. rewrite seth_other by lia. rewrite seth_same. now apply add_inner. }
  split; [|split].
  - unfold ulong. rewrite L, H. symmetry.
    destruct (div_cases (h p + h q) ltac:(lia)) as (k1 & K1 & -> & B1).
    assert (C : b2z (h q >? 65535 - h p) = k1) by (unfold b2z; rewrite Z.gtb_ltb; destruct (Z.ltb_spec (65535 - h p) (h q)); lia).
    rewrite C. destruct (div_cases (h (p + 1) + h (q + 1) + k1) ltac:(lia)) as (k2 & K2 & -> & B2).
    apply (mod_is _ _ _ k2); lia.
  - intros i N0 N1. unfold h', lng_add. rewrite !seth_other by auto. reflexivity.
  - unfold h', lng_add. now do 2 apply seth_ok.
Qed.

Theorem C62_sub (W p q : Z) (h : halves) : W = 2 \/ W = 4 -> ok_halves h -> same_or_apart p q ->
  let h' := lng_sub W p q h in ulong h' p = (ulong h p - ulong h q) mod 2 ^ 32 /\ only_at p h h' /\ ok_halves h'.
Proof.
  intros HW Hh HA h'. pose proof (Hh p) as P0. pose proof (Hh (p + 1)) as P1. pose proof (Hh q) as Q0. pose proof (Hh (q + 1)) as Q1.
  assert (L : h' p = (h p - h q) mod 65536).
  { unfold h', lng_sub. rewrite seth_same, mod_pow by exact HW. rewrite !seth_other by (unfold same_or_apart in HA; lia). reflexivity. }
  assert (H : h' (p + 1) = (h (p + 1) - h (q + 1) - b2z (h p <? h q)) mod 65536).
  { unfold h', lng_sub. rewrite seth_other by lia. rewrite seth_same. now apply sub_inner. }
  split; [|split].
  - unfold ulong. rewrite L, H. symmetry.
    destruct (div_cases (h p - h q) ltac:(lia)) as (k1 & K1 & -> & B1).
    assert (C : b2z (h p <? h q) = - k1) by (unfold b2z; destruct (Z.ltb_spec (h p) (h q)); lia).
    rewrite C. destruct (div_cases (h (p + 1) - h (q + 1) - - k1) ltac:(lia)) as (k2 & K2 & -> & B2).
    apply (mod_is _ _ _ k2); lia.
  - intros i N0 N1. unfold h', lng_sub. rewrite !seth_other by auto. reflexivity.
  - unfold h', lng_sub. now do 2 apply seth_ok.
Qed.

(** Comparisons. *)
Theorem C62_compare (p q : Z) (h : halves) : ok_halves h ->
  lng_eq p q h = (ulong h p =? ulong h q) /\ lng_eq p q h = (slong h p =? slong h q) /\
  lng_ul p q h = (ulong h p <? ulong h q) /\ lng_sl p q h = (slong h p <? slong h q) /\ lng_ltz p h = (slong h p <? 0).
Proof.
  intros Hh. pose proof (Hh p) as P0. pose proof (Hh (p + 1)) as P1. pose proof (Hh q) as Q0. pose proof (Hh (q + 1)) as Q1.
  unfold lng_eq, lng_ul, lng_sl, lng_ul, lng_ltz, slong, ulong. change (65535 / 2) with 32767. change (2 ^ 31) with 2147483648. change (2 ^ 32) with 4294967296.
  rewrite !Z.gtb_ltb.
  generalize dependent (h p). generalize dependent (h q). generalize dependent (h (p + 1)). generalize dependent (h (q + 1)). intros b1 B1 a1 A1 b0 B0 a0 A0.
  assert (X : forall b c : bool, (b = true <-> c = true) -> b = c) by (intros [] [] H; try reflexivity; destruct H as [H1 H2]; [symmetry; apply H1|apply H2]; reflexivity).
  destruct (Z.ltb_spec (a0 + 65536 * a1) 2147483648), (Z.ltb_spec (b0 + 65536 * b1) 2147483648), (Z.ltb_spec 32767 a1), (Z.ltb_spec 32767 b1), (Z.leb_spec b1 32767); try lia;
    (split; [|split; [|split; [|split]]]); apply X; rewrite ?Bool.orb_true_iff, ?Bool.andb_true_iff, ?Z.eqb_eq, ?Z.ltb_lt; split; intros; try lia; try discriminate; try reflexivity.
Qed.

(** Conversions from int and unsigned keep the value; conversions to them keep it if it fits. *)
Theorem C62_convert (W p : Z) (h : halves) : W = 2 \/ W = 4 -> ok_halves h ->
  (forall n, - 2 ^ (8 * W - 1) <= n < 2 ^ (8 * W - 1) -> slong (lng_fs W p n h) p = n /\ only_at p h (lng_fs W p n h)) /\
  (forall n, 0 <= n < 2 ^ (8 * W) -> ulong (lng_fu W p n h) p = n /\ only_at p h (lng_fu W p n h)) /\
  (- 2 ^ (8 * W - 1) <= slong h p < 2 ^ (8 * W - 1) -> lng_ts W p h = slong h p) /\
  (ulong h p < 2 ^ (8 * W) -> lng_tu W p h = ulong h p).
Proof.
  intros HW Hh. pose proof (Hh p) as P0. pose proof (Hh (p + 1)) as P1.
  split; [|split; [|split]].
  - intros n Hn. split.
    + unfold slong, ulong, lng_fs. destruct HW as [-> | ->]; cbn [Z.eqb Pos.eqb].
      * change (2 ^ (8 * 2 - 1)) with 32768 in Hn. change (2 ^ 31) with 2147483648. change (2 ^ 32) with 4294967296.
        rewrite seth_same, seth_other, seth_same by lia. unfold b2z. destruct (Z.ltb_spec n 0).
        -- rewrite (mod_is n 65536 (n + 65536) (-1)) by lia. change (-(1) mod 65536) with 65535. replace (n + 65536 + 65536 * 65535 <? 2147483648) with false by lia. lia.
        -- rewrite (Z.mod_small n) by lia. change (-0 mod 65536) with 0. replace (n + 65536 * 0 <? 2147483648) with true by lia. lia.
      * change (2 ^ (8 * 4 - 1)) with 2147483648 in Hn. change (2 ^ 31) with 2147483648. change (2 ^ 32) with 4294967296.
        rewrite seth_same, seth_other, seth_same by lia.
        assert (E : n mod 4294967296 = if n <? 0 then n + 4294967296 else n).
        { destruct (Z.ltb_spec n 0); [apply (mod_is _ _ _ (-1)); lia|apply Z.mod_small; lia]. }
        rewrite E. set (u := if n <? 0 then n + 4294967296 else n) in *.
        assert (Bu : 0 <= u < 4294967296) by (unfold u; destruct (Z.ltb_spec n 0); lia).
        pose proof (Z.div_mod u 65536 ltac:(lia)). pose proof (Z.mod_pos_bound u 65536 ltac:(lia)).
        rewrite (Z.mod_small (u / 65536)) by lia. replace (u mod 65536 + 65536 * (u / 65536)) with u by lia.
        unfold u. destruct (Z.ltb_spec n 0); [replace (n + 4294967296 <? 2147483648) with false by lia; lia|replace (n <? 2147483648) with true by lia; reflexivity].
    + intros i N0 N1. unfold lng_fs. destruct (W =? 2); rewrite !seth_other by auto; reflexivity.
  - intros n Hn. split.
    + unfold ulong, lng_fu. destruct HW as [-> | ->]; cbn [Z.eqb Pos.eqb].
      * change (2 ^ (8 * 2)) with 65536 in Hn. rewrite seth_same, seth_other, seth_same by lia. rewrite (Z.mod_small n) by lia. change (0 mod 65536) with 0. lia.
      * change (2 ^ (8 * 4)) with 4294967296 in Hn. rewrite seth_same, seth_other, seth_same by lia.
        pose proof (Z.div_mod n 65536 ltac:(lia)). pose proof (Z.mod_pos_bound n 65536 ltac:(lia)). rewrite (Z.mod_small (n / 65536)) by lia. lia.
    + intros i N0 N1. unfold lng_fu. destruct (W =? 2); rewrite !seth_other by auto; reflexivity.
  - unfold slong, ulong, lng_ts. destruct HW as [-> | ->]; cbn [Z.eqb Pos.eqb]; [|reflexivity].
    change (2 ^ (8 * 2 - 1)) with 32768. change (2 ^ 31) with 2147483648. change (2 ^ 32) with 4294967296.
    destruct (Z.ltb_spec (h p + 65536 * h (p + 1)) 2147483648), (Z.ltb_spec (h p) 32768); lia.
  - unfold ulong, lng_tu. destruct HW as [-> | ->]; cbn [Z.eqb Pos.eqb]; [|reflexivity]. change (2 ^ (8 * 2)) with 65536. lia.
Qed.

Lemma ul_ext h h' p : h' p = h p -> h' (p + 1) = h (p + 1) -> ulong h' p = ulong h p.
Proof. intros A B. unfold ulong. now rewrite A, B. Qed.
Lemma sl_ext h h' p : ulong h' p = ulong h p -> slong h' p = slong h p.
Proof. intros A. unfold slong. now rewrite A. Qed.
Lemma ulong_range h p : ok_halves h -> 0 <= ulong h p < 4294967296.
Proof. intros H. pose proof (H p). pose proof (H (p + 1)). unfold ulong. lia. Qed.
Lemma fu_ok W p n h : ok_halves h -> ok_halves (lng_fu W p n h).
Proof. intros H. unfold lng_fu. destruct (W =? 2); now do 2 apply seth_ok. Qed.
Lemma fs_ok W p n h : ok_halves h -> ok_halves (lng_fs W p n h).
Proof. intros H. unfold lng_fs. destruct (W =? 2); now do 2 apply seth_ok. Qed.
Lemma copyh_ok p q h : ok_halves h -> ok_halves (copyh p q h).
Proof. intros H. unfold copyh. now do 2 apply seth_ok. Qed.
Lemma copyh_val p q h : ok_halves h -> ulong (copyh p q h) p = ulong h q /\ only_at p h (copyh p q h).
Proof.
  intros H. split.
  - unfold ulong, copyh. rewrite seth_same, seth_other, seth_same by lia. rewrite !Z.mod_small by apply H. reflexivity.
  - intros i A B. unfold copyh. now rewrite !seth_other by auto.
Qed.
Lemma only_ul p q h h' : only_at p h h' -> p + 2 <= q \/ q + 2 <= p -> ulong h' q = ulong h q.
Proof. intros H A. apply ul_ext; apply H; lia. Qed.

(** Seeking within the buffer: the 16-bit code, with its pairs of halves, decides and moves as the same
    tests on plain numbers do. *)
Theorem C62_seek_cur (po pt cnt back : Z) (h : halves) : ok_halves h -> po + 2 <= pt \/ pt + 2 <= po -> 0 <= cnt < 32768 -> 0 <= back < 32768 ->
  let off := slong h po in
  seek_cur po pt cnt back h = if (0 <=? off) && (off <=? cnt) || (off <? 0) && (- back <=? off) then Some off else None.
Proof.
  intros Hh A Hc Hb off. unfold seek_cur.
  destruct (C62_convert 2 pt h ltac:(now left) Hh) as (CS & CU & _). destruct (C62_convert 2 po h ltac:(now left) Hh) as (_ & _ & CT & _).
  change (2 ^ (8 * 2 - 1)) with 32768 in *. change (2 ^ (8 * 2)) with 65536 in *.
  destruct (CU cnt ltac:(lia)) as (U1 & U2). destruct (CS (- back) ltac:(lia)) as (V1 & V2).
  destruct (C62_compare pt po _ (fu_ok 2 pt cnt h Hh)) as (_ & _ & -> & _). destruct (C62_compare po pt _ (fs_ok 2 pt (- back) h Hh)) as (_ & _ & _ & -> & _).
  destruct (C62_compare po po h Hh) as (_ & _ & _ & _ & ->). rewrite U1, V1.
  rewrite (only_ul pt po h _ U2) by lia. rewrite (sl_ext h _ po (only_ul pt po h _ V2 ltac:(lia))). fold off in CT |- *.
  assert (OU : off = if ulong h po <? 2147483648 then ulong h po else ulong h po - 4294967296) by reflexivity.
  pose proof (ulong_range h po Hh) as R. remember (ulong h po) as u. clearbody off.
  destruct (Z.ltb_spec u 2147483648), (Z.ltb_spec off 0), (Z.ltb_spec cnt u), (Z.ltb_spec off (- back)), (Z.leb_spec 0 off), (Z.leb_spec off cnt), (Z.leb_spec (- back) off); try lia; cbn [negb andb orb]; try reflexivity; rewrite CT by lia; reflexivity.
Qed.

Theorem C62_seek_set (po pp pd pt cnt back : Z) (h : halves) : ok_halves h ->
  (forall a b, In (a, b) [(po, pp); (po, pd); (po, pt); (pp, pd); (pp, pt); (pd, pt)] -> a + 2 <= b \/ b + 2 <= a) -> 0 <= cnt < 32768 -> 0 <= back < 32768 -> 0 <= slong h pp ->
  let off := slong h po in let pos := slong h pp in
  seek_set po pp pd pt cnt back h =
  if (pos <=? off) && (off - pos <=? cnt) || (0 <=? off) && (off <? pos) && (pos - off <=? back) then Some (off - pos) else None.
Proof.
  intros Hh A Hc Hb Hp off pos. unfold seek_set.
  assert (A1 := A po pp ltac:(cbn; auto)). assert (A2 := A po pd ltac:(cbn; auto)). assert (A3 := A po pt ltac:(cbn; auto)).
  assert (A4 := A pp pd ltac:(cbn; auto 10)). assert (A5 := A pp pt ltac:(cbn; auto 10)). assert (A6 := A pd pt ltac:(cbn; auto 10)). clear A.
  destruct (copyh_val pd po h Hh) as (K1 & K2). destruct (copyh_val pd pp h Hh) as (L1 & L2).
  destruct (C62_sub 2 pd pp (copyh pd po h) ltac:(now left) (copyh_ok pd po h Hh) ltac:(unfold same_or_apart; lia)) as (D1 & D2 & D3).
  destruct (C62_sub 2 pd po (copyh pd pp h) ltac:(now left) (copyh_ok pd pp h Hh) ltac:(unfold same_or_apart; lia)) as (E1 & E2 & E3).
  rewrite K1, (only_ul pd pp h _ K2 ltac:(lia)) in D1. rewrite L1, (only_ul pd po h _ L2 ltac:(lia)) in E1.
  set (hd := lng_sub 2 pd pp (copyh pd po h)) in *. set (he := lng_sub 2 pd po (copyh pd pp h)) in *.
  destruct (C62_convert 2 pt hd ltac:(now left) D3) as (_ & CU & _). destruct (C62_convert 2 pt he ltac:(now left) E3) as (_ & CV & _).
  destruct (C62_convert 2 pd hd ltac:(now left) D3) as (_ & _ & CT & _).
  change (2 ^ (8 * 2 - 1)) with 32768 in *. change (2 ^ (8 * 2)) with 65536 in *.
  destruct (CU cnt ltac:(lia)) as (U1 & U2). destruct (CV back ltac:(lia)) as (V1 & V2).
  destruct (C62_compare pt pd _ (fu_ok 2 pt cnt hd D3)) as (_ & _ & -> & _). destruct (C62_compare pt pd _ (fu_ok 2 pt back he E3)) as (_ & _ & -> & _).
  destruct (C62_compare po pp h Hh) as (_ & _ & _ & -> & ->). rewrite U1, V1.
  rewrite (only_ul pt pd hd _ U2) by lia. rewrite (only_ul pt pd he _ V2) by lia. rewrite D1, E1. fold off pos.
  assert (S1 : slong hd pd = if ulong hd pd <? 2147483648 then ulong hd pd else ulong hd pd - 4294967296) by reflexivity. rewrite D1 in S1.
  assert (OU : off = if ulong h po <? 2147483648 then ulong h po else ulong h po - 4294967296) by reflexivity.
  assert (PU : pos = if ulong h pp <? 2147483648 then ulong h pp else ulong h pp - 4294967296) by reflexivity.
  pose proof (ulong_range h po Hh) as R. pose proof (ulong_range h pp Hh) as R2. fold pos in Hp. clearbody off pos.
  change (2 ^ 32) with 4294967296 in *. remember (ulong h po) as u. remember (ulong h pp) as v. clear Hequ Heqv.
  assert (PV : v = pos /\ pos < 2147483648) by (revert PU; destruct (Z.ltb_spec v 2147483648); intros; lia). clear PU. destruct PV as (-> & PL).
  assert (X1 : pos <= off -> (u - pos) mod 4294967296 = off - pos) by (intros; apply (mod_is _ _ _ 0); revert OU; destruct (Z.ltb_spec u 2147483648); intros; lia).
  assert (X2 : 0 <= off < pos -> (pos - u) mod 4294967296 = pos - off /\ (u - pos) mod 4294967296 = off - pos + 4294967296).
  { intros Y. revert OU; destruct (Z.ltb_spec u 2147483648); intros OU; [|lia]. split; [apply (mod_is _ _ _ 0); lia|apply (mod_is _ _ _ (-1)); lia]. }
  destruct (Z.ltb_spec off pos) as [Q|Q].
  - replace (pos <=? off) with false by lia. cbn [negb andb orb]. rewrite Bool.andb_true_r.
    destruct (Z.ltb_spec off 0) as [N|N]; cbn [negb andb]; [replace (0 <=? off) with false by lia; reflexivity|]. replace (0 <=? off) with true by lia. cbn [andb].
    destruct (X2 ltac:(lia)) as (X3 & X4). rewrite X3. rewrite X4 in S1. replace (off - pos + 4294967296 <? 2147483648) with false in S1 by lia.
    destruct (Z.ltb_spec back (pos - off)), (Z.leb_spec (pos - off) back); try lia; cbn [negb]; [reflexivity|]. rewrite CT by lia. f_equal. lia.
  - replace (pos <=? off) with true by lia. cbn [negb andb]. rewrite !Bool.andb_false_r. cbn [andb]. rewrite !Bool.orb_false_r. rewrite X1 by lia. rewrite X1 in S1 by lia.
    destruct (Z.ltb_spec cnt (off - pos)), (Z.leb_spec (off - pos) cnt); try lia; cbn [negb]; [reflexivity|].
    replace (off - pos <? 2147483648) with true in S1 by lia. rewrite CT by lia. f_equal. lia.
Qed.

(** 65535 + 65535 in place, with a carry. *)
Example C62_case : let h := fun i => if i =? 0 then 65535 else 0 in ok_halves h /\ same_or_apart 0 0 /\ ulong (lng_add 2 0 0 h) 0 = 131070.
Proof. split; [intros i; cbv beta; destruct (i =? 0); lia|]. split; [now left|reflexivity]. Qed.

(** From position 65540 to 65530, across a change of the high half, with 100 bytes behind the pointer. *)
Example C62_seek_case : let h := fun i => if i =? 0 then 65530 else if i =? 2 then 4 else if i =? 3 then 1 else 0 in
  ok_halves h /\ (forall a b, In (a, b) [(0, 2); (0, 4); (0, 6); (2, 4); (2, 6); (4, 6)] -> a + 2 <= b \/ b + 2 <= a) /\ slong h 2 = 65540 /\ seek_set 0 2 4 6 50 100 h = Some (-10).
Proof.
  split; [intros i; cbv beta; destruct (i =? 0), (i =? 2), (i =? 3); lia|]. split; [|split; reflexivity].
  intros a b H. repeat (destruct H as [H|H]; [injection H as <- <-; lia|]). destruct H.
Qed.

Print Assumptions C62_add.
Print Assumptions C62_sub.
Print Assumptions C62_compare.
Print Assumptions C62_convert.
Print Assumptions C62_seek_cur.
Print Assumptions C62_seek_set.
