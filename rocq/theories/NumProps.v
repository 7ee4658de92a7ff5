(** C01 and C09: integer and floating constants in the source get the value C gives them. *)
From Verif Require Import Base BaseLemmas FpModel FloatSpec FpProof FpMain NumModel NumSpec StrtolSpec StrtolProof NumProof NumFloat.

Ltac Zify.zify_post_hook ::= idtac.

Lemma tok_value v un w : w = 16 \/ w = 32 -> 0 <= v < 2 ^ w -> (un = false -> v < 2 ^ (w - 1)) ->
  u32 (s32 v) = v /\ (un = false -> s32 v = v).
Proof.
  intros W V U. assert (2 ^ w <= 2 ^ 32) by (destruct W as [-> | ->]; lia).
  split; [apply s32_u32; lia|]. intros N. unfold s32. apply swrap_small; [lia|].
  assert (2 ^ (w - 1) <= 2 ^ 31) by (destruct W as [-> | ->]; lia). specialize (U N). lia.
Qed.

Lemma sw_w sw : sw = 2 \/ sw = 4 -> 8 * sw = 16 \/ 8 * sw = 32. Proof. lia. Qed.

Lemma hex_get sw s : zlen s < 2 ^ 31 -> (peek s =? 48) && ((peek1 s =? 120) || (peek1 s =? 88)) = true ->
  let ds := tw is_hex (tl (tl s)) in
  get_number true sw s =
  if val_from 16 0 ds <? 2 ^ 32 then
    if zlen ds =? 0 then Some (NErr BadHex)
    else Some (finish_int true sw (dw is_hex (tl (tl s))) (val_from 16 0 ds) false)
  else Some (NErr TooBig).
Proof.
  intros L H ds. unfold get_number. rewrite H. rewrite hex_loop_eq by lia. fold ds.
  destruct (_ <? 2 ^ 32); [|reflexivity].
  pose proof (zlen_tw is_hex (tl (tl s))) as T. fold ds in T. pose proof (zlen_tl s). pose proof (zlen_tl (tl s)).
  rewrite Z.add_0_l. replace (fits_int (zlen ds)) with true by (unfold fits_int; lia). reflexivity.
Qed.

Lemma peek_ends rest : ends rest -> is_dec (peek rest) = false /\ is_hex (peek rest) = false /\
  peek rest <> 46 /\ peek rest <> 101 /\ peek rest <> 69 /\ peek rest <> 120 /\ peek rest <> 88 /\
  (peek rest =? 102) || (peek rest =? 70) || is_l (peek rest) = false.
Proof. intros E. apply ends_peek in E. unfold pp_char in E. unfold is_dec, is_hex, is_dec, is_l. repeat split; lia. Qed.

Lemma peek_suffix sf u l rest : int_suffix_text sf u l -> ends rest ->
  let p := peek (sf ++ rest) in is_dec p = false /\ is_hex p = false /\ p <> 46 /\ p <> 101 /\ p <> 69 /\ p <> 120 /\ p <> 88.
Proof.
  intros H E. pose proof (peek_ends rest E) as P. unfold is_hex, is_dec in *.
  destruct H as [|a A|a A|a b A B|a b A B]; cbn [app peek]; unfold u_char, l_char in *; (repeat split; try lia).
Qed.

(** C01.  Every integer constant gets exactly its mathematical value and the type C gives it
    (or is rejected); the text consumed is exactly the constant. *)
Theorem C01_value sw body sf radix v u l rest :
  sw = 2 \/ sw = 4 -> int_body body radix v -> int_suffix_text sf u l -> ends rest ->
  zlen (body ++ sf ++ rest) < 2 ^ 31 ->
  match int_type (8 * sw) radix v u l with
  | Some un => exists x, get_number true sw (body ++ sf ++ rest) =
                 Some (NTok (if un then TokNumUint else TokNumInt) x rest) /\
                 u32 x = v /\ (un = false -> x = v)
  | None => exists e, get_number true sw (body ++ sf ++ rest) = Some (NErr e)
  end.
Proof.
  intros SW B SF E L.
  pose proof (int_suffix_complete sf u l rest SF E) as IS.
  pose proof (peek_suffix sf u l rest SF E) as PS. cbv zeta in PS. destruct PS as (P1 & P2 & P3 & P4 & P5 & P6 & P7).
  destruct B as [c ds v C F V|ds v F V|x ds v X NE F V].
  - (* decimal *)
    apply value_fun in V.
    assert (FA : Forall (fun c => is_dec c = true) (c :: ds)).
    { constructor; [unfold is_dec; lia|]. now apply Forall_dec_digit. }
    destruct (tw_app is_dec (c :: ds) (sf ++ rest) FA P1) as (T & D).
    set (s := (c :: ds) ++ sf ++ rest) in *.
    assert (PK : peek s = c) by reflexivity.
    assert (NH : (peek s =? 48) && ((peek1 s =? 120) || (peek1 s =? 88)) = false) by (rewrite PK; lia).
    rewrite (get_number_int sw s L NH) by (rewrite D; assumption).
    pose proof (int_branch_spec sw s SW) as IB. cbv zeta in IB. rewrite D, IS, T, PK in IB.
    replace (c =? 48) with false in IB by lia. rewrite V in IB.
    assert (DB : forallb (digitb 10) (c :: ds) = true).
    { apply forallb_forall. rewrite Forall_forall in FA. intros y Y. rewrite <- is_dec_digit. now apply FA. }
    rewrite DB in IB.
    destruct (int_type (8 * sw) 10 v u l) as [un|] eqn:IT.
    + pose proof (int_type_range _ _ _ _ _ _ (sw_w sw SW) IT) as (R1 & R2).
      assert (V0 : 0 <= v) by (rewrite <- V; apply val_from_ge; lia).
      destruct (tok_value v un (8 * sw) (sw_w sw SW) ltac:(lia) R2) as (K1 & K2).
      exists (s32 v). rewrite IB. auto.
    + destruct IB as (e & ->). eauto.
  - (* octal *)
    apply value_fun in V.
    assert (FA : Forall (fun c => is_dec c = true) (48 :: ds)).
    { constructor; [reflexivity|]. eapply Forall_impl; [|exact F]. cbv beta. intros y Y. apply digit8_dec in Y. exact (proj1 Y). }
    destruct (tw_app is_dec (48 :: ds) (sf ++ rest) FA P1) as (T & D).
    set (s := (48 :: ds) ++ sf ++ rest) in *.
    assert (PK : peek s = 48) by reflexivity.
    assert (NH : (peek s =? 48) && ((peek1 s =? 120) || (peek1 s =? 88)) = false).
    { assert (P : peek1 s <> 120 /\ peek1 s <> 88).
      { unfold s. destruct ds as [|d t]; cbn [app peek1].
        - change (match sf ++ rest with [] => 0 | c :: _ => c end) with (peek (sf ++ rest)). auto.
        - inversion F as [|? ? D8 _]; subst. apply digit8_dec in D8. unfold is_dec in D8. lia. }
      lia. }
    rewrite (get_number_int sw s L NH) by (rewrite D; assumption).
    pose proof (int_branch_spec sw s SW) as IB. cbv zeta in IB. rewrite D, IS, T, PK in IB.
    change (48 =? 48) with true in IB. cbv iota in IB.
    replace (val_from 8 0 (48 :: ds)) with v in IB by (rewrite <- V; reflexivity).
    assert (DB : forallb (digitb 8) (48 :: ds) = true).
    { apply forallb_forall. intros y [<-|Y]; [reflexivity|]. rewrite Forall_forall in F. apply digitb_spec. now apply F. }
    rewrite DB in IB.
    destruct (int_type (8 * sw) 8 v u l) as [un|] eqn:IT.
    + pose proof (int_type_range _ _ _ _ _ _ (sw_w sw SW) IT) as (R1 & R2).
      assert (V0 : 0 <= v) by (rewrite <- V; apply val_from_ge; lia).
      destruct (tok_value v un (8 * sw) (sw_w sw SW) ltac:(lia) R2) as (K1 & K2).
      exists (s32 v). rewrite IB. auto.
    + destruct IB as (e & ->). eauto.
  - (* hexadecimal *)
    apply value_fun in V.
    assert (FA : Forall (fun c => is_hex c = true) ds) by (now apply Forall_hex_digit).
    destruct (tw_app is_hex ds (sf ++ rest) FA P2) as (T & D).
    set (s := (48 :: x :: ds) ++ sf ++ rest) in *.
    assert (PK : (peek s =? 48) && ((peek1 s =? 120) || (peek1 s =? 88)) = true).
    { change (peek s) with 48. change (peek1 s) with x. destruct X as [-> | ->]; reflexivity. }
    rewrite (hex_get sw s L PK). change (tl (tl s)) with (ds ++ sf ++ rest). rewrite T, D, V.
    assert (NZ : zlen ds =? 0 = false).
    { destruct ds as [|d t]; [now destruct NE|]. rewrite zlen_cons. pose proof (zlen_nonneg t). lia. }
    rewrite NZ.
    assert (V0 : 0 <= v) by (rewrite <- V; apply val_from_ge; lia).
    destruct (Z.ltb_spec v (2 ^ 32)) as [S|S].
    + pose proof (finish_int_eq sw (sf ++ rest) v 16 SW ltac:(lia)) as FI. rewrite IS in FI. change (16 =? 10) with false in FI.
      destruct (int_type (8 * sw) 16 v u l) as [un|] eqn:IT.
      * pose proof (int_type_range _ _ _ _ _ _ (sw_w sw SW) IT) as (R1 & R2).
        destruct (tok_value v un (8 * sw) (sw_w sw SW) ltac:(lia) R2) as (K1 & K2).
        exists (s32 v). rewrite FI. auto.
      * destruct FI as (e & ->). eauto.
    + destruct (int_type (8 * sw) 16 v u l) as [un|] eqn:IT; [|eauto].
      apply int_type_range in IT; [|now apply sw_w].
      assert (2 ^ (8 * sw) <= 2 ^ 32) by (apply Z.pow_le_mono_r; lia). lia.
Qed.

(** A floating constant is never taken for an integer. *)
Lemma float_branch_tok s3 ds m t x rest : float_branch s3 ds m = Some (NTok t x rest) -> t = TokNumFloat.
Proof.
  unfold float_branch, finish_float. change (negb true) with false. cbv iota. intros H.
  repeat match type of H with
  | context [let '(_, _) := ?e in _] => destruct e
  | context [if ?b then _ else _] => destruct b; try discriminate H
  | context [obind ?o _] => destruct o; cbn [obind] in H; try discriminate H
  end; apply some_inj in H; congruence.
Qed.

(** C01, converse: whatever text is accepted as an integer constant is one, and its value and
    type are C's: nothing is accepted and wrapped. *)
Theorem C01_sound sw s t x rest :
  sw = 2 \/ sw = 4 -> zlen s < 2 ^ 31 -> starts_with (is_digit 10) s ->
  get_number true sw s = Some (NTok t x rest) -> t <> TokNumFloat ->
  exists body sf radix v u l,
    s = body ++ sf ++ rest /\ int_body body radix v /\ int_suffix_text sf u l /\
    int_type (8 * sw) radix v u l = Some (match t with TokNumUint => true | _ => false end) /\
    u32 x = v.
Proof.
  intros SW L ST G NF.
  assert (HD : exists c0 s0, s = c0 :: s0 /\ is_dec c0 = true).
  { destruct s as [|c0 s0]; [destruct ST|]. exists c0, s0. split; [reflexivity|]. rewrite is_dec_digit. now apply digitb_spec. }
  destruct ((peek s =? 48) && ((peek1 s =? 120) || (peek1 s =? 88))) eqn:NH.
  - (* hexadecimal *)
    rewrite (hex_get sw s L NH) in G. set (ds := tw is_hex (tl (tl s))) in *.
    destruct (Z.ltb_spec (val_from 16 0 ds) (2 ^ 32)) as [S|S]; [|discriminate].
    destruct (Z.eqb_spec (zlen ds) 0) as [Z0|NZ]; [discriminate|]. apply some_inj in G.
    assert (V0 : 0 <= val_from 16 0 ds) by (apply val_from_ge; lia).
    pose proof (finish_int_eq sw (dw is_hex (tl (tl s))) (val_from 16 0 ds) 16 SW ltac:(lia)) as FI.
    pose proof (int_suffix_sound (dw is_hex (tl (tl s)))) as IS.
    destruct (int_suffix (dw is_hex (tl (tl s)))) as [[r u] l]. destruct IS as (sf & ES & SF).
    change (16 =? 10) with false in FI.
    destruct (int_type (8 * sw) 16 (val_from 16 0 ds) u l) as [un|] eqn:IT; [|destruct FI as (e & FI); congruence].
    rewrite FI in G. inversion G; subst t x r.
    destruct s as [|c0 [|c1 s1]]; [discriminate|cbn [peek peek1] in NH; lia|]. cbn [peek peek1 tl] in *.
    exists (48 :: c1 :: ds), sf, 16, (val_from 16 0 ds), u, l.
    assert (FD : Forall (is_digit 16) ds) by (apply Forall_hex_digit; apply tw_all).
    split; [|split; [|split; [exact SF|split; [destruct un; exact IT|apply s32_u32; split; [exact V0|exact S]]]]].
    + assert (c0 = 48) as -> by lia. cbn [app]. do 2 f_equal. rewrite (tw_dw is_hex s1) at 1. fold ds. now rewrite ES.
    + constructor; [lia|intros N; rewrite N in NZ; now cbn in NZ|exact FD|now apply value_exists].
  - set (r := dw is_dec s) in *.
    destruct (Z.eq_dec (peek r) 46) as [D46|D46].
    { exfalso. apply NF. rewrite (get_number_float sw s L NH) in G by (fold r; left; lia). eapply float_branch_tok; exact G. }
    destruct (Z.eq_dec (peek r) 101) as [D1|D1].
    { exfalso. apply NF. rewrite (get_number_float sw s L NH) in G
        by (fold r; right; replace (peek r =? 46) with false by lia; auto). eapply float_branch_tok; exact G. }
    destruct (Z.eq_dec (peek r) 69) as [D2|D2].
    { exfalso. apply NF. rewrite (get_number_float sw s L NH) in G
        by (fold r; right; replace (peek r =? 46) with false by lia; auto). eapply float_branch_tok; exact G. }
    rewrite (get_number_int sw s L NH) in G by assumption. apply some_inj in G.
    pose proof (int_branch_spec sw s SW) as IB. cbv zeta in IB. fold r in IB.
    pose proof (int_suffix_sound r) as IS. destruct (int_suffix r) as [[r' u] l]. destruct IS as (sf & ES & SF).
    set (base := if peek s =? 48 then 8 else 10) in *. set (ds := tw is_dec s) in *.
    destruct (forallb (digitb base) ds) eqn:FB; [|destruct IB as (e & IB); congruence].
    destruct (int_type (8 * sw) base (val_from base 0 ds) u l) as [un|] eqn:IT; [|destruct IB as (e & IB); congruence].
    rewrite IB in G. inversion G; subst t x r'.
    exists ds, sf, base, (val_from base 0 ds), u, l.
    assert (B10 : base = 8 \/ base = 10) by (unfold base; destruct (peek s =? 48); auto).
    assert (V0 : 0 <= val_from base 0 ds) by (apply val_from_ge; lia).
    pose proof (int_type_range _ _ _ _ _ _ (sw_w sw SW) IT) as (R1 & R2).
    split; [|split; [|split; [exact SF|split; [destruct un; exact IT|]]]].
    + rewrite (tw_dw is_dec s) at 1. fold ds r. now rewrite ES.
    + destruct HD as (c0 & s0 & -> & C0). unfold ds in *. cbn [tw] in *. rewrite C0 in *. cbn [peek] in *.
      rewrite forallb_forall in FB. unfold base in *.
      destruct (Z.eqb_spec c0 48) as [->|NZ].
      * assert (FD : Forall (is_digit 8) (tw is_dec s0)).
        { apply Forall_forall. intros y Y. apply digitb_spec. apply FB. now right. }
        change (val_from 8 0 (48 :: tw is_dec s0)) with (val_from 8 0 (tw is_dec s0)).
        constructor; [exact FD|now apply value_exists].
      * assert (FD : Forall (is_digit 10) (c0 :: tw is_dec s0)).
        { apply Forall_forall. intros y Y. apply digitb_spec. now apply FB. }
        constructor; [unfold is_dec in C0; lia|now inversion FD|now apply value_exists].
    + apply s32_u32. assert (2 ^ (8 * sw) <= 2 ^ 32) by (apply Z.pow_le_mono_r; lia). lia.
Qed.

Example C01_cases :
  get_number true 4 [50;49;52;55;52;56;51;54;52;55;59] (* 2147483647; *) = Some (NTok TokNumInt 2147483647 [59]) /\
  get_number true 4 [48;120;70;70;70;70;70;70;70;70] (* 0xFFFFFFFF *) = Some (NTok TokNumUint (-1) []) /\
  get_number true 4 [52;50;57;52;57;54;55;50;57;54] (* 4294967296 *) = Some (NErr TooBig) /\
  get_number true 2 [51;50;55;54;56] (* 32768 *) = Some (NErr TooBigForSigned) /\
  get_number true 2 [51;50;55;54;56;85;41] (* 32768U) *) = Some (NTok TokNumUint 32768 [41]).
Proof. vm_compute. auto. Qed.

Lemma value_of b ds : forallb (digitb b) ds = true -> value b ds (val_from b 0 ds).
Proof. intros H. apply value_exists. apply Forall_forall. rewrite forallb_forall in H. intros c I. apply digitb_spec. auto. Qed.
(** The hypotheses of C01_value are met by 65535u; (int_type says unsigned on both targets). *)
Example C01_hyps : int_body [54;53;53;51;53] 10 65535 /\ int_suffix_text [117] true false /\ ends [59] /\
  int_type 16 10 65535 true false = Some true /\ int_type 32 10 65535 false false = Some false.
Proof.
  split; [|split; [|split; [|split; reflexivity]]].
  - constructor; [lia| |].
    + apply Forall_forall. intros c I. apply digitb_spec. cbn [In] in I. repeat (destruct I as [<-|I]; [reflexivity|]). destruct I.
    + exact (value_of 10 [54;53;53;51;53] eq_refl).
  - constructor. now left.
  - unfold ends, starts_with, pp_char. lia.
Qed.

(** ** C09 *)

(** The conversion routine of the compiler and of the library: for every sequence of at most 112
    digits without leading zeros and every exponent, the result is the nearest binary32 number,
    and the working buffer (69 bytes) is never overrun ([d2f] would be [None]). *)
Theorem C09_d2f ds e :
  Forall (fun d => 0 <= d <= 9) ds -> 1 <= zlen ds <= 112 -> zget ds 0 <> Some 0 \/ ds = [0] ->
  exists u, d2f ds e = Some u /\ rounds_decimal ds e u.
Proof. exact (d2f_ok ds e). Qed.

(** The specification determines the result. *)
Theorem C09_unique N e u v : rounds_to N e u -> rounds_to N e v -> u = v.
Proof.
  unfold rounds_to. destruct (e >=? 0) eqn:E; apply nearest_unique; [lia|].
  apply Z.pow_pos_nonneg; lia.
Qed.

Lemma value_digits ds : Forall (is_digit 10) ds -> val_from 10 0 ds = dec_value (digit_nums ds).
Proof.
  intros F. unfold dec_value. change (val_from 10 0 ds) with (val_from 10 0 ds). generalize 0 at 1 2.
  induction F as [|c t H F IH]; intros n; [reflexivity|].
  rewrite val_cons. apply digitb_spec in H. rewrite <- is_dec_digit in H. rewrite is_dec_val by exact H.
  cbn [digit_nums map dec_from]. apply IH.
Qed.

Lemma float_suffix_complete sf rest : float_suffix_text sf -> ends rest -> float_suffix (sf ++ rest) = rest.
Proof.
  intros H E. apply peek_ends in E. unfold float_suffix. destruct H as [|a A]; cbn [app].
  - now replace (_ || _) with false by (symmetry; tauto).
  - cbn [peek tl]. unfold l_char in A. unfold is_l.
    destruct A as [->|[->|[->| ->]]]; reflexivity.
Qed.
Lemma float_suffix_peek sf rest : float_suffix_text sf -> ends rest ->
  let p := peek (sf ++ rest) in is_dec p = false /\ p <> 46 /\ p <> 101 /\ p <> 69 /\ p <> 120 /\ p <> 88.
Proof.
  intros H E. pose proof (peek_ends rest E) as P. unfold is_dec in *.
  destruct H as [|a A]; cbn [app peek]; unfold l_char in *; (repeat split; try lia).
Qed.

(** An exponent part is read completely. *)
Lemma exp_part et ex rest : exp_text et ex -> is_dec (peek rest) = false -> exists D,
  (peek (et ++ rest) = 101 \/ peek (et ++ rest) = 69) /\ D <> [] /\
  (let s4 := tl (et ++ rest) in
   let s5 := if (peek s4 =? 43) || (peek s4 =? 45) then tl s4 else s4 in
   tw is_dec s5 = D /\ dw is_dec s5 = rest /\
   (if peek s4 =? 45 then - val_from 10 0 D else val_from 10 0 D) = ex) /\ Z.abs ex = val_from 10 0 D.
Proof.
  intros H R. destruct H as [e sg ds v He Hs NE F V|e ds v He NE F V].
  - apply value_fun in V. exists ds. assert (FA : Forall (fun c => is_dec c = true) ds) by (now apply Forall_dec_digit).
    assert (V0 : 0 <= val_from 10 0 ds) by (apply val_from_ge; lia).
    destruct (tw_app is_dec ds rest FA R) as (T & D).
    split; [cbn [app peek]; exact He|]. split; [exact NE|]. split; [|lia]. cbv zeta. cbn [app tl].
    destruct Hs as [-> | ->]; cbn [app].
    + destruct ds as [|d t]; [now destruct NE|]. inversion FA as [|? ? Hd _]; subst. unfold is_dec in Hd.
      cbn [app peek]. replace (d =? 43) with false by lia. replace (d =? 45) with false by lia. cbn [orb].
      change (d :: t ++ rest) with ((d :: t) ++ rest). auto.
    + cbn [peek tl]. change (43 =? 43) with true. change (43 =? 45) with false. cbn [orb]. auto.
  - apply value_fun in V. exists ds. assert (FA : Forall (fun c => is_dec c = true) ds) by (now apply Forall_dec_digit).
    assert (V0 : 0 <= val_from 10 0 ds) by (apply val_from_ge; lia).
    destruct (tw_app is_dec ds rest FA R) as (T & D).
    split; [cbn [app peek]; exact He|]. split; [exact NE|]. split; [|lia]. cbv zeta. cbn [app tl].
    cbn [peek tl]. change (45 =? 43) with false. change (45 =? 45) with true. cbn [orb]. auto with zarith.
Qed.

Lemma nohex_dec c s : is_dec c = true -> peek s <> 120 -> peek s <> 88 ->
  (peek (c :: s) =? 48) && ((peek1 (c :: s) =? 120) || (peek1 (c :: s) =? 88)) = false.
Proof. intros _ A B. change (peek1 (c :: s)) with (peek s). lia. Qed.

Lemma float_nohex ip r : dec_text ip -> peek r <> 120 -> peek r <> 88 -> (ip = [] -> peek r <> 48) ->
  (peek (ip ++ r) =? 48) && ((peek1 (ip ++ r) =? 120) || (peek1 (ip ++ r) =? 88)) = false.
Proof.
  intros F A B N. destruct ip as [|c t]; cbn [app].
  - specialize (N eq_refl). lia.
  - assert (P : peek1 (c :: t ++ r) <> 120 /\ peek1 (c :: t ++ r) <> 88).
    { change (peek1 (c :: t ++ r)) with (peek (t ++ r)). destruct t as [|d t]; cbn [app peek]; [auto|].
      inversion F as [|? ? _ F']; subst. inversion F' as [|? ? D _]; subst. apply digitb_spec in D. rewrite <- is_dec_digit in D.
      unfold is_dec in D. lia. }
    lia.
Qed.

(** What follows the digits, in general form. *)
Lemma float_value_gen sw ip fp dot tail ex rest :
  dec_text ip -> dec_text fp -> (dot = false -> fp = []) -> ip ++ fp <> [] ->
  zlen (ip ++ (if dot then 46 :: fp ++ tail else tail)) < 2 ^ 31 ->
  significant (ip ++ fp) <= 112 ->
  (* the tail is an exponent and a suffix, or a suffix *)
  ((exists et sf, tail = et ++ sf ++ rest /\ exp_text et ex /\ float_suffix_text sf) \/
   (exists sf, tail = sf ++ rest /\ ex = 0 /\ float_suffix_text sf /\ dot = true)) -> ends rest ->
  let s := ip ++ (if dot then 46 :: fp ++ tail else tail) in
  (exists u, get_number true sw s = Some (NTok TokNumFloat u rest) /\
             rounds_to (dec_value (digit_nums (ip ++ fp))) (ex - zlen fp) u) \/
  (get_number true sw s = Some (NErr TooBig) /\ 2 ^ 31 - zlen s <= Z.abs ex).
Proof.
  intros FI FP ND NE L SG TL E s. fold s in L.
  assert (FI' : Forall (fun c => is_dec c = true) ip) by (now apply Forall_dec_digit).
  assert (FP' : Forall (fun c => is_dec c = true) fp) by (now apply Forall_dec_digit).
  (* first character of the tail *)
  assert (PT : is_dec (peek tail) = false /\ peek tail <> 46 /\ peek tail <> 120 /\ peek tail <> 88 /\ peek tail <> 48).
  { destruct TL as [(et & sf & -> & HE & HS)|(sf & -> & _ & HS & _)].
    - destruct HE as [e sg ds v He _ _ _ _|e ds v He _ _ _]; cbn [app peek]; unfold is_dec; repeat split; lia.
    - pose proof (float_suffix_peek sf rest HS E) as P. cbv zeta in P. unfold is_dec in P. unfold is_dec. repeat split; lia. }
  destruct PT as (PT1 & PT2 & PT3 & PT4 & PT5).
  set (r0 := if dot then 46 :: fp ++ tail else tail) in *.
  assert (PR : is_dec (peek r0) = false).
  { unfold r0. destruct dot; [reflexivity|exact PT1]. }
  destruct (tw_app is_dec ip r0 FI' PR) as (T1 & D1). fold s in T1, D1.
  assert (NH : (peek s =? 48) && ((peek1 s =? 120) || (peek1 s =? 88)) = false).
  { apply float_nohex; auto; unfold r0; destruct dot; cbn [peek]; try assumption; try lia. }
  assert (DOT : (peek r0 =? 46) = dot) by (unfold r0; destruct dot; [reflexivity|lia]).
  destruct (tw_app is_dec fp tail FP' PT1) as (T2 & D2).
  assert (FPE : (if dot then tw is_dec (tl r0) else []) = fp).
  { unfold r0. destruct dot; [cbn [tl]; exact T2|]. now rewrite (ND eq_refl). }
  assert (S3E : (if dot then dw is_dec (tl r0) else r0) = tail).
  { unfold r0. destruct dot; [cbn [tl]; exact D2|reflexivity]. }
  pose proof (get_number_float sw s L NH) as G. cbv zeta in G. rewrite D1, T1, DOT, FPE, S3E in G.
  rewrite G; clear G.
  2:{ destruct TL as [(et & sf & -> & HE & HS)|(sf & -> & _ & HS & ->)]; [right|left; reflexivity].
      destruct HE as [e sg ds v He _ _ _ _|e ds v He _ _ _]; cbn [app peek]; lia. }
  rewrite (mant_short dot ip fp ND SG). cbn [fst snd].
  set (D := digit_nums (strip (ip ++ fp))).
  assert (RD : Forall (fun c => is_dec c = true) (ip ++ fp)) by (apply Forall_app; now split).
  destruct (digits_ready _ RD) as (DD & DH). fold D in DD, DH.
  assert (DL : zlen D <= 112) by (unfold D; rewrite zlen_nums, <- significant_strip; exact SG).
  assert (DZ : dec_value D = dec_value (digit_nums (ip ++ fp))) by (apply dec_value_strip).
  assert (ZS : zlen s = zlen ip + zlen r0) by (unfold s; apply zlen_app).
  assert (ZR : zlen fp + zlen tail <= zlen r0).
  { unfold r0. destruct dot; [rewrite zlen_cons, zlen_app; lia|]. rewrite (ND eq_refl). change (zlen (@nil Z)) with 0. lia. }
  pose proof (zlen_nonneg ip). pose proof (zlen_nonneg fp). pose proof (zlen_nonneg tail).
  assert (DS : zlen D <= zlen s).
  { unfold D. rewrite zlen_nums. pose proof (strip_len (ip ++ fp)) as SL. rewrite zlen_app in SL. lia. }
  unfold float_branch.
  destruct TL as [(et & sf & ET & HE & HS)|(sf & ET & EX & HS & DT)].
  - pose proof (float_suffix_peek sf rest HS E) as (P1 & _).
    destruct (exp_part et ex (sf ++ rest) HE P1) as (De & PE & DN & X & XA). cbv zeta in X. rewrite <- ET in PE, X.
    replace ((peek tail =? 101) || (peek tail =? 69)) with true by lia.
    cbv zeta. destruct X as (X1 & X2 & X3). rewrite X1, X2, X3.
    destruct (Z.leb_spec (val_from 10 0 De) INT_MAX) as [VM|VM].
    + replace (zlen De =? 0) with false.
      2:{ destruct De as [|d t]; [now destruct DN|]. rewrite zlen_cons. pose proof (zlen_nonneg t). lia. }
      destruct (finish_float_ok (sf ++ rest) D (- zlen fp) ex DD DL DH ltac:(lia) ltac:(unfold INT_MAX in *; lia))
        as [(u & U1 & U2)|(U1 & U2)].
      * left. exists u. rewrite U1, (float_suffix_complete sf rest HS E). split; [reflexivity|]. rewrite <- DZ. exact U2.
      * right. split; [exact U1|]. lia.
    + right. split; [reflexivity|]. rewrite XA. unfold INT_MAX in VM. pose proof (zlen_nonneg s). lia.
  - pose proof (float_suffix_peek sf rest HS E) as (_ & _ & P2 & P3 & _). rewrite <- ET in P2, P3.
    replace ((peek tail =? 101) || (peek tail =? 69)) with false by lia. subst ex.
    destruct (finish_float_ok tail D (- zlen fp) 0 DD DL DH ltac:(lia) ltac:(unfold INT_MAX; lia))
      as [(u & U1 & U2)|(U1 & U2)].
    + left. exists u. rewrite U1, ET, (float_suffix_complete sf rest HS E). split; [reflexivity|]. rewrite <- DZ. exact U2.
    + right. split; [exact U1|]. lia.
Qed.

(** C09 from the source text: every decimal floating constant with at most 112 significant
    digits gets the nearest binary32 value; only an exponent of about 2^31 is rejected. *)
Theorem C09_value sw text ip fp ex rest :
  float_text text ip fp ex -> ends rest -> zlen (text ++ rest) < 2 ^ 31 -> significant (ip ++ fp) <= 112 ->
  (exists u, get_number true sw (text ++ rest) = Some (NTok TokNumFloat u rest) /\
             rounds_to (dec_value (digit_nums (ip ++ fp))) (ex - zlen fp) u) \/
  (get_number true sw (text ++ rest) = Some (NErr TooBig) /\ 2 ^ 31 - zlen (text ++ rest) <= Z.abs ex).
Proof.
  intros H E L S. destruct H as [ip fp sf FI FP NE HS|ip fp et ex sf FI FP NE HE HS|ip et ex sf FI NE HE HS].
  - pose proof (float_value_gen sw ip fp true (sf ++ rest) 0 rest FI FP ltac:(discriminate) NE) as G. cbv iota zeta in G.
    replace ((ip ++ 46 :: fp ++ sf) ++ rest) with (ip ++ 46 :: fp ++ sf ++ rest) in * by (rewrite <- app_assoc; cbn [app]; now rewrite <- app_assoc).
    apply G; auto. right. exists sf. auto.
  - pose proof (float_value_gen sw ip fp true (et ++ sf ++ rest) ex rest FI FP ltac:(discriminate) NE) as G. cbv iota zeta in G.
    replace ((ip ++ 46 :: fp ++ et ++ sf) ++ rest) with (ip ++ 46 :: fp ++ et ++ sf ++ rest) in *
      by (rewrite <- app_assoc; cbn [app]; now rewrite <- !app_assoc).
    apply G; auto. left. exists et, sf. auto.
  - pose proof (float_value_gen sw ip [] false (et ++ sf ++ rest) ex rest FI ltac:(constructor) ltac:(auto)) as G. cbv iota zeta in G.
    rewrite app_nil_r in G. rewrite app_nil_r in S. rewrite app_nil_r.
    replace ((ip ++ et ++ sf) ++ rest) with (ip ++ et ++ sf ++ rest) in * by (now rewrite <- !app_assoc).
    apply G; auto. left. exists et, sf. auto.
Qed.

Lemma exp_dec_text ds : forallb is_dec ds = true -> dec_text ds.
Proof. intros H. apply Forall_dec_digit. apply Forall_forall. now rewrite forallb_forall in H. Qed.

Lemma exp_text_of e s4 : e = 101 \/ e = 69 ->
  let s5 := if (peek s4 =? 43) || (peek s4 =? 45) then tl s4 else s4 in
  zlen (tw is_dec s5) <> 0 -> exists et ex, e :: s4 = et ++ dw is_dec s5 /\ exp_text et ex.
Proof.
  intros He s5 NZ.
  assert (C : s4 = 45 :: s5 \/ s4 = 43 :: s5 \/ s4 = s5).
  { unfold s5. destruct s4 as [|c t]; [auto|]. cbn [peek tl]. destruct (Z.eqb_spec c 43); [subst; auto|].
    destruct (Z.eqb_spec c 45); [subst; auto|]. auto. }
  clearbody s5. set (D := tw is_dec s5) in *.
  assert (FD : dec_text D) by (apply Forall_dec_digit, tw_all).
  assert (NE : D <> []) by (intros N; rewrite N in NZ; now apply NZ).
  assert (V : value 10 D (val_from 10 0 D)) by (now apply value_exists).
  assert (ES : s5 = D ++ dw is_dec s5) by apply tw_dw.
  destruct C as [->|[->| ->]].
  - exists (e :: 45 :: D), (- val_from 10 0 D). split; [|constructor; auto]. cbn [app]. do 2 f_equal. exact ES.
  - exists (e :: [43] ++ D), (val_from 10 0 D). split; [|constructor; auto]. cbn [app]. do 2 f_equal. exact ES.
  - exists (e :: [] ++ D), (val_from 10 0 D). split; [|constructor; auto]. cbn [app]. f_equal. exact ES.
Qed.
Lemma finish_float_rest s ds m e u rest : finish_float true s ds m e = Some (NTok TokNumFloat u rest) -> rest = float_suffix s.
Proof.
  unfold finish_float. change (negb true) with false. cbv iota. intros H. unfold float_suffix.
  repeat match type of H with
  | context [let '(_, _) := ?e in _] => destruct e
  | context [obind ?o _] => destruct o; cbn [obind] in H; try discriminate H
  | Some (NErr _) = _ => discriminate H
  | None = _ => discriminate H
  | Some (NTok _ _ _) = _ => apply some_inj in H; congruence
  | (if ?b then _ else _) = _ => destruct b
  end.
Qed.
Lemma float_suffix_split s : exists sf, s = sf ++ float_suffix s /\ float_suffix_text sf.
Proof.
  unfold float_suffix. destruct ((peek s =? 102) || (peek s =? 70) || is_l (peek s)) eqn:E.
  - destruct s as [|a t]; [discriminate E|]. exists [a]. split; [reflexivity|]. constructor. cbn [peek] in E.
    unfold is_l in E. unfold l_char. lia.
  - exists []. split; [reflexivity|constructor].
Qed.

(** Converse: whatever is accepted as a floating constant is the text of one. *)
Theorem C09_sound sw s u rest : zlen s < 2 ^ 31 ->
  starts_with (is_digit 10) s \/ (exists t, s = 46 :: t /\ starts_with (is_digit 10) t) ->
  get_number true sw s = Some (NTok TokNumFloat u rest) ->
  exists text ip fp ex, s = text ++ rest /\ float_text text ip fp ex.
Proof.
  intros L ST G.
  destruct ((peek s =? 48) && ((peek1 s =? 120) || (peek1 s =? 88))) eqn:NH.
  { exfalso. rewrite (hex_get sw s L NH) in G.
    destruct (_ <? 2 ^ 32); [|discriminate G]. destruct (_ =? 0); [discriminate G|]. apply some_inj in G.
    unfold finish_int in G. destruct (int_suffix _) as [[? ?] ?].
    repeat match type of G with (if ?b then _ else _) = _ => destruct b | context [if ?b then _ else _] => destruct b end; discriminate G. }
  set (r := dw is_dec s) in *. set (ip := tw is_dec s) in *.
  assert (DI : dec_text ip) by (apply Forall_dec_digit, tw_all).
  assert (ES : s = ip ++ r) by apply tw_dw.
  destruct (Z.eq_dec (peek r) 46) as [D46|D46].
  - rewrite (get_number_float sw s L NH) in G by (fold r; left; lia). fold r in G. cbv zeta in G.
    replace (peek r =? 46) with true in G by lia. cbv iota in G. fold ip in G.
    destruct r as [|c t] eqn:ER; [discriminate D46|]. cbn [peek] in D46. subst c. cbn [tl] in G.
    set (fp := tw is_dec t) in *. set (s3 := dw is_dec t) in *.
    assert (DF : dec_text fp) by (apply Forall_dec_digit, tw_all).
    assert (ET : t = fp ++ s3) by apply tw_dw.
    assert (NE : ip ++ fp <> []).
    { destruct ST as [ST|(t' & -> & ST)].
      - destruct s as [|c s']; [destruct ST|]. unfold ip. cbn [tw]. cbn [starts_with] in ST. apply digitb_spec in ST. rewrite <- is_dec_digit in ST.
        rewrite ST. discriminate.
      - assert (I0 : ip = []) by reflexivity. rewrite I0 in ES. cbn [app] in ES. injection ES as ->.
        destruct t as [|c t']; [destruct ST|]. unfold fp. cbn [tw]. cbn [starts_with] in ST. apply digitb_spec in ST. rewrite <- is_dec_digit in ST.
        rewrite ST, I0. discriminate. }
    unfold float_branch in G. destruct ((peek s3 =? 101) || (peek s3 =? 69)) eqn:EE.
    + cbv zeta in G. destruct s3 as [|e s4] eqn:E3; [discriminate EE|]. cbn [peek tl] in *.
      destruct (_ <=? INT_MAX); [|discriminate G].
      set (s5 := if (peek s4 =? 43) || (peek s4 =? 45) then tl s4 else s4) in *.
      destruct (Z.eqb_spec (zlen (tw is_dec s5)) 0) as [|NZ]; [discriminate G|].
      apply finish_float_rest in G. destruct (float_suffix_split (dw is_dec s5)) as (sf & SF1 & SF2). rewrite <- G in SF1.
      destruct (exp_text_of e s4 ltac:(lia) NZ) as (et & ex & X1 & X2). fold s5 in X1.
      exists (ip ++ 46 :: fp ++ et ++ sf), ip, fp, ex. split; [|constructor; auto].
      rewrite ES, ET, X1, SF1. rewrite <- !app_assoc. cbn [app]. now rewrite <- !app_assoc.
    + apply finish_float_rest in G. destruct (float_suffix_split s3) as (sf & SF1 & SF2). rewrite <- G in SF1.
      exists (ip ++ 46 :: fp ++ sf), ip, fp, 0. split; [|constructor; auto].
      rewrite ES, ET, SF1. rewrite <- !app_assoc. cbn [app]. now rewrite <- !app_assoc.
  - destruct ((peek r =? 101) || (peek r =? 69)) eqn:EE.
    2:{ exfalso. rewrite (get_number_int sw s L NH) in G by (fold r; lia). apply some_inj in G.
        unfold int_branch, finish_int in G.
        repeat match type of G with
        | (if ?b then _ else _) = _ => destruct b
        | (match ?b with _ => _ end) = _ => destruct b
        | context [if ?b then _ else _] => destruct b end; discriminate G. }
    rewrite (get_number_float sw s L NH) in G by (fold r; right; replace (peek r =? 46) with false by lia; lia).
    fold r in G. cbv zeta in G.
    replace (peek r =? 46) with false in G by lia. cbv iota in G. fold ip in G.
    assert (NE : ip <> []).
    { destruct ST as [ST|(t' & -> & ST)].
      - destruct s as [|c s']; [destruct ST|]. unfold ip. cbn [tw]. cbn [starts_with] in ST. apply digitb_spec in ST. rewrite <- is_dec_digit in ST.
        rewrite ST. discriminate.
      - unfold r in D46. cbn in D46. congruence. }
    unfold float_branch in G. rewrite EE in G. cbv zeta in G. destruct r as [|e s4] eqn:E3; [discriminate EE|]. cbn [peek tl] in *.
    destruct (_ <=? INT_MAX); [|discriminate G].
    set (s5 := if (peek s4 =? 43) || (peek s4 =? 45) then tl s4 else s4) in *.
    destruct (Z.eqb_spec (zlen (tw is_dec s5)) 0) as [|NZ]; [discriminate G|].
    apply finish_float_rest in G. destruct (float_suffix_split (dw is_dec s5)) as (sf & SF1 & SF2). rewrite <- G in SF1.
    destruct (exp_text_of e s4 ltac:(lia) NZ) as (et & ex & X1 & X2). fold s5 in X1.
    exists (ip ++ et ++ sf), ip, [], ex. split; [|constructor; auto].
    rewrite ES, X1, SF1. now rewrite <- !app_assoc.
Qed.

(** 3.4028236e38f; rounds to infinity, 1e-45 to the smallest denormal, 16777217. is a tie. *)
Example C09_cases :
  get_number true 4 [51;46;52;48;50;56;50;51;54;101;51;56;102;59] = Some (NTok TokNumFloat 2139095040 [59]) /\
  get_number true 4 [49;101;45;52;53] = Some (NTok TokNumFloat 1 []) /\
  get_number true 4 [49;54;55;55;55;50;49;55;46;59] = Some (NTok TokNumFloat 1266679808 [59]).
Proof. vm_compute. auto. Qed.
Example C09_hyps : float_text [49;46;53;101;45;51;102] [49] [53] (-3) /\ ends [59] /\ significant ([49] ++ [53]) <= 112.
Proof.
  split; [|split; [|cbn; lia]].
  - change [49;46;53;101;45;51;102] with ([49] ++ 46 :: [53] ++ [101;45;51] ++ [102]).
    constructor; [now apply exp_dec_text|now apply exp_dec_text|discriminate| |constructor; auto].
    change (-3) with (- (3)). constructor; [auto|discriminate|now apply exp_dec_text|].
    exact (value_of 10 [51] eq_refl).
  - unfold ends, starts_with, pp_char. lia.
Qed.

(** Without the bound on the number of digits the claim is false: a digit of the fraction that is
    not stored still divides the value by 10.  1. followed by 120 zeros becomes 1e-9. *)
Theorem C09_long_refuted :
  ~ forall sw text ip fp ex rest, sw = 4 ->
      float_text text ip fp ex -> ends rest -> zlen (text ++ rest) < 2 ^ 31 -> Z.abs ex < 1000 ->
      exists u, get_number true sw (text ++ rest) = Some (NTok TokNumFloat u rest) /\
                rounds_to (dec_value (digit_nums (ip ++ fp))) (ex - zlen fp) u.
Proof.
  intros H. set (fp := repeat 48 120).
  destruct (H 4 ([49] ++ 46 :: fp ++ []) [49] fp 0 [] eq_refl) as (u & G & R).
  - constructor; [now apply exp_dec_text|now apply exp_dec_text|discriminate|constructor].
  - unfold ends, starts_with. auto.
  - now vm_compute.
  - cbn. lia.
  - assert (GU : get_number true 4 (([49] ++ 46 :: fp ++ []) ++ []) = Some (NTok TokNumFloat 814313567 []))
      by (vm_compute; reflexivity).
    rewrite GU in G. apply some_inj in G. inversion G as [U]. subst u. clear G GU.
    unfold rounds_to in R. change (0 - zlen fp >=? 0) with false in R. cbv iota in R.
    destruct R as (_ & R). specialize (R 1065353216 ltac:(unfold f32_inf; lia)). destruct R as (R & _).
    revert R. vm_compute. intros R. now apply R.
Qed.

Print Assumptions C01_value.
Print Assumptions C01_sound.
Print Assumptions C09_d2f.
Print Assumptions C09_unique.
Print Assumptions C09_value.
Print Assumptions C09_sound.
Print Assumptions C09_long_refuted.
