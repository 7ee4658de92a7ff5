(** C51: strftime writes the text that the format stands for, and stays within the destination. *)
From Coq Require Import String Ascii.
From Verif Require Import Base TimeModel TimeSpec StrftimeModel StrftimeSpec StrftimeProof.

(** For every format that C defines and every broken-down time in its ranges there is exactly one
    text, and strftime produces it: if it fits with its terminator, the result is its length and
    the destination is the text and the terminator; if not, the result is 0.  Either way nothing
    but that is written, and nothing outside the [maxsize] characters.  [W] is the size of int
    and size_t: 2 in the tiny and small models, 4 in the others. *)
Theorem C51_strftime_partial W t f : W = 2 \/ W = 4 -> format f -> normal t -> tm_year t + 1901 < 2 ^ (8 * W - 1) ->
  exists l, all t f l /\ (forall l', all t f l' -> l' = l) /\
  forall m maxsize, 0 <= maxsize < 2 ^ (8 * W) -> zlen l + 1 < 2 ^ (8 * W) ->
  exists r m', strftime W m maxsize (text f ++ [0]) t = Some (r, m') /\
    (zlen l + 1 <= maxsize ->
       r = zlen l /\ forall i, m' i = if (0 <=? i) && (i <=? zlen l) then nth (Z.to_nat i) (l ++ [0]) 0 else m i) /\
    (maxsize < zlen l + 1 -> r = 0 /\ forall i, ~ 0 <= i < maxsize -> m' i = m i).
Proof.
  intros HW F N Hy. destruct (strftime_ok W HW t f N Hy F) as (l & A & E). exists l. split; [exact A|]. split; [intros l' A'; exact (all_fun t f l' A' l A)|].
  intros m mx Hm Hl. destruct (E m mx Hm Hl) as (r & m' & E1 & E2 & E3). exists r, m'. split; [exact E1|]. split.
  - intros H. destruct (Z.ltb_spec (zlen l) mx); [|lia]. split; [exact E2|]. intros i. rewrite E3, Z.min_l by lia.
    destruct (Z.leb_spec 0 i), (Z.ltb_spec i (zlen l + 1)), (Z.leb_spec i (zlen l)); try lia; reflexivity.
  - intros H. destruct (Z.ltb_spec (zlen l) mx); [lia|]. split; [exact E2|]. intros i Hi. rewrite E3, Z.min_r by lia.
    destruct (Z.leb_spec 0 i), (Z.ltb_spec i mx); try lia; reflexivity.
Qed.
Print Assumptions C51_strftime_partial.

(** A text that does not fit leaves the beginning of the text in the destination (C leaves the
    contents open). *)
Theorem C51_truncated_partial W t f l m maxsize r m' : W = 2 \/ W = 4 -> format f -> normal t -> tm_year t + 1901 < 2 ^ (8 * W - 1) ->
  all t f l -> 0 <= maxsize <= zlen l -> zlen l + 1 < 2 ^ (8 * W) ->
  strftime W m maxsize (text f ++ [0]) t = Some (r, m') ->
  forall i, 0 <= i < maxsize -> m' i = nth (Z.to_nat i) l 0.
Proof.
  intros HW F N Hy A Hm Hl E i Hi. destruct (strftime_ok W HW t f N Hy F) as (l0 & A0 & E0). rewrite (all_fun t f l A l0 A0) in *. clear A.
  destruct (E0 m maxsize) as (r' & m2 & E1 & E2 & E3); [lia|lia|]. rewrite E in E1. injection E1 as -> ->. rewrite E3, Z.min_r by lia.
  destruct (Z.leb_spec 0 i), (Z.ltb_spec i maxsize); try lia. cbn [andb]. apply app_nth1. unfold zlen in *. lia.
Qed.
Print Assumptions C51_truncated_partial.

(** Without the bound on the text's length the claim is false: the count of characters wraps, and
    strftime resumes writing, now past the end of the destination, and reports success.  Here
    size_t has 16 bits, the format repeats %c 2731 times and the destination has 20 characters. *)
Fixpoint rep (n : nat) : string := match n with O => "" | S n => String "%" (String "c" (rep n)) end.
Lemma rep_format n : format (rep n).
Proof. induction n; [constructor|]. cbn [rep]. apply f_conv; [cbn; tauto|exact IHn]. Qed.
Definition ext : tm := mkTm 60 59 23 30 11 124 1 364 0.
Lemma ext_normal : normal ext.
Proof. constructor; vm_compute; (split || idtac); intros; try discriminate; reflexivity. Qed.
Theorem C51_wrap_refuted : ~ forall W t f m maxsize r m', W = 2 \/ W = 4 -> format f -> normal t -> tm_year t + 1901 < 2 ^ (8 * W - 1) ->
  0 <= maxsize < 2 ^ (8 * W) -> strftime W m maxsize (text f ++ [0]) t = Some (r, m') -> forall i, ~ 0 <= i < maxsize -> m' i = m i.
Proof.
  intros H. destruct (strftime 2 (fun _ => 0) 20 (text (rep (Z.to_nat 2731)) ++ [0]) ext) as [[r m']|] eqn:E.
  - specialize (H 2 ext (rep (Z.to_nat 2731)) (fun _ => 0) 20 r m' (or_introl eq_refl) (rep_format _) ext_normal eq_refl ltac:(lia) E 25 ltac:(lia)).
    assert (K : option_map (fun x : Z * (Z -> Z) => snd x 25) (strftime 2 (fun _ => 0) 20 (text (rep (Z.to_nat 2731)) ++ [0]) ext) = Some 48) by (vm_compute; reflexivity).
    rewrite E in K. cbn in K. congruence.
  - assert (K : option_map (fun x : Z * (Z -> Z) => snd x 25) (strftime 2 (fun _ => 0) 20 (text (rep (Z.to_nat 2731)) ++ [0]) ext) = Some 48) by (vm_compute; reflexivity).
    rewrite E in K. discriminate.
Qed.
Print Assumptions C51_wrap_refuted.

(** A case: the last Monday of 2024, which is in the first week of 2025, with a leap second. *)
Definition ex_format : string := "%G-W%V-%u %c%%".
Example ex51_hypotheses : format ex_format /\ normal ext /\ tm_year ext + 1901 < 2 ^ (8 * 2 - 1).
Proof.
  split; [|split; [exact ext_normal|reflexivity]]. unfold ex_format.
  repeat first [apply f_nil | apply f_percent | (apply f_conv; [cbn; tauto|]) | (apply f_lit; [discriminate|discriminate|])].
Qed.
Example ex51_result :
  option_map (fun x => (fst x, map (snd x) [0;1;2;3;4;5;6;7;8;9;10;11;12;13;14;15;16;17;18;19;20;21;22;23;24;25;26;27;28;29;30;31;32;33;34;35;36;37]))
    (strftime 2 (fun _ => -1) 40 (text ex_format ++ [0]) ext)
  = Some (36, text "2025-W01-1 Mon Dec 30 23:59:60 2024%" ++ [0; -1]).
Proof. vm_compute. reflexivity. Qed.
