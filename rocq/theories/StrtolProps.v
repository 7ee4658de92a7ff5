(** Properties C27, C28 and C43: number parsing and character classification. *)
From Verif Require Import Base BaseLemmas CtypeModel StrtolModel StrtolSpec StrtolProof.

(** C27.  When the string has a subject sequence, both functions consume exactly it and return
    its value: strtol saturated to the range of long, strtoul (with C's negation modulo 2^32)
    saturated to ULONG_MAX; ERANGE is set exactly when saturation happened. *)
Theorem C27_strtol_converts : forall base s neg b ds rest n,
  valid_base base -> c_string s -> subject base s neg b ds rest -> value b ds n ->
  let v := if neg then - n else n in
  strtol s base =
    Some (clamp_signed v, (v >? 2 ^ 31 - 1) || (v <? - 2 ^ 31), zlen s - zlen rest) /\
  strtoul s base =
    Some ((if n >? 2 ^ 32 - 1 then 2 ^ 32 - 1 else v mod 2 ^ 32), n >? 2 ^ 32 - 1,
          zlen s - zlen rest).
Proof. intros base s neg b ds rest n HB (B & I & L). exact (strtol_converts base s neg b ds rest n HB B I L). Qed.
Print Assumptions C27_strtol_converts.

(** C27.  Otherwise nothing is converted: zero, no error, end pointer at the start. *)
Theorem C27_strtol_no_conversion : forall base s,
  valid_base base -> c_string s ->
  (forall neg b ds rest, ~ subject base s neg b ds rest) ->
  strtol s base = Some (0, false, 0) /\ strtoul s base = Some (0, false, 0).
Proof. intros base s HB (B & I & L). exact (strtol_noconv base s HB B I L). Qed.
Print Assumptions C27_strtol_no_conversion.

(** " -0x1fZ": the hypotheses are met, and the functions give -31 / 2^32-31, 6 characters. *)
Example C27_case_subject : subject 0 [32;45;48;120;49;102;90;0] true 16 [49;102] [90;0].
Proof.
  exists [32], [45], [48;120]. split; [reflexivity|]. split; [repeat constructor|].
  split; [auto|]. split; [discriminate|]. split.
  { constructor; [exists 1; split; [apply (dv_dec 49); lia|lia]|].
    constructor; [exists 15; split; [apply (dv_lower 102); lia|lia]|constructor]. }
  split. { intros (v & H & L). inversion H; lia. }
  left. exists 120. auto.
Qed.
Example C27_case : strtol [32;45;48;120;49;102;90;0] 0 = Some (-31, false, 6) /\
  strtoul [32;45;48;120;49;102;90;0] 0 = Some (2 ^ 32 - 31, false, 6) /\
  strtol [57;57;57;57;57;57;57;57;57;57;57;0] 10 = Some (2147483647, true, 11) /\
  strtol [48;120;103;0] 16 = Some (0, false, 1).
Proof. vm_compute. auto. Qed.

(** C28.  atoi returns the value of the decimal number when it is representable as int (and 0
    when it is not, where ISO C leaves the behaviour undefined). *)
Theorem C28_atoi : forall s neg ds rest n,
  c_string s -> dec_subject s neg ds rest -> value 10 ds n ->
  let v := if neg then - n else n in
  atoi s = Some (if (- 2 ^ 31 <=? v) && (v <=? 2 ^ 31 - 1) then v else 0).
Proof.
  intros s neg ds rest n (HB & HI & HL) (ws & sg & Es & Hws & Hno & Hsg & Hds & Hrest) HV v.
  apply forallb_space in Hws. apply forallb_digit in Hds.
  assert (HIr : In 0 rest).
  { rewrite Es in HI. apply in_app_or in HI as [HI|HI].
    { rewrite forallb_forall in Hws. apply Hws in HI. discriminate. }
    apply in_app_or in HI as [HI|HI].
    { destruct Hsg as [(-> & _)|[(-> & _)|(-> & _)]]; simpl in HI; intuition lia. }
    apply in_app_or in HI as [HI|HI]; [|exact HI].
    rewrite forallb_forall in Hds. apply Hds in HI. discriminate. }
  destruct rest as [|r t]; [destruct HIr|].
  assert (Hr : digitb 10 r = false).
  { destruct (digitb 10 r) eqn:E; auto. apply digitb_spec in E. exfalso. apply Hrest. exact E. }
  assert (HF : front_ok ws sg (ds ++ r :: t)).
  { split; auto. destruct Hsg as [(-> & _)|[(-> & _)|(-> & _)]].
    - left. split; auto. assert (exists c u, ds ++ r :: t = c :: u) as (c & u & E).
      { destruct ds; simpl; eauto. }
      exists c, u. split; [exact E|]. rewrite E in Hno. cbn [starts_with] in Hno.
      destruct (spaceb c) eqn:E1. { apply spaceb_spec in E1. exfalso. apply Hno. auto. }
      destruct (signb c) eqn:E2; [|auto]. exfalso. apply Hno. split; auto. unfold signb in E2. right. lia.
    - right. split; auto. destruct ds; discriminate.
    - right. split; auto. destruct ds; discriminate. }
  subst s. pose proof (atoi_master ws sg ds r t HB HF Hds Hr) as M. cbv zeta in M.
  rewrite (value_fun _ _ _ HV) in M.
  assert (Ev : (if neg_of sg =? 0 then n else - n) = v).
  { unfold v. destruct Hsg as [(-> & ->)|[(-> & ->)|(-> & ->)]]; reflexivity. }
  rewrite Ev in M. rewrite M. f_equal.
  destruct ((v >? 2 ^ 31 - 1) || (v <? - 2 ^ 31)) eqn:E;
  destruct ((- 2 ^ 31 <=? v) && (v <=? 2 ^ 31 - 1)) eqn:E'; auto; exfalso; lia.
Qed.
Print Assumptions C28_atoi.

Example C28_case : atoi [9;45;50;49;52;55;52;56;51;54;52;56;120;0] = Some (-2147483648).
Proof. vm_compute. reflexivity. Qed.

(** C43.  The character classes of the "C" locale, for EOF and every unsigned char value. *)
Definition upper c := 65 <= c <= 90.
Definition lower c := 97 <= c <= 122.
Definition dec c := 48 <= c <= 57.
Theorem C43_ctype : forall c, -1 <= c <= 255 ->
  let says f (P : Prop) := exists v, f c = Some v /\ (v <> 0 <-> P) in
  says isupper (upper c) /\ says islower (lower c) /\ says isalpha (upper c \/ lower c) /\
  says isdigit (dec c) /\ says isalnum (upper c \/ lower c \/ dec c) /\
  says isxdigit (dec c \/ 65 <= c <= 70 \/ 97 <= c <= 102) /\
  says isspace (c = 32 \/ 9 <= c <= 13) /\ says isblank (c = 32 \/ c = 9) /\
  says iscntrl (0 <= c <= 31 \/ c = 127) /\ says isprint (32 <= c <= 126) /\
  says isgraph (33 <= c <= 126) /\
  says ispunct (33 <= c <= 126 /\ ~ (upper c \/ lower c \/ dec c)) /\
  tolower c = Some (if (65 <=? c) && (c <=? 90) then c + 32 else c) /\
  toupper c = Some (if (97 <=? c) && (c <=? 122) then c - 32 else c).
Proof.
  intros c Hc.
  pose (ck := fun (f : Z -> option Z) (b : Z -> bool) c =>
      match f c with Some v => eqb (negb (v =? 0)) (b c) | None => false end).
  pose (ok := fun c =>
    ck isupper (fun c => (65 <=? c) && (c <=? 90)) c && ck islower (fun c => (97 <=? c) && (c <=? 122)) c &&
    ck isalpha (fun c => ((65 <=? c) && (c <=? 90)) || ((97 <=? c) && (c <=? 122))) c &&
    ck isdigit (fun c => (48 <=? c) && (c <=? 57)) c &&
    ck isalnum (fun c => ((65 <=? c) && (c <=? 90)) || ((97 <=? c) && (c <=? 122)) || ((48 <=? c) && (c <=? 57))) c &&
    ck isxdigit (fun c => ((48 <=? c) && (c <=? 57)) || ((65 <=? c) && (c <=? 70)) || ((97 <=? c) && (c <=? 102))) c &&
    ck isspace (fun c => (c =? 32) || ((9 <=? c) && (c <=? 13))) c &&
    ck isblank (fun c => (c =? 32) || (c =? 9)) c &&
    ck iscntrl (fun c => ((0 <=? c) && (c <=? 31)) || (c =? 127)) c &&
    ck isprint (fun c => (32 <=? c) && (c <=? 126)) c &&
    ck isgraph (fun c => (33 <=? c) && (c <=? 126)) c &&
    ck ispunct (fun c => ((33 <=? c) && (c <=? 126)) &&
      negb (((65 <=? c) && (c <=? 90)) || ((97 <=? c) && (c <=? 122)) || ((48 <=? c) && (c <=? 57)))) c &&
    match tolower c with Some v => v =? (if (65 <=? c) && (c <=? 90) then c + 32 else c) | None => false end &&
    match toupper c with Some v => v =? (if (97 <=? c) && (c <=? 122) then c - 32 else c) | None => false end).
  assert (A : forallb (fun n => ok (Z.of_nat n - 1)) (seq 0 257) = true) by (vm_compute; reflexivity).
  rewrite forallb_forall in A. specialize (A (Z.to_nat (c + 1)) ltac:(apply in_seq; lia)).
  replace (Z.of_nat (Z.to_nat (c + 1)) - 1) with c in A by lia. unfold ok in A.
  repeat (apply andb_true_iff in A as [A ?]).
  assert (CK : forall f b (P : Prop), ck f b c = true -> (b c = true <-> P) ->
     exists v, f c = Some v /\ (v <> 0 <-> P)).
  { intros f b P Hk HP. unfold ck in Hk. destruct (f c) as [v|]; [|discriminate]. exists v.
    split; auto. apply eqb_prop in Hk. rewrite <- HP, <- Hk. lia. }
  cbv zeta. unfold upper, lower, dec.
  repeat (split; [eapply CK; [eassumption | cbv beta; lia] |]).
  split.
  - destruct (tolower c) as [v|]; [|discriminate]. f_equal. lia.
  - destruct (toupper c) as [v|]; [|discriminate]. f_equal. lia.
Qed.
Print Assumptions C43_ctype.
