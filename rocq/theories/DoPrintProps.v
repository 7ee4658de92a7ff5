(** C35: what printf, snprintf and sprintf print for the integer, character and string conversions.
    [pf] stands for the floating point conversions, which do not occur in the formats here
    ([noFloat]); FltPrintProps.v has them too. *)
From Verif Require Import Base BaseLemmas LexModel DoPrintModel DoPrintSpec DoPrintProof.

Definition noFloat : settings -> Z -> list Z -> Prop := fun _ _ _ => False.
Lemma noFloat_ok pf : faithful pf noFloat.
Proof. intros D s w out _ _ _ []. Qed.

(** On a stream that fails after [r] characters: all the characters are printed and their number is
    returned, or the first [r] are and -1 is returned.  Partial: without the arguments that are not
    [tame], see C35_hash_refuted *)
Theorem C35_printf_partial : forall pf items args out st r, 0 <= r ->
  Forall legal items -> printsAll noFloat tame 0 items args out st -> zlen out < 2 ^ 31 ->
  exists k, doprint pf (format items) args (fresh r false) = Done (if r <? zlen out then -1 else zlen out) k /\
    outp k = firstn (Z.to_nat r) out /\ (zlen out <= r -> stores k = st).
Proof.
  intros pf items args out st r R LG PA L.
  destruct (doprint_ok pf noFloat items args out st r false (noFloat_ok pf) R LG PA L) as (k & E & O & S).
  exists k. split; [exact E|]. split; [exact O|]. auto.
Qed.
(** vsnprintf: the first n - 1 characters and a NUL, nothing else is written; the number of
    characters of the whole text is returned *)
Theorem C35_snprintf_partial : forall pf items args out st buf n, 0 <= n <= zlen buf ->
  Forall legal items -> printsAll noFloat tame 0 items args out st -> zlen out < 2 ^ 31 ->
  vsnprintf pf buf n (format items) args =
  Ok (zlen out,
      if n =? 0 then buf else
      let s := firstn (Z.to_nat (n - 1)) out in s ++ [0] ++ skipn (length s + 1) buf).
Proof.
  intros pf items args out st buf n N LG PA L. unfold vsnprintf.
  destruct (doprint_ok pf noFloat items args out st (if n =? 0 then 0 else n - 1) true (noFloat_ok pf) ltac:(destruct (n =? 0) eqn:Q; lia) LG PA L)
    as (k & E & O & S).
  rewrite E. cbn [negb andb]. destruct (n =? 0) eqn:Q; [reflexivity|]. unfold deposit. rewrite O. unfold cut.
  set (s := firstn _ out). assert (LS : zlen s <= n - 1) by (unfold s, zlen; rewrite firstn_length; lia).
  destruct (zlen buf <? zlen s + 1) eqn:Q2; [lia|]. reflexivity.
Qed.
(** vsprintf into an array large enough *)
Theorem C35_sprintf_partial : forall pf items args out st buf, zlen out < zlen buf ->
  Forall legal items -> printsAll noFloat tame 0 items args out st -> zlen out < 2 ^ 31 - 1 ->
  vsprintf pf buf (format items) args = Ok (zlen out, out ++ [0] ++ skipn (length out + 1) buf).
Proof.
  intros pf items args out st buf N LG PA L. unfold vsprintf.
  destruct (doprint_ok pf noFloat items args out st (2 ^ 31 - 2) true (noFloat_ok pf) ltac:(lia) LG PA ltac:(lia)) as (k & E & O & S).
  rewrite E. cbn [negb andb]. unfold deposit. rewrite O. unfold cut.
  rewrite firstn_all2 by (unfold zlen in L; lia). destruct (zlen buf <? zlen out + 1) eqn:Q2; [lia|]. reflexivity.
Qed.

(** the specification gives exactly one text for every integer argument *)
Lemma numeral_exists b upper : 2 <= b <= 16 -> forall n v, 0 <= v -> (Z.to_nat v <= n)%nat -> exists s, numeral b upper v s.
Proof.
  intros B. induction n as [|n IH]; intros v V L.
  - exists []. split; [constructor|]. split; [cbn; lia|discriminate].
  - destruct (Z.eq_dec v 0) as [-> | NZ]; [exists []; split; [constructor|]; split; [reflexivity|discriminate]|].
    assert (D : exists c, okDigit b upper c /\ digitValue c = v mod b).
    { assert (M : 0 <= v mod b < 16) by (pose proof (Z.mod_pos_bound v b); lia).
      assert (MB : v mod b < b) by (apply Z.mod_pos_bound; lia).
      set (m := v mod b) in *. clearbody m. unfold okDigit.
      exists (if m <? 10 then 48 + m else if upper then 55 + m else 87 + m). unfold digitValue.
      destruct (m <? 10) eqn:Q.
      - destruct ((48 <=? 48 + m) && (48 + m <=? 57)) eqn:Q1; [|lia]. destruct upper; lia.
      - destruct upper.
        + destruct ((48 <=? 55 + m) && (55 + m <=? 57)) eqn:Q1; [lia|]. destruct ((97 <=? 55 + m) && (55 + m <=? 102)) eqn:Q2; [lia|].
          destruct ((65 <=? 55 + m) && (55 + m <=? 70)) eqn:Q3; lia.
        + destruct ((48 <=? 87 + m) && (87 + m <=? 57)) eqn:Q1; [lia|]. destruct ((97 <=? 87 + m) && (87 + m <=? 102)) eqn:Q2; lia. }
    destruct D as (c & DC & DV).
    assert (v / b < v) by (apply Z.div_lt; lia). assert (0 <= v / b) by (apply Z.div_pos; lia).
    destruct (IH (v / b) ltac:(lia) ltac:(lia)) as (s & F & E & HD).
    exists (s ++ [c]). split; [|split].
    + apply Forall_app. split; [exact F|]. constructor; [exact DC|constructor].
    + rewrite valueOf_app, E. cbn [valueOf]. rewrite DV. rewrite (Z.div_mod v b) at 3 by lia. lia.
    + destruct s as [|c0 s]; [|exact HD]. cbn [List.app hd]. cbn in E. intros ->. change (digitValue 48) with 0 in DV.
      rewrite (Z.div_mod v b) in NZ by lia. lia.
Qed.
Theorem C35_defined : forall s w, 0 <= w < 2 ^ 32 -> exists out, intText s w out.
Proof.
  intros s w W. destruct (numeral_exists (base (con s)) (match con s with CUX => true | _ => false end) ltac:(destruct (con s); cbn; lia)
    (Z.to_nat (Z.abs (operand s w))) (Z.abs (operand s w)) ltac:(lia) ltac:(lia)) as (core & N).
  eexists. exists core. split; [exact N|]. cbv zeta. reflexivity.
Qed.

(** ** what goes wrong: # with h or hh looks at the argument before the conversion.
    printf of 0x100 with %#hhx: the value printed is 0, so there must be no prefix *)
Definition hashItem : item := Conv (Directive [35] FNone FNone SHH CX).
Theorem C35_hash_refuted : exists items args out, Forall legal items /\ printsAll noFloat any 0 items args out [] /\
  forall pf r, zlen out <= r -> forall k, doprint pf (format items) args (fresh r false) <> Done (zlen out) k.
Proof.
  exists [hashItem], [AInt 256], [48]. split; [|split].
  - constructor; [|constructor]. cbn. split; [constructor; [lia|constructor]|]. repeat split; discriminate.
  - change [48] with ([48] ++ []). change (@nil (Z * Z * Z)) with (@nil (Z * Z * Z) ++ []). eapply ACons; [|constructor].
    eapply PInt with (s := Settings false false false true false 0 None SHH CX) (w := 256).
    + apply (Settled (Directive [35] FNone FNone SHH CX) [AInt 256] [AInt 256] [AInt 256] 0 false None); cbn; auto.
    + exact Logic.I.
    + lia.
    + exact Logic.I.
    + exists []. split; [split; [constructor|split; [reflexivity|discriminate]]|]. reflexivity.
  - intros pf r R k. assert (E : doprint pf (format [hashItem]) [AInt 256] (fresh r false) =
      let k := puts [48; 120; 48] (fresh r false) in Done (if cnt1 k then -1 else s32 (cnt0 k)) k) by reflexivity.
    rewrite E. cbv zeta. rewrite puts_kputs by (cbn in *; lia). intros A. injection A as A _. unfold kputs, fresh in A.
    cbn [cnt1 cnt0 room isstr negb andb] in A. change (zlen [48]) with 1 in *. change (zlen [48; 120; 48]) with 3 in A.
    destruct (Z.max 0 r <? 3) eqn:Q; [discriminate A|].
    replace (cut r [48; 120; 48]) with [48; 120; 48] in A by (symmetry; apply firstn_all2; cbn; lia). discriminate A.
Qed.

(** ** the hypotheses are met:  the format <%+-6.3d|%#o|%*.*s|%%%hn> with 7, 8, -5, 2, the characters abc without NUL, an address *)
Definition demo : list item :=
  [Lit 60; Conv (Directive [43; 45] (FDigits [54]) (FDigits [51]) SNone CD); Lit 124;
   Conv (Directive [35] FNone FNone SNone CO); Lit 124; Conv (Directive [] FStar FStar SNone CS);
   Percent; Conv (Directive [] FNone FNone SH CN); Lit 62].
Definition demoArgs : list arg := [AInt 7; AInt 8; AInt (2 ^ 32 - 5); AInt 2; AStr (Some [97; 98; 99]); AOut 1000].
Definition demoOut : list Z :=   (* <+007  |010|ab   %> *)
  [60] ++ [43; 48; 48; 55; 32; 32] ++ [124] ++ [48; 49; 48] ++ [124] ++ [97; 98; 32; 32; 32] ++ [37] ++ [] ++ [62] ++ [].
Example demo_legal : Forall legal demo.
Proof.
  repeat (apply Forall_cons; [|]); [..|apply Forall_nil];
    cbn [legal flags fwidth fprec fsize fconv]; repeat split; try lia; try discriminate;
    repeat (apply Forall_cons; [cbn; lia|]); apply Forall_nil.
Qed.
Example demo_prints : printsAll noFloat tame 0 demo demoArgs demoOut ([] ++ [] ++ [] ++ [] ++ [] ++ [] ++ [] ++ [(1000, 2, 18)] ++ [] ++ []).
Proof.
  unfold demo, demoOut, demoArgs.
  eapply ACons; [apply PLit|].
  eapply ACons.
  { eapply PInt with (s := Settings true true false false false 6 (Some 3) SNone CD) (w := 7).
    - eapply (Settled (Directive [43; 45] (FDigits [54]) (FDigits [51]) SNone CD) _ _ _ 6 false (Some 3)); cbn; auto.
    - exact Logic.I.
    - lia.
    - exact Logic.I.
    - exists [55]. split; [split; [constructor; [cbn; lia|constructor]|split; [reflexivity|discriminate]]|]. reflexivity. }
  eapply ACons; [apply PLit|].
  eapply ACons.
  { eapply PInt with (s := Settings false false false true false 0 None SNone CO) (w := 8).
    - eapply (Settled (Directive [35] FNone FNone SNone CO) _ _ _ 0 false None); cbn; auto.
    - exact Logic.I.
    - lia.
    - exact Logic.I.
    - exists [49; 48]. split; [split; [repeat (constructor; [cbn; lia|]); constructor|split; [reflexivity|discriminate]]|]. reflexivity. }
  eapply ACons; [apply PLit|].
  eapply ACons.
  { apply PStr with (s := Settings true false false false false 5 (Some 2) SNone CS) (m := Some [97; 98; 99]) (t := [97; 98]) (args' := [AOut 1000]).
    - apply (Settled (Directive [] FStar FStar SNone CS) _ [AInt 2; AStr (Some [97; 98; 99]); AOut 1000] _ 5 true (Some 2)); cbn.
      + eexists. split; [reflexivity|]. split; [vm_compute; discriminate|]. split; reflexivity.
      + eexists. split; [reflexivity|]. reflexivity.
    - reflexivity.
    - split; [repeat constructor; discriminate|]. right. split; [exists [99]; reflexivity|]. reflexivity. }
  eapply ACons; [apply PPercent|].
  eapply ACons.
  { apply (PCount noFloat tame 18 (Directive [] FNone FNone SH CN) [AOut 1000] (Settings false false false false false 0 None SH CN) 1000 []).
    - eapply (Settled (Directive [] FNone FNone SH CN) _ _ _ 0 false None); cbn; auto.
    - reflexivity. }
  eapply ACons; [apply PLit|].
  apply ANil.
Qed.
Example demo_run : forall pf, vsnprintf pf (repeat 1 8) 6 (format demo) demoArgs = Ok (19, [60; 43; 48; 48; 55; 0; 1; 1]).
Proof. reflexivity. Qed.

Print Assumptions C35_printf_partial.
Print Assumptions C35_snprintf_partial.
Print Assumptions C35_sprintf_partial.
Print Assumptions C35_defined.
Print Assumptions C35_hash_refuted.
