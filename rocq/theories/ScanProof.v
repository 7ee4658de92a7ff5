(** scanf: input items of the integer conversions. *)
From Verif Require Import Base BaseLemmas CtypeModel StrtolSpec StrtolProof StrtofSpec StrtofProof3 ScanModel ScanSpec.

Ltac Zify.zify_post_hook ::= idtac.

(** ** Characters *)
Lemma test_space c : byte c -> test isspace c = Some (spaceb c).
Proof. intros B. unfold test. destruct (isspace_ok c B) as (v & -> & E). cbn [obind]. now rewrite E, negb_involutive. Qed.
Definition decb (c : Z) : bool := (48 <=? c) && (c <=? 57).
Lemma test_digit c : -1 <= c < 256 -> test isdigit c = Some (decb c).
Proof.
  intros R. destruct (Z.eq_dec c (-1)) as [->|N]; [reflexivity|].
  pose proof (byte_all (fun c => match test isdigit c with Some u => Bool.eqb u (decb c) | None => false end) eq_refl c ltac:(unfold byte; lia)) as H.
  cbv beta in H. destruct (test isdigit c) as [u|]; [|discriminate H]. f_equal. now apply eqb_prop.
Qed.
Lemma toupper_any c : -1 <= c < 256 -> toupper c = Some (upper c).
Proof. intros R. destruct (Z.eq_dec c (-1)) as [->|N]; [reflexivity|]. apply toupper_ok. unfold byte. lia. Qed.
Lemma scan_digit_ok c b : byte c -> scan_digit c b = Some (if digitb b c then dval c else None).
Proof.
  intros B. unfold scan_digit.
  pose proof (byte_all (fun c => match test isdigit c, test isalpha c with
     | Some d, Some a =>
        match (if d then Some (c - 48) else if a then Some (Z.land c (-33) - 55) else None), dval c with
        | Some x, Some y => x =? y | None, None => true | _, _ => false end
     | _, _ => false end) eq_refl c B) as H.
  cbv beta in H. destruct (test isdigit c) as [d|]; [|discriminate]. destruct (test isalpha c) as [a|]; [|discriminate]. cbn [obind].
  unfold digitb. destruct (if d then _ else _) as [x|], (dval c) as [y|]; try discriminate; [|reflexivity].
  apply Z.eqb_eq in H. subst y. do 2 f_equal. rewrite Z.geb_leb, Z.ltb_antisym. now destruct (b <=? x).
Qed.
Lemma scan_digit_eof b : scan_digit EOF b = Some None.
Proof. reflexivity. Qed.

(** ** Reading: a character, or the end of the input or of the width *)
Lemma next_char w c t : 0 < w -> next w (c :: t) = (c, t, false).
Proof. intros W. unfold next. now replace (w >? 0) with true by lia. Qed.
Definition at_end (w : Z) (inp : list Z) : Prop := w = 0 \/ inp = [].
Lemma next_end w inp : 0 <= w -> at_end w inp -> exists stop, next w inp = (EOF, inp, stop) /\ (stop = false -> inp = []).
Proof.
  intros W A. unfold next. destruct (Z.gtb_spec w 0) as [G|G].
  - destruct A as [A|A]; [lia|]. subst inp. exists false. auto.
  - exists true. split; [reflexivity|discriminate].
Qed.
Lemma read_cases w (inp : list Z) : 0 <= w -> at_end w inp \/ exists c t, inp = c :: t /\ 0 < w.
Proof. intros W. unfold at_end. destruct (Z.eq_dec w 0); [auto|]. destruct inp as [|c t]; [auto|]. right. exists c, t. split; [reflexivity|lia]. Qed.
Lemma unget_eof inp : ungetc EOF inp = inp. Proof. reflexivity. Qed.
Lemma unget_char c inp : byte c -> ungetc c inp = c :: inp.
Proof. intros B. unfold ungetc, EOF. unfold byte in B. now replace (c =? -1) with false by lia. Qed.

(** ** Runs of a deterministic automaton *)
Section Dfa.
Variable S : Type.
Variable delta : S -> Z -> option S.
Fixpoint dend (s : S) (l : list Z) : option S :=
  match l with [] => Some s | c :: t => match delta s c with Some s' => dend s' t | None => None end end.
Lemma dend_app s a b : dend s (a ++ b) = match dend s a with Some s' => dend s' b | None => None end.
Proof. revert s. induction a as [|c t IH]; intros s; [reflexivity|]. cbn [app dend]. destruct (delta s c); [apply IH|reflexivity]. Qed.
(** Nothing more of [r] can be read in state [s] with [w] characters allowed. *)
Definition stuck (s : S) (w : Z) (r : list Z) : Prop := at_end w r \/ exists c t, r = c :: t /\ delta s c = None.

Lemma item_ok k n inp C r s s0 w : inp = C ++ r -> zlen C <= w ->
  (match n with Some n => w = n | None => zlen inp <= w end) ->
  could_match k n C -> (forall l, matching k n l -> dend s0 l <> None) -> dend s0 C = Some s -> stuck s (w - zlen C) r ->
  input_item k n inp C r.
Proof.
  intros E LC W CM MD DC ST. split; [exact E|]. split; [destruct n; cbn; lia|]. split; [exact CM|].
  intros l' r' E' F' (ext & M).
  destruct (Z.le_gt_cases (zlen l') (zlen C)) as [|G]; [assumption|exfalso].
  destruct ST as [[A|A]|(c & t & -> & DN)].
  - destruct n as [n|]; cbn in F'; [lia|]. assert (zlen l' <= zlen inp) by (rewrite E', zlen_app; pose proof (zlen_nonneg r'); lia). lia.
  - subst r. rewrite app_nil_r in E. subst C. rewrite E', zlen_app in G. pose proof (zlen_nonneg r'). lia.
  - assert (X : exists u, l' = C ++ c :: u).
    { rewrite E in E'. clear - E' G. revert l' E' G. induction C as [|x C IH]; intros l' E' G.
      - destruct l' as [|y l']; [cbn in G; lia|]. cbn [app] in *. exists l'. congruence.
      - destruct l' as [|y l']; [rewrite zlen_cons in G; pose proof (zlen_nonneg C); change (zlen (@nil Z)) with 0 in G; lia|].
        cbn [app] in *. rewrite !zlen_cons in G. destruct (IH l') as (u & ->); [congruence|lia|]. exists u. congruence. }
    destruct X as (u & ->). apply (MD _ M). rewrite <- app_assoc, dend_app, DC. cbn [app dend]. now rewrite DN.
Qed.
End Dfa.
Arguments dend {S}. Arguments stuck {S}.

(** ** Integers: the automaton *)
Inductive ids := D0 | D1 | DZ | DX | DD (b : Z).
Definition zero_base (base : Z) : Z := if base =? 0 then 8 else 16.
Definition plain_base (base : Z) : Z := if base =? 0 then 10 else base.
Definition idelta1 (base c : Z) : option ids :=
  if (c =? 48) && ((base =? 0) || (base =? 16)) then Some DZ
  else if digitb (plain_base base) c then Some (DD (plain_base base)) else None.
Definition idelta (base : Z) (s : ids) (c : Z) : option ids :=
  match s with
  | D0 => if (c =? 43) || (c =? 45) then Some D1 else idelta1 base c
  | D1 => idelta1 base c
  | DZ => if (c =? 120) || (c =? 88) then Some DX else if digitb (zero_base base) c then Some (DD (zero_base base)) else None
  | DX => if digitb 16 c then Some (DD 16) else None
  | DD b => if digitb b c then Some (DD b) else None
  end.
Definition iacc (s : ids) : bool := match s with DZ | DD _ => true | _ => false end.
Definition int_bases (base : Z) : Prop := base = 0 \/ base = 8 \/ base = 10 \/ base = 16.

Lemma dend_digits base b ds : Forall (is_digit b) ds -> dend (idelta base) (DD b) ds = Some (DD b).
Proof. intros F. induction F as [|c t D F IH]; [reflexivity|]. cbn [dend idelta]. apply digitb_spec in D. now rewrite D. Qed.

(** The part after the sign, with its value. *)
Definition body_seq (base : Z) (l : list Z) (m : Z) : Prop :=
  exists pfx b ds, l = pfx ++ ds /\ ds <> [] /\ Forall (is_digit b) ds /\ value b ds m /\
    ((exists x, (x = 120 \/ x = 88) /\ pfx = [48; x] /\ (base = 0 \/ base = 16) /\ b = 16) \/
     (pfx = [] /\ ((base <> 0 /\ b = base) \/
                   (base = 0 /\ starts_with (fun c => c = 48) ds /\ b = 8) \/
                   (base = 0 /\ ~ starts_with (fun c => c = 48) ds /\ b = 10)))).
Lemma int_seq_body base l v : int_seq base l v <-> exists sg neg C m, l = sg ++ C /\ signed sg neg /\ body_seq base C m /\ v = (if neg then - m else m).
Proof.
  split.
  - intros (sg & neg & pfx & b & ds & m & E & SG & NE & F & V & EV & X). exists sg, neg, (pfx ++ ds), m.
    repeat (split; [assumption|]). split; [|exact EV]. exists pfx, b, ds. auto 6.
  - intros (sg & neg & C & m & E & SG & (pfx & b & ds & EC & NE & F & V & X) & EV). exists sg, neg, pfx, b, ds, m.
    rewrite <- EC. auto 8.
Qed.

Lemma is_digit_mono b b' c : b <= b' -> is_digit b c -> is_digit b' c.
Proof. intros L (v & D & H). exists v. split; [exact D|lia]. Qed.
Lemma digit_not_sign b c : digitb b c = true -> (c =? 43) = false /\ (c =? 45) = false.
Proof.
  unfold digitb, dval. intros H.
  destruct (Z.eqb_spec c 43) as [->|]; [discriminate H|]. destruct (Z.eqb_spec c 45) as [->|]; [discriminate H|]. auto.
Qed.
Lemma body_run base l m : int_bases base -> body_seq base l m -> exists s, dend (idelta base) D1 l = Some s /\ iacc s = true.
Proof.
  intros HB (pfx & b & ds & -> & NE & F & V & [(x & HX & -> & HB' & ->)|(-> & HBB)]).
  - exists (DD 16). split; [|reflexivity]. cbn [app dend idelta]. unfold idelta1. replace ((48 =? 48) && ((base =? 0) || (base =? 16))) with true by lia.
    cbn [dend idelta]. replace ((x =? 120) || (x =? 88)) with true by lia.
    destruct ds as [|c ds]; [congruence|]. cbn [dend idelta]. inversion F as [|? ? D F']; subst. apply digitb_spec in D. rewrite D. now apply dend_digits.
  - cbn [app]. destruct ds as [|c ds]; [congruence|]. cbn [dend idelta]. unfold idelta1.
    inversion F as [|? ? D F']; subst. cbn [starts_with] in HBB.
    destruct ((c =? 48) && ((base =? 0) || (base =? 16))) eqn:Z0.
    + assert (b = zero_base base) as -> by (unfold zero_base; destruct (Z.eqb_spec base 0); lia).
      destruct ds as [|c' ds]; [exists DZ; auto|]. cbn [dend idelta]. inversion F' as [|? ? D' F'']; subst.
      apply digitb_spec in D'. rewrite D'.
      assert (NX : (c' =? 120) || (c' =? 88) = false).
      { unfold zero_base in D'. unfold digitb, dval in D'. destruct (Z.eqb_spec c' 120) as [->|]; [destruct (base =? 0); discriminate D'|].
        destruct (Z.eqb_spec c' 88) as [->|]; [destruct (base =? 0); discriminate D'|reflexivity]. }
      rewrite NX. exists (DD (zero_base base)). split; [|reflexivity]. now apply dend_digits.
    + assert (b = plain_base base) as -> by (unfold plain_base; destruct (Z.eqb_spec base 0); lia).
      apply digitb_spec in D. rewrite D. exists (DD (plain_base base)). split; [|reflexivity]. now apply dend_digits.
Qed.
Lemma int_run base l v : int_bases base -> int_seq base l v -> exists s, dend (idelta base) D0 l = Some s /\ iacc s = true.
Proof.
  intros HB H. apply int_seq_body in H. destruct H as (sg & neg & C & m & -> & SG & BS & _).
  destruct (body_run base C m HB BS) as (s & R & A).
  destruct SG as [(-> & _)|[(-> & _)|(-> & _)]]; cbn [app]; [|exists s; auto|exists s; auto].
  destruct C as [|c C]; [discriminate (eq_trans (eq_sym A) (f_equal iacc (eq_sym (f_equal (fun o => match o with Some x => x | None => D0 end) R))))|].
  exists s. split; [|exact A]. cbn [dend idelta] in *.
  assert (NS : (c =? 43) || (c =? 45) = false).
  { destruct (Z.eqb_spec c 48) as [->|NZ]; [reflexivity|]. unfold idelta1 in R. replace (c =? 48) with false in R by lia. cbn [andb] in R.
    destruct (digitb (plain_base base) c) eqn:D; [|discriminate R]. destruct (digit_not_sign _ _ D) as (-> & ->). reflexivity. }
  now rewrite NS.
Qed.

(** ** Integers: the loop *)
Lemma u32_step N b d : u32 (u32 (u32 N * b) + d) = u32 (N * b + d).
Proof.
  unfold u32, wrap. rewrite Z.add_mod_idemp_l by lia.
  rewrite <- (Z.add_mod_idemp_l (N mod 2 ^ 32 * b)), Z.mul_mod_idemp_l by lia. now rewrite Z.add_mod_idemp_l by lia.
Qed.
Lemma val_from_cons b n c t v : dval c = Some v -> val_from b n (c :: t) = val_from b (n * b + v) t.
Proof. intros D. unfold val_from. cbn [fold_left]. now rewrite D. Qed.

Ltac istep := cbn [int_loop iw ich isign igot ibase iN take_i].

Lemma int_loop_digits base b sg inp : b <> 0 -> Forall byte inp -> forall fuel w ch N, 0 <= w -> (length inp < fuel)%nat ->
  exists C r, inp = C ++ r /\ zlen C <= w /\ Forall (is_digit b) C /\ stuck (idelta base) (DD b) (w - zlen C) r /\
    int_loop fuel I_DIGIT inp (IV w ch sg true b (u32 N)) = Some (Got (u32 (val_from b N C), sg) r (ch + zlen C)).
Proof.
  intros NB FB. induction FB as [|c t B FB IH]; intros fuel w ch N W FU; (destruct fuel as [|fuel]; [cbn in FU; lia|]).
  - exists [], []. change (zlen (@nil Z)) with 0. split; [reflexivity|]. split; [lia|]. split; [constructor|]. split; [left; right; reflexivity|].
    istep. destruct (next_end w [] W ltac:(right; reflexivity)) as (stop & -> & _). replace (b =? 0) with false by lia. cbv iota. istep.
    rewrite scan_digit_eof. cbn [obind]. istep. rewrite Z.add_0_r. reflexivity.
  - destruct (read_cases w (c :: t) W) as [AE|(c0 & t0 & E & PW)].
    + exists [], (c :: t). change (zlen (@nil Z)) with 0. split; [reflexivity|]. split; [lia|]. split; [constructor|].
      split; [left; now rewrite Z.sub_0_r|].
      istep. destruct (next_end w _ W AE) as (stop & -> & _). replace (b =? 0) with false by lia. cbv iota. istep.
      rewrite scan_digit_eof. cbn [obind]. istep. rewrite Z.add_0_r. reflexivity.
    + injection E as <- <-. istep. rewrite next_char by lia. replace (b =? 0) with false by lia. cbv iota. istep.
      rewrite scan_digit_ok by exact B. cbn [obind].
      destruct (digitb b c) eqn:D.
      * assert (X : exists v, dval c = Some v) by (unfold digitb in D; destruct (dval c) as [v|]; [eauto|discriminate D]).
        destruct X as (v & DV). rewrite DV. istep. rewrite u32_step.
        destruct (IH fuel (w - 1) (ch + 1) (N * b + v) ltac:(lia) ltac:(cbn in FU; lia)) as (C & r & EC & LC & FC & ST & RUN).
        exists (c :: C), r. rewrite zlen_cons. split; [cbn [app] in *; congruence|]. split; [lia|]. split; [constructor; [now apply digitb_spec|exact FC]|].
        split; [now replace (w - (1 + zlen C)) with (w - 1 - zlen C) by lia|]. rewrite RUN, (val_from_cons b N c C v DV).
        do 2 f_equal. lia.
      * exists [], (c :: t). change (zlen (@nil Z)) with 0. split; [reflexivity|]. split; [lia|]. split; [constructor|].
        split; [right; exists c, t; split; [reflexivity|]; cbn [idelta]; now rewrite D|].
        rewrite unget_char by exact B. istep. rewrite Z.add_0_r. reflexivity.
Qed.

(** No digit yet. *)
Lemma int_loop_first base b sg inp fuel w ch s : b <> 0 -> Forall byte inp -> 0 <= w -> (length inp < fuel)%nat ->
  (forall c t, inp = c :: t -> idelta base s c = if digitb b c then Some (DD b) else None) ->
  exists C r, inp = C ++ r /\ zlen C <= w /\ Forall (is_digit b) C /\
    match C with
    | [] => stuck (idelta base) s w r /\ exists e, int_loop fuel I_DIGIT inp (IV w ch sg false b 0) = Some (Fail e r) /\ (e = true -> r = [])
    | c :: _ => idelta base s c = Some (DD b) /\ stuck (idelta base) (DD b) (w - zlen C) r /\
        int_loop fuel I_DIGIT inp (IV w ch sg false b 0) = Some (Got (u32 (val_from b 0 C), sg) r (ch + zlen C))
    end.
Proof.
  intros NB FB W FU HD. destruct fuel as [|fuel]; [lia|]. istep. replace (b =? 0) with false by lia. cbv iota.
  destruct (read_cases w inp W) as [AE|(c & t & -> & PW)].
  - exists [], inp. split; [reflexivity|]. change (zlen (@nil Z)) with 0. split; [lia|]. split; [constructor|].
    split; [left; exact AE|]. destruct (next_end w inp W AE) as (stop & -> & ST). istep. rewrite scan_digit_eof. cbn [obind]. istep.
    eexists. split; [reflexivity|]. destruct stop; [discriminate|]. intros _. now apply ST.
  - specialize (HD c t eq_refl). rewrite next_char by lia. istep. inversion FB as [|? ? B FB']; subst. rewrite scan_digit_ok by exact B. cbn [obind].
    destruct (digitb b c) eqn:D.
    + assert (X : exists v, dval c = Some v) by (unfold digitb in D; destruct (dval c) as [v|]; [eauto|discriminate D]).
      destruct X as (v & DV). rewrite DV. istep.
      change (u32 (u32 (0 * b) + v)) with (u32 (u32 (u32 0 * b) + v)). rewrite u32_step.
      destruct (int_loop_digits base b sg t NB FB' fuel (w - 1) (ch + 1) (0 * b + v) ltac:(lia) ltac:(cbn in FU; lia)) as (C & r & EC & LC & FC & ST & RUN).
      exists (c :: C), r. rewrite zlen_cons. split; [cbn [app] in *; congruence|]. split; [lia|]. split; [constructor; [now apply digitb_spec|exact FC]|].
      split; [exact HD|]. split; [now replace (w - (1 + zlen C)) with (w - 1 - zlen C) by lia|].
      rewrite RUN, (val_from_cons b 0 c C v DV). do 2 f_equal. lia.
    + exists [], (c :: t). split; [reflexivity|]. change (zlen (@nil Z)) with 0. split; [lia|]. split; [constructor|].
      split; [right; eauto|]. rewrite unget_char by exact B. eexists. split; [reflexivity|].
      unfold byte in B. replace (c >=? 0) with true by lia. rewrite orb_true_r. discriminate.
Qed.

(** From the state after the sign. *)
Lemma int_loop_body base sg inp fuel w ch : int_bases base -> Forall byte inp -> 0 <= w -> (length inp + 2 < fuel)%nat ->
  exists C r s, inp = C ++ r /\ zlen C <= w /\ dend (idelta base) D1 C = Some s /\ stuck (idelta base) s (w - zlen C) r /\
    ((exists m, body_seq base C m /\ int_loop fuel I_0 inp (IV w ch sg false base 0) = Some (Got (u32 m, sg) r (ch + zlen C))) \/
     (iacc s = false /\ (exists ext m, body_seq base (C ++ ext) m) /\
      exists e, int_loop fuel I_0 inp (IV w ch sg false base 0) = Some (Fail e r) /\ (e = true -> r = []))).
Proof.
  intros HB FB W FU. destruct fuel as [|fuel]; [lia|]. istep.
  assert (EX0 : exists ext m, body_seq base ext m).
  { exists [48], 0. exists [], (if base =? 0 then 8 else base), [48]. split; [reflexivity|]. split; [discriminate|].
    split. { constructor; [|constructor]. exists 0. split; [apply (dv_dec 48); lia|]. destruct HB as [-> | [-> | [-> | ->]]]; cbn; lia. }
    split. { apply (value_snoc _ [] 48 0 0); [constructor|apply (dv_dec 48); lia]. }
    right. split; [reflexivity|]. destruct (Z.eqb_spec base 0); [right; left; cbn; auto|left; auto]. }
  destruct (read_cases w inp W) as [AE|(c & t & -> & PW)].
  { exists [], inp, D1. change (zlen (@nil Z)) with 0. split; [reflexivity|]. split; [lia|]. split; [reflexivity|].
    split; [left; now rewrite Z.sub_0_r|]. right. split; [reflexivity|]. split; [exact EX0|].
    destruct (next_end w inp W AE) as (stop & -> & ST). change (EOF =? 48) with false. change (EOF <? 0) with true. cbv iota.
    eexists. split; [reflexivity|]. destruct stop; [discriminate|]. intros _. now apply ST. }
  inversion FB as [|? ? B FB']; subst. rewrite next_char by lia. rewrite unget_char by exact B. cbn [length] in FU.
  destruct (Z.eqb_spec c 48) as [->|NZ].
  - istep. destruct (Z.lor base 16 =? 16) eqn:LB.
    + assert (HB2 : base = 0 \/ base = 16) by (destruct HB as [-> | [-> | [-> | ->]]]; [auto|discriminate LB|discriminate LB|auto]).
      assert (I1 : idelta base D1 48 = Some DZ) by (cbn [idelta]; unfold idelta1; now replace ((48 =? 48) && ((base =? 0) || (base =? 16))) with true by lia).
      destruct fuel as [|fuel]; [lia|]. istep.
      assert (ZV : body_seq base [48] 0).
      { exists [], (zero_base base), [48]. split; [reflexivity|]. split; [discriminate|].
        split. { constructor; [|constructor]. exists 0. split; [apply (dv_dec 48); lia|]. unfold zero_base. destruct (base =? 0); lia. }
        split. { apply (value_snoc _ [] 48 0 0); [constructor|apply (dv_dec 48); lia]. }
        right. split; [reflexivity|]. unfold zero_base. destruct (Z.eqb_spec base 0); [right; left; cbn; auto|left; lia]. }
      destruct (read_cases (w - 1) t ltac:(lia)) as [AE|(c & t' & -> & PW')].
      * exists [48], t, DZ. change (zlen [48]) with 1. split; [reflexivity|]. split; [lia|]. split; [cbn [dend]; now rewrite I1|].
        split; [left; exact AE|]. left. exists 0. split; [exact ZV|].
        destruct (next_end (w - 1) t ltac:(lia) AE) as (stop & -> & ST). change (toupper EOF) with (Some EOF). cbn [obind].
        change (EOF =? 88) with false. change (EOF <? 0) with true. rewrite orb_true_r. cbv iota. rewrite unget_eof.
        destruct (base =? 0); reflexivity.
      * inversion FB' as [|? ? B' FB'']; subst. rewrite next_char by lia. rewrite toupper_ok by exact B'. cbn [obind].
        rewrite unget_char by exact B'. cbn [length] in FU.
        assert (UX : (upper c =? 88) = ((c =? 120) || (c =? 88))) by (unfold upper; destruct ((97 <=? c) && (c <=? 122)) eqn:Q; lia).
        rewrite UX. destruct ((c =? 120) || (c =? 88)) eqn:CX.
        -- istep. assert (I2 : idelta base DZ c = Some DX) by (cbn [idelta]; now rewrite CX).
           destruct (int_loop_first base 16 sg t' fuel (w - 1 - 1) (ch + 1 + 1) DX) as (C & r & EC & LC & FC & REST); try lia; [assumption|reflexivity|].
           exists (48 :: c :: C), r. rewrite !zlen_cons. destruct C as [|c' C].
           ++ destruct REST as (ST & e & RUN & EE). exists DX. change (zlen (@nil Z)) with 0 in *.
              split; [cbn [app] in *; congruence|]. split; [lia|]. split; [cbn [dend]; now rewrite I1, I2|].
              split; [now replace (w - (1 + (1 + 0))) with (w - 1 - 1) by lia|]. right. split; [reflexivity|].
              split; [|exists e; auto].
              exists [48], 0. cbn [app]. exists [48; c], 16, [48]. split; [reflexivity|]. split; [discriminate|].
              split. { constructor; [|constructor]. exists 0. split; [apply (dv_dec 48); lia|lia]. }
              split. { apply (value_snoc _ [] 48 0 0); [constructor|apply (dv_dec 48); lia]. }
              left. exists c. split; [lia|]. auto.
           ++ destruct REST as (I3 & ST & RUN). exists (DD 16).
              split; [cbn [app] in *; congruence|]. split; [lia|].
              split. { cbn [dend]. rewrite I1, I2. cbn [dend]. rewrite I3. apply dend_digits. now inversion FC. }
              split; [now replace (w - (1 + (1 + zlen (c' :: C)))) with (w - 1 - 1 - zlen (c' :: C)) by lia|]. left.
              exists (val_from 16 0 (c' :: C)). split.
              { exists [48; c], 16, (c' :: C). split; [reflexivity|]. split; [discriminate|]. split; [exact FC|].
                split; [now apply value_exists|]. left. exists c. split; [lia|]. auto. }
              rewrite RUN. do 2 f_equal. lia.
        -- unfold byte in B'. replace (c <? 0) with false by lia. cbn [orb].
           assert (EB : (if base =? 0 then IV (w - 1) (ch + 1) sg true 8 0 else IV (w - 1) (ch + 1) sg true base 0) = IV (w - 1) (ch + 1) sg true (zero_base base) (u32 0)).
           { unfold zero_base. destruct (Z.eqb_spec base 0); [reflexivity|]. now replace base with 16 by lia. }
           rewrite EB.
           destruct (int_loop_digits base (zero_base base) sg (c :: t') ltac:(unfold zero_base; destruct (base =? 0); lia) FB' fuel (w - 1) (ch + 1) 0 ltac:(lia) ltac:(cbn [length]; lia))
             as (C & r & EC & LC & FC & ST & RUN).
           rewrite RUN. exists (48 :: C), r, (match C with [] => DZ | _ => DD (zero_base base) end). rewrite zlen_cons.
           split; [cbn [app] in *; congruence|]. split; [lia|].
           split. { cbn [dend]. rewrite I1. destruct C as [|c' C]; [reflexivity|].
             assert (c' = c) by (cbn [app] in EC; congruence). subst c'. inversion FC as [|? ? D FC']; subst. apply digitb_spec in D.
             cbn [dend idelta]. rewrite CX, D. now apply dend_digits. }
           split. { replace (w - (1 + zlen C)) with (w - 1 - zlen C) by lia. destruct C as [|c' C]; [|exact ST].
             cbn [app] in EC. subst r. destruct ST as [A|(c1 & t1 & E1 & DN)]; [left; exact A|right].
             injection E1 as <- <-. exists c, t'. split; [reflexivity|]. cbn [idelta] in *. rewrite CX. destruct (digitb (zero_base base) c); [discriminate DN|reflexivity]. }
           left. exists (val_from (zero_base base) 0 (48 :: C)).
           assert (F48 : Forall (is_digit (zero_base base)) (48 :: C)).
           { constructor; [|exact FC]. exists 0. split; [apply (dv_dec 48); lia|]. unfold zero_base. destruct (base =? 0); lia. }
           split.
           { exists [], (zero_base base), (48 :: C). split; [reflexivity|]. split; [discriminate|]. split; [exact F48|].
             split; [now apply value_exists|]. right. split; [reflexivity|].
             unfold zero_base. destruct (Z.eqb_spec base 0); [right; left; cbn; auto|left; lia]. }
           rewrite (val_from_cons _ 0 48 C 0) by reflexivity. rewrite Z.mul_0_l. change (0 + 0) with 0. do 2 f_equal. lia.
    + assert (HB2 : base = 8 \/ base = 10) by (destruct HB as [-> | [-> | [-> | ->]]]; [discriminate LB|auto|auto|discriminate LB]).
      change (IV (w - 1) (ch + 1) sg true base 0) with (IV (w - 1) (ch + 1) sg true base (u32 0)).
      destruct (int_loop_digits base base sg t ltac:(lia) FB' fuel (w - 1) (ch + 1) 0 ltac:(lia) ltac:(lia)) as (C & r & EC & LC & FC & ST & RUN).
      rewrite RUN. exists (48 :: C), r, (DD base). rewrite zlen_cons. split; [cbn [app] in *; congruence|]. split; [lia|].
      assert (D48 : is_digit base 48) by (exists 0; split; [apply (dv_dec 48); lia|lia]).
      split. { cbn [dend idelta]. unfold idelta1, plain_base. replace ((base =? 0) || (base =? 16)) with false by lia. rewrite andb_false_r.
        replace (base =? 0) with false by lia. apply digitb_spec in D48. rewrite D48. now apply dend_digits. }
      split; [now replace (w - (1 + zlen C)) with (w - 1 - zlen C) by lia|].
      left. exists (val_from base 0 (48 :: C)). split.
      { exists [], base, (48 :: C). split; [reflexivity|]. split; [discriminate|].
        assert (F48 : Forall (is_digit base) (48 :: C)) by (constructor; assumption).
        split; [exact F48|]. split; [now apply value_exists|]. right. split; [reflexivity|]. left. lia. }
      rewrite (val_from_cons _ 0 48 C 0) by reflexivity. rewrite Z.mul_0_l. change (0 + 0) with 0. do 2 f_equal. lia.
  - unfold byte in B. replace (c <? 0) with false by lia. cbv iota.
    assert (ND : forall c0 t0, c :: t = c0 :: t0 -> idelta base D1 c0 = if digitb (plain_base base) c0 then Some (DD (plain_base base)) else None).
    { intros c0 t0 Q. injection Q as <- <-. cbn [idelta]. unfold idelta1. now replace (c =? 48) with false by lia. }
    assert (RB : int_loop fuel I_DIGIT (c :: t) (IV w ch sg false base 0) = int_loop fuel I_DIGIT (c :: t) (IV w ch sg false (plain_base base) 0)).
    { destruct fuel as [|fuel]; [reflexivity|]. istep. unfold plain_base. destruct (Z.eqb_spec base 0) as [->|N0]; [reflexivity|].
      now replace (base =? 0) with false by lia. }
    rewrite RB.
    destruct (int_loop_first base (plain_base base) sg (c :: t) fuel w ch D1) as (C & r & EC & LC & FC & REST); try lia; try assumption;
      [unfold plain_base; destruct (Z.eqb_spec base 0); lia|cbn [length]; lia|].
    exists C, r. destruct C as [|c' C].
    + destruct REST as (ST & e & RUN & EE). exists D1. split; [exact EC|]. split; [lia|]. split; [reflexivity|].
      change (zlen (@nil Z)) with 0. split; [now rewrite Z.sub_0_r|]. right. split; [reflexivity|]. split; [exact EX0|]. exists e. auto.
    + destruct REST as (I1 & ST & RUN). exists (DD (plain_base base)). split; [exact EC|]. split; [lia|].
      split; [cbn [dend]; rewrite I1; apply dend_digits; now inversion FC|]. split; [exact ST|]. left.
      exists (val_from (plain_base base) 0 (c' :: C)). split; [|exact RUN].
      exists [], (plain_base base), (c' :: C). split; [reflexivity|]. split; [discriminate|]. split; [exact FC|].
      split; [now apply value_exists|]. right. split; [reflexivity|]. cbn [starts_with].
      assert (c' = c) by (cbn [app] in EC; congruence). subst c'. unfold plain_base.
      destruct (Z.eqb_spec base 0); [right; right; auto|left; auto].
Qed.

(** The whole conversion. *)
Lemma int_loop_ok base inp fuel w ch : int_bases base -> Forall byte inp -> 0 < w -> inp <> [] -> (length inp + 4 < fuel)%nat ->
  exists C r s, inp = C ++ r /\ zlen C <= w /\ dend (idelta base) D0 C = Some s /\ stuck (idelta base) s (w - zlen C) r /\
    ((exists v n sg, int_seq base C v /\ int_loop fuel I_SIGN inp (IV w ch 0 false base 0) = Some (Got (n, sg) r (ch + zlen C)) /\
        0 <= n < 2 ^ 32 /\ (if sg =? 45 then u32 (- n) else n) = u32 v) \/
     (iacc s = false /\ (exists ext v, int_seq base (C ++ ext) v) /\
      exists e, int_loop fuel I_SIGN inp (IV w ch 0 false base 0) = Some (Fail e r) /\ (e = true -> r = []))).
Proof.
  intros HB FB W NE FU. destruct fuel as [|fuel]; [lia|]. istep. destruct inp as [|c t]; [congruence|].
  rewrite next_char by lia. inversion FB as [|? ? B FB']; subst. rewrite unget_char by exact B. cbn [length] in FU.
  assert (UR : forall x, 0 <= u32 x < 2 ^ 32) by (intros x; unfold u32, wrap; apply Z.mod_pos_bound; lia).
  destruct ((c =? 45) || (c =? 43)) eqn:SC.
  - istep. destruct (int_loop_body base c t fuel (w - 1) (ch + 1) HB FB' ltac:(lia) ltac:(lia)) as (C & r & s & EC & LC & DC & ST & REST).
    exists (c :: C), r, s. rewrite zlen_cons. split; [cbn [app] in *; congruence|]. split; [lia|].
    split. { cbn [dend idelta]. now rewrite orb_comm, SC. }
    split; [now replace (w - (1 + zlen C)) with (w - 1 - zlen C) by lia|].
    assert (SG : signed [c] (c =? 45)).
    { unfold signed. destruct (Z.eqb_spec c 45) as [->|]; [auto|]. replace c with 43 by lia. auto. }
    destruct REST as [(m & BS & RUN)|(NA & (ext & m & BS) & e & RUN & EE)].
    + left. exists (if c =? 45 then - m else m), (u32 m), c.
      split. { apply int_seq_body. exists [c], (c =? 45), C, m. auto. }
      split; [rewrite RUN; do 2 f_equal; lia|]. split; [apply UR|]. destruct (c =? 45); [|reflexivity].
      unfold u32, wrap. rewrite <- (Z.sub_0_l (m mod _)), Zminus_mod_idemp_r, Z.sub_0_l. reflexivity.
    + right. split; [exact NA|]. split; [|exists e; auto]. exists ext, (if c =? 45 then - m else m).
      apply int_seq_body. exists [c], (c =? 45), (C ++ ext), m. auto.
  - unfold byte in B. replace (c <? 0) with false by lia. cbv iota.
    destruct (int_loop_body base 0 (c :: t) fuel w ch HB FB ltac:(lia) ltac:(cbn [length]; lia)) as (C & r & s & EC & LC & DC & ST & REST).
    assert (SG : signed [] false) by (left; auto).
    assert (DE : idelta base D0 c = idelta base D1 c) by (cbn [idelta]; now rewrite orb_comm, SC).
    exists C, r, (match C with [] => D0 | _ => s end). split; [exact EC|]. split; [lia|].
    split. { destruct C as [|c' C]; [reflexivity|]. assert (c' = c) by (cbn [app] in EC; congruence). subst c'. cbn [dend] in *. now rewrite DE. }
    assert (S1 : C = [] -> s = D1) by (intros ->; cbn [dend] in DC; congruence).
    split. { destruct C as [|c' C]; [|exact ST]. rewrite (S1 eq_refl) in ST. destruct ST as [A|(c1 & t1 & E1 & DN)]; [left; exact A|].
      right. exists c1, t1. split; [exact E1|]. cbn [app] in EC. assert (c1 = c) by congruence. subst c1. now rewrite DE. }
    destruct REST as [(m & BS & RUN)|(NA & (ext & m & BS) & e & RUN & EE)].
    + left. exists m, (u32 m), 0. split. { apply int_seq_body. exists [], false, C, m. auto. }
      split; [exact RUN|]. split; [apply UR|]. reflexivity.
    + right. split; [destruct C; [reflexivity|exact NA]|]. split; [|exists e; auto]. exists ext, m.
      apply int_seq_body. exists [], false, (C ++ ext), m. auto.
Qed.
