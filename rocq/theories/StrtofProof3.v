(** strtof: the parse is the longest subject sequence. *)
From Verif Require Import Base BaseLemmas CtypeModel FpModel FloatSpec FpProof FpMain NumModel NumSpec
  StrtolSpec StrtolProof NumProof NumFloat NumProps StrtofSpec StrtofModel StrtofProof StrtofProof2.

Ltac Zify.zify_post_hook ::= idtac.

(** ** match *)
Definition upper (c : Z) : Z := if (97 <=? c) && (c <=? 122) then c - 32 else c.
Lemma toupper_ok c : byte c -> toupper c = Some (upper c).
Proof.
  intros B. pose proof (byte_all (fun c => match toupper c with Some u => u =? upper c | None => false end) eq_refl c B) as H.
  cbv beta in H. destruct (toupper c) as [u|]; [|discriminate H]. f_equal. lia.
Qed.

Fixpoint starts (pat s : list Z) : bool :=
  match pat, s with [], _ => true | p :: pt, c :: t => (upper c =? p) && starts pt t | _, [] => false end.
Lemma match_ok pat : Forall (fun p => p <> 0) pat -> forall s, term s -> match_ s pat = Some (starts pat s).
Proof.
  intros F. induction F as [|p pt N F IH]; intros s T; (destruct s as [|c t]; [now destruct (term_nil T)|]);
    destruct (term_cons c t T) as (B & NZ); cbn [match_ starts]; rewrite (toupper_ok c B); cbn [obind]; [reflexivity|].
  destruct (Z.eqb_spec (upper c) p) as [E|E]; [|reflexivity]. cbn [andb]. apply IH, NZ. intros ->. now apply N.
Qed.
Lemma letter_upper u c : 65 <= u <= 90 -> letter u c <-> upper c = u.
Proof. intros U. unfold letter, upper. destruct ((97 <=? c) && (c <=? 122)) eqn:E; lia. Qed.
Definition capital (u : Z) : Prop := 65 <= u <= 90.
Lemma starts_app pat : Forall capital pat -> forall pre rest, Forall2 letter pat pre -> starts pat (pre ++ rest) = true.
Proof.
  intros F pre rest F2. induction F2 as [|u c ut ct L F2 IH]; [reflexivity|]. inversion F as [|? ? U F']; subst. cbn [app starts].
  apply (letter_upper u c U) in L. rewrite IH by assumption. now replace (upper c =? u) with true by lia.
Qed.
Lemma starts_inv pat : Forall capital pat -> forall s, starts pat s = true ->
  s = firstn (length pat) s ++ skipn (length pat) s /\ Forall2 letter pat (firstn (length pat) s).
Proof.
  intros F. induction F as [|u ut U F IH]; intros s H; [split; [reflexivity|constructor]|].
  destruct s as [|c t]; [discriminate H|]. cbn [starts] in H. apply andb_prop in H. destruct H as (H1 & H2).
  destruct (IH t H2) as (E & L). cbn [length firstn skipn app]. split; [congruence|]. constructor; [|exact L].
  apply letter_upper; [exact U|lia].
Qed.
Lemma capitals : Forall capital [78; 65; 78] /\ Forall capital [73; 78; 70] /\ Forall capital [73; 78; 73; 84; 89] /\
  Forall capital [73; 78; 70; 73; 78; 73; 84; 89].
Proof. unfold capital. repeat split; repeat constructor; lia. Qed.
Lemma starts_app_pat a b s : starts (a ++ b) s = starts a s && starts b (skipn (length a) s).
Proof.
  revert s. induction a as [|p t IH]; intros s; [reflexivity|]. destruct s as [|c s]; [reflexivity|].
  cbn [app starts length skipn]. rewrite IH. now rewrite andb_assoc.
Qed.

(** ** The form at the start of [t] *)
Definition pv (t : list Z) : option (list Z * fval * list Z) :=
  if starts [78; 65; 78] t then Some (firstn 3 t, FNan, skipn 3 t)
  else if starts [73; 78; 70] t then
    if starts [73; 78; 73; 84; 89] (skipn 3 t) then Some (firstn 8 t, FInf, skipn 8 t)
    else Some (firstn 3 t, FInf, skipn 3 t)
  else if zlen (p_ip t ++ p_fp t) =? 0 then None
  else let '(et, ex, rest) := p_exp (p_s3 t) in
    Some (p_ip t ++ (if p_dot t then 46 :: p_fp t else []) ++ et, FNum (digit_nums (p_ip t ++ p_fp t)) (ex - zlen (p_fp t)), rest).

Lemma dec_tw s : dec_text (tw is_dec s).
Proof. apply Forall_dec_digit, tw_all. Qed.

Lemma pv_sound t body v rest : pv t = Some (body, v, rest) -> t = body ++ rest /\ fform body v.
Proof.
  unfold pv. destruct capitals as (C1 & C2 & C3 & C4).
  destruct (starts [78; 65; 78] t) eqn:E1.
  { intros H. injection H as <- <- <-. destruct (starts_inv _ C1 t E1) as (A & B). split; [exact A|now constructor]. }
  destruct (starts [73; 78; 70] t) eqn:E2.
  { destruct (starts [73; 78; 73; 84; 89] (skipn 3 t)) eqn:E3; intros H; injection H as <- <- <-.
    - assert (E4 : starts [73; 78; 70; 73; 78; 73; 84; 89] t = true).
      { change [73; 78; 70; 73; 78; 73; 84; 89] with ([73; 78; 70] ++ [73; 78; 73; 84; 89]). rewrite starts_app_pat, E2. exact E3. }
      destruct (starts_inv _ C4 t E4) as (A & B). split; [exact A|now apply ff_infinity].
    - destruct (starts_inv _ C2 t E2) as (A & B). split; [exact A|now apply ff_inf]. }
  destruct (Z.eqb_spec (zlen (p_ip t ++ p_fp t)) 0) as [|NZ]; [discriminate|].
  pose proof (p_exp_app (p_s3 t)) as PA. destruct (p_exp (p_s3 t)) as [[et ex] rest']. destruct PA as (E & X).
  intros H. injection H as <- <- <-.
  assert (NE : p_ip t ++ p_fp t <> []) by (intros Q; now rewrite Q in NZ).
  pose proof (dec_tw t) as DI. fold (p_ip t) in DI.
  pose proof (tw_dw is_dec t) as ET. fold (p_ip t) in ET.
  unfold p_fp, p_s3, p_dot in *. destruct (Z.eqb_spec (peek (dw is_dec t)) 46) as [D|D].
  - set (r := dw is_dec t) in *. destruct r as [|c r']; [discriminate D|]. cbn [peek tl] in *. subst c.
    split.
    + rewrite ET at 1. rewrite <- !app_assoc. cbn [app]. rewrite <- ?app_assoc. rewrite <- E. now rewrite <- tw_dw.
    + cbn [app]. apply ff_frac; auto. apply dec_tw.
  - rewrite app_nil_r in *. change (zlen (@nil Z)) with 0. rewrite Z.sub_0_r. cbn [app]. split.
    + rewrite ET at 1. rewrite <- app_assoc. congruence.
    + now apply ff_int.
Qed.

(** First character of a form. *)
Lemma dec_text_dec ds : dec_text ds -> Forall (fun c => is_dec c = true) ds.
Proof. apply Forall_dec_digit. Qed.
Lemma exp_first et ex : exp_text et ex -> exists e t, et = e :: t /\ (e = 101 \/ e = 69).
Proof. intros H. destruct H as [e sg ds v E _ _ _ _|e ds v E _ _ _]; eauto. Qed.
Lemma form_first body v : fform body v -> exists c t, body = c :: t /\
  (match v with FNan => c = 78 \/ c = 110 | FInf => c = 73 \/ c = 105 | FNum _ _ => c = 46 \/ 48 <= c <= 57 end).
Proof.
  intros H. destruct H as [t F|t F|t F|ip et ex DI NE X|ip fp et ex DI DF NE X].
  - inversion F as [|? c ? t' L]; subst. exists c, t'. unfold letter in L. auto.
  - inversion F as [|? c ? t' L]; subst. exists c, t'. unfold letter in L. auto.
  - inversion F as [|? c ? t' L]; subst. exists c, t'. unfold letter in L. auto.
  - destruct ip as [|c ip]; [congruence|]. exists c, (ip ++ et). split; [reflexivity|].
    pose proof (Forall_inv (dec_text_dec _ DI)) as H. unfold is_dec in H. lia.
  - destruct ip as [|c ip]; [exists 46, (fp ++ et); auto|]. exists c, (ip ++ 46 :: fp ++ et). split; [reflexivity|].
    pose proof (Forall_inv (dec_text_dec _ DI)) as H. unfold is_dec in H. lia.
Qed.

(** ** Numbers at the start of a string *)
Lemma tw_app_dec a b : dec_text a -> tw is_dec (a ++ b) = a ++ tw is_dec b /\ dw is_dec (a ++ b) = dw is_dec b.
Proof.
  intros D. apply dec_text_dec in D. induction D as [|c t H D (IH1 & IH2)]; [auto|]. cbn [app tw dw]. rewrite H, IH1, IH2. auto.
Qed.
Lemma tw_stop b : is_dec (peek b) = false -> tw is_dec b = [] /\ dw is_dec b = b.
Proof. intros H. destruct b as [|c t]; [auto|]. cbn [peek] in H. cbn [tw dw]. now rewrite H. Qed.

Lemma p_exp_len s : zlen (snd (p_exp s)) <= zlen s.
Proof.
  pose proof (p_exp_app s) as H. destruct (p_exp s) as [[et ex] r]. destruct H as (E & _). cbn [snd].
  rewrite E at 1. rewrite zlen_app. pose proof (zlen_nonneg et). lia.
Qed.

Lemma p_exp_text et ex rest : exp_text et ex ->
  is_dec (peek (et ++ rest)) = false /\ peek (et ++ rest) <> 46 /\
  (is_dec (peek rest) = false -> p_exp (et ++ rest) = (et, ex, rest)) /\
  snd (p_exp (et ++ rest)) = dw is_dec rest.
Proof.
  intros H.
  assert (G : forall e sg ds, e = 101 \/ e = 69 -> sg = [] \/ sg = [43] \/ sg = [45] -> ds <> [] -> dec_text ds ->
     et = e :: sg ++ ds -> esgn (tl (et ++ rest)) = ds ++ rest /\
     (peek (et ++ rest) =? 69) || (peek (et ++ rest) =? 101) = true /\ (peek (tl (et ++ rest)) =? 45) = match sg with c :: _ => c =? 45 | [] => false end).
  { intros e sg ds E S N D ->. cbn [app peek tl]. split; [|split; [lia|]].
    - unfold esgn. destruct S as [->|[->| ->]]; cbn [app peek tl]; [|reflexivity|reflexivity].
      destruct ds as [|c t]; [congruence|]. pose proof (Forall_inv (dec_text_dec _ D)) as HC. unfold is_dec in HC. cbn [app peek tl].
      now replace ((c =? 43) || (c =? 45)) with false by lia.
    - destruct S as [->|[->| ->]]; cbn [app peek]; [|reflexivity|reflexivity].
      destruct ds as [|c t]; [congruence|]. pose proof (Forall_inv (dec_text_dec _ D)) as HC. unfold is_dec in HC. cbn [app peek]. lia. }
  assert (X : exists e sg ds v, (e = 101 \/ e = 69) /\ (sg = [] \/ sg = [43] \/ sg = [45]) /\ ds <> [] /\ dec_text ds /\ et = e :: sg ++ ds /\
     value 10 ds v /\ ex = if (match sg with c :: _ => c =? 45 | [] => false end) then - v else v).
  { destruct H as [e sg ds v E S N D V|e ds v E N D V].
    - exists e, sg, ds, v. repeat split; auto; [tauto|]. destruct S as [->| ->]; reflexivity.
    - exists e, [45], ds, v. repeat split; auto. }
  destruct X as (e & sg & ds & v & E & S & N & D & EQ & V & XV).
  destruct (G e sg ds E S N D EQ) as (G1 & G2 & G3).
  destruct (tw_app_dec ds rest D) as (TW & DW).
  assert (NZ : (zlen (ds ++ tw is_dec rest) =? 0) = false).
  { destruct ds as [|c t]; [congruence|]. cbn [app]. rewrite zlen_cons. pose proof (zlen_nonneg (t ++ tw is_dec rest)). lia. }
  split; [|split; [|split]].
  - subst et. cbn [app peek]. unfold is_dec. lia.
  - subst et. cbn [app peek]. lia.
  - intros R. unfold p_exp. rewrite G2. cbv zeta. rewrite G1, TW, DW, NZ, G3.
    destruct (tw_stop rest R) as (-> & ->). rewrite app_nil_r.
    rewrite (value_fun 10 ds v V), <- XV. f_equal. f_equal.
    rewrite app_length. replace (_ + _ - _)%nat with (length et) by lia.
    rewrite firstn_app, firstn_all, Nat.sub_diag. cbn [firstn]. now rewrite app_nil_r.
  - unfold p_exp. rewrite G2. cbv zeta. rewrite G1, TW, DW, NZ. reflexivity.
Qed.

(** A number followed by anything. *)
Lemma no_letters t c t' : t = c :: t' -> c = 46 \/ 48 <= c <= 57 -> starts [78; 65; 78] t = false /\ starts [73; 78; 70] t = false.
Proof.
  intros -> C. cbn [starts]. unfold upper. replace ((97 <=? c) && (c <=? 122)) with false by lia.
  replace (c =? 78) with false by lia. replace (c =? 73) with false by lia. auto.
Qed.

Lemma pv_number body ds e rest' : fform body (FNum ds e) ->
  exists b v r, pv (body ++ rest') = Some (b, v, r) /\ zlen r <= zlen rest' /\
    (rest' = [] -> b = body /\ v = FNum ds e /\ r = []).
Proof.
  intros H. destruct (form_first _ _ H) as (c & t' & EB & C). cbv iota in C.
  destruct (no_letters (body ++ rest') c (t' ++ rest') ltac:(now rewrite EB) C) as (NL1 & NL2).
  unfold pv. rewrite NL1, NL2. clear EB C NL1 NL2 c t'.
  inversion H as [| | |ip et ex DI NE X EB ED|ip fp et ex DI DF NE X EB ED]; subst body ds e.
  - set (t := (ip ++ et) ++ rest').
    assert (ET : t = ip ++ (et ++ rest')) by (unfold t; now rewrite <- app_assoc).
    destruct (tw_app_dec ip (et ++ rest') DI) as (TW & DW).
    assert (NZ : (zlen (p_ip t ++ p_fp t) =? 0) = false).
    { unfold p_ip. rewrite ET, TW. destruct ip as [|c x]; [congruence|]. cbn [app]. rewrite zlen_cons.
      match goal with |- (1 + zlen ?l =? 0) = _ => pose proof (zlen_nonneg l); lia end. }
    rewrite NZ. destruct (p_exp (p_s3 t)) as [[pet pex] prest] eqn:PE.
    eexists _, _, _. split; [reflexivity|].
    assert (S3 : zlen (p_s3 t) <= zlen (dw is_dec t)).
    { unfold p_s3. pose proof (zlen_tl (dw is_dec t)). pose proof (zlen_dw is_dec (tl (dw is_dec t))). destruct (p_dot t); lia. }
    pose proof (p_exp_len (p_s3 t)) as PL. rewrite PE in PL. cbn [snd] in PL.
    destruct X as [(-> & ->)|X].
    + cbn [app] in *. rewrite ET, DW in S3. pose proof (zlen_dw is_dec rest'). rewrite <- ET in S3. split; [lia|].
      intros ->. cbn [tw dw] in TW, DW. rewrite app_nil_r in TW.
      assert (PD : p_dot t = false) by (unfold p_dot; rewrite ET, DW; reflexivity).
      assert (P3 : p_s3 t = []) by (unfold p_s3; rewrite PD, ET; exact DW).
      rewrite P3 in PE. injection PE as <- <- <-.
      unfold p_fp. rewrite PD. unfold p_ip. rewrite ET, (app_nil_r ip), TW, !app_nil_r. cbn [app]. change (zlen (@nil Z)) with 0. auto.
    + destruct (p_exp_text et ex rest' X) as (X1 & X2 & X3 & X4). destruct (tw_stop _ X1) as (TS & DS). rewrite TS in TW. rewrite DS in DW. rewrite app_nil_r in TW.
      assert (PD : p_dot t = false) by (unfold p_dot; rewrite ET, DW; lia).
      assert (P3 : p_s3 t = et ++ rest') by (unfold p_s3; rewrite PD, ET; exact DW).
      rewrite P3 in PE. rewrite PE in X4. cbn [snd] in X4. split; [rewrite X4; pose proof (zlen_dw is_dec rest'); lia|].
      intros ->. rewrite (X3 eq_refl) in PE. injection PE as <- <- <-.
      unfold p_fp. rewrite PD. unfold p_ip. rewrite ET, TW, app_nil_r. cbn [app]. change (zlen (@nil Z)) with 0. rewrite Z.sub_0_r. auto.
  - set (t := (ip ++ 46 :: fp ++ et) ++ rest').
    assert (ET : t = ip ++ 46 :: fp ++ (et ++ rest')) by (unfold t; rewrite <- app_assoc; cbn [app]; now rewrite <- app_assoc).
    destruct (tw_app_dec ip (46 :: fp ++ et ++ rest') DI) as (TW & DW).
    destruct (tw_stop (46 :: fp ++ et ++ rest') eq_refl) as (TS & DS). rewrite TS in TW. rewrite DS in DW. rewrite app_nil_r in TW.
    destruct (tw_app_dec fp (et ++ rest') DF) as (TW2 & DW2).
    assert (PD : p_dot t = true) by (unfold p_dot; rewrite ET, DW; reflexivity).
    assert (PF : p_fp t = fp ++ tw is_dec (et ++ rest')) by (unfold p_fp; rewrite PD, ET, DW; cbn [tl]; exact TW2).
    assert (P3 : p_s3 t = dw is_dec (et ++ rest')) by (unfold p_s3; rewrite PD, ET, DW; cbn [tl]; exact DW2).
    assert (PI : p_ip t = ip) by (unfold p_ip; rewrite ET; exact TW).
    assert (NZ : (zlen (p_ip t ++ p_fp t) =? 0) = false).
    { rewrite PI, PF, app_assoc. destruct (ip ++ fp) as [|c x]; [congruence|]. cbn [app]. rewrite zlen_cons.
      match goal with |- (1 + zlen ?l =? 0) = _ => pose proof (zlen_nonneg l); lia end. }
    rewrite NZ, PD, P3. destruct (p_exp (dw is_dec (et ++ rest'))) as [[pet pex] prest] eqn:PE.
    eexists _, _, _. split; [reflexivity|].
    destruct X as [(-> & ->)|X].
    + cbn [app] in *. pose proof (zlen_dw is_dec rest'). pose proof (p_exp_len (dw is_dec rest')) as PL. rewrite PE in PL. cbn [snd] in PL.
      split; [lia|]. intros ->. cbn [dw tw] in *. cbv in PE. injection PE as <- <- <-. rewrite PF, PI, !app_nil_r. auto.
    + destruct (p_exp_text et ex rest' X) as (X1 & X2 & X3 & X4). destruct (tw_stop _ X1) as (TS2 & DS2). rewrite DS2 in PE.
      rewrite PE in X4. cbn [snd] in X4. split; [rewrite X4; pose proof (zlen_dw is_dec rest'); lia|].
      intros ->. rewrite (X3 eq_refl) in PE. injection PE as <- <- <-. rewrite PF, PI, TS2, app_nil_r. cbn [app]. auto.
Qed.

Lemma F2_length {P : Z -> Z -> Prop} {a b} : Forall2 P a b -> length a = length b.
Proof. intros H. induction H; cbn [length]; congruence. Qed.

(** The computed form is the longest one. *)
Lemma pv_complete body v rest' : fform body v ->
  exists b v' r, pv (body ++ rest') = Some (b, v', r) /\ zlen r <= zlen rest' /\
    (rest' = [] -> b = body /\ v' = v /\ r = []).
Proof.
  intros H. destruct v as [| |ds e]; [| |now apply pv_number].
  - inversion H as [t F E| | | |]; subst. destruct capitals as (C1 & _). unfold pv. rewrite (starts_app _ C1 body rest' F).
    pose proof (F2_length F) as L. cbn [length] in L.
    eexists _, _, _. split; [reflexivity|].
    destruct body as [|x [|y [|z [|w b]]]]; try discriminate L. cbn [app skipn firstn]. split; [lia|]. intros ->. auto.
  - destruct capitals as (C1 & C2 & C3 & C4).
    assert (N1 : forall p, starts [73; 78; 70] p = true -> starts [78; 65; 78] p = false).
    { intros p. destruct p as [|c p]; [discriminate|]. cbn [starts]. destruct (Z.eqb_spec (upper c) 73); [|discriminate].
      intros _. now replace (upper c =? 78) with false by lia. }
    assert (S8 : forall p, starts [73; 78; 70; 73; 78; 73; 84; 89] p = starts [73; 78; 70] p && starts [73; 78; 73; 84; 89] (skipn 3 p))
      by (intros p; exact (starts_app_pat [73; 78; 70] [73; 78; 73; 84; 89] p)).
    unfold pv. inversion H as [|t F E|t F E| |]; subst.
    + pose proof (starts_app _ C2 body rest' F) as S. rewrite (N1 _ S), S. pose proof (F2_length F) as L. cbn [length] in L.
      destruct body as [|x [|y [|z [|w b]]]]; try discriminate L.
      destruct (starts [73; 78; 73; 84; 89] _) eqn:S5.
      * eexists _, _, _. split; [reflexivity|]. cbn [app skipn] in *. split.
        -- assert (Q : forall k (l : list Z), zlen (skipn k l) <= zlen l).
           { intros k l. unfold zlen. rewrite skipn_length. lia. }
           apply (Q 5%nat).
        -- intros ->. discriminate S5.
      * eexists _, _, _. split; [reflexivity|]. cbn [app skipn firstn]. split; [lia|]. intros ->. auto.
    + pose proof (starts_app _ C4 body rest' F) as S. rewrite S8 in S. apply andb_prop in S. destruct S as (S & S5).
      rewrite (N1 _ S), S, S5. pose proof (F2_length F) as L. cbn [length] in L.
      eexists _, _, _. split; [reflexivity|].
      destruct body as [|c1 [|c2 [|c3 [|c4 [|c5 [|c6 [|c7 [|c8 [|c9 b]]]]]]]]]; try discriminate L.
      cbn [app skipn firstn]. split; [lia|]. intros ->. auto.
Qed.

Lemma fform_fun body v v' : fform body v -> fform body v' -> v = v'.
Proof.
  intros A B. destruct (pv_complete body v [] A) as (b & w & r & P & _ & E). destruct (E eq_refl) as (_ & -> & _).
  destruct (pv_complete body v' [] B) as (b2 & w2 & r2 & P2 & _ & E2). destruct (E2 eq_refl) as (_ & -> & _). congruence.
Qed.

(** ** White space and sign *)
Definition p_neg (s : list Z) : bool := peek (dw spaceb s) =? 45.
Definition p_body (s : list Z) : list Z :=
  let r := dw spaceb s in if (peek r =? 45) || (peek r =? 43) then tl r else r.

Lemma dw_app_space ws r : Forall is_space ws -> spaceb (peek r) = false -> dw spaceb (ws ++ r) = r.
Proof.
  intros F P. apply (tw_app spaceb ws r); [|exact P]. eapply Forall_impl; [|exact F]. intros c H. now apply spaceb_spec.
Qed.

Lemma subject_iff s neg body v rest :
  fsubject s neg body v rest <-> neg = p_neg s /\ p_body s = body ++ rest /\ fform body v.
Proof.
  split.
  - intros (ws & sg & E & W & SG & F). destruct (form_first _ _ F) as (c & t & EB & C).
    assert (NC : spaceb c = false /\ c <> 45 /\ c <> 43) by (unfold spaceb; destruct v; lia).
    destruct NC as (NC1 & NC2 & NC3). unfold p_neg, p_body. rewrite E.
    rewrite (dw_app_space ws _ W) by (destruct SG as [(-> & _)|[(-> & _)|(-> & _)]]; [rewrite EB|..]; cbn [app peek]; auto).
    split; [|split; [|exact F]].
    + destruct SG as [(-> & ->)|[(-> & ->)|(-> & ->)]]; [rewrite EB|..]; cbn [app peek]; [symmetry; lia|reflexivity|reflexivity].
    + cbv zeta. destruct SG as [(-> & ->)|[(-> & ->)|(-> & ->)]]; cbn [app]; [|reflexivity|reflexivity].
      rewrite EB. cbn [app peek]. now replace ((c =? 45) || (c =? 43)) with false by lia.
  - intros (-> & E & F). exists (tw spaceb s).
    pose proof (tw_dw spaceb s) as TD. unfold p_body, p_neg in *. cbv zeta in E.
    assert (W : Forall is_space (tw spaceb s)).
    { eapply Forall_impl; [|apply tw_all]. intros c H. now apply spaceb_spec. }
    destruct (dw spaceb s) as [|c r] eqn:D.
    + exists []. cbn [peek] in E. change ((0 =? 45) || (0 =? 43)) with false in E. cbv iota in E. split; [|split; [|split]]; auto.
      rewrite TD at 1. cbn [app]. congruence.
    + cbn [peek tl] in *. destruct (Z.eqb_spec c 45) as [->|N1]; [|destruct (Z.eqb_spec c 43) as [->|N2]]; cbn [orb] in E.
      * exists [45]. split; [|split; [|split]]; auto. rewrite TD at 1. cbn [app]. congruence.
      * exists [43]. split; [|split; [|split]]; auto. rewrite TD at 1. cbn [app]. congruence.
      * exists []. split; [|split; [|split]]; auto. rewrite TD at 1. cbn [app]. congruence.
Qed.

Lemma longest_iff s neg body v rest :
  flongest s neg body v rest <-> neg = p_neg s /\ pv (p_body s) = Some (body, v, rest).
Proof.
  unfold flongest. rewrite subject_iff. split.
  - intros ((-> & E & F) & M). split; [reflexivity|]. destruct (pv_complete body v rest F) as (b & v' & r & P & L & _).
    destruct (pv_sound _ _ _ _ P) as (E2 & F2).
    specialize (M (p_neg s) b v' r). rewrite subject_iff in M. specialize (M ltac:(split; [reflexivity|split; [congruence|exact F2]])).
    assert (EQ : body = b /\ rest = r).
    { assert (LB : length body = length b).
      { apply (f_equal (@length Z)) in E2. rewrite !app_length in E2. unfold zlen in *. lia. }
      clear - LB E2. revert rest r b LB E2. induction body as [|c t IH]; intros rest r b LB E2; destruct b as [|d b]; try discriminate LB; [auto|].
      cbn [app] in E2. injection E2 as -> E2. injection LB as LB. destruct (IH _ _ _ LB E2) as (-> & ->). auto. }
    destruct EQ as (<- & <-). rewrite E, P. do 2 f_equal. f_equal. apply (fform_fun body); assumption.
  - intros (-> & P). destruct (pv_sound _ _ _ _ P) as (E & F). split; [auto|].
    intros neg' body' v' rest' H. rewrite subject_iff in H. destruct H as (_ & E' & F').
    destruct (pv_complete body' v' rest' F') as (b & w & r & P' & L & _). rewrite <- E', P in P'. injection P' as -> -> ->. exact L.
Qed.

Lemma none_iff s : (forall neg body v rest, ~ fsubject s neg body v rest) <-> pv (p_body s) = None.
Proof.
  split.
  - intros H. destruct (pv (p_body s)) as [[[b v] r]|] eqn:P; [|reflexivity]. exfalso.
    destruct (pv_sound _ _ _ _ P) as (E & F). apply (H (p_neg s) b v r). rewrite subject_iff. auto.
  - intros H neg body v rest S. rewrite subject_iff in S. destruct S as (_ & E & F).
    destruct (pv_complete body v rest F) as (b & w & r & P & _). congruence.
Qed.

(** ** strtof *)
Lemma front_ok s : term s -> sf_space s = Some (dw spaceb s) /\
  sf_sign (dw spaceb s) = Some (p_neg s, p_body s) /\ term (p_body s).
Proof.
  intros T. pose proof (term_dw spaceb s T eq_refl) as T2. destruct (term_at _ T2) as (A & TL).
  split; [now apply sf_space_ok|]. unfold sf_sign, p_neg, p_body. rewrite A. cbn [obind]. cbv zeta. split.
  - destruct (peek (dw spaceb s) =? 45); [reflexivity|]. destruct (peek (dw spaceb s) =? 43); reflexivity.
  - destruct ((peek (dw spaceb s) =? 45) || (peek (dw spaceb s) =? 43)) eqn:Q; [apply TL; lia|exact T2].
Qed.
Lemma p_body_len s : zlen (p_body s) <= zlen s.
Proof.
  unfold p_body. cbv zeta. pose proof (zlen_dw spaceb s). pose proof (zlen_tl (dw spaceb s)).
  destruct ((peek (dw spaceb s) =? 45) || (peek (dw spaceb s) =? 43)); lia.
Qed.

Lemma term_skip pat t : Forall capital pat -> term t -> starts pat t = true -> term (skipn (length pat) t).
Proof.
  intros C T S. destruct (starts_inv pat C t S) as (E & F). rewrite E in T. apply term_app in T; [exact T|].
  assert (G : forall l, Forall2 letter pat l -> Forall (fun c => c <> 0) l).
  { clear - C. intros l H. induction H as [|u c ut ct L H IH]; [constructor|]. inversion C as [|? ? U C']; subst. constructor; [|auto].
    unfold letter in L. unfold capital in U. lia. }
  now apply G.
Qed.

Lemma fneg_ok u : 0 <= u < 2 ^ 31 -> fneg u = 2 ^ 31 + u.
Proof.
  intros U. unfold fneg. rewrite Z.add_comm. symmetry. apply Z.add_nocarry_lxor.
  apply Z.bits_inj'. intros n N. rewrite Z.land_spec, Z.bits_0, Z.pow2_bits_eqb by lia.
  destruct (Z.eqb_spec 31 n) as [<-|]; [|now rewrite andb_false_r].
  rewrite andb_true_r. destruct (Z.eq_dec u 0) as [->|]; [apply Z.bits_0|]. apply Z.bits_above_log2; [lia|]. apply Z.log2_lt_pow2; lia.
Qed.

Lemma sig_nums ds : sig_digits (digit_nums ds) = significant ds.
Proof.
  unfold digit_nums. induction ds as [|c t IH]; [reflexivity|]. cbn [map sig_digits significant].
  destruct (Z.eqb_spec c 48) as [->|N]; [exact IH|]. replace (c - 48 =? 0) with false by lia.
  rewrite !zlen_cons. unfold zlen. rewrite map_length. reflexivity.
Qed.

Lemma strtof_longest s neg body v rest : Forall byte s -> In 0 s -> zlen s < 2 ^ 31 -> flongest s neg body v rest ->
  match v with FNum ds e => sig_digits ds <= 112 /\ Z.abs (snd (fst (p_exp (p_s3 (p_body s))))) < 2 ^ 31 | _ => True end ->
  exists b erange, strtof s = Some (b, erange, rest) /\ converted neg v b erange.
Proof.
  intros FB I0 L LG SIG. apply longest_iff in LG. destruct LG as (-> & P).
  assert (T : term s) by (split; assumption). destruct (front_ok s T) as (A1 & A2 & TB).
  destruct capitals as (C1 & C2 & C3 & C4).
  assert (NZ : forall pat, Forall capital pat -> Forall (fun p => p <> 0) pat).
  { intros pat C. eapply Forall_impl; [|exact C]. unfold capital. intros; lia. }
  unfold strtof. rewrite A1. cbn [obind]. rewrite A2. cbn [obind]. rewrite (match_ok _ (NZ _ C1) _ TB). cbn [obind].
  unfold pv in P. destruct (starts [78; 65; 78] (p_body s)) eqn:S1.
  - injection P as <- <- <-. cbn [obind]. eexists _, _. split; [reflexivity|]. cbn [converted]. split; [|reflexivity].
    unfold is_nan. destruct (p_neg s); vm_compute; reflexivity.
  - rewrite (match_ok _ (NZ _ C2) _ TB). cbn [obind]. destruct (starts [73; 78; 70] (p_body s)) eqn:S2.
    + pose proof (term_skip _ _ C2 TB S2) as T3. cbn [length] in T3.
      rewrite (match_ok _ (NZ _ C3) _ T3). cbn [obind].
      eexists _, _. split.
      * destruct (starts [73; 78; 73; 84; 89] (skipn 3 (p_body s))); injection P as <- <- <-; [|reflexivity].
        f_equal. f_equal.
        assert (SK : forall j k (l : list Z), skipn j (skipn k l) = skipn (k + j) l).
        { intros j k. induction k as [|k IH]; intros l; [reflexivity|]. destruct l as [|x l]; [now rewrite !skipn_nil|]. cbn [skipn Nat.add]. apply IH. }
        exact (SK 5%nat 3%nat (p_body s)).
      * assert (v = FInf) as -> by (destruct (starts [73; 78; 73; 84; 89] (skipn 3 (p_body s))); now injection P).
        cbn [converted]. destruct (p_neg s); split; reflexivity.
    + pose proof (p_body_len s) as LB.
      destruct (Z.eqb_spec (zlen (p_ip (p_body s) ++ p_fp (p_body s))) 0) as [|NZ0]; [discriminate P|].
      assert (NE : p_ip (p_body s) ++ p_fp (p_body s) <> []) by (intros Q; now rewrite Q in NZ0).
      assert (G : significant (p_ip (p_body s) ++ p_fp (p_body s)) <= 112 /\ Z.abs (snd (fst (p_exp (p_s3 (p_body s))))) < 2 ^ 31).
      { destruct (p_exp (p_s3 (p_body s))) as [[et ex] r]. injection P as <- <- <-. rewrite sig_nums in SIG. exact SIG. }
      destruct G as (G1 & G2).
      pose proof (sf_number_ok (p_body s) TB ltac:(lia) G1 NE) as H.
      destruct (p_exp (p_s3 (p_body s))) as [[et ex] r]. cbn [fst snd] in G2. specialize (H G2).
      destruct H as (u & -> & R). cbn [obind]. injection P as <- <- <-.
      pose proof (rounds_range _ _ _ R) as UR. unfold f32_inf in UR.
      eexists _, _. split; [reflexivity|]. cbn [converted]. exists u. split; [exact R|]. split.
      * destruct (p_neg s); cbn [sign_bit]; [apply fneg_ok; lia|lia].
      * unfold INFINITY, f32_inf. lia.
Qed.

Lemma strtof_none s : Forall byte s -> In 0 s -> zlen s < 2 ^ 31 ->
  (forall neg body v rest, ~ fsubject s neg body v rest) -> strtof s = Some (0, false, s).
Proof.
  intros FB I0 L N. apply none_iff in N.
  assert (T : term s) by (split; assumption). destruct (front_ok s T) as (A1 & A2 & TB).
  destruct capitals as (C1 & C2 & C3 & C4).
  assert (NZ : forall pat, Forall capital pat -> Forall (fun p => p <> 0) pat).
  { intros pat C. eapply Forall_impl; [|exact C]. unfold capital. intros; lia. }
  unfold strtof. rewrite A1. cbn [obind]. rewrite A2. cbn [obind]. rewrite (match_ok _ (NZ _ C1) _ TB). cbn [obind].
  unfold pv in N. destruct (starts [78; 65; 78] (p_body s)) eqn:S1; [discriminate N|].
  rewrite (match_ok _ (NZ _ C2) _ TB). cbn [obind].
  destruct (starts [73; 78; 70] (p_body s)) eqn:S2; [destruct (starts _ (skipn 3 (p_body s))); discriminate N|].
  pose proof (p_body_len s) as LB.
  destruct (Z.eqb_spec (zlen (p_ip (p_body s) ++ p_fp (p_body s))) 0) as [E|NZ0].
  - rewrite sf_number_none; [reflexivity|exact TB|lia|]. destruct (p_ip (p_body s) ++ p_fp (p_body s)) as [|c x]; [reflexivity|].
    rewrite zlen_cons in E. pose proof (zlen_nonneg x). lia.
  - destruct (p_exp (p_s3 (p_body s))) as [[et ex] r]; discriminate N.
Qed.
