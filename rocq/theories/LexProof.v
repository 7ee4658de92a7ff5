(** The preprocessor: white space, identifiers, the macro table. *)
From Verif Require Import Base BaseLemmas NumModel LexSpec PrepSpec LexModel.

Ltac asc := repeat progress (rewrite <- ?app_assoc; cbn [app]); reflexivity.

Ltac zl := repeat (rewrite zlen_app || rewrite zlen_cons); try change (zlen (@nil Z)) with 0 in *; lia.

Lemma inside_tail x t : inside (x :: t) -> inside t.
Proof. intros I (a & b & E). apply I. exists (x :: a), b. cbn [app]. now rewrite E. Qed.
Lemma inside_head y t : inside (42 :: y :: t) -> y <> 47.
Proof. intros I ->. apply I. exists [], (t ++ [42]). reflexivity. Qed.
Lemma skip_comment t w : inside t -> skipSp true (t ++ [42; 47] ++ w) = skipSp false w.
Proof.
  induction t as [|x t IH]; intros I; [reflexivity|]. cbn [app skipSp]. destruct (x =? 42) eqn:E.
  - assert (x = 42) as -> by lia. destruct t as [|y t].
    + reflexivity.
    + cbn [app]. pose proof (inside_head y t I). replace (y =? 47) with false by lia. apply IH. exact (inside_tail _ _ I).
  - apply IH. exact (inside_tail _ _ I).
Qed.
Lemma skip_stop t : ~ blankstart t -> skipSp false t = Ok t.
Proof.
  intros H. destruct t as [|c t]; [reflexivity|]. cbn [skipSp]. cbn [blankstart] in H. unfold blankchar in H.
  replace ((c =? 32) || (c =? 9) || (c =? 12) || (c =? 11)) with false by lia.
  destruct (c =? 47) eqn:E; [|reflexivity]. destruct t as [|d t]; [reflexivity|].
  replace (d =? 47) with false by lia. replace (d =? 42) with false by lia. reflexivity.
Qed.
Lemma skip_blanks w b t : blanks w b -> (b = true -> t = []) -> ~ blankstart t -> skipSp false (w ++ t) = Ok t.
Proof.
  intros B E N. induction B as [|c w b C B IH|x w b I B IH|x].
  - apply skip_stop. exact N.
  - cbn [app skipSp]. unfold blankchar in C. replace ((c =? 32) || (c =? 9) || (c =? 12) || (c =? 11)) with true by lia. apply IH. exact E.
  - rewrite <- !app_assoc. change ([47; 42] ++ x ++ [42; 47] ++ w ++ t) with (47 :: 42 :: x ++ [42; 47] ++ (w ++ t)).
    cbn [skipSp]. replace ((47 =? 32) || (47 =? 9) || (47 =? 12) || (47 =? 11)) with false by reflexivity.
    change (47 =? 47) with true. change (42 =? 47) with false. change (42 =? 42) with true. cbv iota.
    rewrite skip_comment by exact I. apply IH. exact E.
  - rewrite (E eq_refl). reflexivity.
Qed.

Lemma isalpha_letter c : (c =? 95) || isalpha c = true <-> letter c.
Proof. unfold isalpha, letter. lia. Qed.
Lemma namechar_b c : (c =? 95) || isalpha c || isdigit c = true <-> namechar c.
Proof. unfold isalpha, isdigit, namechar, letter. lia. Qed.
Lemma identTail_ok n t : Forall namechar n -> nostart namechar t -> identTail (n ++ t) = (n, t).
Proof.
  intros F N. induction F as [|c n C F IH]; cbn [app identTail].
  - destruct t as [|c t]; [reflexivity|]. cbn [identTail]. cbn [nostart] in N. rewrite <- namechar_b in N. destruct ((c =? 95) || isalpha c || isdigit c); [congruence|reflexivity].
  - apply namechar_b in C. rewrite C, IH. reflexivity.
Qed.
Lemma getIdent_ok n t : okname n -> nostart namechar t -> getIdent (n ++ t) = Ok (n, t).
Proof.
  intros [I L] N. destruct n as [|c n]; [destruct I|]. destruct I as [C F]. cbn [app getIdent]. apply isalpha_letter in C.
  replace (negb (c =? 95) && negb (isalpha c)) with false by (destruct (c =? 95), (isalpha c); cbn in *; congruence).
  rewrite (identTail_ok n t F N). replace (63 <? zlen (c :: n)) with false by lia. reflexivity.
Qed.

(** ** bytes *)
Lemma inb_zget_mid {A} (a b : list A) x i : i = zlen a -> inb (zget (a ++ x :: b) i) = Ok x.
Proof. intros ->. rewrite zget_app_r by lia. replace (zlen a - zlen a) with 0 by lia. reflexivity. Qed.
Lemma zset_mid {A} (a b : list A) x v i : i = zlen a -> inb (zset (a ++ x :: b) i v) = Ok (a ++ v :: b).
Proof.
  intros ->. unfold zset. pose proof (zlen_nonneg a). pose proof (zlen_nonneg b). rewrite zlen_app, zlen_cons.
  replace ((zlen a <? 0) || (zlen a + (1 + zlen b) <=? zlen a)) with false by lia.
  unfold zlen at 1. rewrite Nat2Z.id, lset_app. reflexivity.
Qed.
Definition nonzero (l : list Z) : Prop := Forall (fun c => c <> 0) l.
Lemma streq_ok n' : forall pre post nm i, nonzero n' -> nonzero nm -> i = zlen pre ->
  streq (pre ++ n' ++ 0 :: post) i nm = Ok (sameb n' nm).
Proof.
  unfold nonzero. induction n' as [|c n' IH]; intros pre post nm i N1 N2 Hi; destruct nm as [|d nm]; cbn [app streq].
  - rewrite (inb_zget_mid pre post 0 i Hi). reflexivity.
  - rewrite (inb_zget_mid pre post 0 i Hi). cbn [rbind]. apply Forall_cons_iff in N2. replace (0 =? d) with false by lia. reflexivity.
  - rewrite (inb_zget_mid pre _ c i Hi). cbn [rbind]. apply Forall_cons_iff in N1. replace (c =? 0) with false by lia. reflexivity.
  - rewrite (inb_zget_mid pre _ c i Hi). cbn [rbind]. apply Forall_cons_iff in N1. apply Forall_cons_iff in N2.
    unfold sameb. destruct (c =? d) eqn:E.
    + assert (c = d) as -> by lia.
      replace (pre ++ d :: n' ++ 0 :: post) with ((pre ++ [d]) ++ n' ++ 0 :: post) by (asc).
      rewrite IH by (try apply N1; try apply N2; zl). unfold sameb.
      destruct (list_eq_dec Z.eq_dec n' nm) as [->|NE].
      * destruct (list_eq_dec Z.eq_dec (d :: nm) (d :: nm)); congruence.
      * destruct (list_eq_dec Z.eq_dec (d :: n') (d :: nm)); congruence.
    + destruct (list_eq_dec Z.eq_dec (c :: n') (d :: nm)) as [EE|]; [injection EE as ? ?; lia|reflexivity].
Qed.

(** ** the table *)
Definition enc (p : PrepSpec.name * list Z) : list Z := (zlen (fst p) + 1) :: fst p ++ 0 :: zlen (snd p) :: snd p.
Definition encs (m : table) : list Z := flat_map enc m.
Definition okentry (p : PrepSpec.name * list Z) : Prop := nonzero (fst p) /\ zlen (fst p) < 127 /\ zlen (snd p) <= 127.
Record Rep (m : table) (s : macros) : Prop := {
  r_tbl : exists junk, tbl s = encs m ++ junk;
  r_len : mlen s = zlen (encs m);
  r_max : zlen (tbl s) = MAXM;
  r_ok : Forall okentry m;
  r_nodup : NoDup (map fst m) }.
Lemma encs_app a b : encs (a ++ b) = encs a ++ encs b.
Proof. apply flat_map_app. Qed.
Lemma enc_len p : zlen (enc p) = zlen (fst p) + zlen (snd p) + 3.
Proof. unfold enc. rewrite zlen_cons, zlen_app, !zlen_cons. lia. Qed.
Lemma size_encs m : size m = zlen (encs m).
Proof. induction m as [|p m IH]; [reflexivity|]. change (zlen (fst p) + zlen (snd p) + 3 + size m = zlen (enc p ++ encs m)). rewrite zlen_app, enc_len, IH. reflexivity. Qed.
Lemma sameb_true a b : sameb a b = true <-> a = b.
Proof. unfold sameb. destruct (list_eq_dec Z.eq_dec a b); split; congruence. Qed.
Lemma size_app a b : size (a ++ b) = size a + size b.
Proof. rewrite !size_encs, encs_app, zlen_app. reflexivity. Qed.
Lemma encs_len_ge m : 3 * Z.of_nat (length m) <= zlen (encs m).
Proof. induction m as [|p m IH]; [cbn; lia|]. unfold encs. cbn [flat_map length]. fold (encs m). rewrite zlen_app, enc_len. pose proof (zlen_nonneg (fst p)). pose proof (zlen_nonneg (snd p)). lia. Qed.

Lemma scan_ok nm s junk : nonzero nm -> forall rest fuel pre, tbl s = encs (pre ++ rest) ++ junk -> mlen s = zlen (encs (pre ++ rest)) ->
  Forall okentry rest -> (length rest < fuel)%nat ->
  (lookup rest nm = None /\ scan fuel s (zlen (encs pre)) nm = Ok None) \/
  (exists a e b, rest = a ++ (nm, e) :: b /\ lookup rest nm = Some e /\ lookup a nm = None /\ scan fuel s (zlen (encs pre)) nm = Ok (Some (zlen (encs (pre ++ a))))).
Proof.
  intros NZ. induction rest as [|[k e] rest IH]; intros fuel pre T L F FU; destruct fuel as [|fuel]; [cbn in FU; lia| |cbn in FU; lia|]; cbn [scan].
  - left. rewrite app_nil_r in L. replace (zlen (encs pre) <? mlen s) with false by lia. split; reflexivity.
  - apply Forall_cons_iff in F. destruct F as [(N1 & N2 & N3) F]. cbn [fst snd] in *.
    assert (T' : tbl s = encs pre ++ (zlen k + 1) :: k ++ 0 :: zlen e :: e ++ encs rest ++ junk).
    { rewrite T, encs_app. unfold encs at 2. cbn [flat_map]. unfold enc at 1. cbn [fst snd]. fold (encs rest). asc. }
    assert (LT : zlen (encs pre) < mlen s).
    { rewrite L, encs_app, zlen_app. unfold encs at 3. cbn [flat_map]. rewrite zlen_app, enc_len. cbn [fst snd]. pose proof (zlen_nonneg k). pose proof (zlen_nonneg e). pose proof (zlen_nonneg (flat_map enc rest)). lia. }
    replace (zlen (encs pre) <? mlen s) with true by lia.
    assert (SE : streq (tbl s) (zlen (encs pre) + 1) nm = Ok (sameb k nm)).
    { rewrite T'. replace (encs pre ++ (zlen k + 1) :: k ++ 0 :: zlen e :: e ++ encs rest ++ junk) with ((encs pre ++ [zlen k + 1]) ++ k ++ 0 :: (zlen e :: e ++ encs rest ++ junk)) by (asc).
      apply streq_ok; [exact N1|exact NZ|]. zl. }
    rewrite SE. cbn [rbind lookup].
    destruct (sameb k nm) eqn:SB.
    + right. apply sameb_true in SB. subst k. exists [], e, rest. rewrite app_nil_r. auto.
    + assert (G1 : inb (zget (tbl s) (zlen (encs pre))) = Ok (zlen k + 1)) by (rewrite T'; apply inb_zget_mid; reflexivity).
      rewrite G1. cbn [rbind].
      assert (G2 : inb (zget (tbl s) (zlen (encs pre) + 1 + (zlen k + 1))) = Ok (zlen e)).
      { rewrite T'. replace (encs pre ++ (zlen k + 1) :: k ++ 0 :: zlen e :: e ++ encs rest ++ junk) with ((encs pre ++ (zlen k + 1) :: k ++ [0]) ++ zlen e :: (e ++ encs rest ++ junk)) by (asc).
        apply inb_zget_mid. zl. }
      rewrite G2. cbn [rbind].
      assert (EQ : zlen (encs pre) + 1 + (zlen k + 1) + 1 + zlen e = zlen (encs (pre ++ [(k, e)]))).
      { rewrite encs_app, zlen_app. unfold encs at 3. cbn [flat_map]. rewrite app_nil_r, enc_len. cbn [fst snd]. lia. }
      rewrite EQ.
      destruct (IH fuel (pre ++ [(k, e)])) as [[A B]|(a & e' & b & A & B & C & D)].
      * rewrite <- app_assoc. exact T.
      * rewrite <- app_assoc. exact L.
      * exact F.
      * cbn in FU. lia.
      * left. auto.
      * right. exists ((k, e) :: a), e', b. rewrite A. cbn [app lookup]. rewrite SB. split; [reflexivity|]. split; [rewrite <- A; exact B|]. split; [exact C|].
        rewrite D. asc.
Qed.
Lemma scan0_ok m s nm : Rep m s -> nonzero nm ->
  (lookup m nm = None /\ scan0 s nm = Ok None) \/
  (exists a e b, m = a ++ (nm, e) :: b /\ lookup m nm = Some e /\ lookup a nm = None /\ scan0 s nm = Ok (Some (zlen (encs a)))).
Proof.
  intros [[junk T] L M F ND] NZ. pose proof (encs_len_ge m).
  exact (scan_ok nm s junk NZ m (S (Z.to_nat (mlen s))) [] T L F ltac:(lia)).
Qed.
Lemma split_tbl m s a k e b : Rep m s -> m = a ++ (k, e) :: b -> exists junk,
  tbl s = encs a ++ (zlen k + 1) :: k ++ 0 :: zlen e :: e ++ encs b ++ junk.
Proof.
  intros [[junk T] L M F ND] ->. exists junk. rewrite T, encs_app. unfold encs at 2. cbn [flat_map]. unfold enc at 1. cbn [fst snd]. fold (encs b).
  asc.
Qed.
Lemma findMacro_ok m s nm : Rep m s -> nonzero nm ->
  match lookup m nm with
  | None => findMacro s nm = Ok (-1)
  | Some e => exists i, findMacro s nm = Ok i /\ 0 <= i /\ exists pre post, tbl s = pre ++ zlen e :: e ++ post /\ i = zlen pre
  end.
Proof.
  intros R NZ. unfold findMacro. destruct (scan0_ok m s nm R NZ) as [[A B]|(a & e & b & A & B & C & D)].
  - rewrite A, B. reflexivity.
  - rewrite B, D. cbn [rbind]. destruct (split_tbl m s a nm e b R A) as [junk T].
    assert (G1 : inb (zget (tbl s) (zlen (encs a))) = Ok (zlen nm + 1)) by (rewrite T; apply inb_zget_mid; reflexivity).
    rewrite G1. cbn [rbind]. eexists. split; [reflexivity|]. pose proof (zlen_nonneg (encs a)). pose proof (zlen_nonneg nm). split; [lia|].
    exists (encs a ++ (zlen nm + 1) :: nm ++ [0]), (encs b ++ junk). split.
    + rewrite T. asc.
    + zl.
Qed.
Lemma expansion_ok m s nm : Rep m s -> nonzero nm -> expansion s nm = Ok (lookup m nm).
Proof.
  intros R NZ. unfold expansion. pose proof (findMacro_ok m s nm R NZ) as H. destruct (lookup m nm) as [e|].
  - destruct H as (i & -> & I & pre & post & T & ->). cbn [rbind]. replace (0 <=? zlen pre) with true by lia.
    rewrite T. rewrite (inb_zget_mid pre _ (zlen e) (zlen pre) eq_refl). cbn [rbind].
    pose proof (zlen_nonneg e). pose proof (zlen_nonneg post).
    replace ((0 <=? zlen e) && (zlen pre + 1 + zlen e <=? zlen (pre ++ zlen e :: e ++ post))) with true by (rewrite zlen_app, zlen_cons, zlen_app; lia).
    do 2 f_equal. replace (pre ++ zlen e :: e ++ post) with ((pre ++ [zlen e]) ++ e ++ post) by (asc).
    replace (Z.to_nat (zlen pre + 1)) with (length (pre ++ [zlen e])) by (rewrite app_length; unfold zlen; cbn; lia).
    rewrite skipn_app, skipn_all, Nat.sub_diag. cbn [app skipn]. unfold zlen. rewrite Nat2Z.id. rewrite firstn_app, firstn_all, Nat.sub_diag. cbn [firstn]. apply app_nil_r.
  - rewrite H. reflexivity.
Qed.

Lemma move_ok a b c d dst src n : dst = zlen a -> src = zlen (a ++ b) -> n = zlen c ->
  exists junk, move (a ++ b ++ c ++ d) dst src n = Ok (a ++ c ++ junk) /\ zlen (a ++ c ++ junk) = zlen (a ++ b ++ c ++ d).
Proof.
  intros -> -> ->. unfold move. rewrite !zlen_app.
  pose proof (zlen_nonneg a). pose proof (zlen_nonneg b). pose proof (zlen_nonneg c). pose proof (zlen_nonneg d).
  match goal with |- context [if ?x then _ else _] => replace x with true by lia end.
  exists (skipn (Z.to_nat (zlen a + zlen c)) (a ++ b ++ c ++ d)).
  assert (E1 : firstn (Z.to_nat (zlen a)) (a ++ b ++ c ++ d) = a).
  { unfold zlen. rewrite Nat2Z.id. rewrite firstn_app, firstn_all, Nat.sub_diag. apply app_nil_r. }
  assert (E2 : skipn (Z.to_nat (zlen a + zlen b)) (a ++ b ++ c ++ d) = c ++ d).
  { replace (Z.to_nat (zlen a + zlen b)) with (length (a ++ b)) by (rewrite app_length; unfold zlen; lia). rewrite app_assoc. rewrite skipn_app, skipn_all, Nat.sub_diag. reflexivity. }
  assert (E3 : firstn (Z.to_nat (zlen c)) (c ++ d) = c).
  { unfold zlen. rewrite Nat2Z.id. rewrite firstn_app, firstn_all, Nat.sub_diag. apply app_nil_r. }
  rewrite E1, E2, E3. split; [reflexivity|].
  clear E1 E2 E3. unfold zlen in *. rewrite !app_length, skipn_length, !app_length. lia.
Qed.
Lemma nodup_filter (P : PrepSpec.name * list Z -> bool) (m : table) : NoDup (map fst m) -> NoDup (map fst (filter P m)).
Proof.
  induction m as [|p m IH]; intros H; [constructor|]. cbn [map] in H. apply NoDup_cons_iff in H. destruct H as [H1 H2]. cbn [filter].
  destruct (P p); [|apply IH; exact H2]. cbn [map]. constructor; [|apply IH; exact H2].
  intros C. apply H1. apply in_map_iff in C. destruct C as (q & <- & C). apply filter_In in C. apply in_map. apply C.
Qed.
Lemma filter_none nm (m : table) : lookup m nm = None -> filter (fun p => negb (sameb (fst p) nm)) m = m.
Proof.
  induction m as [|[k e] m IH]; intros H; [reflexivity|]. cbn [lookup] in H. cbn [filter fst]. destruct (sameb k nm); [discriminate H|]. cbn [negb]. now rewrite IH.
Qed.
Lemma lookup_notin (m : table) nm : ~ In nm (map fst m) -> lookup m nm = None.
Proof.
  induction m as [|[k e] m IH]; intros H; [reflexivity|]. cbn [map fst] in H. cbn [lookup]. destruct (sameb k nm) eqn:E; [apply sameb_true in E; exfalso; apply H; now left|]. apply IH. intros C. apply H. now right.
Qed.
Lemma undef_ok m s nm : Rep m s -> nonzero nm ->
  exists s', undefineMacro s nm = Ok s' /\ Rep (filter (fun p => negb (sameb (fst p) nm)) m) s'.
Proof.
  intros R NZ. unfold undefineMacro. destruct (scan0_ok m s nm R NZ) as [[A B]|(a & e & b & A & B & C & D)].
  - rewrite B. cbn [rbind]. exists s. rewrite filter_none by exact A. auto.
  - rewrite D. cbn [rbind]. destruct (split_tbl m s a nm e b R A) as [junk T].
    assert (G1 : inb (zget (tbl s) (zlen (encs a))) = Ok (zlen nm + 1)) by (rewrite T; apply inb_zget_mid; reflexivity).
    assert (G2 : inb (zget (tbl s) (zlen (encs a) + (1 + (zlen nm + 1)))) = Ok (zlen e)).
    { rewrite T. replace (encs a ++ (zlen nm + 1) :: nm ++ 0 :: zlen e :: e ++ encs b ++ junk) with ((encs a ++ (zlen nm + 1) :: nm ++ [0]) ++ zlen e :: (e ++ encs b ++ junk)) by (asc).
      apply inb_zget_mid. zl. }
    rewrite G1. cbn [rbind]. rewrite G2. cbn [rbind].
    pose proof (r_len m s R) as L. subst m.
    assert (L2 : mlen s = zlen (encs a) + (zlen nm + zlen e + 3) + zlen (encs b)).
    { rewrite L, encs_app, zlen_app. unfold encs at 2. cbn [flat_map]. rewrite zlen_app, enc_len. cbn [fst snd]. fold (encs b). lia. }
    assert (T2 : tbl s = encs a ++ ((zlen nm + 1) :: nm ++ 0 :: zlen e :: e) ++ encs b ++ junk).
    { rewrite T. cbn [app]. asc. }
    assert (LE : zlen ((zlen nm + 1) :: nm ++ 0 :: zlen e :: e) = zlen nm + zlen e + 3) by apply (enc_len (nm, e)).
    destruct (move_ok (encs a) ((zlen nm + 1) :: nm ++ 0 :: zlen e :: e) (encs b) junk (zlen (encs a))
      (zlen (encs a) + (1 + (zlen nm + 1) + 1 + zlen e)) (mlen s - zlen (encs a) - (1 + (zlen nm + 1) + 1 + zlen e))) as (junk' & MV & ML).
    { reflexivity. } { rewrite zlen_app, LE. lia. } { lia. }
    rewrite T2, MV. cbn [rbind]. eexists. split; [reflexivity|].
    assert (NDF := r_nodup _ s R). assert (OK := r_ok _ s R).
    rewrite map_app in NDF. cbn [map fst] in NDF. apply NoDup_remove in NDF. destruct NDF as [ND1 ND2].
    assert (FE : filter (fun p => negb (sameb (fst p) nm)) (a ++ (nm, e) :: b) = a ++ b).
    { rewrite filter_app. cbn [filter fst]. replace (sameb nm nm) with true by (symmetry; now apply sameb_true). cbn [negb].
      rewrite !filter_none; [reflexivity| |exact C]. apply lookup_notin. intros H. apply ND2. apply in_or_app. now right. }
    rewrite FE. split; cbn [tbl mlen].
    + exists junk'. rewrite encs_app, <- app_assoc. reflexivity.
    + rewrite encs_app, zlen_app. lia.
    + rewrite ML, <- T2. apply (r_max _ s R).
    + apply Forall_app in OK. destruct OK as [OK1 OK2]. apply Forall_cons_iff in OK2. apply Forall_app. split; [exact OK1|apply OK2].
    + rewrite map_app. exact ND1.
Qed.

(** a definition in progress *)
Record Par (m : table) (n : PrepSpec.name) (e : list Z) (s : macros) : Prop := {
  p_tbl : exists junk, tbl s = encs m ++ (zlen n + 1) :: n ++ 0 :: zlen e :: e ++ junk;
  p_len : mlen s = zlen (encs m) + zlen n + 2;
  p_max : zlen (tbl s) = MAXM;
  p_ok : Forall okentry m; p_nodup : NoDup (map fst m) ;
  p_new : lookup m n = None; p_nz : nonzero n; p_n : zlen n < 127; p_nze : nonzero e; p_e : zlen e <= 127 }.
Lemma copyStr_ok n : forall pre junk i, i = zlen pre -> zlen n < zlen junk -> exists junk',
  copyStr (pre ++ junk) i n = Ok (pre ++ n ++ 0 :: junk') /\ zlen junk' = zlen junk - zlen n - 1.
Proof.
  induction n as [|c n IH]; intros pre junk i Hi H; cbn [copyStr]; (destruct junk as [|x junk]; [exfalso; revert H; unfold zlen; cbn [length]; lia|]).
  - rewrite (zset_mid pre junk x 0 i Hi). exists junk. split; [reflexivity|]. rewrite zlen_cons. change (zlen (@nil Z)) with 0. lia.
  - rewrite (zset_mid pre junk x c i Hi). cbn [rbind]. rewrite !zlen_cons in H.
    destruct (IH (pre ++ [c]) junk (i + 1)) as (j & E & L); [zl|lia|].
    rewrite <- app_assoc in E. cbn [app] in E. exists j. rewrite E. rewrite <- app_assoc. split; [reflexivity|]. rewrite !zlen_cons. lia.
Qed.
Lemma addIdent_ok m s n : Rep m s -> nonzero n -> lookup m n = None ->
  match addMacroIdent s n with
  | Ok s' => Par m n [] s' /\ size m + zlen n + 3 <= room
  | Err => 127 <= zlen n \/ room < size m + zlen n + 3
  | Oob => False
  end.
Proof.
  intros [[junk T] L M F ND] NZ LK. unfold addMacroIdent. rewrite size_encs. change room with MAXM.
  destruct (127 <=? zlen n) eqn:C1; [lia|]. destruct (MAXM - mlen s <? zlen n + 3) eqn:C2; [lia|].
  assert (LJ : zlen junk = MAXM - zlen (encs m)) by (rewrite <- M, T, zlen_app; lia).
  pose proof (zlen_nonneg n). destruct junk as [|x junk]; [change (zlen (@nil Z)) with 0 in LJ; lia|]. rewrite zlen_cons in LJ.
  rewrite T, (zset_mid _ _ x (zlen n + 1) (mlen s) L). cbn [rbind].
  destruct (copyStr_ok n (encs m ++ [zlen n + 1]) junk (mlen s + 1)) as (j & E & LE); [zl|lia|].
  rewrite <- app_assoc in E. cbn [app] in E. rewrite E. cbn [rbind].
  destruct j as [|y j]; [change (zlen (@nil Z)) with 0 in LE; lia|]. rewrite zlen_cons in LE.
  assert (Z1 : inb (zset ((encs m ++ [zlen n + 1]) ++ n ++ 0 :: y :: j) (mlen s + 1 + (zlen n + 1)) 0) = Ok ((encs m ++ (zlen n + 1) :: n ++ [0]) ++ 0 :: j)).
  { replace ((encs m ++ [zlen n + 1]) ++ n ++ 0 :: y :: j) with ((encs m ++ (zlen n + 1) :: n ++ [0]) ++ y :: j) by (asc).
    apply zset_mid. zl. }
  rewrite Z1. cbn [rbind]. split; [|lia]. split; cbn [tbl mlen]; try assumption; try lia.
  - exists j. asc.
  - rewrite <- app_assoc. cbn [app]. rewrite <- app_assoc. cbn [app]. rewrite zlen_app, zlen_cons, zlen_app, !zlen_cons. lia.
  - constructor.
  - cbn. lia.
Qed.
Lemma addChar_ok m n e s c : Par m n e s -> c <> 0 -> size m + zlen n + 3 + zlen e <= room ->
  match addMacroExpansionChar s c with
  | Ok s' => Par m n (e ++ [c]) s' /\ size m + zlen n + 3 + zlen (e ++ [c]) <= room /\ zlen (e ++ [c]) <= 127
  | Err => 127 < zlen (e ++ [c]) \/ room < size m + zlen n + 3 + zlen (e ++ [c])
  | Oob => False
  end.
Proof.
  intros [[junk T] L M F ND NW NZ LN NE LE] HC. unfold addMacroExpansionChar. rewrite size_encs. change room with MAXM. intros SZ.
  assert (T2 : tbl s = (encs m ++ (zlen n + 1) :: n ++ [0]) ++ zlen e :: e ++ junk) by (rewrite T; asc).
  assert (L2 : mlen s = zlen (encs m ++ (zlen n + 1) :: n ++ [0])) by (zl).
  assert (G : inb (zget (tbl s) (mlen s)) = Ok (zlen e)) by (rewrite T2; apply inb_zget_mid; exact L2).
  rewrite G. cbn [rbind]. rewrite zlen_app. change (zlen [c]) with 1.
  destruct (MAXM <=? mlen s + 1 + zlen e) eqn:C1; [lia|]. destruct (127 <=? zlen e) eqn:C2; [lia|].
  assert (LJ : MAXM = mlen s + (1 + (zlen e + zlen junk))) by (rewrite <- M, T2, L2; zl).
  destruct junk as [|x junk]; [change (zlen (@nil Z)) with 0 in LJ; lia|].
  assert (S1 : inb (zset (tbl s) (mlen s + 1 + zlen e) c) = Ok (((encs m ++ (zlen n + 1) :: n ++ [0]) ++ zlen e :: e) ++ c :: junk)).
  { rewrite T2. replace ((encs m ++ (zlen n + 1) :: n ++ [0]) ++ zlen e :: e ++ x :: junk) with (((encs m ++ (zlen n + 1) :: n ++ [0]) ++ zlen e :: e) ++ x :: junk) by (asc).
    apply zset_mid. rewrite zlen_app, zlen_cons. lia. }
  rewrite S1. cbn [rbind].
  assert (S2 : inb (zset (((encs m ++ (zlen n + 1) :: n ++ [0]) ++ zlen e :: e) ++ c :: junk) (mlen s) (zlen e + 1)) = Ok ((encs m ++ (zlen n + 1) :: n ++ [0]) ++ (zlen e + 1) :: e ++ c :: junk)).
  { replace (((encs m ++ (zlen n + 1) :: n ++ [0]) ++ zlen e :: e) ++ c :: junk) with ((encs m ++ (zlen n + 1) :: n ++ [0]) ++ zlen e :: (e ++ c :: junk)) by (asc).
    apply zset_mid. exact L2. }
  rewrite S2. cbn [rbind]. split; [|lia]. split; cbn [tbl mlen]; try assumption.
  - exists junk. rewrite zlen_app. change (zlen [c]) with 1. asc.
  - rewrite <- M, T2. zl.
  - apply Forall_app. split; [exact NE|]. constructor; [exact HC|constructor].
  - rewrite zlen_app. change (zlen [c]) with 1. lia.
Qed.
Lemma trim_snoc e c : trim (e ++ [c]) = if (c =? 32) || (c =? 9) then trim e else e ++ [c].
Proof.
  induction e as [|x e IH]; [cbn; destruct ((c =? 32) || (c =? 9)); reflexivity|]. cbn [app trim]. rewrite IH.
  destruct ((c =? 32) || (c =? 9)); [reflexivity|]. destruct (e ++ [c]) eqn:E; [destruct e; discriminate E|]. reflexivity.
Qed.
Lemma trim_prefix e : exists w, e = trim e ++ w.
Proof.
  induction e as [|c e IH] using rev_ind; [exists []; reflexivity|]. rewrite trim_snoc. destruct ((c =? 32) || (c =? 9)).
  - destruct IH as [w E]. exists (w ++ [c]). rewrite app_assoc, <- E. reflexivity.
  - exists []. now rewrite app_nil_r.
Qed.
Lemma trimLoop_ok m n : forall fuel e s, Par m n e s -> (length e < fuel)%nat -> exists s', trimLoop fuel s = Ok s' /\ Par m n (trim e) s'.
Proof.
  induction fuel as [|fuel IH]; intros e s P FU; [lia|]. cbn [trimLoop].
  destruct P as [[junk T] L M F ND NW NZ LN NE LE].
  assert (T2 : tbl s = (encs m ++ (zlen n + 1) :: n ++ [0]) ++ zlen e :: e ++ junk) by (rewrite T; asc).
  assert (L2 : mlen s = zlen (encs m ++ (zlen n + 1) :: n ++ [0])) by (zl).
  assert (G : inb (zget (tbl s) (mlen s)) = Ok (zlen e)) by (rewrite T2; apply inb_zget_mid; exact L2).
  rewrite G. cbn [rbind]. destruct e as [|c e _] using rev_ind.
  - exists s. split; [reflexivity|]. split; try assumption. exists junk. exact T.
  - rewrite zlen_app. change (zlen [c]) with 1. pose proof (zlen_nonneg e). replace (zlen e + 1 =? 0) with false by lia.
    assert (G2 : inb (zget (tbl s) (mlen s + (zlen e + 1))) = Ok c).
    { rewrite T2. replace ((encs m ++ (zlen n + 1) :: n ++ [0]) ++ zlen (e ++ [c]) :: (e ++ [c]) ++ junk) with (((encs m ++ (zlen n + 1) :: n ++ [0]) ++ zlen (e ++ [c]) :: e) ++ c :: junk) by (asc).
      apply inb_zget_mid. rewrite (zlen_app _ (_ :: _)), zlen_cons. lia. }
    rewrite G2. cbn [rbind]. apply Forall_app in NE. destruct NE as [NE1 NE2]. apply Forall_cons_iff in NE2. rewrite trim_snoc.
    replace ((c =? 32) || (c =? 9) || (c =? 0)) with ((c =? 32) || (c =? 9)) by lia.
    destruct ((c =? 32) || (c =? 9)).
    + assert (S2 : inb (zset (tbl s) (mlen s) (zlen e + 1 - 1)) = Ok ((encs m ++ (zlen n + 1) :: n ++ [0]) ++ zlen e :: (e ++ [c]) ++ junk)).
      { rewrite T2. replace (zlen e + 1 - 1) with (zlen e) by lia. apply zset_mid. exact L2. }
      rewrite S2. cbn [rbind]. apply IH; [|rewrite app_length in FU; cbn in FU; lia]. split; cbn [tbl mlen]; try assumption.
      * exists (c :: junk). asc.
      * rewrite <- M, T2. zl.
      * rewrite zlen_app in LE. change (zlen [c]) with 1 in LE. lia.
    + exists s. split; [reflexivity|]. split; try assumption. { exists junk. exact T. } apply Forall_app. split; [exact NE1|]. constructor; [apply NE2|constructor].
Qed.
Lemma nodup_snoc (l : list PrepSpec.name) x : NoDup l -> ~ In x l -> NoDup (l ++ [x]).
Proof.
  intros N H. induction N as [|y l Y N IH]; [constructor; [easy|constructor]|]. cbn [app]. constructor.
  - intros C. apply in_app_or in C. destruct C as [C|[C|[]]]; [exact (Y C)|]. apply H. left. congruence.
  - apply IH. intros C. apply H. now right.
Qed.
Lemma lookup_in (m : table) nm : lookup m nm = None -> ~ In nm (map fst m).
Proof.
  induction m as [|[k e] m IH]; intros H; [easy|]. cbn [lookup] in H. destruct (sameb k nm) eqn:E; [discriminate H|]. cbn [map fst]. intros [C|C]; [apply sameb_true in C; congruence|exact (IH H C)].
Qed.
Lemma end_ok m n e s : Par m n e s -> exists s', endMacroExpansion s = Ok s' /\ Rep (m ++ [(n, trim e)]) s'.
Proof.
  intros P. unfold endMacroExpansion.
  assert (LE0 : (length e < 129)%nat) by (pose proof (p_e _ _ _ _ P); unfold zlen in *; lia).
  destruct (trimLoop_ok m n 129 e s P LE0) as (s1 & E1 & P1). rewrite E1. cbn [rbind].
  destruct P1 as [[junk T] L M F ND NW NZ LN NE LE].
  assert (T2 : tbl s1 = (encs m ++ (zlen n + 1) :: n ++ [0]) ++ zlen (trim e) :: trim e ++ junk) by (rewrite T; asc).
  assert (L2 : mlen s1 = zlen (encs m ++ (zlen n + 1) :: n ++ [0])) by (zl).
  assert (G : inb (zget (tbl s1) (mlen s1)) = Ok (zlen (trim e))) by (rewrite T2; apply inb_zget_mid; exact L2).
  rewrite G. cbn [rbind]. eexists. split; [reflexivity|]. split; cbn [tbl mlen].
  - exists junk. rewrite T, encs_app. unfold encs at 3. cbn [flat_map]. rewrite app_nil_r. unfold enc. cbn [fst snd]. asc.
  - rewrite encs_app, zlen_app. unfold encs at 2. cbn [flat_map]. rewrite app_nil_r, enc_len. cbn [fst snd]. lia.
  - exact M.
  - apply Forall_app. split; [exact F|]. constructor; [|constructor]. split; [exact NZ|]. split; [exact LN|exact LE].
  - rewrite map_app. apply nodup_snoc; [exact ND|]. apply lookup_in. exact NW.
Qed.
Lemma Rep_init : Rep [] noMacros.
Proof.
  split; [exists (repeat 0 (Z.to_nat MAXM)); reflexivity|reflexivity| |constructor|constructor].
  unfold noMacros, zlen. cbn [tbl]. rewrite repeat_length. apply Z2Nat.id. now vm_compute.
Qed.
