(** The preprocessor: directives and conditional groups. *)
From Verif Require Import Base BaseLemmas StrtolSpec NumSpec NumModel NumProps LexSpec PrepSpec LexModel LexProof.
From Coq Require Import String.
Close Scope string_scope.
Local Open Scope list_scope.
Local Open Scope Z_scope.

Lemma eqs_true a b : eqs a b = true <-> a = b.
Proof. unfold eqs. destruct (list_eq_dec Z.eq_dec a b); split; congruence. Qed.

(** what may follow *)
Lemma letter_nz c : namechar c -> c <> 0 /\ ~ blankchar c /\ c <> 47.
Proof. unfold namechar, letter, blankchar. lia. Qed.
Lemma okname_nz n : okname n -> nonzero n.
Proof.
  intros [I _]. destruct n as [|c n]; [destruct I|]. destruct I as [C F]. constructor; [apply letter_nz; left; exact C|].
  eapply Forall_impl; [|exact F]. intros d D. apply letter_nz. exact D.
Qed.
Lemma okname_stop n t : okname n -> ~ blankstart (n ++ t).
Proof.
  intros [I _]. destruct n as [|c n]; [destruct I|]. destruct I as [C _]. cbn [app blankstart]. pose proof (letter_nz c (or_introl C)). tauto.
Qed.
Lemma blanks_start w b t : blanks w b -> w <> [] -> nostart namechar (w ++ t).
Proof.
  intros B N. destruct B as [|c w b C B|x w b I B|x]; [congruence| | |]; cbn [app nostart].
  - intros H. apply letter_nz in H. tauto.
  - intros H. apply letter_nz in H. tauto.
  - intros H. apply letter_nz in H. tauto.
Qed.
Lemma blanks_start0 w b t : blanks w b -> nostart namechar t -> nostart namechar (w ++ t).
Proof. intros B N. destruct w as [|c w]; [exact N|]. apply (blanks_start _ b); [exact B|discriminate]. Qed.
Lemma blanks_end w b : blanks w b -> nostart namechar w.
Proof. intros B. rewrite <- (app_nil_r w). apply (blanks_start0 w b []); [exact B|exact I]. Qed.
Lemma skip0 w b : blanks w b -> skipSp false w = Ok [].
Proof. intros B. rewrite <- (app_nil_r w). apply (skip_blanks w b); auto. Qed.
Lemma skip1 w t : blanks w false -> ~ blankstart t -> skipSp false (w ++ t) = Ok t.
Proof. intros B. apply (skip_blanks w false); [exact B|discriminate]. Qed.

(** ** the text of a macro *)
Lemma body_skip c t e : body (c :: t) e -> 
  match t with
  | d :: t' => (d =? 32) || (d =? 9) || ((d =? 47) && match t' with e :: _ => (e =? 47) || (e =? 42) | [] => false end)
  | [] => false
  end = true -> exists t1 e1, e = c :: 32 :: e1 /\ skipSp false t = Ok t1 /\ body t1 e1 /\ (List.length t1 <= List.length t)%nat /\ (forall P : Z -> Prop, Forall P t -> Forall P t1).
Proof.
  intros B H. inversion B as [|c' t' e' B1 N|c' w b t' e' BW W1 W2 W3 B1]; subst.
  - exfalso. apply N. destruct t as [|d t]; [discriminate H|]. exists d, t. split; [reflexivity|]. cbn [blankstart]. unfold blankchar.
    destruct t as [|x t]; lia.
  - exists t', e'. split; [reflexivity|]. split; [apply (skip_blanks w b); assumption|]. split; [exact B1|]. split; [rewrite app_length; lia|].
    intros P F. apply Forall_app in F. apply F.
Qed.
Lemma body_noskip c t e : body (c :: t) e ->
  match t with
  | d :: t' => (d =? 32) || (d =? 9) || ((d =? 47) && match t' with e :: _ => (e =? 47) || (e =? 42) | [] => false end)
  | [] => false
  end = false -> exists e1, e = c :: e1 /\ body t e1.
Proof.
  intros B H. inversion B as [|c' t' e' B1 N|c' w b t' e' BW W1 W2 W3 B1]; subst.
  - exists e'. auto.
  - exfalso. destruct W1 as (d & w' & -> & D1 & D2). cbn [app] in H. inversion BW as [|c' w2 b2 C BW2|x w2 b2 I BW2|x]; subst.
    + unfold blankchar in C. lia.
    + cbn [app] in H. lia.
    + cbn [app] in H. lia.
Qed.
Lemma acc_ok m n : forall fuel t e e0 s, body t e -> nonzero t -> (List.length t <= fuel)%nat -> Par m n e0 s ->
  size m + zlen n + 3 + zlen e0 <= room ->
  match accumulate fuel s t with
  | Ok s' => Rep (m ++ [(n, trim (e0 ++ e))]) s' /\ zlen (e0 ++ e) <= 127 /\ size m + zlen n + 3 + zlen (e0 ++ e) <= room
  | Err => 127 < zlen (e0 ++ e) \/ room < size m + zlen n + 3 + zlen (e0 ++ e)
  | Oob => False
  end.
Proof.
  induction fuel as [|fuel IH]; intros t e e0 s B NZ FU P SZ.
  - destruct t as [|c t]; [|cbn in FU; lia]. inversion B; subst. cbn [accumulate]. destruct (end_ok m n e0 s P) as (s' & -> & R). rewrite app_nil_r. split; [exact R|]. split; [exact (p_e _ _ _ _ P)|exact SZ].
  - destruct t as [|c t].
    { inversion B; subst. cbn [accumulate]. destruct (end_ok m n e0 s P) as (s' & -> & R). rewrite app_nil_r. split; [exact R|]. split; [exact (p_e _ _ _ _ P)|exact SZ]. }
    apply Forall_cons_iff in NZ. destruct NZ as [NC NZ]. cbn [accumulate]. cbn [List.length] in FU.
    match goal with |- context [if ?x then _ else _] => destruct x eqn:C end.
    + destruct (body_skip c t e B C) as (t1 & e1 & -> & SK & B1 & LT & FT).
      pose proof (addChar_ok m n e0 s c P NC SZ) as A. destruct (addMacroExpansionChar s c) as [s1| |]; cbn [rbind]; [|pose proof (zlen_nonneg e1); rewrite !zlen_app, !zlen_cons in *; change (zlen (@nil Z)) with 0 in *; lia|exact A].
      destruct A as (P1 & S1 & L1). rewrite SK. cbn [rbind].
      pose proof (addChar_ok m n _ s1 32 P1 ltac:(lia) S1) as A. destruct (addMacroExpansionChar s1 32) as [s2| |]; cbn [rbind]; [|pose proof (zlen_nonneg e1); rewrite !zlen_app, !zlen_cons in *; change (zlen (@nil Z)) with 0 in *; lia|exact A].
      destruct A as (P2 & S2 & L2).
      specialize (IH t1 e1 _ s2 B1 (FT _ NZ) ltac:(lia) P2 S2). rewrite <- !app_assoc in IH. cbn [app] in IH. exact IH.
    + destruct (body_noskip c t e B C) as (e1 & -> & B1).
      pose proof (addChar_ok m n e0 s c P NC SZ) as A. destruct (addMacroExpansionChar s c) as [s1| |]; cbn [rbind]; [|pose proof (zlen_nonneg e1); rewrite !zlen_app, !zlen_cons in *; change (zlen (@nil Z)) with 0 in *; lia|exact A].
      destruct A as (P1 & S1 & L1).
      specialize (IH t e1 _ s1 B1 NZ ltac:(lia) P1 S1). rewrite <- !app_assoc in IH. cbn [app] in IH. exact IH.
Qed.

(** ** the state *)
Definition packrep (v : Z) (vs : list Z) (s : state) : Prop :=
  pack s = v /\ packsp s = zlen vs /\ zlen (packs s) = 16 /\ zlen vs <= 16 /\
  (forall i x, zget (rev vs) i = Some x -> zget (packs s) i = Some x).
Record St (p : pp) (s : state) : Prop := {
  s_mac : Rep (pmac p) (mac s);
  s_pack : packrep (pval p) (pvals p) s }.
(** [s'] has the same conditional groups open as [s] *)
Definition same (s s' : state) : Prop :=
  live s' = live s /\ psp s' = psp s /\ zlen (pstack s') = zlen (pstack s) /\
  (forall i, i < psp s -> zget (pstack s') i = zget (pstack s) i).
Lemma same_refl s : same s s. Proof. unfold same. auto. Qed.

Definition outcome (sw : Z) (lv : bool) (d : dir) (p : pp) (s : state) (r : res state) : Prop :=
  match r with
  | Ok s' => exists p', (if lv then apply sw d p else Some p) = Some p' /\ St p' s' /\ same s s'
  | Err => (if lv then apply sw d p else Some p) = None
  | Oob => False
  end.

Lemma set_mac_St p s m' ms : St p s -> Rep m' ms -> St (PP m' (pval p) (pvals p)) (set_mac s ms) /\ same s (set_mac s ms).
Proof. intros [R P] R'. split; [split; [exact R'|exact P]|]. unfold same, set_mac. cbn. auto. Qed.

Section W.
Variable sw : Z.
Hypothesis SW : sw = 2 \/ sw = 4.

Lemma word_first w1 k t : blanks w1 false -> okname k -> nostart namechar t ->
  skipSp false (w1 ++ k ++ t) = Ok (k ++ t) /\ getIdent (k ++ t) = Ok (k, t) /\ eol (k ++ t) = false /\ isdigit (head (k ++ t)) = false.
Proof.
  intros B K N. split; [apply skip1; [exact B|apply okname_stop; exact K]|]. split; [apply getIdent_ok; assumption|].
  destruct K as [I _]. destruct k as [|c k]; [destruct I|]. destruct I as [C _]. split; [reflexivity|]. cbn [app head]. unfold letter in C. unfold isdigit. lia.
Qed.
Ltac kw := split; [split; [cbn; unfold letter; lia|cbn; repeat constructor; unfold namechar, letter; lia]|vm_compute; discriminate].
Lemma kw_ok k : In k ["define"; "undef"; "ifdef"; "ifndef"; "else"; "endif"; "pragma"; "pack"; "push"; "pop"]%string -> okname (str k).
Proof. intros H. cbn [In] in H. repeat (destruct H as [<-|H]; [kw|]). destruct H. Qed.

Lemma define_ok w1 w2 n w3 b3 t e (lv : bool) p s : blanks w1 false -> blanks w2 false -> w2 <> [] -> okname n -> blanks w3 b3 -> (b3 = true -> t = []) ->
  (w3 = [] -> nostart (fun c => namechar c \/ c = 40) t) -> ~ blankstart t -> body t e ->
  nonzero t -> St p s -> live s = (if lv then 1 else 0) ->
  exists r, directive sw s (w1 ++ str "define" ++ w2 ++ n ++ w3 ++ t) = Some r /\ outcome sw lv (DDefine n e) p s r.
Proof.
  intros B1 B2 N2 ON B3 E3 NS NB BD NZ ST LV.
  assert (SN : nostart namechar (w3 ++ t)).
  { destruct w3 as [|x w3]; [|apply (blanks_start _ b3); [exact B3|discriminate]]. specialize (NS eq_refl). destruct t as [|c t]; [exact I|]. cbn [app nostart] in *. tauto. }
  destruct (word_first w1 (str "define") (w2 ++ n ++ w3 ++ t) B1 (kw_ok "define" ltac:(cbn; tauto)) (blanks_start w2 false _ B2 N2)) as (S1 & S2 & S3 & S4).
  unfold directive. rewrite S1, S3, S4, S2. 
  change (eqs (str "define") (str "line")) with false. change (eqs (str "define") (str "pragma")) with false. change (eqs (str "define") (str "define")) with true. cbv iota.
  eexists. split; [reflexivity|].
  rewrite (skip1 w2 _ B2 (okname_stop n _ ON)). cbn [rbind]. rewrite (getIdent_ok n _ ON SN). cbn [rbind].
  destruct lv; rewrite LV; cbv iota.
  - change (1 =? 0) with false. cbv iota. pose proof (findMacro_ok (pmac p) (mac s) n (s_mac p s ST) (okname_nz n ON)) as FM.
    unfold outcome. cbn [apply]. destruct (lookup (pmac p) n) as [e'|] eqn:LK.
    + destruct FM as (i & -> & I & _). cbn [rbind]. replace (0 <=? i) with true by lia. reflexivity.
    + rewrite FM. cbn [rbind]. change (0 <=? -1) with false. cbv iota.
      assert (HP : head (w3 ++ t) =? 40 = false).
      { destruct w3 as [|x w3]; [specialize (NS eq_refl); destruct t as [|c t]; [reflexivity|]; cbn [app head nostart] in *; lia|].
        cbn [app head]. inversion B3 as [|c' w2' b2 C BW2|x' w2' b2 I BW2|x']; subst; [unfold blankchar in C; lia|reflexivity|reflexivity]. }
      rewrite HP. cbv iota. pose proof (addIdent_ok (pmac p) (mac s) n (s_mac p s ST) (okname_nz n ON) LK) as AI.
      destruct (addMacroIdent (mac s) n) as [m1| |]; cbn [rbind]; [| |exact AI].
      * destruct AI as [P1 SZ]. rewrite (skip_blanks w3 b3 t B3 E3 NB). cbn [rbind].
        pose proof (acc_ok (pmac p) n (List.length t) t e [] m1 BD NZ (le_n _) P1 ltac:(change (zlen (@nil Z)) with 0; lia)) as AC.
        cbn [app] in AC. destruct (accumulate (List.length t) m1 t) as [m2| |]; cbn [rbind]; [| |exact AC].
        -- destruct AC as (R & L1 & L2). replace ((127 <? zlen e) || (room <? size (pmac p) + zlen n + 3 + zlen e)) with false by lia.
           eexists. split; [reflexivity|]. apply set_mac_St; [exact ST|exact R].
        -- replace ((127 <? zlen e) || (room <? size (pmac p) + zlen n + 3 + zlen e)) with true by lia. reflexivity.
      * pose proof (zlen_nonneg e). destruct ON as [_ ON]. replace ((127 <? zlen e) || (room <? size (pmac p) + zlen n + 3 + zlen e)) with true by lia. reflexivity.
  - change (0 =? 0) with true. cbv iota. rewrite (skip_blanks w3 b3 t B3 E3 NB). cbn [rbind]. exists p. split; [reflexivity|]. split; [exact ST|apply same_refl].
Qed.
Lemma undef_dir_ok w1 w2 n w3 b3 (lv : bool) p s : blanks w1 false -> blanks w2 false -> w2 <> [] -> okname n -> blanks w3 b3 ->
  St p s -> live s = (if lv then 1 else 0) ->
  exists r, directive sw s (w1 ++ str "undef" ++ w2 ++ n ++ w3) = Some r /\ outcome sw lv (DUndef n) p s r.
Proof.
  intros B1 B2 N2 ON B3 ST LV.
  destruct (word_first w1 (str "undef") (w2 ++ n ++ w3) B1 (kw_ok "undef" ltac:(cbn; tauto)) (blanks_start w2 false _ B2 N2)) as (S1 & S2 & S3 & S4).
  unfold directive. rewrite S1, S3, S4, S2.
  change (eqs (str "undef") (str "line")) with false. change (eqs (str "undef") (str "pragma")) with false. change (eqs (str "undef") (str "define")) with false.
  change (eqs (str "undef") (str "undef")) with true. cbv iota.
  eexists. split; [reflexivity|].
  rewrite (skip1 w2 _ B2 (okname_stop n _ ON)). cbn [rbind]. rewrite (getIdent_ok n _ ON (blanks_end w3 b3 B3)). cbn [rbind].
  destruct lv; rewrite LV; cbv iota.
  - change (1 =? 0) with false. cbv iota. destruct (undef_ok (pmac p) (mac s) n (s_mac p s ST) (okname_nz n ON)) as (m' & -> & R). cbn [rbind].
    rewrite (skip0 w3 b3 B3). cbn [rbind eol negb]. eexists. split; [reflexivity|]. apply set_mac_St; [exact ST|exact R].
  - change (0 =? 0) with true. cbv iota. cbn [rbind]. rewrite (skip0 w3 b3 B3). cbn [rbind eol negb]. exists p. split; [reflexivity|]. split; [exact ST|apply same_refl].
Qed.

(** ** #pragma pack *)
Lemma number_ok t n rest : number sw t n -> ends rest -> zlen (t ++ rest) < 2 ^ 31 -> getInt sw (t ++ rest) = Ok (n, rest).
Proof.
  intros N E L. destruct N as [b sf radix v u l IB IS IT].
  assert (D : isdigit (head ((b ++ sf) ++ rest)) = true).
  { destruct IB as [c ds v' C|ds v' F|x ds v' X]; cbn [app head]; unfold isdigit; lia. }
  unfold getInt. rewrite D. cbn [negb]. cbv iota. rewrite <- app_assoc in *.
  pose proof (C01_value sw b sf radix v u l rest SW IB IS E L) as G. rewrite IT in G. destruct G as (x & -> & _ & X). rewrite (X eq_refl). reflexivity.
Qed.
Lemma pow2_land n : 0 < n <= 4 -> (Z.land n (n - 1) =? 0) = pow2 n.
Proof. intros H. assert (n = 1 \/ n = 2 \/ n = 3 \/ n = 4) as [->|[->|[->| ->]]] by lia; reflexivity. Qed.
Lemma valid_ok n : (n <=? 0) || (sw <? n) || negb (Z.land n (n - 1) =? 0) = negb (valid sw n).
Proof.
  unfold valid. destruct (n <=? 0) eqn:A; [cbn [orb]; unfold pow2; lia|]. destruct (sw <? n) eqn:B; cbn [orb].
  - replace (n <=? sw) with false by lia. rewrite andb_false_r. reflexivity.
  - rewrite pow2_land by lia. replace (n <=? sw) with true by lia. rewrite andb_true_r. reflexivity.
Qed.
Definition finish (s : state) (l : list Z) : res state :=
  if negb (head l =? 41) then Err else let! l := skipSp false (tl l) in if negb (eol l) then Err else Ok s.
Lemma finish_ok s w6 b6 : blanks w6 b6 -> finish s (41 :: w6) = Ok s.
Proof. intros B. unfold finish. cbn [head tl]. change (negb (41 =? 41)) with false. cbv iota. rewrite (skip0 w6 b6 B). reflexivity. Qed.
Lemma ends_blanks w t : blanks w false -> ends (w ++ 41 :: t).
Proof.
  intros B. unfold ends, starts_with. inversion B as [|c w' b C B'|x w' b I B'|x]; subst; cbn [app]; unfold pp_char; [lia|unfold blankchar in C; lia|lia].
Qed.
Lemma stop41 t : ~ blankstart (41 :: t). Proof. cbn [blankstart]. unfold blankchar. lia. Qed.
Lemma digit_stop c t : isdigit c = true -> ~ blankstart (c :: t).
Proof. unfold isdigit. cbn [blankstart]. unfold blankchar. lia. Qed.
Lemma number_start t n : number sw t n -> exists c t', t = c :: t' /\ isdigit c = true.
Proof.
  intros N. destruct N as [b sf radix v u l IB IS IT]. destruct IB as [c ds v' C|ds v' F|x ds v' X]; cbn [app]; eexists; eexists; (split; [reflexivity|]); unfold isdigit; lia.
Qed.
Lemma pack_push v vs s : packrep v vs s -> zlen vs < 16 -> exists l, zset (packs s) (packsp s) (pack s) = Some l /\
  forall x, packrep x (v :: vs) (set_pack s x l (packsp s + 1)).
Proof.
  intros (E1 & E2 & E3 & E4 & E5) L. pose proof (zlen_nonneg vs). destruct (proj2 (zset_range (packs s) (packsp s) (pack s)) ltac:(lia)) as [l Hl].
  exists l. split; [exact Hl|]. intros x. unfold packrep, set_pack. cbn [pack packsp packs]. rewrite zlen_cons. split; [reflexivity|]. split; [lia|].
  split; [rewrite (zset_len _ _ _ _ Hl); exact E3|]. split; [lia|]. intros i y. cbn [rev]. intros G. rewrite (zset_get _ _ _ _ i Hl).
  assert (LR : zlen (rev vs) = zlen vs) by (unfold zlen; now rewrite rev_length).
  destruct (i =? packsp s) eqn:EI.
  - assert (i = zlen (rev vs)) as -> by lia. rewrite zget_app_r in G by lia. replace (zlen (rev vs) - zlen (rev vs)) with 0 in G by lia. change (zget [v] 0) with (Some v) in G. replace (packsp s =? zlen (rev vs)) with true by lia. rewrite E1. exact G.
  - replace (packsp s =? i) with false by lia. apply E5. pose proof (zget_Some_range _ _ _ G) as RG. rewrite zlen_app in RG. change (zlen [v]) with 1 in RG. rewrite zget_app_l in G by lia. exact G.
Qed.
Lemma pack_pop v u us s : packrep v (u :: us) s -> zget (packs s) (packsp s - 1) = Some u /\ packrep u us (set_pack s u (packs s) (packsp s - 1)).
Proof.
  intros (E1 & E2 & E3 & E4 & E5). rewrite zlen_cons in *. pose proof (zlen_nonneg us).
  assert (LR : zlen (rev us) = zlen us) by (unfold zlen; now rewrite rev_length). split.
  - apply E5. cbn [rev]. rewrite zget_app_r by lia. replace (packsp s - 1 - zlen (rev us)) with 0 by lia. reflexivity.
  - unfold packrep, set_pack. cbn [pack packsp packs]. split; [reflexivity|]. split; [lia|]. split; [exact E3|]. split; [lia|].
    intros i x G. apply E5. cbn [rev]. rewrite zget_app_l; [exact G|]. apply zget_Some_range in G. lia.
Qed.
Lemma packrep_set v vs s x : packrep v vs s -> packrep x vs (set_pack s x (packs s) (packsp s)).
Proof. intros (E1 & E2 & E3 & E4 & E5). unfold packrep, set_pack. cbn. auto. Qed.
Lemma packrep_set2 v vs s x y : packrep v vs s -> packrep x vs (set_pack (set_pack s y (packs s) (packsp s)) x (packs s) (packsp s)).
Proof. intros (E1 & E2 & E3 & E4 & E5). unfold packrep, set_pack. cbn. auto. Qed.
Lemma set_pack_St p s v vs x l sp : St p s -> packrep v vs (set_pack s x l sp) -> St (PP (pmac p) v vs) (set_pack s x l sp) /\ same s (set_pack s x l sp).
Proof. intros [R P] R'. split; [split; [exact R|exact R']|]. unfold same, set_pack. cbn. auto. Qed.

Lemma isdigit_head_blank w t : blanks w false -> isdigit (head (w ++ 41 :: t)) = false.
Proof. intros B. inversion B as [|c w' b C B'|x w' b I B'|x]; subst; cbn [app head]; unfold isdigit; [reflexivity|unfold blankchar in C; lia|reflexivity]. Qed.

Lemma pragma_ok w2 w3 w4 a w5 w6 b6 o (lv : bool) p s : blanks w2 false -> blanks w3 false -> blanks w4 false -> argument sw o a ->
  blanks w5 false -> blanks w6 b6 -> zlen (a ++ w5 ++ [41] ++ w6) < 2 ^ 31 -> St p s -> live s = (if lv then 1 else 0) ->
  outcome sw lv (DPack o) p s (pragma sw s (w2 ++ str "pack" ++ w3 ++ [40] ++ w4 ++ a ++ w5 ++ [41] ++ w6)).
Proof.
  intros B2 B3 B4 AR B5 B6 LEN ST LV. unfold pragma. destruct lv; rewrite LV; cbv iota.
  2:{ change (0 =? 0) with true. cbv iota. exists p. split; [reflexivity|]. split; [exact ST|apply same_refl]. }
  change (1 =? 0) with false. cbv iota. destruct ST as [SM SP].
  assert (KP : okname (str "pack")) by (apply kw_ok; cbn; tauto).
  rewrite (skip1 w2 _ B2 (okname_stop _ _ KP)). cbn [rbind].
  assert (N40 : forall t, nostart namechar ([40] ++ t)) by (intros t; cbn; unfold namechar, letter; lia).
  rewrite (getIdent_ok _ _ KP (blanks_start0 w3 false _ B3 (N40 _))). cbn [rbind].
  change (eqs (str "pack") (str "pack")) with true. cbn [negb]. cbv iota.
  assert (S40 : forall t, ~ blankstart ([40] ++ t)) by (intros t; cbn; unfold blankchar; lia).
  rewrite (skip1 w3 _ B3 (S40 _)). cbn [rbind]. cbn [app head tl]. change (40 =? 40) with true. cbv iota zeta.
  destruct AR as [|w1 w2' t n BW1 BW2 NM| |t n NM|].
  - (* push *)
    assert (KN : okname (str "push")) by (apply kw_ok; cbn; tauto).
    rewrite (skip1 w4 _ B4 (okname_stop _ _ KN)). cbn [rbind]. change (head (str "push" ++ w5 ++ 41 :: w6)) with 112. change (112 =? 112) with true. cbv iota.
    assert (NX : nostart namechar (w5 ++ 41 :: w6)) by (apply (blanks_start0 w5 false); [exact B5|cbn; unfold namechar, letter; lia]).
    rewrite (getIdent_ok _ _ KN NX). cbn [rbind]. change (eqs (str "push") (str "push")) with true. cbv iota.
    rewrite (skip1 w5 _ B5 (stop41 _)). cbn [rbind head]. change (41 =? 44) with false. cbv iota. cbn [rbind].
    unfold outcome. cbn [apply packing]. change PPACK_STACK_SIZE with 16. pose proof SP as (E1 & E2 & _). rewrite E2.
    destruct (16 <=? zlen (pvals p)) eqn:FULL; [reflexivity|].
    destruct (pack_push _ _ s SP ltac:(lia)) as (l & Hl & PR). rewrite <- E2, Hl. cbn [inb rbind].
    rewrite (skip_stop _ (stop41 _)). cbn [rbind]. cbn [andb]. cbv iota. cbn [rbind].
    change (if negb (head (41 :: w6) =? 41) then Err else let! l0 := skipSp false (tl (41 :: w6)) in if negb (eol l0) then Err else Ok (set_pack s (pack s) l (packsp s + 1))) with (finish (set_pack s (pack s) l (packsp s + 1)) (41 :: w6)).
    rewrite (finish_ok _ w6 b6 B6). eexists. split; [reflexivity|]. apply (set_pack_St p s); [split; assumption|]. rewrite E1. apply PR.
  - (* push, n *)
    assert (KN : okname (str "push")) by (apply kw_ok; cbn; tauto).
    rewrite <- !app_assoc. cbn [app].
    rewrite (skip1 w4 _ B4 (okname_stop _ _ KN)). cbn [rbind].
    change (head (str "push" ++ w1 ++ 44 :: w2' ++ t ++ w5 ++ 41 :: w6)) with 112. change (112 =? 112) with true. cbv iota.
    assert (NX : nostart namechar (w1 ++ 44 :: w2' ++ t ++ w5 ++ 41 :: w6)) by (apply (blanks_start0 w1 false); [exact BW1|cbn; unfold namechar, letter; lia]).
    rewrite (getIdent_ok _ _ KN NX). cbn [rbind]. change (eqs (str "push") (str "push")) with true. cbv iota.
    assert (S44 : ~ blankstart (44 :: w2' ++ t ++ w5 ++ 41 :: w6)) by (cbn [blankstart]; unfold blankchar; lia).
    rewrite (skip1 w1 _ BW1 S44). cbn [rbind head tl]. change (44 =? 44) with true. cbv iota.
    destruct (number_start t n NM) as (c & t' & Et & DC).
    assert (SD : ~ blankstart (t ++ w5 ++ 41 :: w6)) by (rewrite Et; apply digit_stop; exact DC).
    rewrite (skip1 w2' _ BW2 SD). cbn [rbind].
    rewrite (number_ok t n (w5 ++ 41 :: w6) NM (ends_blanks w5 w6 B5)) by (revert LEN; unfold zlen; repeat (rewrite !app_length; cbn [List.length]); lia).
    cbn [rbind]. unfold outcome. cbn [apply packing]. change PPACK_STACK_SIZE with 16. pose proof SP as (E1 & E2 & _). rewrite E2.
    destruct (16 <=? zlen (pvals p)) eqn:FULL; [reflexivity|]. cbn [orb].
    destruct (pack_push _ _ s SP ltac:(lia)) as (l & Hl & PR). rewrite <- E2, Hl. cbn [inb rbind].
    rewrite (skip1 w5 _ B5 (stop41 _)). cbn [rbind andb]. cbv iota. cbn [rbind].
    rewrite valid_ok. destruct (valid sw n); cbn [negb]; cbv iota; [|reflexivity]. cbn [rbind].
    match goal with |- match (if _ then _ else _) with _ => _ end => idtac | _ => idtac end.
    change (if negb (head (41 :: w6) =? 41) then Err else let! l0 := skipSp false (tl (41 :: w6)) in if negb (eol l0) then Err else
      Ok (set_pack (set_pack s (pack s) l (packsp s + 1)) n (packs (set_pack s (pack s) l (packsp s + 1))) (packsp (set_pack s (pack s) l (packsp s + 1)))))
      with (finish (set_pack s n l (packsp s + 1)) (41 :: w6)).
    rewrite (finish_ok _ w6 b6 B6). eexists. split; [reflexivity|]. apply (set_pack_St p s); [split; assumption|]. apply PR.
  - (* pop *)
    assert (KN : okname (str "pop")) by (apply kw_ok; cbn; tauto).
    rewrite (skip1 w4 _ B4 (okname_stop _ _ KN)). cbn [rbind]. change (head (str "pop" ++ w5 ++ 41 :: w6)) with 112. change (112 =? 112) with true. cbv iota.
    assert (NX : nostart namechar (w5 ++ 41 :: w6)) by (apply (blanks_start0 w5 false); [exact B5|cbn; unfold namechar, letter; lia]).
    rewrite (getIdent_ok _ _ KN NX). cbn [rbind]. change (eqs (str "pop") (str "push")) with false. change (eqs (str "pop") (str "pop")) with true. cbv iota.
    unfold outcome. cbn [apply packing]. pose proof SP as (E1 & E2 & _). rewrite E2.
    destruct (pvals p) as [|u us] eqn:PV; [reflexivity|]. pose proof (zlen_nonneg us). rewrite zlen_cons. replace (1 + zlen us <=? 0) with false by lia.
    destruct (pack_pop _ u us s SP) as [G PR]. rewrite zlen_cons in E2. rewrite <- E2, G. cbn [inb rbind].
    rewrite (skip1 w5 _ B5 (stop41 _)). cbn [rbind andb]. cbv iota. cbn [rbind].
    change (if negb (head (41 :: w6) =? 41) then Err else let! l0 := skipSp false (tl (41 :: w6)) in if negb (eol l0) then Err else Ok (set_pack s u (packs s) (packsp s - 1))) with (finish (set_pack s u (packs s) (packsp s - 1)) (41 :: w6)).
    rewrite (finish_ok _ w6 b6 B6). eexists. split; [reflexivity|]. apply (set_pack_St p s); [split; [assumption|rewrite PV; exact SP]|]. exact PR.
  - (* n *)
    destruct (number_start t n NM) as (c & t' & Et & DC).
    assert (SD : ~ blankstart (t ++ w5 ++ 41 :: w6)) by (rewrite Et; apply digit_stop; exact DC).
    rewrite (skip1 w4 _ B4 SD). cbn [rbind].
    assert (H1 : head (t ++ w5 ++ 41 :: w6) = c) by (rewrite Et; reflexivity). rewrite H1.
    replace (c =? 112) with false by (unfold isdigit in DC; lia). cbv iota. cbn [rbind andb]. rewrite H1, DC. cbv iota.
    rewrite (number_ok t n (w5 ++ 41 :: w6) NM (ends_blanks w5 w6 B5)) by exact LEN. cbn [rbind].
    rewrite (skip1 w5 _ B5 (stop41 _)). cbn [rbind]. rewrite valid_ok. unfold outcome. cbn [apply packing].
    destruct (valid sw n); cbn [negb]; cbv iota; [|reflexivity]. cbn [rbind].
    change (if negb (head (41 :: w6) =? 41) then Err else let! l0 := skipSp false (tl (41 :: w6)) in if negb (eol l0) then Err else Ok (set_pack s n (packs s) (packsp s))) with (finish (set_pack s n (packs s) (packsp s)) (41 :: w6)).
    rewrite (finish_ok _ w6 b6 B6). eexists. split; [reflexivity|]. apply (set_pack_St p s); [split; assumption|]. apply (packrep_set (pval p)). exact SP.
  - (* empty *)
    cbn [app]. rewrite app_assoc.
    assert (B45 : blanks (w4 ++ w5) false).
    { clear -B4 B5. remember false as b. induction B4 as [|c w b C B IH|x w b I B IH|x]; [exact B5|apply bl_char; auto| |discriminate Heqb].
      rewrite <- !app_assoc. apply bl_comment; auto. }
    rewrite (skip1 (w4 ++ w5) _ B45 (stop41 _)). cbn [rbind head]. change (41 =? 112) with false. cbv iota. cbn [rbind andb head].
    change (isdigit 41) with false. cbv iota. cbn [rbind].
    change (negb (41 =? 41)) with false. cbn [tl]. cbv iota. rewrite (skip0 w6 b6 B6). cbn [rbind eol negb]. cbv iota. unfold outcome. cbn [apply packing]. eexists. split; [reflexivity|]. apply (set_pack_St p s); [split; assumption|]. apply (packrep_set (pval p)). exact SP.
Qed.

Lemma dir_ok d l (lv : bool) p s : spells_dir sw d l -> okline l -> zlen l < 2 ^ 31 -> St p s -> live s = (if lv then 1 else 0) ->
  exists r, directive sw s l = Some r /\ outcome sw lv d p s r.
Proof.
  intros SD OL LEN ST LV. destruct SD as [w b B|w1 w2 n w3 b3 t e|w1 w2 n w3 b3|w1 w2 w3 w4 a w5 w6 b6 o B1 B2 N2 B3 B4 AR B5 B6].
  - unfold directive. rewrite (skip0 w b B). cbn [eol]. cbv iota. eexists. split; [reflexivity|]. exists p. split; [destruct lv; reflexivity|]. split; [exact ST|apply same_refl].
  - apply (define_ok w1 w2 n w3 b3 t e lv p s); try assumption. unfold okline in OL. rewrite !Forall_app in OL. destruct OL as (_ & _ & _ & _ & _ & OL). eapply Forall_impl; [|exact OL]. cbn beta. tauto.
  - apply (undef_dir_ok w1 w2 n w3 b3 lv p s); assumption.
  - destruct (word_first w1 (str "pragma") (w2 ++ str "pack" ++ w3 ++ [40] ++ w4 ++ a ++ w5 ++ [41] ++ w6) B1 (kw_ok "pragma" ltac:(cbn; tauto)) (blanks_start w2 false _ B2 N2)) as (S1 & S2 & S3 & S4).
    unfold directive. rewrite S1, S3, S4, S2. change (eqs (str "pragma") (str "line")) with false. change (eqs (str "pragma") (str "pragma")) with true. cbv iota.
    eexists. split; [reflexivity|]. apply (pragma_ok w2 w3 w4 a w5 w6 b6); try assumption.
    revert LEN. rewrite (zlen_app w1), (zlen_app (str "pragma")), (zlen_app w2), (zlen_app (str "pack")), (zlen_app w3), (zlen_app [40]), (zlen_app w4).
    pose proof (zlen_nonneg w1). pose proof (zlen_nonneg w2). pose proof (zlen_nonneg w3). pose proof (zlen_nonneg w4).
    pose proof (zlen_nonneg (str "pragma")). pose proof (zlen_nonneg (str "pack")). pose proof (zlen_nonneg [40]). lia.
Qed.

(** ** conditional groups *)
Definition zb (b : bool) : Z := if b then 1 else 0.
Lemma if_ok neg n l p s : spells_if neg n l -> St p s -> directive sw s l = Some (pushPrep s (zb (xorb neg (defined p n)))).
Proof.
  intros (w1 & w2 & w3 & b3 & B1 & B2 & N2 & ON & B3 & ->) ST.
  pose proof (findMacro_ok (pmac p) (mac s) n (s_mac p s ST) (okname_nz n ON)) as FM.
  destruct neg.
  - destruct (word_first w1 (str "ifndef") (w2 ++ n ++ w3) B1 (kw_ok "ifndef" ltac:(cbn; tauto)) (blanks_start w2 false _ B2 N2)) as (S1 & S2 & S3 & S4).
    unfold directive. rewrite S1, S3, S4, S2.
    change (eqs (str "ifndef") (str "line")) with false. change (eqs (str "ifndef") (str "pragma")) with false. change (eqs (str "ifndef") (str "define")) with false.
    change (eqs (str "ifndef") (str "undef")) with false. change (eqs (str "ifndef") (str "include")) with false.
    change (eqs (str "ifndef") (str "ifdef")) with false. change (eqs (str "ifndef") (str "ifndef")) with true. cbn [orb]. cbv iota. f_equal.
    rewrite (skip1 w2 _ B2 (okname_stop n _ ON)). cbn [rbind]. rewrite (getIdent_ok n _ ON (blanks_end w3 b3 B3)). cbn [rbind].
    unfold defined. destruct (lookup (pmac p) n); [destruct FM as (i & -> & I & _)|rewrite FM]; cbn [rbind]; rewrite (skip0 w3 b3 B3); cbn [rbind eol negb]; cbv iota.
    + replace (0 <=? i) with true by lia. reflexivity.
    + reflexivity.
  - destruct (word_first w1 (str "ifdef") (w2 ++ n ++ w3) B1 (kw_ok "ifdef" ltac:(cbn; tauto)) (blanks_start w2 false _ B2 N2)) as (S1 & S2 & S3 & S4).
    unfold directive. rewrite S1, S3, S4, S2.
    change (eqs (str "ifdef") (str "line")) with false. change (eqs (str "ifdef") (str "pragma")) with false. change (eqs (str "ifdef") (str "define")) with false.
    change (eqs (str "ifdef") (str "undef")) with false. change (eqs (str "ifdef") (str "include")) with false.
    change (eqs (str "ifdef") (str "ifdef")) with true. cbn [orb]. cbv iota. f_equal.
    rewrite (skip1 w2 _ B2 (okname_stop n _ ON)). cbn [rbind]. rewrite (getIdent_ok n _ ON (blanks_end w3 b3 B3)). cbn [rbind].
    unfold defined. destruct (lookup (pmac p) n); [destruct FM as (i & -> & I & _)|rewrite FM]; cbn [rbind]; rewrite (skip0 w3 b3 B3); cbn [rbind eol negb]; cbv iota.
    + replace (0 <=? i) with true by lia. reflexivity.
    + reflexivity.
Qed.
Lemma else_ok l s : spells_word "else" l ->
  directive sw s l = Some (let! (s, def) := popPrep s in if 2 <=? def then Err else pushPrep s (2 + not0 (negb (def =? 0)))).
Proof.
  intros (w1 & w2 & b2 & B1 & B2 & ->).
  destruct (word_first w1 (str "else") w2 B1 (kw_ok "else" ltac:(cbn; tauto)) (blanks_end w2 b2 B2)) as (S1 & S2 & S3 & S4).
  unfold directive. rewrite S1, S3, S4, S2.
  change (eqs (str "else") (str "line")) with false. change (eqs (str "else") (str "pragma")) with false. change (eqs (str "else") (str "define")) with false.
  change (eqs (str "else") (str "undef")) with false. change (eqs (str "else") (str "include")) with false.
  change (eqs (str "else") (str "ifdef")) with false. change (eqs (str "else") (str "ifndef")) with false. change (eqs (str "else") (str "else")) with true.
  cbn [orb]. cbv iota. rewrite (skip0 w2 b2 B2). reflexivity.
Qed.
Lemma endif_ok l s : spells_word "endif" l -> directive sw s l = Some (let! (s, _) := popPrep s in Ok s).
Proof.
  intros (w1 & w2 & b2 & B1 & B2 & ->).
  destruct (word_first w1 (str "endif") w2 B1 (kw_ok "endif" ltac:(cbn; tauto)) (blanks_end w2 b2 B2)) as (S1 & S2 & S3 & S4).
  unfold directive. rewrite S1, S3, S4, S2.
  change (eqs (str "endif") (str "line")) with false. change (eqs (str "endif") (str "pragma")) with false. change (eqs (str "endif") (str "define")) with false.
  change (eqs (str "endif") (str "undef")) with false. change (eqs (str "endif") (str "include")) with false.
  change (eqs (str "endif") (str "ifdef")) with false. change (eqs (str "endif") (str "ifndef")) with false. change (eqs (str "endif") (str "else")) with false.
  change (eqs (str "endif") (str "endif")) with true.
  cbn [orb]. cbv iota. rewrite (skip0 w2 b2 B2). reflexivity.
Qed.
Lemma push_ok s no : zlen (pstack s) = 8 -> 0 <= psp s <= 8 ->
  pushPrep s no = Err /\ psp s = 8 \/
  exists s', pushPrep s no = Ok s' /\ psp s < 8 /\ mac s' = mac s /\ pack s' = pack s /\ packs s' = packs s /\ packsp s' = packsp s /\
    live s' = Z.land (live s) no /\ psp s' = psp s + 1 /\ zlen (pstack s') = 8 /\ zget (pstack s') (psp s) = Some (live s, no) /\
    (forall i, i < psp s -> zget (pstack s') i = zget (pstack s) i).
Proof.
  intros L P. unfold pushPrep. change PREP_STACK_SIZE with 8. destruct (8 <=? psp s) eqn:E; [left; split; [reflexivity|lia]|right].
  destruct (proj2 (zset_range (pstack s) (psp s) (live s, no)) ltac:(lia)) as [l Hl]. rewrite Hl. cbn [inb rbind]. eexists. split; [reflexivity|]. cbn.
  repeat (split; [first [reflexivity|lia]|]). split; [rewrite (zset_len _ _ _ _ Hl); exact L|]. split.
  - rewrite (zset_get _ _ _ _ (psp s) Hl). rewrite Z.eqb_refl. reflexivity.
  - intros i I. rewrite (zset_get _ _ _ _ i Hl). replace (psp s =? i) with false by lia. reflexivity.
Qed.
Lemma pop_ok s lv no : 0 < psp s -> zget (pstack s) (psp s - 1) = Some (lv, no) ->
  popPrep s = Ok (State (mac s) lv (pstack s) (psp s - 1) (pack s) (packs s) (packsp s), no).
Proof. intros P G. unfold popPrep. replace (psp s <=? 0) with false by lia. rewrite G. reflexivity. Qed.

Definition lspell (k : kind) (ln : line) : Prop :=
  match ln with
  | Dir l => spells sw k true l /\ okline l /\ zlen l < 2 ^ 31
  | Text t => spells sw k false t
  end.
Lemma process_app : forall a s b, process sw s (a ++ b) =
  match process sw s a with
  | Some (Ok (s', o)) => match process sw s' b with Some (Ok (s'', o')) => Some (Ok (s'', o ++ o')) | r => r end
  | r => r
  end.
Proof.
  induction a as [|[l|t] a IH]; intros s b.
  - cbn [app process]. destruct (process sw s b) as [[[s'' o']| |]|]; reflexivity.
  - cbn [app process]. destruct (directive sw s l) as [[s1| |]|]; [apply IH|reflexivity|reflexivity|reflexivity].
  - cbn [app process]. rewrite IH. destruct (process sw s a) as [[[s1 o1]| |]|]; [|reflexivity|reflexivity|reflexivity].
    destruct (process sw s1 b) as [[[s2 o2]| |]|]; [|reflexivity|reflexivity|reflexivity]. destruct (live s =? 0); reflexivity.
Qed.

Definition result (gs : groups) (lv : bool) (p : pp) (s : state) (r : option (res (state * list (list Z)))) : Prop :=
  match r with
  | Some (Ok (s', out)) => exists p', meaning sw (psp s) lv p gs = Some (p', out) /\ St p' s' /\ same s s'
  | Some Err => meaning sw (psp s) lv p gs = None
  | _ => False
  end.
Lemma same_trans a b c : same a b -> same b c -> same a c.
Proof.
  intros (L1 & P1 & Z1 & G1) (L2 & P2 & Z2 & G2). repeat split; try congruence. intros i I. rewrite G2 by lia. apply G1. exact I.
Qed.
Lemma St_with p s s' : St p s -> mac s' = mac s -> pack s' = pack s -> packs s' = packs s -> packsp s' = packsp s -> St p s'.
Proof. intros [R (E1 & E2 & E3 & E4 & E5)] M A B C. split; [rewrite M; exact R|]. unfold packrep. rewrite A, B, C. auto. Qed.

Lemma ls_if neg n ln : lspell (KIf neg n) ln -> exists l, ln = Dir l /\ spells_if neg n l.
Proof. destruct ln as [l|t]; cbn; [intros ((_ & H) & _); eauto|intros (H & _); discriminate H]. Qed.
Lemma ls_else ln : lspell KElse ln -> exists l, ln = Dir l /\ spells_word "else" l.
Proof. destruct ln as [l|t]; cbn; [intros ((_ & H) & _); eauto|intros (H & _); discriminate H]. Qed.
Lemma ls_endif ln : lspell KEndif ln -> exists l, ln = Dir l /\ spells_word "endif" l.
Proof. destruct ln as [l|t]; cbn; [intros ((_ & H) & _); eauto|intros (H & _); discriminate H]. Qed.
Lemma ls_dir d ln : lspell (KDir d) ln -> exists l, ln = Dir l /\ spells_dir sw d l /\ okline l /\ zlen l < 2 ^ 31.
Proof. destruct ln as [l|t]; cbn; [intros ((_ & H) & H2 & H3); eauto|intros (H & _); discriminate H]. Qed.
Lemma ls_text t ln : lspell (KText t) ln -> ln = Text t.
Proof. destruct ln as [l|u]; cbn; [intros ((H & _) & _); discriminate H|intros (_ & H); congruence]. Qed.

Lemma land_zb a b : Z.land (zb a) (zb b) = zb (a && b). Proof. destruct a, b; reflexivity. Qed.
Lemma land_else a b : Z.land (zb a) (2 + not0 (negb (zb b =? 0))) = zb (a && negb b). Proof. destruct a, b; reflexivity. Qed.

Theorem process_ok : forall gs p s lv ls, Forall2 lspell (kinds gs) ls -> St p s -> live s = zb lv ->
  zlen (pstack s) = 8 -> 0 <= psp s <= 8 -> result gs lv p s (process sw s ls).
Proof.
  induction gs as [|t k IHk|d k IHk|neg n a IHa k IHk|neg n a IHa b IHb k IHk]; intros p s lv ls F ST LV ZS PS; cbn [kinds] in F.
  - inversion F; subst. cbn. exists p. split; [reflexivity|]. split; [exact ST|apply same_refl].
  - inversion F as [|k0 ln kk lt HK FK]; subst. apply ls_text in HK. subst ln. cbn [process].
    specialize (IHk p s lv lt FK ST LV ZS PS). unfold result in *. cbn [meaning].
    destruct (process sw s lt) as [[[s' out]| |]|]; [|rewrite IHk; reflexivity|exact IHk|exact IHk].
    destruct IHk as (p' & -> & S' & SM). exists p'. split; [|auto]. rewrite LV. destruct lv; reflexivity.
  - inversion F as [|k0 ln kk lt HK FK]; subst. apply ls_dir in HK. destruct HK as (l & -> & SD & OL & LEN). cbn [process].
    destruct (dir_ok d l lv p s SD OL LEN ST LV) as (r & -> & OC). unfold result. cbn [meaning]. unfold outcome in OC.
    destruct r as [s1| |]; [|rewrite OC; reflexivity|exact OC]. destruct OC as (p1 & -> & S1 & SM).
    destruct SM as (L1 & P1 & Z1 & G1). pose proof (conj L1 (conj P1 (conj Z1 G1)) : same s s1) as SM.
    specialize (IHk p1 s1 lv lt FK S1 ltac:(congruence) ltac:(congruence) ltac:(lia)). unfold result in IHk. rewrite P1 in IHk.
    destruct (process sw s1 lt) as [[[s' out]| |]|]; [|exact IHk|exact IHk|exact IHk].
    destruct IHk as (p' & E & S' & SM'). exists p'. split; [exact E|]. split; [exact S'|]. apply (same_trans _ s1); assumption.
  - inversion F as [|k0 ln kk lt HK FK]; subst. apply ls_if in HK. destruct HK as (l & -> & SI).
    apply Forall2_app_inv_l in FK. destruct FK as (la & l2 & FA & FK & ->). inversion FK as [|k0 ln kk lt HK FK']; subst.
    apply ls_endif in HK. destruct HK as (le & -> & SE).
    cbn [process]. rewrite (if_ok neg n l p s SI ST). unfold result. cbn [meaning]. set (c := xorb neg (defined p n)).
    destruct (push_ok s (zb c) ZS PS) as [(-> & PE)|(s1 & -> & PE & M1 & M2 & M3 & M4 & L1 & P1 & Z1 & G1 & H1)].
    { replace (8 <=? psp s) with true by lia. reflexivity. }
    replace (8 <=? psp s) with false by lia. rewrite process_app.
    assert (LV1 : live s1 = zb (lv && c)) by (rewrite L1, LV; apply land_zb).
    specialize (IHa p s1 (lv && c) la FA (St_with p s s1 ST M1 M2 M3 M4) LV1 Z1 ltac:(lia)). unfold result in IHa. rewrite P1 in IHa.
    destruct (process sw s1 la) as [[[s2 o1]| |]|]; [|rewrite IHa; reflexivity|exact IHa|exact IHa].
    destruct IHa as (p2 & -> & S2 & (L2 & P2 & Z2 & G2)). cbn [obind].
    cbn [process]. rewrite (endif_ok le s2 SE).
    rewrite (pop_ok s2 (live s) (zb c)) by (try lia; rewrite P2, P1; replace (psp s + 1 - 1) with (psp s) by lia; rewrite G2 by lia; exact G1).
    cbn [rbind]. match goal with |- context [process sw ?x lt] => set (s3 := x) end.
    assert (E3 : live s3 = live s /\ psp s3 = psp s /\ zlen (pstack s3) = 8) by (unfold s3; cbn; repeat split; [lia|congruence]).
    destruct E3 as (L3 & P3 & Z3).
    assert (G3 : forall i, i < psp s -> zget (pstack s3) i = zget (pstack s) i).
    { intros i I. unfold s3. cbn [pstack]. rewrite G2 by lia. apply H1. exact I. }
    specialize (IHk p2 s3 lv lt FK' (St_with p2 s2 s3 S2 eq_refl eq_refl eq_refl eq_refl) ltac:(congruence) Z3 ltac:(lia)). unfold result in IHk. rewrite P3 in IHk.
    destruct (process sw s3 lt) as [[[s4 o2]| |]|]; [|rewrite IHk; reflexivity|exact IHk|exact IHk].
    destruct IHk as (p4 & -> & S4 & SM). exists p4. split; [reflexivity|]. split; [exact S4|].
    apply (same_trans _ s3); [|exact SM]. split; [congruence|split; [congruence|split; [congruence|exact G3]]].
  - inversion F as [|k0 ln kk lt HK FK]; subst. apply ls_if in HK. destruct HK as (l & -> & SI).
    apply Forall2_app_inv_l in FK. destruct FK as (la & l2 & FA & FK & ->). inversion FK as [|k0 ln kk l3 HK FK']; subst.
    apply ls_else in HK. destruct HK as (lm & -> & SL).
    apply Forall2_app_inv_l in FK'. destruct FK' as (lb & l4 & FB & FK' & ->). inversion FK' as [|k0 ln kk lt HK FK'']; subst.
    apply ls_endif in HK. destruct HK as (le & -> & SE).
    cbn [process]. rewrite (if_ok neg n l p s SI ST). unfold result. cbn [meaning]. set (c := xorb neg (defined p n)).
    destruct (push_ok s (zb c) ZS PS) as [(-> & PE)|(s1 & -> & PE & M1 & M2 & M3 & M4 & L1 & P1 & Z1 & G1 & H1)].
    { replace (8 <=? psp s) with true by lia. reflexivity. }
    replace (8 <=? psp s) with false by lia. rewrite process_app.
    assert (LV1 : live s1 = zb (lv && c)) by (rewrite L1, LV; apply land_zb).
    specialize (IHa p s1 (lv && c) la FA (St_with p s s1 ST M1 M2 M3 M4) LV1 Z1 ltac:(lia)). unfold result in IHa. rewrite P1 in IHa.
    destruct (process sw s1 la) as [[[s2 o1]| |]|]; [|rewrite IHa; reflexivity|exact IHa|exact IHa].
    destruct IHa as (p2 & -> & S2 & (L2 & P2 & Z2 & G2)). cbn [obind].
    cbn [process]. rewrite (else_ok lm s2 SL).
    rewrite (pop_ok s2 (live s) (zb c)) by (try lia; rewrite P2, P1; replace (psp s + 1 - 1) with (psp s) by lia; rewrite G2 by lia; exact G1).
    cbn [rbind]. replace (2 <=? zb c) with false by (destruct c; reflexivity).
    match goal with |- context [pushPrep ?x] => set (s3 := x) end.
    assert (E3 : live s3 = live s /\ psp s3 = psp s /\ zlen (pstack s3) = 8) by (unfold s3; cbn; repeat split; [lia|congruence]).
    destruct E3 as (L3 & P3 & Z3).
    assert (G3 : forall i, i < psp s -> zget (pstack s3) i = zget (pstack s) i).
    { intros i I. unfold s3. cbn [pstack]. rewrite G2 by lia. apply H1. exact I. }
    pose proof (St_with p2 s2 s3 S2 eq_refl eq_refl eq_refl eq_refl) as S3.
    destruct (push_ok s3 (2 + not0 (negb (zb c =? 0))) Z3 ltac:(lia)) as [(_ & PE')|(s5 & -> & _ & M1' & M2' & M3' & M4' & L5 & P5 & Z5 & G5 & H5)]; [lia|].
    rewrite process_app.
    assert (LV5 : live s5 = zb (lv && negb c)) by (rewrite L5, L3, LV; apply land_else).
    specialize (IHb p2 s5 (lv && negb c) lb FB (St_with p2 s3 s5 S3 M1' M2' M3' M4') LV5 Z5 ltac:(lia)). unfold result in IHb. rewrite P5, P3 in IHb.
    destruct (process sw s5 lb) as [[[s6 o2]| |]|]; [|rewrite IHb; reflexivity|exact IHb|exact IHb].
    destruct IHb as (p6 & -> & S6 & (L6 & P6 & Z6 & G6)). cbn [obind].
    cbn [process]. rewrite (endif_ok le s6 SE).
    rewrite (pop_ok s6 (live s) (2 + not0 (negb (zb c =? 0)))) by (try lia; rewrite P6, P5, P3; replace (psp s + 1 - 1) with (psp s) by lia; rewrite G6 by lia; rewrite <- P3, <- L3; exact G5).
    cbn [rbind]. match goal with |- context [process sw ?x lt] => set (s7 := x) end.
    assert (E7 : live s7 = live s /\ psp s7 = psp s /\ zlen (pstack s7) = 8) by (unfold s7; cbn; repeat split; [lia|congruence]).
    destruct E7 as (L7 & P7 & Z7).
    assert (G7 : forall i, i < psp s -> zget (pstack s7) i = zget (pstack s) i).
    { intros i I. unfold s7. cbn [pstack]. rewrite G6 by lia. rewrite H5 by lia. apply G3. exact I. }
    specialize (IHk p6 s7 lv lt FK'' (St_with p6 s6 s7 S6 eq_refl eq_refl eq_refl eq_refl) ltac:(congruence) Z7 ltac:(lia)). unfold result in IHk. rewrite P7 in IHk.
    destruct (process sw s7 lt) as [[[s8 o3]| |]|]; [|rewrite IHk; reflexivity|exact IHk|exact IHk].
    destruct IHk as (p8 & -> & S8 & SM). exists p8. split; [reflexivity|]. split; [exact S8|].
    apply (same_trans _ s7); [|exact SM]. split; [congruence|split; [congruence|split; [congruence|exact G7]]].
Qed.
End W.

(** ** any sequence of directives *)
Fixpoint gapp (g h : groups) : groups :=
  match g with
  | GNil => h
  | GText t k => GText t (gapp k h)
  | GDir d k => GDir d (gapp k h)
  | GIf neg n a k => GIf neg n a (gapp k h)
  | GIfElse neg n a b k => GIfElse neg n a b (gapp k h)
  end.
Lemma kinds_app : forall g h, kinds (gapp g h) = kinds g ++ kinds h.
Proof.
  induction g as [|t k IH|d k IH|neg n a IHa k IH|neg n a IHa b IHb k IH]; intros h; cbn [gapp kinds app]; [reflexivity| | | |]; rewrite IH.
  - reflexivity.
  - reflexivity.
  - rewrite <- !app_assoc. reflexivity.
  - rewrite <- !app_assoc. cbn [app]. rewrite <- !app_assoc. reflexivity.
Qed.
(** [openk fs ks]: after the lines [ks] one group is open for each of [fs], with its #else seen or not *)
Inductive openk : list bool -> list kind -> Prop :=
| ok_top gs : openk [] (kinds gs)
| ok_if fs ks neg n gs : openk fs ks -> openk (false :: fs) (ks ++ KIf neg n :: kinds gs)
| ok_else fs ks neg n g1 g2 : openk fs ks -> openk (true :: fs) (ks ++ KIf neg n :: kinds g1 ++ KElse :: kinds g2).
Lemma open_app fs ks g : openk fs ks -> openk fs (ks ++ kinds g).
Proof.
  intros [gs|fs' ks' neg n gs K|fs' ks' neg n g1 g2 K].
  - rewrite <- kinds_app. constructor.
  - rewrite <- app_assoc. cbn [app]. rewrite <- kinds_app. constructor. exact K.
  - rewrite <- app_assoc. cbn [app]. rewrite <- app_assoc. cbn [app]. rewrite <- kinds_app. constructor. exact K.
Qed.
Lemma open_if fs ks neg n : openk fs ks -> openk (false :: fs) (ks ++ [KIf neg n]).
Proof. intros K. change [KIf neg n] with (KIf neg n :: kinds GNil). constructor. exact K. Qed.
Lemma open_else fs ks : openk (false :: fs) ks -> openk (true :: fs) (ks ++ [KElse]).
Proof.
  intros K. inversion K as [|fs' ks' neg n gs K'|]; subst. rewrite <- app_assoc. cbn [app].
  change [KElse] with (KElse :: kinds GNil). constructor. exact K'.
Qed.
Lemma open_endif b fs ks : openk (b :: fs) ks -> openk fs (ks ++ [KEndif]).
Proof.
  intros K. inversion K as [|fs' ks' neg n gs K'|fs' ks' neg n g1 g2 K']; subst; rewrite <- app_assoc; cbn [app].
  - exact (open_app fs ks' (GIf neg n gs GNil) K').
  - rewrite <- app_assoc. cbn [app]. exact (open_app fs ks' (GIfElse neg n g1 g2 GNil) K').
Qed.
Lemma open_close : forall fs ks, openk fs ks -> exists gs, ks ++ repeat KEndif (List.length fs) = kinds gs.
Proof.
  induction fs as [|b fs IH]; intros ks K.
  - inversion K; subst. cbn. rewrite app_nil_r. eauto.
  - destruct (IH _ (open_endif b fs ks K)) as [gs E]. exists gs. rewrite <- E. rewrite <- app_assoc. reflexivity.
Qed.

Definition entry (b : bool) (e : Z * Z) : Prop := exists lv c, e = (zb lv, (if b then 2 else 0) + zb c).
Record Inv (fs : list bool) (s : state) : Prop := {
  i_len : psp s = zlen fs; i_max : zlen fs <= 8; i_stk : zlen (pstack s) = 8;
  i_live : exists lv, live s = zb lv; i_st : exists p, St p s;
  i_ent : forall i b, zget (rev fs) i = Some b -> exists e, zget (pstack s) i = Some e /\ entry b e }.

Lemma Inv_top (b : bool) fs s : Inv (b :: fs) s -> exists lv c, zget (pstack s) (psp s - 1) = Some (zb lv, (if b then 2 else 0) + zb c) /\ 0 < psp s /\
  Inv fs (State (mac s) (zb lv) (pstack s) (psp s - 1) (pack s) (packs s) (packsp s)).
Proof.
  intros [L M K LV [p ST] E]. rewrite zlen_cons in *. pose proof (zlen_nonneg fs).
  assert (LR : zlen (rev fs) = zlen fs) by (unfold zlen; now rewrite rev_length).
  destruct (E (psp s - 1) b) as (e & G & lv & c & ->).
  { cbn [rev]. rewrite zget_app_r by lia. replace (psp s - 1 - zlen (rev fs)) with 0 by lia. reflexivity. }
  exists lv, c. split; [exact G|]. split; [lia|]. split; cbn; [lia|lia|exact K|eauto| |].
  - exists p. apply (St_with p s); [exact ST|reflexivity..].
  - intros i b' G'. apply E. cbn [rev]. rewrite zget_app_l; [exact G'|]. apply zget_Some_range in G'. lia.
Qed.
Lemma Inv_push (b : bool) fs s c s' : Inv fs s -> pushPrep s ((if b then 2 else 0) + zb c) = Ok s' -> Inv (b :: fs) s'.
Proof.
  intros [L M K [lv LV] [p ST] E] H. pose proof (zlen_nonneg fs). destruct (push_ok s ((if b then 2 else 0) + zb c) K ltac:(lia)) as [(H' & _)|(s1 & H' & PE & M1 & M2 & M3 & M4 & L1 & P1 & Z1 & G1 & H1)]; [congruence|].
  assert (s1 = s') as -> by congruence. assert (LR : zlen (rev fs) = zlen fs) by (unfold zlen; now rewrite rev_length).
  split; [rewrite zlen_cons; lia|rewrite zlen_cons; lia|exact Z1| |exists p; apply (St_with p s); assumption|].
  - rewrite L1, LV. destruct b, lv, c; cbn; first [exists true; reflexivity|exists false; reflexivity].
  - intros i b' G. cbn [rev] in G. destruct (Z.eq_dec i (psp s)) as [->|N].
    + rewrite zget_app_r in G by lia. replace (psp s - zlen (rev fs)) with 0 in G by lia. change (zget [b] 0) with (Some b) in G.
      assert (b' = b) as -> by congruence. eexists. split; [exact G1|]. rewrite LV. exists lv, c. reflexivity.
    + pose proof (zget_Some_range _ _ _ G) as RG. rewrite zlen_app in RG. change (zlen [b]) with 1 in RG. rewrite zget_app_l in G by lia.
      rewrite H1 by lia. apply E. exact G.
Qed.
Lemma push_noob s c : zlen (pstack s) = 8 -> 0 <= psp s <= 8 -> pushPrep s c <> Oob.
Proof. intros A B. destruct (push_ok s c A B) as [(-> & _)|(s1 & -> & _)]; discriminate. Qed.
Lemma popPrep0 s : psp s = 0 -> popPrep s = Err. Proof. unfold popPrep. intros ->. reflexivity. Qed.

Section W2.
Variable sw : Z.
Hypothesis SW : sw = 2 \/ sw = 4.
Definition any (fs : list bool) (ks0 ks : list kind) (r : option (res (state * list (list Z)))) : Prop :=
  match r with
  | Some (Ok (s', out)) => exists fs', Inv fs' s' /\ openk fs' (ks0 ++ ks)
  | Some Err => True
  | _ => False
  end.
Theorem process_any : forall ks ls, Forall2 (lspell sw) ks ls -> forall fs ks0 s, Inv fs s -> openk fs ks0 -> any fs ks0 ks (process sw s ls).
Proof.
  intros ks ls F. induction F as [|k ln ks ls HK F IH]; intros fs ks0 s IV OP.
  { cbn. exists fs. rewrite app_nil_r. auto. }
  assert (STEP : forall fs1 s1 , Inv fs1 s1 -> openk fs1 (ks0 ++ [k]) -> any fs ks0 (k :: ks) (process sw s1 ls)).
  { intros fs1 s1 IV1 OP1. specialize (IH fs1 (ks0 ++ [k]) s1 IV1 OP1). unfold any in *. destruct (process sw s1 ls) as [[[s2 o]| |]|]; [|exact I|exact IH|exact IH].
    destruct IH as (fs' & IV' & OP'). exists fs'. split; [exact IV'|]. rewrite <- app_assoc in OP'. exact OP'. }
  destruct k as [t|d|neg n| |].
  - apply ls_text in HK. subst ln. cbn [process]. specialize (STEP fs s IV (open_app fs ks0 (GText t GNil) OP)).
    unfold any in *. destruct (process sw s ls) as [[[s' out]| |]|]; exact STEP.
  - apply ls_dir in HK. destruct HK as (l & -> & SD & OL & LEN). cbn [process]. destruct IV as [L M K [lv LV] [p ST] E].
    destruct (dir_ok sw SW d l lv p s SD OL LEN ST LV) as (r & -> & OC). unfold outcome in OC. destruct r as [s1| |]; [|exact I|exact OC].
    destruct OC as (p1 & _ & S1 & (L1 & P1 & Z1 & G1)). apply (STEP fs s1); [|exact (open_app fs ks0 (GDir d GNil) OP)].
    split; [congruence|exact M|congruence|exists lv; congruence|eauto|]. intros i b G. destruct (E i b G) as (e & GE & EN). exists e. split; [|exact EN]. rewrite G1; [exact GE|].
    apply zget_Some_range in G. unfold zlen in G. rewrite rev_length in G. fold (zlen fs) in G. lia.
  - apply ls_if in HK. destruct HK as (l & -> & SI). cbn [process]. pose proof IV as [L M K [lv LV] [p ST] E]. pose proof (zlen_nonneg fs).
    rewrite (if_ok sw SW neg n l p s SI ST). destruct (pushPrep s (zb (xorb neg (defined p n)))) as [s1| |] eqn:PU; [|exact I|exfalso; revert PU; apply push_noob; lia].
    apply (STEP (false :: fs) s1); [|apply open_if; exact OP]. apply (Inv_push false fs s (xorb neg (defined p n)) s1 IV). exact PU.
  - apply ls_else in HK. destruct HK as (l & -> & SI). cbn [process]. rewrite (else_ok sw SW l s SI).
    destruct fs as [|b fs].
    { rewrite popPrep0; [exact I|]. rewrite (i_len _ _ IV). reflexivity. }
    destruct (Inv_top b fs s IV) as (lv & c & G & P & IV'). rewrite (pop_ok s _ _ P G). cbn [rbind].
    destruct b. { replace (2 <=? 2 + zb c) with true by (destruct c; reflexivity). exact I. }
    replace (2 <=? 0 + zb c) with false by (destruct c; reflexivity).
    match goal with |- context [pushPrep ?x ?y] => set (s1 := x) in *; destruct (pushPrep s1 y) as [s2| |] eqn:PU end; [|exact I|].
    2:{ exfalso. revert PU. pose proof (i_len _ _ IV'). pose proof (zlen_nonneg fs). apply push_noob; [exact (i_stk _ _ IV')|pose proof (i_max _ _ IV'); lia]. }
    apply (STEP (true :: fs) s2); [|apply open_else; exact OP]. apply (Inv_push true fs s1 (negb c) s2 IV'). rewrite <- PU. destruct c; reflexivity.
  - apply ls_endif in HK. destruct HK as (l & -> & SI). cbn [process]. rewrite (endif_ok sw SW l s SI).
    destruct fs as [|b fs].
    { rewrite popPrep0; [exact I|]. rewrite (i_len _ _ IV). reflexivity. }
    destruct (Inv_top b fs s IV) as (lv & c & G & P & IV'). rewrite (pop_ok s _ _ P G). cbn [rbind].
    apply (STEP fs); [exact IV'|]. apply (open_endif b). exact OP.
Qed.
Lemma endifs_ok l : spells_word "endif" l -> forall fs s, Inv fs s ->
  exists s', process sw s (repeat (Dir l) (List.length fs)) = Some (Ok (s', [])) /\ mac s' = mac s /\ pack s' = pack s /\ psp s' = 0.
Proof.
  intros SE. induction fs as [|b fs IH]; intros s IV.
  - exists s. cbn. split; [reflexivity|]. pose proof (i_len _ _ IV) as L. change (zlen (@nil bool)) with 0 in L. auto.
  - cbn [List.length repeat process]. rewrite (endif_ok sw SW l s SE). destruct (Inv_top b fs s IV) as (lv & c & G & P & IV'). rewrite (pop_ok s _ _ P G). cbn [rbind].
    destruct (IH _ IV') as (s' & -> & M & PK & PS). exists s'. auto.
Qed.
End W2.

(** ** macros defined at the start *)
Lemma addChars_ok m n : forall e e0 s, Par m n e0 s -> nonzero e -> size m + zlen n + 3 + zlen e0 <= room ->
  match addChars s e with
  | Ok s' => Par m n (e0 ++ e) s' /\ size m + zlen n + 3 + zlen (e0 ++ e) <= room /\ zlen (e0 ++ e) <= 127
  | Err => 127 < zlen (e0 ++ e) \/ room < size m + zlen n + 3 + zlen (e0 ++ e)
  | Oob => False
  end.
Proof.
  induction e as [|c e IH]; intros e0 s P NZ SZ.
  - cbn. rewrite app_nil_r. split; [exact P|]. split; [exact SZ|exact (p_e _ _ _ _ P)].
  - apply Forall_cons_iff in NZ. destruct NZ as [NC NZ]. cbn [addChars]. pose proof (addChar_ok m n e0 s c P NC SZ) as A.
    destruct (addMacroExpansionChar s c) as [s1| |]; cbn [rbind]; [|pose proof (zlen_nonneg e); rewrite !zlen_app, !zlen_cons in *; change (zlen (@nil Z)) with 0 in *; lia|exact A].
    destruct A as (P1 & S1 & L1). specialize (IH (e0 ++ [c]) s1 P1 NZ S1). rewrite <- app_assoc in IH. exact IH.
Qed.
Definition trimmed (ds : table) : table := map (fun p => (fst p, trim (snd p))) ds.
Lemma lookup_notin m n : ~ In n (map fst m) -> lookup m n = None.
Proof.
  induction m as [|[k e] m IH]; intros H; [reflexivity|]. cbn [map fst In lookup] in *. unfold sameb. destruct (list_eq_dec Z.eq_dec k n); [tauto|]. apply IH. tauto.
Qed.
Lemma predefine_ok : forall ds m s, Rep m s -> Forall (fun p => okname (fst p) /\ nonzero (snd p)) ds -> NoDup (map fst m ++ map fst ds) ->
  match predefine s ds with
  | Ok s' => Rep (m ++ trimmed ds) s'
  | Err => True
  | Oob => False
  end.
Proof.
  induction ds as [|[n e] ds IH]; intros m s R F ND.
  - cbn. rewrite app_nil_r. exact R.
  - apply Forall_cons_iff in F. destruct F as [[ON NE] F]. cbn [fst snd] in *. cbn [predefine]. unfold defineMacro.
    cbn [map fst] in ND. assert (LK : lookup m n = None).
    { apply lookup_notin. intros H. apply NoDup_remove_2 in ND. apply ND. apply in_or_app. auto. }
    pose proof (addIdent_ok m s n R (okname_nz n ON) LK) as A. destruct (addMacroIdent s n) as [s1| |]; cbn [rbind]; [|exact I|exact A].
    destruct A as [P SZ]. pose proof (addChars_ok m n e [] s1 P NE ltac:(change (zlen (@nil Z)) with 0; lia)) as A.
    destruct (addChars s1 e) as [s2| |]; cbn [rbind]; [|exact I|exact A]. destruct A as (P2 & _ & _). cbn [app] in P2.
    destruct (end_ok m n e s2 P2) as (s3 & -> & R3). cbn [rbind].
    specialize (IH _ s3 R3 F). rewrite map_app in IH. cbn [map fst] in IH. rewrite <- app_assoc in IH. specialize (IH ND).
    destruct (predefine s3 ds) as [s4| |]; [|exact I|exact IH]. rewrite <- app_assoc in IH. exact IH.
Qed.
Lemma start_St sw m s : Rep m s -> St (PP m sw []) (start sw s).
Proof.
  intros R. split; [exact R|]. unfold packrep. cbn. split; [reflexivity|]. split; [reflexivity|]. split; [reflexivity|]. split; [change (zlen (@nil Z)) with 0; lia|].
  intros i x G. apply zget_Some_range in G. change (zlen (@nil Z)) with 0 in G. lia.
Qed.
Lemma start_Inv sw m s : Rep m s -> Inv [] (start sw s).
Proof.
  intros R. split; [reflexivity|change (zlen (@nil bool)) with 0; lia|reflexivity|exists true; reflexivity|eexists; exact (start_St sw m s R)|].
  intros i b G. apply zget_Some_range in G. change (zlen (rev (@nil bool))) with 0 in G. lia.
Qed.
