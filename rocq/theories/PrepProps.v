(** C13, C14, C19: macros, conditional compilation, #pragma pack. *)
From Verif Require Import Base BaseLemmas StrtolSpec NumSpec NumModel LexSpec PrepSpec LexModel LexProof PrepProof.
From Coq Require Import String.
Close Scope string_scope.
Local Open Scope list_scope.
Local Open Scope Z_scope.

Lemma some_eq {A} (a b : A) : Some a = Some b -> a = b.
Proof. congruence. Qed.
Ltac some_inj H := apply some_eq in H; subst.
(** The lines [ls] spell the lines [ks]; a line holds no 0 byte and no line end. *)
Definition source (W : Z) (ks : list kind) (ls : list line) : Prop :=
  Forall2 (fun k ln =>
    match ln with
    | Dir l => spells W k true l /\ okline l /\ zlen l < 2 ^ 31
    | Text t => spells W k false t
    end) ks ls.
(** The macros defined before the first line. *)
Definition defines (ds : table) : Prop :=
  Forall (fun p => okname (fst p) /\ Forall (fun c => c <> 0) (snd p)) ds /\ NoDup (map fst ds).
Definition initially (W : Z) (ds : table) : pp := PP (trimmed ds) W [].

(** What the compiler does with any source made of properly nested groups: it compiles the lines
    the meaning of the groups says, and stops with an error exactly when there is no meaning. *)
Definition follows (W : Z) (p : pp) (gs : groups) (r : option (res (state * list (list Z)))) : Prop :=
  match r with
  | Some (Ok (s, out)) => exists p', meaning W 0 true p gs = Some (p', out) /\ psp s = 0 /\
      (forall n, okname n -> expansion (mac s) n = Ok (lookup (pmac p') n)) /\ pack s = pval p'
  | Some Err => meaning W 0 true p gs = None
  | Some Oob => False
  | None => False
  end.
Theorem C14_groups : forall W ds m gs ls, W = 2 \/ W = 4 -> defines ds -> predefine noMacros ds = Ok m ->
  source W (kinds gs) ls -> follows W (initially W ds) gs (process W (start W m) ls).
Proof.
  intros W ds m gs ls WW [D1 D2] PD SRC.
  pose proof (predefine_ok ds [] noMacros Rep_init D1 D2) as R. rewrite PD in R. cbn [app] in R.
  pose proof (process_ok W WW gs (initially W ds) (start W m) true ls SRC (start_St W _ m R) eq_refl eq_refl ltac:(cbn; lia)) as H.
  unfold result in H. unfold follows. change (psp (start W m)) with 0 in H. destruct (process W (start W m) ls) as [[[s out]| |]|]; [|exact H|exact H|exact H].
  destruct H as (p' & E & [S1 S2] & (_ & PS & _)). exists p'. split; [exact E|]. split; [exact PS|]. split.
  - intros n ON. apply expansion_ok; [exact S1|apply okname_nz; exact ON].
  - apply S2.
Qed.

(** Any sequence of lines, nested properly or not, that the compiler accepts is the beginning of
    properly nested groups, and what it compiles is their meaning; groups still open at the end
    are taken to end there. *)
Theorem C14_any : forall W ds m ks ls, W = 2 \/ W = 4 -> defines ds -> predefine noMacros ds = Ok m -> source W ks ls ->
  match process W (start W m) ls with
  | Some (Ok (s, out)) => exists gs p', ks ++ repeat KEndif (Z.to_nat (psp s)) = kinds gs /\ 0 <= psp s /\
      meaning W 0 true (initially W ds) gs = Some (p', out) /\
      (forall n, okname n -> expansion (mac s) n = Ok (lookup (pmac p') n)) /\ pack s = pval p'
  | Some Err => True
  | Some Oob => False
  | None => False
  end.
Proof.
  intros W ds m ks ls WW [D1 D2] PD SRC.
  pose proof (predefine_ok ds [] noMacros Rep_init D1 D2) as R. rewrite PD in R. cbn [app] in R.
  pose proof (process_any W WW ks ls SRC [] [] (start W m) (start_Inv W _ m R) (ok_top GNil)) as A.
  destruct (process W (start W m) ls) as [[[s out]| |]|] eqn:PR; [|exact I|exact A|exact A].
  destruct A as (fs & IV & OP). cbn [app] in OP. destruct (open_close fs ks OP) as [gs E].
  assert (LN : List.length fs = Z.to_nat (psp s)) by (rewrite (i_len _ _ IV); unfold zlen; lia).
  assert (SE : spells_word "endif" (str "endif")) by (exists [], [], false; repeat split; try constructor; reflexivity).
  destruct (endifs_ok W WW (str "endif") SE fs s IV) as (s2 & P2 & M2 & PK & PS2).
  assert (SRC2 : source W (kinds gs) (ls ++ repeat (Dir (str "endif")) (List.length fs))).
  { rewrite <- E. apply Forall2_app; [exact SRC|]. clear -SE. induction (List.length fs) as [|k IH]; cbn [repeat]; constructor; [|exact IH].
    cbn. split; [split; [reflexivity|exact SE]|]. split; [|reflexivity]. unfold okline. cbn. repeat constructor; lia. }
  pose proof (C14_groups W ds m gs _ WW (conj D1 D2) PD SRC2) as F. rewrite process_app, PR, P2 in F. cbn [follows] in F. rewrite app_nil_r in F.
  destruct F as (p' & ME & _ & MA & PV). exists gs, p'. rewrite <- LN. split; [exact E|]. split; [rewrite (i_len _ _ IV); apply zlen_nonneg|]. split; [exact ME|].
  rewrite M2 in MA. rewrite PK in PV. auto.
Qed.
(** A stray #else, #endif or a second #else is always refused. *)
Corollary C14_balanced : forall W ds m ks ls s out, W = 2 \/ W = 4 -> defines ds -> predefine noMacros ds = Ok m -> source W ks ls ->
  process W (start W m) ls = Some (Ok (s, out)) -> exists gs, ks ++ repeat KEndif (Z.to_nat (psp s)) = kinds gs.
Proof.
  intros W ds m ks ls s out WW DD PD SRC PR. pose proof (C14_any W ds m ks ls WW DD PD SRC) as H. rewrite PR in H. destruct H as (gs & p' & E & _). eauto.
Qed.
(** But a group that is not ended is not reported. *)
Theorem C14_refuted : exists ks ls s out, source 4 ks ls /\ process 4 (start 4 noMacros) ls = Some (Ok (s, out)) /\
  (forall gs, ks <> kinds gs) /\ out = [].
Proof.
  exists [KIf false (str "X"); KText (str "int x;")], [Dir (str "ifdef X"); Text (str "int x;")].
  eexists. eexists. split; [|split; [cbn -[start noMacros]; vm_compute; reflexivity|split; [|reflexivity]]].
  - constructor; [|constructor; [|constructor]].
    + cbn. split; [split; [reflexivity|]|].
      * exists [], [32], [], false. split; [constructor|]. split; [apply (bl_char 32); [left; reflexivity|constructor]|]. split; [discriminate|].
        split; [|split; [constructor|reflexivity]]. split; [cbn; split; [unfold letter; lia|constructor]|vm_compute; discriminate].
      * split; [|reflexivity]. unfold okline. cbn. repeat constructor; lia.
    + split; reflexivity.
  - intros gs E. assert (B : forall g, fold_right (fun k t => match k with KIf _ _ => 1 | KEndif => -1 | _ => 0 end + t) 0 (kinds g) = 0).
    { assert (AP : forall a b, fold_right (fun k t => match k with KIf _ _ => 1 | KEndif => -1 | _ => 0 end + t) 0 (a ++ b) =
        fold_right (fun k t => match k with KIf _ _ => 1 | KEndif => -1 | _ => 0 end + t) 0 a + fold_right (fun k t => match k with KIf _ _ => 1 | KEndif => -1 | _ => 0 end + t) 0 b).
      { induction a as [|k a IH]; intros b; [reflexivity|]. cbn [app fold_right]. rewrite IH. lia. }
      induction g as [|t k IH|d k IH|neg n a IHa k IH|neg n a IHa b IHb k IH]; cbn [kinds fold_right]; [reflexivity|lia|lia| |].
      - rewrite AP. cbn [fold_right]. lia.
      - rewrite AP. cbn [fold_right]. rewrite AP. cbn [fold_right]. lia. }
    specialize (B gs). rewrite <- E in B. cbn in B. lia.
Qed.
(** [#elif] is not supported, and is not reported either when the group before it was skipped. *)
Theorem C14_elif_refuted : exists s, process 4 (start 4 noMacros) [Dir (str "ifdef X"); Dir (str "elif 1"); Text (str "int x;"); Dir (str "endif")] = Some (Ok (s, [])).
Proof. eexists. vm_compute. reflexivity. Qed.

(** ** macros: after any accepted sequence of directives, a definition and its removal do what they say *)
Theorem C13_macros : forall W ds m gs ls s out, W = 2 \/ W = 4 -> defines ds -> predefine noMacros ds = Ok m ->
  source W (kinds gs) ls -> process W (start W m) ls = Some (Ok (s, out)) ->
  exists p', meaning W 0 true (initially W ds) gs = Some (p', out) /\
    forall n, okname n -> expansion (mac s) n = Ok (lookup (pmac p') n).
Proof.
  intros W ds m gs ls s out WW DD PD SRC PR. pose proof (C14_groups W ds m gs ls WW DD PD SRC) as H. rewrite PR in H. destruct H as (p' & E & _ & M & _). eauto.
Qed.
(** the table of the meaning is a map *)
Lemma lookup_app m k n : lookup (m ++ k) n = match lookup m n with Some e => Some e | None => lookup k n end.
Proof. induction m as [|[a e] m IH]; [reflexivity|]. cbn [app lookup]. destruct (sameb a n); [reflexivity|exact IH]. Qed.
Lemma sameb_refl n : sameb n n = true. Proof. unfold sameb. destruct (list_eq_dec Z.eq_dec n n); congruence. Qed.
Lemma sameb_neq a b : a <> b -> sameb a b = false. Proof. unfold sameb. destruct (list_eq_dec Z.eq_dec a b); congruence. Qed.
Lemma lookup_filter m n k : lookup (filter (fun p => negb (sameb (fst p) n)) m) k = if sameb n k then None else lookup m k.
Proof.
  induction m as [|[a e] m IH]; cbn [filter lookup fst]; [destruct (sameb n k); reflexivity|].
  destruct (list_eq_dec Z.eq_dec a n) as [->|N].
  - rewrite sameb_refl. cbn [negb]. rewrite IH. destruct (sameb n k); reflexivity.
  - rewrite (sameb_neq a n N). cbn [negb lookup]. rewrite IH. destruct (list_eq_dec Z.eq_dec n k) as [->|N2].
    + rewrite sameb_refl, (sameb_neq a k N). reflexivity.
    + rewrite (sameb_neq n k N2). destruct (sameb a k); reflexivity.
Qed.
Theorem C13_map : forall W p n e p', 
  (apply W (DDefine n e) p = Some p' -> lookup (pmac p) n = None /\ lookup (pmac p') n = Some (trim e) /\ forall k, k <> n -> lookup (pmac p') k = lookup (pmac p) k) /\
  (apply W (DUndef n) p = Some p' -> lookup (pmac p') n = None /\ forall k, k <> n -> lookup (pmac p') k = lookup (pmac p) k).
Proof.
  intros W p n e p'. cbn [apply]. split; intros H.
  - destruct (lookup (pmac p) n) as [x|] eqn:L; [discriminate H|]. destruct ((127 <? zlen e) || _); [discriminate H|]. some_inj H. cbn [pmac].
    split; [reflexivity|]. split; [rewrite lookup_app, L; cbn [lookup]; rewrite sameb_refl; reflexivity|].
    intros k N. rewrite lookup_app. cbn [lookup]. rewrite (sameb_neq n k) by congruence. destruct (lookup (pmac p) k); reflexivity.
  - some_inj H. cbn [pmac]. split; [rewrite lookup_filter, sameb_refl; reflexivity|]. intros k N. rewrite lookup_filter, (sameb_neq n k) by congruence. reflexivity.
Qed.
(** The compiler squeezes white space, and drops comments, inside the string literals of a macro:
    [#define S "a  b"] makes S stand for "a b". *)
Theorem C13_string_refuted : exists s, process 4 (start 4 noMacros) [Dir (str "define S """ ++ str "a  b""")] = Some (Ok (s, [])) /\
  expansion (mac s) (str "S") = Ok (Some (str """" ++ str "a b""")).
Proof. eexists. vm_compute. split; reflexivity. Qed.

(** ** #pragma pack *)
Theorem C19_pack : forall W ds m gs ls s out, W = 2 \/ W = 4 -> defines ds -> predefine noMacros ds = Ok m ->
  source W (kinds gs) ls -> process W (start W m) ls = Some (Ok (s, out)) ->
  exists p', meaning W 0 true (initially W ds) gs = Some (p', out) /\ pack s = pval p'.
Proof.
  intros W ds m gs ls s out WW DD PD SRC PR. pose proof (C14_groups W ds m gs ls WW DD PD SRC) as H. rewrite PR in H. destruct H as (p' & E & _ & _ & PV). eauto.
Qed.
(** the packing in force is always one the structure layout can use *)
Lemma valid_pow2 W n : W = 2 \/ W = 4 -> valid W n = true -> n = 1 \/ n = 2 \/ n = 4.
Proof. unfold valid, pow2. lia. Qed.
Theorem C19_values : forall W, W = 2 \/ W = 4 -> forall gs d lv p p' out, (forall v, In v (pval p :: pvals p) -> valid W v = true) ->
  meaning W d lv p gs = Some (p', out) -> forall v, In v (pval p' :: pvals p') -> valid W v = true.
Proof.
  intros W WW. assert (VW : valid W W = true) by (unfold valid, pow2; lia).
  induction gs as [|t k IHk|d k IHk|neg n a IHa k IHk|neg n a IHa b IHb k IHk]; intros dp lv p p' out V M; cbn [meaning] in M.
  - injection M as <- _. exact V.
  - destruct (meaning W dp lv p k) as [[p1 o]|] eqn:E; [|discriminate M]. cbn [obind] in M. injection M as -> _. exact (IHk _ _ _ _ _ V E).
  - destruct (if lv then apply W d p else Some p) as [p1|] eqn:E; [|discriminate M]. cbn [obind] in M. refine (IHk _ _ _ _ _ _ M).
    destruct lv; [|some_inj E; exact V]. destruct d as [|n e|n|o]; cbn [apply] in E.
    + some_inj E. exact V.
    + destruct (match lookup (pmac p) n with Some _ => true | None => false end); [discriminate E|]. destruct (_ || _); [discriminate E|]. some_inj E. exact V.
    + some_inj E. exact V.
    + destruct (packing W o (pval p) (pvals p)) as [[v vs]|] eqn:PK; [|discriminate E]. cbn [obind] in E. some_inj E. cbn [pval pvals].
      destruct o as [[n|]| |n|]; cbn [packing] in PK.
      * destruct (16 <=? zlen (pvals p)); [discriminate PK|]. cbn [orb] in PK. destruct (valid W n) eqn:VN; cbn [negb] in PK; [|discriminate PK]. injection PK as <- <-.
        intros v [<-|H]; [exact VN|apply V; exact H].
      * destruct (16 <=? zlen (pvals p)); [discriminate PK|]. injection PK as <- <-. intros v [<-|H]; [apply V; left; reflexivity|apply V; exact H].
      * destruct (pvals p) as [|u us] eqn:PV; [discriminate PK|]. injection PK as <- <-. intros v H. apply V. right. exact H.
      * destruct (valid W n) eqn:VN; [|discriminate PK]. injection PK as <- <-. intros v [<-|H]; [exact VN|apply V; right; exact H].
      * injection PK as <- <-. intros v [<-|H]; [exact VW|apply V; right; exact H].
  - destruct (8 <=? dp); [discriminate M|]. destruct (meaning W (dp + 1) (lv && xorb neg (defined p n)) p a) as [[p1 o1]|] eqn:E; [|discriminate M]. cbn [obind] in M.
    destruct (meaning W dp lv p1 k) as [[p2 o2]|] eqn:E2; [|discriminate M]. cbn [obind] in M. injection M as -> _.
    exact (IHk _ _ _ _ _ (IHa _ _ _ _ _ V E) E2).
  - destruct (8 <=? dp); [discriminate M|]. destruct (meaning W (dp + 1) (lv && xorb neg (defined p n)) p a) as [[p1 o1]|] eqn:E; [|discriminate M]. cbn [obind] in M.
    destruct (meaning W (dp + 1) (lv && negb (xorb neg (defined p n))) p1 b) as [[p2 o2]|] eqn:E2; [|discriminate M]. cbn [obind] in M.
    destruct (meaning W dp lv p2 k) as [[p3 o3]|] eqn:E3; [|discriminate M]. cbn [obind] in M. injection M as -> _.
    exact (IHk _ _ _ _ _ (IHb _ _ _ _ _ (IHa _ _ _ _ _ V E) E2) E3).
Qed.
Corollary C19_accepted : forall W ds m gs ls s out, W = 2 \/ W = 4 -> defines ds -> predefine noMacros ds = Ok m ->
  source W (kinds gs) ls -> process W (start W m) ls = Some (Ok (s, out)) -> (pack s = 1 \/ pack s = 2 \/ pack s = 4) /\ pack s <= W.
Proof.
  intros W ds m gs ls s out WW DD PD SRC PR. destruct (C19_pack W ds m gs ls s out WW DD PD SRC PR) as (p' & M & ->).
  assert (V : valid W (pval p') = true).
  { apply (C19_values W WW gs 0 true (initially W ds) p' out); [|exact M|left; reflexivity]. cbn. intros v [<-|[]]. unfold valid, pow2. lia. }
  split; [exact (valid_pow2 W _ WW V)|unfold valid in V; lia].
Qed.

(** ** a concrete source *)
Definition ex_source : list line :=
  [Dir (str " define A 1 + /* one */ 2  "); Dir (str "ifdef A"); Text (str "int a;"); Dir (str "ifndef B"); Dir (str "define B"); Dir (str "else // no");
   Text (str "int b;"); Dir (str "endif"); Dir (str "pragma pack(push, 1)"); Dir (str "endif"); Dir (str "undef B"); Text (str "int c;")].
Definition ex_groups : groups :=
  GDir (DDefine (str "A") (str "1 + 2 "))
  (GIf false (str "A")
     (GText (str "int a;") (GIfElse true (str "B") (GDir (DDefine (str "B") []) GNil) (GText (str "int b;") GNil) (GDir (DPack (PPush (Some 1))) GNil)))
     (GDir (DUndef (str "B")) (GText (str "int c;") GNil))).
Ltac okl := match goal with |- okline _ => unfold okline; cbn; repeat (constructor; [lia|]); constructor end.
Lemma sp1 : blanks [32] false. Proof. apply (bl_char 32); [left; reflexivity|constructor]. Qed.
Ltac nm := split; [cbn; split; [unfold letter; lia|repeat (constructor; [unfold namechar, letter; lia|]); constructor]|vm_compute; discriminate].
Lemma plain_inside t : Forall (fun c => c <> 42) t -> inside t.
Proof.
  intros F (a & b & E). revert a E. induction F as [|c t C F IH]; intros a E; destruct a as [|x a]; cbn [app] in E.
  - discriminate E.
  - injection E as _ E. destruct a; discriminate E.
  - injection E as E1 _. contradiction.
  - injection E as _ E. exact (IH a E).
Qed.
Example ex_spelled : source 4 (kinds ex_groups) ex_source.
Proof.
  unfold source, ex_groups, ex_source. cbn [kinds app]. repeat constructor; try okl; try reflexivity; try (split; reflexivity); try (vm_compute; discriminate).
  - change (str " define A 1 + /* one */ 2  ") with ([32] ++ str "define" ++ [32] ++ str "A" ++ [32] ++ str "1 + /* one */ 2  ").
    apply (sd_define 4 [32] [32] (str "A") [32] false _ (str "1 + 2 ")); [exact sp1|exact sp1|discriminate|nm|exact sp1|discriminate|discriminate|cbn; unfold blankchar; lia|].
    change (str "1 + /* one */ 2  ") with (49 :: [32] ++ 43 :: (32 :: ([47; 42] ++ str " one " ++ [42; 47] ++ [32])) ++ 50 :: [32; 32] ++ []).
    change (str "1 + 2 ") with (49 :: 32 :: 43 :: 32 :: 50 :: 32 :: []).
    apply (b_space 49 [32] false); [exact sp1|exists 32, []; repeat split; lia|discriminate|cbn; unfold blankchar; lia|].
    apply (b_space 43 _ false); [|eexists; eexists; split; [reflexivity|lia]|discriminate|cbn; unfold blankchar; lia|].
    + apply bl_char; [left; reflexivity|]. apply (bl_comment (str " one ") [32]); [|exact sp1]. apply plain_inside. repeat (constructor; [vm_compute; discriminate|]); constructor.
    + apply (b_space 50 [32; 32] false []); [apply bl_char; [left; reflexivity|exact sp1]|exists 32, [32]; repeat split; lia|reflexivity|cbn; tauto|constructor].
  - exists [], [32], [], false. split; [constructor|]. split; [exact sp1|]. split; [discriminate|]. split; [nm|]. split; [constructor|reflexivity].
  - exists [], [32], [], false. split; [constructor|]. split; [exact sp1|]. split; [discriminate|]. split; [nm|]. split; [constructor|reflexivity].
  - change (str "define B") with ([] ++ str "define" ++ [32] ++ str "B" ++ [] ++ []).
    apply (sd_define 4 [] [32] (str "B") [] false [] []); [constructor|exact sp1|discriminate|nm|constructor|reflexivity|cbn; tauto|cbn; tauto|constructor].
  - exists [], (32 :: [47; 47] ++ str " no"), true. split; [constructor|]. split; [apply bl_char; [left; reflexivity|]; apply (bl_line (str " no"))|reflexivity].
  - exists [], [], false. split; [constructor|]. split; [constructor|reflexivity].
  - change (str "pragma pack(push, 1)") with ([] ++ str "pragma" ++ [32] ++ str "pack" ++ [] ++ [40] ++ [] ++ (str "push" ++ [] ++ [44] ++ [32] ++ ([49] ++ [])) ++ [] ++ [41] ++ []).
    apply (sd_pack 4 [] [32] [] [] _ [] [] false); [constructor|exact sp1|discriminate|constructor|constructor| |constructor|constructor].
    apply a_pushn; [constructor|exact sp1|]. apply (number_intro 4 [49] [] 10 1 false false).
    + apply (body_dec 49 [] 1); [lia|constructor|]. change [49] with ([] ++ [49]). exact (value_snoc 10 [] 49 0 1 (value_nil 10) (dv_dec 49 ltac:(lia))).
    + constructor.
    + reflexivity.
  - exists [], [], false. split; [constructor|]. split; [constructor|reflexivity].
  - change (str "undef B") with ([] ++ str "undef" ++ [32] ++ str "B" ++ []).
    apply (sd_undef 4 [] [32] (str "B") [] false); [constructor|exact sp1|discriminate|nm|constructor].
Qed.
Example ex_runs : exists s, process 4 (start 4 noMacros) ex_source = Some (Ok (s, [str "int a;"; str "int c;"])) /\ pack s = 1 /\
  expansion (mac s) (str "A") = Ok (Some (str "1 + 2")) /\ expansion (mac s) (str "B") = Ok None.
Proof. eexists. split; [vm_compute; reflexivity|]. split; [reflexivity|]. split; vm_compute; reflexivity. Qed.
Example ex_refused : process 4 (start 4 noMacros) [Dir (str "else")] = Some Err /\ process 4 (start 4 noMacros) [Dir (str "pragma pack(pop)")] = Some Err
  /\ process 4 (start 4 noMacros) [Dir (str "define X"); Dir (str "define X")] = Some Err.
Proof. vm_compute. auto. Qed.
Example ex_defines : defines [(str "__SMALLER_C__", str "0x0100"); (str "__SMALLER_C_32__", [])] /\
  exists m, predefine noMacros [(str "__SMALLER_C__", str "0x0100"); (str "__SMALLER_C_32__", [])] = Ok m.
Proof.
  split; [split|].
  - constructor; [|constructor; [|constructor]]; cbn [fst snd]; (split; [nm|]); [repeat (constructor; [vm_compute; discriminate|])|]; constructor.
  - repeat constructor; cbn; intros H; [destruct H as [H|[]]; vm_compute in H; discriminate H|exact H].
  - eexists. vm_compute. reflexivity.
Qed.

Print Assumptions C14_groups.
Print Assumptions C14_any.
Print Assumptions C14_balanced.
Print Assumptions C14_refuted.
Print Assumptions C14_elif_refuted.
Print Assumptions C13_macros.
Print Assumptions C13_map.
Print Assumptions C13_string_refuted.
Print Assumptions C19_pack.
Print Assumptions C19_values.
Print Assumptions C19_accepted.
