(** Initialisers: everything correct is accepted, with the right data. *)
From Verif Require Import Base BaseLemmas ExprSpec FoldModel FoldProof DeclSpec DeclModel DeclProof DeclMain DeclProg InitSpec InitModel.
From Verif Require CharSpec.

Scheme takes_i := Minimality for takes Sort Prop
  with parts_i := Minimality for parts Sort Prop
  with elems_i := Minimality for elems Sort Prop
  with mems_i := Minimality for mems Sort Prop.
Combined Scheme takes_mut from takes_i, parts_i, elems_i, mems_i.

(** ** texts *)
Fixpoint toksOf (l : list ini) (tl : list itok) : list itok :=
  match l with
  | [] => tl
  | i :: l' => text i ++ match l' with [] => tl | _ => TComma :: toksOf l' tl end
  end.
Definition after (l : list ini) (tl : list itok) : list itok :=
  match l with [] => tl | _ => TComma :: toksOf l tl end.
Lemma toksOf_cons i l tl : toksOf (i :: l) tl = text i ++ after l tl.
Proof. destruct l; reflexivity. Qed.
Lemma toksOf_app l1 : forall l2 tl, l1 <> [] -> toksOf (l1 ++ l2) tl = toksOf l1 (after l2 tl).
Proof.
  induction l1 as [|i l1 IH]; intros l2 tl N; [contradiction|]. cbn [app]. rewrite !toksOf_cons. f_equal.
  destruct l1 as [|i' l1]; [reflexivity|]. cbn [after app]. f_equal. apply IH. discriminate.
Qed.
Lemma text_IL l c tl : text (IL l c) ++ tl = TLb :: toksOf l ((if c then [TComma] else []) ++ TRb :: tl).
Proof.
  cbn [text]. cbn [app]. f_equal. rewrite <- !app_assoc.
  assert (G : forall x, (fix go l := match l with
                          | [] => []
                          | i :: l => text i ++ match l with [] => [] | _ => TComma :: go l end
                          end) l ++ x = toksOf l x).
  { intros x. induction l as [|i l IH]; [reflexivity|]. rewrite toksOf_cons, <- app_assoc. f_equal.
    destruct l; [reflexivity|]. cbn [after]. rewrite <- IH. reflexivity. }
  rewrite G. destruct c; reflexivity.
Qed.
Lemma text_head i tl : exists t r, text i ++ tl = t :: r /\ (t = TLb \/ exists e, t = TExpr e).
Proof. destruct i as [e|l c]; cbn [text app]; eauto 6. Qed.
Lemma toksOf_head l tl : l <> [] -> exists t r, toksOf l tl = t :: r /\ (t = TLb \/ exists e, t = TExpr e).
Proof. destruct l as [|i l]; [contradiction|]. intros _. rewrite toksOf_cons. apply text_head. Qed.
Lemma toksOf_len l : forall tl, (length tl + length l <= length (toksOf l tl))%nat.
Proof.
  induction l as [|i l IH]; intros tl; [cbn; lia|]. rewrite toksOf_cons. rewrite app_length.
  destruct (text_head i []) as (t & r & E & _). rewrite app_nil_r in E. rewrite E. cbn [length].
  destruct l as [|i' l]; cbn [after length]; [lia|]. specialize (IH tl). cbn [length] in *. lia.
Qed.

(** the end of a list *)
Definition closing (tl x : list itok) : Prop := tl = TRb :: x \/ tl = TComma :: TRb :: x.
Definition aft (r : list ini) (tl x tk : list itok) : Prop := tk = after r tl \/ (r = [] /\ tk = TRb :: x).
Lemma closing_c (c : bool) x : closing ((if c then [TComma] else []) ++ TRb :: x) x.
Proof. destruct c; [right|left]; reflexivity. Qed.

Lemma bytes_mod n : forall a b, a mod 2 ^ (8 * Z.of_nat n) = b mod 2 ^ (8 * Z.of_nat n) -> CharSpec.bytes n a = CharSpec.bytes n b.
Proof.
  induction n as [|n IH]; intros a b H; [reflexivity|]. cbn [CharSpec.bytes].
  assert (E : 2 ^ (8 * Z.of_nat (S n)) = 256 * 2 ^ (8 * Z.of_nat n)).
  { replace (8 * Z.of_nat (S n)) with (8 + 8 * Z.of_nat n) by lia. rewrite Z.pow_add_r by lia. reflexivity. }
  assert (P : 0 < 2 ^ (8 * Z.of_nat n)) by (apply Z.pow_pos_nonneg; lia).
  rewrite E in H. set (m := 2 ^ (8 * Z.of_nat n)) in *. clearbody m.
  rewrite (Z.rem_mul_r a), (Z.rem_mul_r b) in H by lia.
  pose proof (Z.mod_pos_bound a 256 ltac:(lia)). pose proof (Z.mod_pos_bound b 256 ltac:(lia)).
  assert (a mod 256 = b mod 256 /\ (a / 256) mod m = (b / 256) mod m) as [-> H2] by lia.
  f_equal. apply IH. exact H2.
Qed.

Lemma Forall2_nth {A B} (R : A -> B -> Prop) l : forall l', length l = length l' ->
  (forall k x y, nth_error l k = Some x -> nth_error l' k = Some y -> R x y) -> Forall2 R l l'.
Proof.
  induction l as [|x l IH]; intros [|y l'] L H; try discriminate L; constructor.
  - apply (H 0%nat); reflexivity.
  - apply IH; [cbn in L; lia|]. intros k a b N1 N2. apply (H (S k)); assumption.
Qed.
Lemma nth_error_combine {A B} (l : list A) : forall (l' : list B) k x y, nth_error (combine l l') k = Some (x, y) ->
  nth_error l k = Some x /\ nth_error l' k = Some y.
Proof.
  induction l as [|a l IH]; intros [|b l'] k x y H; try (destruct k; discriminate H).
  destruct k as [|k]; cbn in *; [injection H as <- <-; split; reflexivity|apply IH; exact H].
Qed.

Section P.
Variable W : Z.
Hypothesis HW : W = 2 \/ W = 4.
Variable cs : bool.
Variable st : stk.
Notation M := (2 ^ (8 * W)).
Notation size := (size W).
Notation enc := (enc W). Notation encS := (encS W). Notation wfty := (wfty W).
Notation takes := (takes W false). Notation parts := (parts W false). Notation elems := (elems W false). Notation mems := (mems W false).
Notation init := (init W cs st). Notation initArray := (initArray W cs st). Notation initStruct := (initStruct W cs st).
Notation initScalar := (initScalar W cs st). Notation memberLoop := (memberLoop W cs st).

Lemma uz_ok n : 0 <= n < M -> uz W n = zeros n.
Proof.
  intros H. unfold uz. pose proof (M_le W HW). rewrite (tU W HW). unfold word. rewrite (u32_small n) by lia.
  rewrite wrap_small by exact H. reflexivity.
Qed.
Lemma zeros_neg n : n <= 0 -> zeros n = [].
Proof. intros H. unfold zeros. replace (Z.to_nat n) with 0%nat by lia. reflexivity. Qed.
Lemma zeros_if a b : 0 <= a < M -> 0 <= b < M -> (if a <? b then uz W (b - a) else []) = zeros (b - a).
Proof. intros A B. destruct (a <? b) eqn:E; [apply uz_ok; lia|]. rewrite zeros_neg by lia. reflexivity. Qed.

Lemma intData_ok sz v : 0 <= sz <= W -> intData W sz v = map CByte (CharSpec.bytes (Z.to_nat sz) v).
Proof.
  intros H. unfold intData. f_equal. apply bytes_mod. rewrite Z2Nat.id by lia. rewrite (tI W HW).
  pose proof (wd_sint W HW v) as X. unfold word, wrap in X.
  assert (D : (2 ^ (8 * sz) | 2 ^ (8 * W))).
  { exists (2 ^ (8 * W - 8 * sz)). rewrite <- Z.pow_add_r by lia. f_equal. lia. }
  assert (P : 0 < 2 ^ (8 * sz)) by (apply Z.pow_pos_nonneg; lia).
  assert (P2 : 0 < 2 ^ (8 * W)) by (apply Z.pow_pos_nonneg; lia).
  rewrite (Znumtheory.Zmod_div_mod _ _ (sint W v) P P2 D), X. symmetry. apply Znumtheory.Zmod_div_mod; assumption.
Qed.
Lemma addrData_ok l o : addrData W l o = map (CAddr l (o mod M)) (upto W).
Proof.
  unfold addrData. do 2 f_equal. rewrite (tU W HW), (w_u32 W HW), (tI W HW), (wd_sint W HW). reflexivity.
Qed.

(** a type in the table, ready to be used *)
Record okt (q : Z) (t : cty) : Prop := { k_enc : enc st q t; k_wf : wfty t; k_sz : size t < M }.
Lemma okt_size q t : okt q t -> getDeclSize W cs st q false = Ok (s32 (size t)) /\ u32 (s32 (size t)) = size t /\ 1 <= size t < M.
Proof.
  intros [E WT S]. pose proof (M_le W HW). destruct (sizes W HW _ WT) as [S1 _].
  split; [apply (getSize_enc W HW); try assumption; eapply enc_nonneg; eassumption|]. split; [apply u32_s32; lia|lia].
Qed.
Lemma scalar_size t : scalar t -> wfty t -> size t <= W.
Proof.
  destruct t as [s| | |]; intros Sc WT; try contradiction.
  - destruct WT as [W1 W2]. unfold DeclSpec.size. cbn [DeclSpec.sa fst]. destruct HW as [E|E]; rewrite E in *; destruct s; cbn in *; try lia; try congruence;
    specialize (W2 eq_refl); lia.
  - unfold DeclSpec.size. cbn. lia.
Qed.
Definition scalarKind (k : kind) : bool := match k with KLb | KStructPtr => false | _ => true end.
Lemma scalar_kind q t : scalar t -> enc st q t -> exists k v, zget st q = Some (k, v) /\ scalarKind k = true.
Proof.
  destruct t as [s| | |]; intros Sc E; try contradiction; inversion E; subst; do 2 eexists; (split; [eassumption|]); [|reflexivity].
  destruct s; cbn [scalTok]; try reflexivity; destruct (W =? 2); reflexivity.
Qed.
Lemma char_kind q t : enc st q t -> exists k v, zget st q = Some (k, v) /\ (isCharKind k = true <-> character t).
Proof.
  intros E; inversion E; subst; do 2 eexists; (split; [eassumption|]); try (split; [discriminate|intros []]).
  destruct s; cbn [scalTok character]; try (split; [discriminate|intros []]); try solve [split; intros; (exact I || reflexivity)];
  destruct (W =? 2); (split; [discriminate|intros []]).
Qed.

Lemma open_expr e r : open (TExpr e :: r) = (false, TExpr e :: r). Proof. reflexivity. Qed.
Lemma initScalar_ok q t e d (c : bool) tl : okt q t -> scalar t -> sdata W (size t) e = Some d -> c = false ->
  initScalar q (TExpr e :: tl) = Ok (d, tl) /\ initScalar q (text (IL [IE e] c) ++ tl) = Ok (d, tl).
Proof.
  intros K Sc D ->. destruct (okt_size q t K) as (G & U & R). pose proof (scalar_size t Sc (k_wf _ _ K)) as SW.
  unfold InitModel.initScalar. rewrite G. cbn [rbind open text app close]. rewrite U.
  destruct e as [v|l o|s|]; cbn [sdata] in D.
  - injection D as <-. rewrite intData_ok by lia. split; reflexivity.
  - destruct (size t =? W); [|discriminate D]. injection D as <-. rewrite addrData_ok. split; reflexivity.
  - destruct (size t =? W); [|discriminate D]. injection D as <-. split; reflexivity.
  - discriminate D.
Qed.

(** ** loops *)
Definition aftB (braces : bool) (r : list ini) (tl x tk : list itok) : Prop :=
  if braces then r = [] -> tk = TRb :: x else aft r tl x tk.
Lemma moffsets_len u ms : length (moffsets W u ms) = length ms.
Proof. exact (moff_len W u 0 ms). Qed.
Lemma inimems_in u ms x : In x (inimems W u ms) -> exists k m, nth_error ms k = Some m /\ nth_error (moffsets W u ms) k = Some (fst x) /\ snd x = snd (snd m).
Proof.
  intros H. assert (G : In x (combine (moffsets W u ms) (map (fun m => snd (snd m)) ms))).
  { unfold inimems in H. destruct u; [|exact H]. destruct (combine _ _); [exact H|]. destruct H as [<-|[]]. left. reflexivity. }
  clear H. pose proof (moffsets_len u ms) as L. revert L G. generalize (moffsets W u ms) as os. intros os. revert ms.
  induction os as [|o os IH]; intros [|m ms] L G; try contradiction; try discriminate L. cbn [map combine] in G.
  destruct G as [<-|G]; [exists 0%nat, m; repeat split|].
  destruct (IH ms ltac:(cbn in L; lia) G) as (k & m' & A & B & C). exists (S k), m'. repeat split; assumption.
Qed.
Lemma inimems_wf u ms : wfty (TyAgg u ms) -> inimems W u ms <> [] /\ Forall (fun x => wfty (snd x)) (inimems W u ms).
Proof.
  intros WT. apply wfty_agg in WT. destruct WT as [NE WT]. split.
  - unfold inimems. pose proof (moffsets_len u ms) as L. destruct ms as [|m ms]; [contradiction|].
    destruct (moffsets W u (m :: ms)); [discriminate L|]. destruct u; discriminate.
  - apply Forall_forall. intros x I. destruct (inimems_in u ms x I) as (k & m & A & _ & ->). apply nth_error_In in A. apply WT. exact A.
Qed.
Lemma suffixes :
  (forall t l d r, takes t l d r -> wfty t -> exists l0, l0 <> [] /\ l = l0 ++ r) /\
  (forall t l d r, parts t l d r -> wfty t -> exists l0, (l <> [] -> l0 <> []) /\ l = l0 ++ r) /\
  (forall n t l d r, elems n t l d r -> wfty t -> exists l0, (0 < n -> l <> [] -> l0 <> []) /\ l = l0 ++ r) /\
  (forall o ms tot l d r, mems o ms tot l d r -> Forall (fun x => wfty (snd x)) ms -> exists l0, (ms <> [] -> l <> [] -> l0 <> []) /\ l = l0 ++ r).
Proof.
  apply takes_mut.
  - intros t e d r _ _ _. exists [IE e]. split; [discriminate|reflexivity].
  - intros t e c d r _ _ _ _. exists [IL [IE e] c]. split; [discriminate|reflexivity].
  - intros n t s r _ _ _ _. exists [IE (SStr s)]. split; [discriminate|reflexivity].
  - intros n t s c r _ _ _ _ _. exists [IL [IE (SStr s)] c]. split; [discriminate|reflexivity].
  - intros t l c d r _ _ _ _ _. exists [IL l c]. split; [discriminate|reflexivity].
  - intros t e l d r _ _ IH WT. destruct (IH WT) as (l0 & N & E). exists l0. split; [apply N; discriminate|exact E].
  - intros n t l d r _ IH [N WT]. destruct (IH WT) as (l0 & A & E). exists l0. split; [apply A; lia|exact E].
  - intros u ms l d r _ IH WT. destruct (inimems_wf u ms WT) as [N F]. destruct (IH F) as (l0 & A & E). exists l0. split; [apply A; exact N|exact E].
  - intros t r _. exists []. split; [lia|reflexivity].
  - intros n t _ _. exists []. split; [congruence|reflexivity].
  - intros n t l d l' d' r _ _ IH1 _ IH2 WT. destruct (IH1 WT) as (l1 & N1 & ->). destruct (IH2 WT) as (l2 & _ & ->).
    exists (l1 ++ l2). split; [destruct l1; [contradiction|discriminate]|apply app_assoc].
  - intros o tot r _. exists []. split; [congruence|reflexivity].
  - intros o ms tot _ _. exists []. split; [congruence|reflexivity].
  - intros o p t ms tot l d l' d' r _ IH1 _ IH2 WT. apply Forall_cons_iff in WT. destruct WT as [W1 W2]. destruct (IH1 W1) as (l1 & N1 & ->). destruct (IH2 W2) as (l2 & _ & ->).
    exists (l1 ++ l2). split; [destruct l1; [contradiction|discriminate]|apply app_assoc].
Qed.
Lemma takes_suffix t l d r : takes t l d r -> wfty t -> exists l0, l0 <> [] /\ l = l0 ++ r.
Proof. apply suffixes. Qed.
Lemma takes_nil t d r : ~ takes t [] d r.
Proof. intros H. inversion H. Qed.
Lemma elements_end one fuel req cnt braces x : elements one (S fuel) req cnt braces (TRb :: x) = Ok ([], cnt, TRb :: x).
Proof. reflexivity. Qed.
Lemma not_rb l tl : l <> [] -> forall A (a b : A), match toksOf l tl with TRb :: _ => a | _ => b end = b.
Proof. intros N A a b. destruct (toksOf_head l tl N) as (t & r & -> & [-> |[e ->]]); reflexivity. Qed.

Definition oneOk (one : list itok -> res (list cell * list itok)) (t : cty) l d r : Prop :=
  forall tl x, closing tl x -> exists tk, one (toksOf l tl) = Ok (d, tk) /\ aft r tl x tk.

Definition Pelems (n : Z) (t : cty) l d r : Prop :=
  0 < n -> forall q fuel F req cnt braces tl x, okt q t -> (depth t < fuel)%nat -> closing tl x ->
    req = cnt + n -> 0 <= cnt -> req < M -> l <> [] -> (length l < F)%nat ->
    exists d0 cnt' tk, elements (init fuel q) F req cnt braces (toksOf l tl) = Ok (d0, cnt', tk) /\
      d = d0 ++ zeros ((req - cnt') * size t) /\ cnt < cnt' <= req /\ aftB braces r tl x tk.
Definition Ptakes (t : cty) l d r : Prop :=
  forall q fuel, okt q t -> (depth t < fuel)%nat -> oneOk (init fuel q) t l d r.

(** members in the table: offsets and places *)
Definition okmem (tot : Z) (fuel : nat) (x : Z * Z) (y : Z * cty) : Prop :=
  fst x = fst y /\ okt (snd x) (snd y) /\ (depth (snd y) < fuel)%nat /\ 0 <= fst y /\ fst y + size (snd y) <= tot.
Definition Pmems (o : Z) (ms : list (Z * cty)) (tot : Z) l d r : Prop :=
  forall fuel F (u braces : bool) p q prs tl x, Forall2 (okmem tot fuel) ((p, q) :: prs) ms -> 0 <= o <= tot -> tot < M ->
    (if u then prs = [] else chain st q prs) -> (exists nx, scanM (skipn (Z.to_nat q) st) q 1 = Some nx) ->
    closing tl x -> l <> [] -> (length l < F)%nat ->
    exists d0 o' tk, memberLoop (init fuel) F u p q o braces (toksOf l tl) = Ok (d0, o', tk) /\
      d = d0 ++ zeros (tot - o') /\ 0 < o' <= tot /\ aftB braces r tl x tk.
Definition Pparts (t : cty) l d r : Prop :=
  match t with
  | TyArr n t => Pelems n t l d r
  | TyAgg u ms => Pmems 0 (inimems W u ms) (size (TyAgg u ms)) l d r
  | _ => False
  end.

Lemma Pel_next n t l d l' d' r : 0 < n -> takes t l d l' -> Ptakes t l d l' -> elems (n - 1) t l' d' r -> Pelems (n - 1) t l' d' r ->
  Pelems n t l (d ++ d') r.
Proof.
  intros N T PT E PE _ q fuel F req cnt braces tl x K DF CL RQ CN RM NL LF. pose proof (M_le W HW) as ML.
  destruct F as [|F]; [lia|]. cbn [elements]. rewrite (not_rb l tl NL).
  destruct (PT q fuel K DF tl x CL) as (tk1 & O1 & A1). rewrite O1. cbn [rbind]. rewrite (u32_small (cnt + 1)) by lia.
  destruct (okt_size q t K) as (_ & _ & SZ).
  destruct (n =? 1) eqn:N1.
  - assert (n = 1) by lia. subst n. assert (d' = [] /\ r = l') as [-> ->].
    { inversion E; subst; try lia. split; reflexivity. }
    replace ((req <=? cnt + 1) && negb (req =? 0)) with true by lia.
    do 3 eexists. split; [reflexivity|]. split; [rewrite zeros_neg by lia; reflexivity|]. split; [lia|].
    unfold aftB. destruct braces.
    + intros ->. destruct A1 as [A1|[_ A1]]; rewrite A1; [|reflexivity]. cbn [after]. destruct CL as [-> | ->]; reflexivity.
    + replace (match tk1 with TComma :: _ => tk1 | _ => tk1 end) with tk1 by (destruct tk1 as [|[]]; reflexivity). exact A1.
  - replace ((req <=? cnt + 1) && negb (req =? 0)) with false by lia.
    destruct l' as [|i l'].
    + assert (d' = zeros ((n - 1) * size t) /\ r = []) as [-> ->].
      { inversion E; subst; try lia.
        - split; reflexivity.
        - exfalso; eapply takes_nil; eassumption. }
      assert (RB : forall tk, closing tk x -> match tk with
        | TComma :: toks => let! (d', cnt0, toks) := elements (init fuel q) F req (cnt + 1) braces toks in Ok (d ++ d', cnt0, toks)
        | TRb :: _ => Ok (d, cnt + 1, tk) | _ => Bad end = Ok (d, cnt + 1, TRb :: x)).
      { intros tk [-> | ->]; [reflexivity|]. destruct F as [|F].
        - exfalso. destruct l; [contradiction|]. cbn [length] in *; lia.
        - rewrite elements_end. cbn [rbind]. rewrite app_nil_r. reflexivity. }
      rewrite RB. 2: { destruct A1 as [A1|[_ A1]]; rewrite A1; [exact CL|left; reflexivity]. }
      do 3 eexists. split; [reflexivity|]. split; [do 2 f_equal; lia|]. split; [lia|].
      unfold aftB. destruct braces; [reflexivity|]. right. split; reflexivity.
    + destruct A1 as [A1|[A1 _]]; [|discriminate A1]. rewrite A1. cbn [after].
      assert (LL : (length (i :: l') < F)%nat).
      { destruct (takes_suffix t l d (i :: l') T (k_wf _ _ K)) as (l0 & N0 & ->). rewrite app_length in LF. destruct l0; [contradiction|]. cbn [length] in *. lia. }
      destruct (PE ltac:(lia) q fuel F req (cnt + 1) braces tl x K DF CL ltac:(lia) ltac:(lia) RM ltac:(discriminate) LL) as (d0 & cnt' & tk & P1 & P2 & P3 & P4).
      rewrite P1. cbn [rbind]. do 3 eexists. split; [reflexivity|]. split; [rewrite P2, app_assoc; reflexivity|]. split; [lia|exact P4].
Qed.

Lemma Pme_next o p t ms tot l d l' d' r : takes t l d l' -> Ptakes t l d l' -> mems (p + size t) ms tot l' d' r ->
  Pmems (p + size t) ms tot l' d' r -> Pmems o ((p, t) :: ms) tot l (zeros (p - o) ++ d ++ d') r.
Proof.
  intros T PT E PE fuel F u braces p0 q prs tl x F2 OO TM CH NX CL NL LF. pose proof (M_le W HW) as ML.
  inversion F2 as [|a b la lb OK1 F2' E1 E2]; subst. destruct OK1 as (P0 & K & DF & PP & PS). cbn [fst snd] in *. subst p0.
  destruct (okt_size q t K) as (G & U & SZ).
  destruct F as [|F]; [lia|]. cbn [InitModel.memberLoop]. rewrite (not_rb l tl NL). rewrite G. cbn [rbind].
  destruct (PT q fuel K DF tl x CL) as (tk1 & O1 & A1). rewrite O1. cbn [rbind].
  rewrite zeros_if by lia.
  assert (OF : u32 (p + s32 (size t)) = p + size t).
  { rewrite <- U at 2. unfold u32. rewrite <- wrap_add_r. rewrite wrap_small; [reflexivity|]. fold u32. rewrite U. change (2 ^ 32) with (2 ^ 32). lia. }
  rewrite OF. destruct NX as [nx NX]. rewrite NX.
  assert (LAST : ms = [] -> exists d0 o' tk, Ok (zeros (p - o) ++ d, p + size t, match tk1 with TComma :: r0 => if braces then r0 else tk1 | _ => tk1 end) = Ok (d0, o', tk) /\
      zeros (p - o) ++ d ++ d' = d0 ++ zeros (tot - o') /\ 0 < o' <= tot /\ aftB braces r tl x tk).
  { intros ->. do 3 eexists. split; [reflexivity|]. assert (d' = zeros (tot - (p + size t)) /\ r = l') as [-> ->].
    { inversion E; subst; try contradiction. split; reflexivity. }
    split; [rewrite <- app_assoc; reflexivity|]. split; [lia|]. unfold aftB. destruct braces.
    + intros ->. destruct A1 as [A1|[_ A1]]; rewrite A1; [|reflexivity]. cbn [after]. destruct CL as [-> | ->]; reflexivity.
    + replace (match tk1 with TComma :: _ => tk1 | _ => tk1 end) with tk1 by (destruct tk1 as [|[]]; reflexivity). exact A1. }
  destruct nx as [[p' q']|].
  2: { apply LAST. destruct u; [subst prs; inversion F2'; reflexivity|].
       inversion CH; subst; [inversion F2'; reflexivity|congruence]. }
  destruct u; [apply LAST; subst prs; inversion F2'; reflexivity|].
  inversion CH as [|a1 a2 a3 prs' a5 CH1 CH2]; subst; [congruence|]. rewrite NX in CH1. injection CH1 as -> ->.
  assert (NX' : exists nx, scanM (skipn (Z.to_nat a3) st) a3 1 = Some nx) by (inversion CH2; subst; eauto).
  assert (MS : ms <> []) by (intros ->; inversion F2').
  destruct l' as [|i l'].
  + assert (d' = zeros (tot - (p + size t)) /\ r = []) as [-> ->].
    { inversion E; subst; try contradiction; [split; reflexivity|]. exfalso; eapply takes_nil; eassumption. }
    assert (RB : forall tk, closing tk x -> match tk with
        | TComma :: toks => let! (d', ofs, toks) := memberLoop (init fuel) F false a2 a3 (p + size t) braces toks in Ok (zeros (p - o) ++ d ++ d', ofs, toks)
        | TRb :: _ => Ok (zeros (p - o) ++ d, p + size t, tk) | _ => Bad end = Ok (zeros (p - o) ++ d, p + size t, TRb :: x)).
    { intros tk [-> | ->]; [reflexivity|]. destruct F as [|F].
      - exfalso. destruct l; [contradiction|]. cbn [length] in *; lia.
      - cbn [InitModel.memberLoop rbind]. rewrite app_nil_r. reflexivity. }
    rewrite RB. 2: { destruct A1 as [A1|[_ A1]]; rewrite A1; [exact CL|left; reflexivity]. }
    do 3 eexists. split; [reflexivity|]. split; [rewrite <- app_assoc; reflexivity|]. split; [lia|].
    unfold aftB. destruct braces; [reflexivity|]. right. split; reflexivity.
  + destruct A1 as [A1|[A1 _]]; [|discriminate A1]. rewrite A1. cbn [after].
    assert (LL : (length (i :: l') < F)%nat).
    { destruct (takes_suffix t l d (i :: l') T (k_wf _ _ K)) as (l0 & N0 & ->). rewrite app_length in LF. destruct l0; [contradiction|]. cbn [length] in *. lia. }
    destruct (PE fuel F false braces a2 a3 prs' tl x F2' ltac:(lia) TM CH2 NX' CL ltac:(discriminate) LL) as (d0 & o' & tk & P1 & P2 & P3 & P4).
    rewrite P1. cbn [rbind]. do 3 eexists. split; [reflexivity|]. split; [rewrite P2, <- !app_assoc; reflexivity|]. split; [lia|exact P4].
Qed.

(** ** arrays and structures *)
Lemma char_size t : character t -> size t = 1 /\ scalar t /\ (depth t = 0)%nat.
Proof. destruct t as [[]| | |]; intros []; repeat split. Qed.
Lemma notstr n t s l d r : elems n t (IE (SStr s) :: l) d r -> 0 < n -> ~ character t.
Proof.
  intros E N C. destruct (char_size t C) as (S1 & SC & _). inversion E; subst; [lia|].
  match goal with H : takes _ _ _ _ |- _ => inversion H; subst end.
  - match goal with H : sdata _ _ _ = _ |- _ => cbn [sdata] in H; rewrite S1 in H end.
    replace (1 =? W) with false in * by (destruct HW; lia). discriminate.
  - contradiction.
  - destruct t; contradiction.
Qed.
Lemma okt_elem q n t : okt q (TyArr n t) -> okt (q + 3) t /\ (1 <= n < M) /\ zget st (q + 1) = Some (KNum, n) /\ n * size t < M /\ (exists v, zget st q = Some (KLb, v)).
Proof.
  intros [E [N WT] S]. destruct (sa_arr W n t) as [SZ _]. rewrite SZ in S. destruct (sizes W HW _ WT) as [S1 _].
  inversion E; subst. split; [split; [assumption|exact WT|nia]|]. repeat split; try lia; try assumption. eauto.
Qed.
Definition strof (b : bool) (toks : list itok) : option (list Z * list itok) :=
  match toks with TExpr (SStr s) :: toks => if b then Some (s, toks) else None | _ => None end.

(** a list in an array *)
Lemma array_list n t l d r q fuel (braces : bool) tl x : okt q (TyArr n t) -> (depth t < fuel)%nat -> closing tl x ->
  elems n t l d r -> Pelems n t l d r -> l <> [] ->
  (if braces then r = [] else exists e l', l = IE e :: l') ->
  exists c tk, initArray (init fuel) q ((if braces then [TLb] else []) ++ toksOf l tl) = Ok (d, c, tk) /\
    (if braces then tk = x else aft r tl x tk).
Proof.
  intros K DF CL E PE NL B. pose proof (M_le W HW) as ML. destruct (okt_elem q n t K) as (KE & N & Z1 & SN & _).
  destruct (okt_size _ _ KE) as (G & U & SZ). destruct (char_kind _ _ (k_enc _ _ KE)) as (ek & v & Z3 & CK).
  unfold InitModel.initArray. rewrite Z1, Z3, G. cbn [rbind]. rewrite U. rewrite (u32_small n) by lia.
  assert (OP : open ((if braces then [TLb] else []) ++ toksOf l tl) = (braces, toksOf l tl)).
  { destruct braces; [reflexivity|]. destruct B as (e & l' & ->). rewrite toksOf_cons. reflexivity. }
  rewrite OP.
  assert (NS : match toksOf l tl with TExpr (SStr s) :: toks => if isCharKind ek then Some (s, toks) else None | _ => None end = None).
  { destruct l as [|i l]; [contradiction|]. rewrite toksOf_cons. destruct i as [[]|]; try reflexivity. cbn [text app].
    destruct (isCharKind ek) eqn:IC; [|reflexivity]. exfalso. eapply notstr; [exact E|lia|apply CK; reflexivity]. }
  rewrite NS.
  destruct (PE ltac:(lia) (q + 3) fuel (S (length (toksOf l tl))) n 0 braces tl x KE DF CL ltac:(lia) ltac:(lia) ltac:(lia) NL) as (d0 & c & tk & P1 & P2 & P3 & P4).
  { pose proof (toksOf_len l tl). lia. }
  rewrite P1. cbn [rbind]. replace (braces && (c =? 0)) with false by (destruct braces; lia).
  assert (TAIL : (if c <? n then uz W ((n - c) * size t) else []) = zeros ((n - c) * size t)).
  { destruct (c <? n) eqn:X; [apply uz_ok; nia|]. replace (n - c) with 0 by lia. reflexivity. }
  rewrite TAIL, <- P2. destruct braces; cbn [close aftB] in *.
  - rewrite (P4 B). cbn [rbind]. do 2 eexists. split; reflexivity.
  - cbn [rbind]. do 2 eexists. split; [reflexivity|exact P4].
Qed.
(** a string in an array of characters *)
Lemma array_string n t s q one (braces : bool) x : okt q (TyArr n t) -> character t -> zlen s <= n -> zlen s < M - 1 ->
  exists c, initArray one q ((if braces then [TLb] else []) ++ TExpr (SStr s) :: (if braces then [TRb] else []) ++ x) =
    Ok (map CByte s ++ zeros (n - zlen s), c, x).
Proof.
  intros K C L LM. pose proof (M_le W HW) as ML. destruct (okt_elem q n t K) as (KE & N & Z1 & SN & _).
  destruct (okt_size _ _ KE) as (G & U & SZ). destruct (char_kind _ _ (k_enc _ _ KE)) as (ek & v & Z3 & CK).
  destruct (char_size t C) as (S1 & _). pose proof (zlen_nonneg s).
  unfold InitModel.initArray. rewrite Z1, Z3, G. cbn [rbind]. rewrite U. rewrite (u32_small n) by lia.
  assert (OP : open ((if braces then [TLb] else []) ++ TExpr (SStr s) :: (if braces then [TRb] else []) ++ x) =
    (braces, TExpr (SStr s) :: (if braces then [TRb] else []) ++ x)) by (destruct braces; reflexivity).
  rewrite OP. apply CK in C. rewrite C.
  assert (TU : truncUint W (u32 (-1)) = M - 1).
  { rewrite (tU W HW), (w_u32 W HW). unfold word, wrap. destruct HW as [E|E]; rewrite E; reflexivity. }
  rewrite TU. replace (M - 1 <=? zlen s) with false by lia. replace (negb (n =? 0) && (n <? zlen s)) with false by lia.
  replace (close braces ((if braces then [TRb] else []) ++ x)) with (Ok x) by (destruct braces; reflexivity). cbn [rbind].
  replace (n =? 0) with false by lia. eexists. do 3 f_equal. rewrite app_nil_r. rewrite S1, Z.mul_1_r. f_equal. apply zeros_if; lia.
Qed.

(** the members of a structure *)
Lemma moffsets_le u ms k m o : wfty (TyAgg u ms) -> nth_error ms k = Some m -> nth_error (moffsets W u ms) k = Some o ->
  0 <= o /\ o + size (snd (snd m)) <= size (TyAgg u ms).
Proof.
  intros WT N1 N2. pose proof (okm_wf W HW u ms WT) as OK. set (l := map (msa W) ms) in *.
  pose proof (okm_maxalign W HW _ OK) as OA. assert (AP : 0 < maxalign l) by (destruct OA as [[-> | [-> | ->]] _]; lia).
  assert (SZ : size (TyAgg u ms) = up (if u then maxsize l else endof 0 l) (maxalign l)) by (unfold DeclSpec.size; rewrite sa_agg; reflexivity).
  pose proof (up_ge (if u then maxsize l else endof 0 l) (maxalign l) AP) as UG. rewrite SZ.
  pose proof (map_nth_error (msa W) k ms N1) as N3. fold l in N3. pose proof (nth_error_In _ _ N3) as I3.
  unfold moffsets in N2. fold l in N2. destruct u.
  - rewrite nth_error_map, N1 in N2. cbn in N2. injection N2 as <-. pose proof (okm_maxsize l _ I3) as X. cbn [DeclSpec.msa fst] in X. lia.
  - assert (G : forall l o0 k x s, (forall m, In m l -> 1 <= fst m /\ DeclProof.okal W (snd m)) -> 0 <= o0 ->
        nth_error (offsets o0 l) k = Some x -> nth_error l k = Some s -> o0 <= x /\ x + fst s <= endof o0 l).
    { clear. induction l as [|[s a] l IH]; intros o0 k x y OK Ho H H2; [destruct k; discriminate H|].
      assert (1 <= s /\ okal W a) as [S A] by (apply (OK (s, a)); left; reflexivity).
      assert (A0 : 0 < a) by (destruct A as [[-> | [-> | ->]] _]; lia). pose proof (up_ge o0 a A0) as U.
      assert (OK' : forall x, In x l -> 1 <= fst x /\ okal W (snd x)) by (intros z Z; apply OK; right; exact Z).
      pose proof (okm_endof W l (up o0 a + s) OK' ltac:(lia)) as E. pose proof (zlen_nonneg l).
      cbn [offsets endof] in *. destruct k as [|k]; cbn [nth_error] in *.
      - injection H as <-. injection H2 as <-. cbn [fst]. lia.
      - destruct (IH (up o0 a + s) k x y OK' ltac:(lia) H H2) as [M1 M2]. lia. }
    destruct (G l 0 k o _ OK ltac:(lia) N2 N3) as [M1 M2]. cbn [DeclSpec.msa fst] in M2. lia.
Qed.
Lemma depth_mem u ms m : In m ms -> (depth (snd (snd m)) < depth (TyAgg u ms))%nat.
Proof.
  intros I. cbn [depth]. induction ms as [|a ms IH]; [destruct I|]. cbn [fold_right]. destruct I as [->|I]; [lia|]. specialize (IH I). lia.
Qed.
Lemma okt_members q u ms fuel : okt q (TyAgg u ms) -> (depth (TyAgg u ms) <= fuel)%nat ->
  exists j v p0 q0 prs, zget st q = Some (KStructPtr, j) /\ zget st j = Some (if u then KUnion else KStruct, v) /\
    zget st (j + 2) = Some (KSize, size (TyAgg u ms)) /\
    scanM (skipn (Z.to_nat (j + 5)) st) (j + 5) 1 = Some (Some (p0, q0)) /\
    Forall2 (okmem (size (TyAgg u ms)) fuel) ((p0, q0) :: prs) (inimems W u ms) /\
    (if u then prs = [] else chain st q0 prs) /\ exists nx, scanM (skipn (Z.to_nat q0) st) q0 1 = Some nx.
Proof.
  intros [E WT S] DF. inversion E as [| | |i j u' ms' Z0 ES]; subst. inversion ES as [j' u' ms' prs v tg Z1 Z2 Z3 Z4 SM _ EM CH MO]; subst.
  exists j, v.
  assert (F : Forall2 (okmem (size (TyAgg u ms)) fuel) prs (combine (moffsets W u ms) (map (fun m => snd (snd m)) ms))).
  { assert (G : forall k x m o, nth_error prs k = Some x -> nth_error ms k = Some m -> nth_error (moffsets W u ms) k = Some o -> okmem (size (TyAgg u ms)) fuel x (o, snd (snd m))).
    { intros k x m o N1 N2 N3. destruct (moffsets_le u ms k m o WT N2 N3) as [L1 L2]. unfold okmem. cbn [fst snd].
      assert (XO : fst x = o). { rewrite <- MO in N3. rewrite nth_error_map, N1 in N3. cbn in N3. now injection N3. }
      pose proof (nth_error_In _ _ N2) as I. apply wfty_agg in WT. destruct WT as [_ WT].
      split; [exact XO|]. split; [split; [eapply EM; eassumption|apply WT; exact I|lia]|].
      split; [pose proof (depth_mem u ms m I); lia|lia]. }
    apply Forall2_nth.
    - rewrite combine_length, map_length, moffsets_len, Nat.min_id. rewrite <- (map_length fst prs), MO. apply moffsets_len.
    - intros k x [o ty] N1 N2. apply nth_error_combine in N2. destruct N2 as [N2 N3]. rewrite nth_error_map in N3.
      destruct (nth_error ms k) as [m|] eqn:N4; [|discriminate N3]. injection N3 as <-. eapply G; eassumption. }
  pose proof (inimems_wf u ms WT) as [NE _].
  destruct prs as [|[p0 q0] prs].
  { exfalso. apply NE. unfold inimems. inversion F as [E0|]. destruct u; reflexivity. }
  inversion CH as [|a1 a2 a3 a4 a5 CH1 CH2]; subst.
  assert (NX : exists nx, scanM (skipn (Z.to_nat q0) st) q0 1 = Some nx) by (inversion CH2; subst; eauto).
  exists p0, q0, (if u then [] else prs). repeat (split; [assumption|]). split; [|split; [destruct u; [reflexivity|assumption]|exact NX]].
  unfold inimems. destruct u; [|exact F]. destruct (combine _ _) as [|y l']; [inversion F|]. inversion F; subst. cbn [firstn]. constructor; [assumption|constructor].
Qed.

Lemma struct_list u ms l d r q fuel (braces : bool) tl x : okt q (TyAgg u ms) -> (depth (TyAgg u ms) <= fuel)%nat -> closing tl x ->
  Pmems 0 (inimems W u ms) (size (TyAgg u ms)) l d r -> l <> [] ->
  (if braces then r = [] else exists e l', l = IE e :: l') ->
  exists j tk, zget st q = Some (KStructPtr, j) /\
    initStruct (init fuel) j ((if braces then [TLb] else []) ++ toksOf l tl) = Ok (d, tk) /\
    (if braces then tk = x else aft r tl x tk).
Proof.
  intros K DF CL PM NL B. pose proof (M_le W HW) as ML.
  destruct (okt_members q u ms fuel K DF) as (j & v & p0 & q0 & prs & Z0 & Z1 & Z2 & SC & F2 & CH & NX).
  destruct (okt_size _ _ K) as (_ & _ & SZ).
  exists j. unfold InitModel.initStruct. rewrite Z1, Z2.
  assert (OP : open ((if braces then [TLb] else []) ++ toksOf l tl) = (braces, toksOf l tl)).
  { destruct braces; [reflexivity|]. destruct B as (e & l' & ->). rewrite toksOf_cons. reflexivity. }
  rewrite OP, SC. replace (kind_eqb (if u then KUnion else KStruct) KUnion) with u by (destruct u; reflexivity).
  destruct (PM fuel (S (length (toksOf l tl))) u braces p0 q0 prs tl x F2 ltac:(lia) (k_sz _ _ K) CH NX CL NL) as (d0 & o & tk & P1 & P2 & P3 & P4).
  { pose proof (toksOf_len l tl). lia. }
  rewrite P1. cbn [rbind]. replace (braces && (o =? 0)) with false by (destruct braces; lia).
  rewrite zeros_if by lia. rewrite <- P2. destruct braces; cbn [close aftB] in *.
  - rewrite (P4 B). cbn [rbind]. eexists. repeat (split; [eassumption || reflexivity|]). reflexivity.
  - cbn [rbind]. eexists. repeat (split; [eassumption || reflexivity|]). exact P4.
Qed.

Lemma init_scalar q t fuel toks : okt q t -> scalar t -> init (S fuel) q toks = initScalar q toks.
Proof.
  intros K Sc. destruct (scalar_kind q t Sc (k_enc _ _ K)) as (k & v & Z0 & KK). cbn [InitModel.init]. rewrite Z0.
  destruct k; try discriminate KK; reflexivity.
Qed.
Lemma init_array q n t fuel toks : okt q (TyArr n t) -> init (S fuel) q toks = let! (d, _, toks) := initArray (init fuel) q toks in Ok (d, toks).
Proof. intros K. destruct (okt_elem q n t K) as (_ & _ & _ & _ & v & Z0). cbn [InitModel.init]. rewrite Z0. reflexivity. Qed.
Lemma init_struct q j fuel toks : zget st q = Some (KStructPtr, j) -> init (S fuel) q toks = initStruct (init fuel) j toks.
Proof. intros Z0. cbn [InitModel.init]. rewrite Z0. reflexivity. Qed.

(** everything correct is accepted *)
Lemma accepted :
  (forall t l d r, takes t l d r -> Ptakes t l d r) /\
  (forall t l d r, parts t l d r -> Pparts t l d r) /\
  (forall n t l d r, elems n t l d r -> elems n t l d r /\ Pelems n t l d r) /\
  (forall o ms tot l d r, mems o ms tot l d r -> mems o ms tot l d r /\ Pmems o ms tot l d r).
Proof.
  apply takes_mut.
  - intros t e d r Sc D q fuel K DF tl x CL. destruct fuel as [|fuel]; [lia|]. rewrite (init_scalar q t) by assumption.
    exists (after r tl). split; [|left; reflexivity]. rewrite toksOf_cons. cbn [text app].
    apply (initScalar_ok q t e d false); trivial.
  - intros t e c d r Sc D OC q fuel K DF tl x CL. destruct fuel as [|fuel]; [lia|]. rewrite (init_scalar q t) by assumption.
    exists (after r tl). split; [|left; reflexivity]. rewrite toksOf_cons.
    apply (initScalar_ok q t e d c); trivial. destruct c; [|reflexivity]. specialize (OC eq_refl). discriminate OC.
  - intros n t s r C L OS q fuel K DF tl x CL. destruct fuel as [|fuel]; [lia|]. rewrite (init_array q n t) by assumption.
    exists (after r tl). split; [|left; reflexivity]. rewrite toksOf_cons. cbn [text app].
    destruct (array_string n t s q (init fuel) false (after r tl) K C L) as (c & E). { destruct OS as [OS|OS]; [exact OS|discriminate OS]. }
    cbn [app] in E. rewrite E. reflexivity.
  - intros n t s c r C L OS OC q fuel K DF tl x CL. destruct fuel as [|fuel]; [lia|]. rewrite (init_array q n t) by assumption.
    exists (after r tl). split; [|left; reflexivity]. rewrite toksOf_cons. destruct c; [specialize (OC eq_refl); discriminate OC|]. cbn [text app].
    destruct (array_string n t s q (init fuel) true (after r tl) K C L) as (c & E). { destruct OS as [OS|OS]; [exact OS|discriminate OS]. }
    cbn [app] in E. rewrite E. reflexivity.
  - intros t l c d r AG NL PT PP q fuel K DF tl x CL. destruct fuel as [|fuel]; [lia|].
    exists (after r tl). split; [|left; reflexivity]. rewrite toksOf_cons, text_IL.
    destruct t as [| |n t|u ms]; try contradiction; cbn [Pparts depth] in *.
    + inversion PT; subst. rewrite (init_array q n t) by assumption.
      destruct (array_list n t l d [] q fuel true _ _ K ltac:(lia) (closing_c c (after r tl)) ltac:(assumption) PP NL eq_refl) as (c0 & tk & E1 & E2).
      cbn [app] in E1. rewrite E1. cbn [rbind]. rewrite E2. reflexivity.
    + destruct (struct_list u ms l d [] q fuel true _ _ K ltac:(cbn [depth]; lia) (closing_c c (after r tl)) PP NL eq_refl) as (j & tk & Z0 & E1 & E2).
      rewrite (init_struct q j) by assumption. cbn [app] in E1. rewrite E1, E2. reflexivity.
  - intros t e l d r AG PT PP q fuel K DF tl x CL. destruct fuel as [|fuel]; [lia|].
    destruct t as [| |n t|u ms]; try contradiction; cbn [Pparts depth] in *.
    + inversion PT; subst. rewrite (init_array q n t) by assumption.
      destruct (array_list n t (IE e :: l) d r q fuel false tl x K ltac:(lia) CL ltac:(assumption) PP ltac:(discriminate) (ex_intro _ e (ex_intro _ l eq_refl))) as (c0 & tk & E1 & E2).
      cbn [app] in E1. rewrite E1. cbn [rbind]. eexists. split; [reflexivity|exact E2].
    + destruct (struct_list u ms (IE e :: l) d r q fuel false tl x K ltac:(cbn [depth]; lia) CL PP ltac:(discriminate) (ex_intro _ e (ex_intro _ l eq_refl))) as (j & tk & Z0 & E1 & E2).
      rewrite (init_struct q j) by assumption. cbn [app] in E1. rewrite E1. eexists. split; [reflexivity|exact E2].
  - intros n t l d r _ [_ P]. exact P.
  - intros u ms l d r _ [_ P]. exact P.
  - intros t r. split; [constructor|]. intros N. lia.
  - intros n t N. split; [constructor; exact N|]. intros _ q fuel F req cnt braces tl x K DF CL RQ CN RM NL. contradiction.
  - intros n t l d l' d' r N T PT E [_ PE]. split; [econstructor; eassumption|]. eapply Pel_next; eassumption.
  - intros o tot r. split; [constructor|]. intros fuel F u braces p q prs tl x F2. inversion F2.
  - intros o ms tot N. split; [constructor; exact N|]. intros fuel F u braces p q prs tl x F2 OO TM CH NX CL NL. contradiction.
  - intros o p t ms tot l d l' d' r T PT E [_ PE]. split; [econstructor; eassumption|]. eapply Pme_next; eassumption.
Qed.
End P.
