(** Initialisers: what is accepted is correct. *)
From Verif Require Import Base BaseLemmas ExprSpec FoldModel FoldProof DeclSpec DeclModel DeclProof DeclMain DeclProg InitSpec InitModel InitProof.
From Verif Require CharSpec.

Lemma rbind_ok {A B} (r : res A) (f : A -> res B) b : rbind r f = Ok b -> exists a, r = Ok a /\ f a = Ok b.
Proof. destruct r; cbn [rbind]; intros H; try discriminate H. eauto. Qed.

Section P.
Variable W : Z.
Hypothesis HW : W = 2 \/ W = 4.
Variable cs : bool.
Variable st : stk.
Notation M := (2 ^ (8 * W)).
Notation size := (size W).
Notation enc := (enc W). Notation wfty := (wfty W). Notation okt := (okt W st).
Notation takes := (takes W false). Notation parts := (parts W false). Notation elems := (elems W false). Notation mems := (mems W false).
Notation init := (init W cs st). Notation initArray := (initArray W cs st). Notation initStruct := (initStruct W cs st).
Notation initScalar := (initScalar W cs st). Notation memberLoop := (memberLoop W cs st).

Definition nrb (toks : list itok) : Prop := match toks with TRb :: _ => False | _ => True end.
Lemma nrb_if toks : nrb toks -> forall A (a b : A), match toks with TRb :: _ => a | _ => b end = b.
Proof. destruct toks as [|[]]; intros N A a b; try reflexivity. destruct N. Qed.
Definition single (t : cty) (toks : list itok) (d : list cell) (tk : list itok) : Prop :=
  exists i, toks = text i ++ tk /\ forall r, takes t (i :: r) d r.
Definition consumed (t : cty) (toks : list itok) (d : list cell) (tk : list itok) : Prop :=
  exists l, l <> [] /\
    ((toks = toksOf l tk /\ forall r, takes t (l ++ r) d r) \/
     (exists x tl, tk = TRb :: x /\ closing tl x /\ toks = toksOf l tl /\ takes t l d [])).
Lemma single_consumed t toks d tk : single t toks d tk -> consumed t toks d tk.
Proof. intros (i & E & T). exists [i]. split; [discriminate|]. left. split; [exact E|exact T]. Qed.

Lemma close_ok braces toks tk : close braces toks = Ok tk -> toks = (if braces then [TRb] else []) ++ tk.
Proof.
  destruct braces; cbn [close]; [|now injection 1 as ->]. destruct toks as [|[] toks]; intros H; try discriminate H. now injection H as ->.
Qed.
Lemma open_ok toks b tk : open toks = (b, tk) -> toks = (if b then [TLb] else []) ++ tk /\ (b = false -> forall r, tk <> TLb :: r).
Proof.
  unfold open. destruct toks as [|[] toks]; intros H; injection H as <- <-; split; try reflexivity; try discriminate; intros _ r; discriminate.
Qed.

Lemma scalar_sound q t toks d tk : okt q t -> scalar t -> initScalar q toks = Ok (d, tk) -> single t toks d tk.
Proof.
  intros K Sc H. destruct (okt_size W HW cs st q t K) as (G & U & R). pose proof (scalar_size W HW t Sc (k_wf _ _ _ _ K)) as SW.
  unfold InitModel.initScalar in H. rewrite G in H. cbn [rbind] in H. rewrite U in H.
  destruct (open toks) as [b toks'] eqn:OP. apply open_ok in OP. destruct OP as [-> _].
  destruct toks' as [|[| | | |e] toks']; try discriminate H.
  apply rbind_ok in H. destruct H as (tk' & H1 & H). apply close_ok in H1. subst toks'.
  assert (D : sdata W (size t) e = Some d /\ tk' = tk).
  { destruct e as [v|l o|s|]; cbn [sdata].
    - rewrite (intData_ok W HW) in H by lia. injection H as <- <-. split; reflexivity.
    - destruct (size t =? W); [|discriminate H]. rewrite (addrData_ok W HW) in H. injection H as <- <-. split; reflexivity.
    - destruct (size t =? W); [|discriminate H]. injection H as <- <-. split; reflexivity.
    - discriminate H. }
  destruct D as [D ->]. destruct b.
  - exists (IL [IE e] false). split; [reflexivity|]. intros r. apply t_scb; [exact Sc|exact D|discriminate].
  - exists (IE e). split; [reflexivity|]. intros r. apply t_sc; assumption.
Qed.

(** ** loops *)
Definition skipc (braces : bool) (tk : list itok) : list itok :=
  match tk with TComma :: r => if braces then r else tk | _ => tk end.
Definition elsound (n : Z) (t : cty) (braces : bool) toks d tk : Prop :=
  exists l, l <> [] /\
   ((exists tk1, toks = toksOf l tk1 /\ tk = skipc braces tk1 /\ forall r, elems n t (l ++ r) d r) \/
    (exists x tl, tk = TRb :: x /\ closing tl x /\ toks = toksOf l tl /\ elems n t l d [])).
Lemma elements_sound one t F : forall req cnt braces toks d0 cnt' tk,
  (forall toks d tk, nrb toks -> one toks = Ok (d, tk) -> consumed t toks d tk) ->
  elements one F req cnt braces toks = Ok (d0, cnt', tk) -> 0 <= cnt < req -> req < M ->
  (exists x, toks = TRb :: x /\ d0 = [] /\ cnt' = cnt /\ tk = toks) \/
  (cnt < cnt' <= req /\ elsound (req - cnt) t braces toks (d0 ++ zeros ((req - cnt') * size t)) tk).
Proof.
  pose proof (M_le W HW) as ML.
  induction F as [|F IH]; intros req cnt braces toks d0 cnt' tk ONE H C RM; [discriminate H|]. cbn [elements] in H.
  destruct (match toks with TRb :: _ => true | _ => false end) eqn:RB.
  { left. destruct toks as [|[] toks]; try discriminate RB. injection H as <- <- <-. eexists. repeat split. }
  assert (H' : rbind (one toks) (fun '(d, toks) =>
          let cnt := u32 (cnt + 1) in
          if (req <=? cnt) && negb (req =? 0) then
            Ok (d, cnt, skipc braces toks)
          else
            match toks with
            | TComma :: toks =>
                let! (d', cnt, toks) := elements one F req cnt braces toks in Ok (d ++ d', cnt, toks)
            | TRb :: _ => Ok (d, cnt, toks)
            | _ => Bad
            end) = Ok (d0, cnt', tk)) by (destruct toks as [|[] toks]; try discriminate RB; exact H).
  assert (NR : nrb toks) by (destruct toks as [|[]]; (discriminate RB || exact I)).
  clear H RB. rename H' into H. right. apply rbind_ok in H. destruct H as ([d1 tk1] & O & H). cbv zeta in H.
  apply (ONE _ _ _ NR) in O. destruct O as (l1 & N1 & O). rewrite (u32_small (cnt + 1)) in H by lia.
  destruct ((req <=? cnt + 1) && negb (req =? 0)) eqn:FULL.
  - injection H as <- <- <-. assert (req = cnt + 1) by lia. subst req. split; [lia|].
    replace ((cnt + 1 - (cnt + 1)) * size t) with 0 by lia. change (zeros 0) with (@nil cell). replace (cnt + 1 - cnt) with 1 by lia.
    exists l1. split; [exact N1|]. destruct O as [[E T]|(x & tl & -> & CL & E & T)].
    + left. exists tk1. split; [exact E|]. split; [reflexivity|]. intros r. eapply el_next; [lia|apply T|apply el_all].
    + right. exists x, tl. split; [reflexivity|]. split; [exact CL|]. split; [exact E|]. eapply el_next; [lia|apply T|apply el_all].
  - assert (LT : cnt + 1 < req) by lia.
    assert (OUT : forall x tl, takes t l1 d1 [] -> d0 = d1 -> cnt' = cnt + 1 -> tk = TRb :: x -> closing tl x -> toks = toksOf l1 tl ->
      cnt < cnt' <= req /\ elsound (req - cnt) t braces toks (d0 ++ zeros ((req - cnt') * size t)) tk).
    { intros x tl T -> -> -> CL E. split; [lia|]. exists l1. split; [exact N1|]. right. exists x, tl. repeat (split; [reflexivity || assumption|]).
      eapply el_next; [lia|exact T|]. replace (req - (cnt + 1)) with (req - cnt - 1) by lia. apply el_out. lia. }
    destruct O as [[E T]|(x & tl & -> & CL & E & T)].
    2: { injection H as <- <- <-. eapply OUT; try eassumption; reflexivity. }
    destruct tk1 as [|[] tk1]; try discriminate H.
    + injection H as <- <- <-. pose proof (T []) as T0. rewrite app_nil_r in T0. eapply (OUT tk1 (TRb :: tk1)); try reflexivity; try assumption. left. reflexivity.
    + apply rbind_ok in H. destruct H as ([[d2 c2] tk2] & H1 & H). injection H as <- <- <-.
      destruct (IH req (cnt + 1) braces tk1 d2 c2 tk2 ONE H1 ltac:(lia) RM) as [(x & -> & -> & -> & ->)|(C2 & l2 & N2 & S2)].
      * pose proof (T []) as T0. rewrite app_nil_r in T0. rewrite ?app_nil_r in *. eapply (OUT x (TComma :: TRb :: x)); try reflexivity; try assumption. right. reflexivity.
      * split; [lia|]. exists (l1 ++ l2). split; [destruct l1; [contradiction|discriminate]|].
        replace (req - (cnt + 1)) with (req - cnt - 1) in S2 by lia.
        destruct S2 as [(tk3 & E3 & K3 & T3)|(x & tl & K3 & CL & E3 & T3)].
        -- left. exists tk3. split; [rewrite E, E3, toksOf_app by exact N1; destruct l2; [contradiction|reflexivity]|]. split; [exact K3|].
           intros r. rewrite <- !app_assoc. eapply el_next; [lia|apply T|]. apply T3.
        -- right. exists x, tl. split; [exact K3|]. split; [exact CL|]. split; [rewrite E, E3, toksOf_app by exact N1; destruct l2; [contradiction|reflexivity]|].
           rewrite <- app_assoc. eapply el_next; [lia|apply T|]. exact T3.
Qed.

(** the braces around a list *)
Lemma braces_list l tk1 tl x : closing tl x -> l <> [] -> tk1 = TLb :: toksOf l tl -> exists c, tk1 = text (IL l c) ++ x.
Proof.
  intros CL N ->. destruct CL as [-> | ->]; [exists false|exists true]; rewrite text_IL; reflexivity.
Qed.

Lemma array_sound n t fuel q toks d c tk : okt q (TyArr n t) ->
  nrb toks -> (forall toks d tk, nrb toks -> init fuel (q + 3) toks = Ok (d, tk) -> consumed t toks d tk) ->
  initArray (init fuel) q toks = Ok (d, c, tk) ->
  consumed (TyArr n t) toks d tk /\
  (match toks with TLb :: _ => True | TExpr (SStr _) :: _ => character t | _ => False end -> single (TyArr n t) toks d tk).
Proof.
  intros K NR ONE H. pose proof (M_le W HW) as ML. destruct (okt_elem W HW st q n t K) as (KE & N & Z1 & SN & _).
  destruct (okt_size W HW cs st _ _ KE) as (G & U & SZ). destruct (char_kind W st _ _ (k_enc _ _ _ _ KE)) as (ek & v & Z3 & CK).
  unfold InitModel.initArray in H. rewrite Z1, Z3, G in H. cbn [rbind] in H. rewrite U in H. rewrite (u32_small n) in H by lia.
  destruct (open toks) as [b toks1] eqn:OP. apply open_ok in OP. destruct OP as [-> NLB].
  destruct (match toks1 with TExpr (SStr s) :: toks => if isCharKind ek then Some (s, toks) else None | _ => None end) as [[s toks2]|] eqn:STR.
  - assert (toks1 = TExpr (SStr s) :: toks2 /\ character t) as [-> CH].
    { destruct toks1 as [|[| | | |[| |s0|]] toks1]; try discriminate STR. destruct (isCharKind ek) eqn:IC; [|discriminate STR].
      injection STR as <- <-. split; [reflexivity|]. apply CK. reflexivity. }
    assert (TU : truncUint W (u32 (-1)) = M - 1).
    { rewrite (tU W HW), (w_u32 W HW). unfold word, wrap. destruct HW as [E|E]; rewrite E; reflexivity. }
    rewrite TU in H. destruct (M - 1 <=? zlen s) eqn:L1; [discriminate H|].
    destruct (negb (n =? 0) && (n <? zlen s)) eqn:L2; [discriminate H|].
    apply rbind_ok in H. destruct H as (tk' & H1 & H). apply close_ok in H1. subst toks2.
    destruct (char_size W t CH) as (S1 & _). pose proof (zlen_nonneg s).
    assert (X : d = map CByte s ++ zeros (n - zlen s) /\ tk' = tk).
    { replace (n =? 0) with false in H by lia. rewrite app_nil_r, S1, Z.mul_1_r in H. rewrite (zeros_if W HW) in H by lia. injection H as <- _ <-. split; reflexivity. }
    destruct X as [-> ->].
    assert (SG : single (TyArr n t) ((if b then [TLb] else []) ++ TExpr (SStr s) :: (if b then [TRb] else []) ++ tk) (map CByte s ++ zeros (n - zlen s)) tk).
    { destruct b.
      - exists (IL [IE (SStr s)] false). split; [reflexivity|]. intros r. apply t_strb; [exact CH|lia|left; lia|discriminate].
      - exists (IE (SStr s)). split; [reflexivity|]. intros r. apply t_str; [exact CH|lia|left; lia]. }
    split; [apply single_consumed|intros _]; exact SG.
  - apply rbind_ok in H. destruct H as ([[d0 c0] tk0] & H1 & H).
    destruct (b && (c0 =? 0)) eqn:B0; [discriminate H|]. apply rbind_ok in H. destruct H as (tk' & H2 & H). apply close_ok in H2.
    destruct (elements_sound _ t _ n 0 b toks1 d0 c0 tk0 ONE H1 ltac:(lia) ltac:(lia)) as [(x & E1 & E2 & E3 & E4)|(C0 & l & NL & S)].
    + exfalso. subst toks1 c0. destruct b; [discriminate B0|exact NR].
    + replace (n - 0) with n in S by lia.
      assert (X : d = d0 ++ zeros ((n - c0) * size t) /\ tk' = tk).
      { injection H as <- _ <-. split; [|reflexivity]. f_equal. destruct (c0 <? n) eqn:Y; [apply (uz_ok W HW); nia|]. replace (n - c0) with 0 by lia. reflexivity. }
      destruct X as [XD ->]. rewrite <- XD in S. clear XD.
      destruct b.
      * assert (CL : exists tl, closing tl tk /\ toks1 = toksOf l tl /\ elems n t l d []).
        { subst tk0. cbn [app] in S. destruct S as [(tk1 & E1 & E2 & T)|(x & tl & E2 & CL & E1 & T)].
          - exists tk1. split; [|split; [exact E1|]].
            + destruct tk1 as [|[] tk1]; cbn [skipc] in E2; try discriminate E2; [left|right]; congruence.
            + pose proof (T []) as T0. rewrite app_nil_r in T0. exact T0.
          - exists tl. injection E2 as <-. repeat split; assumption. }
        destruct CL as (tl & CL & E1 & T).
        assert (SG : single (TyArr n t) (TLb :: toks1) d tk).
        { destruct (braces_list l (TLb :: toks1) tl tk CL NL ltac:(now rewrite E1)) as [cc E]. exists (IL l cc). split; [exact E|].
          intros r. apply t_br; [exact I|exact NL|]. constructor. exact T. }
        split; [apply single_consumed|intros _]; exact SG.
      * cbn [app] in *. subst tk0.
        assert (HD : exists e l', l = IE e :: l').
        { destruct l as [|[e|ll cc] l']; [contradiction|eauto|]. exfalso.
          destruct S as [(tk1 & E1 & _)|(x & tl & _ & _ & E1 & _)]; rewrite toksOf_cons, text_IL in E1; exact (NLB eq_refl _ E1). }
        destruct HD as (e & l' & ->). split.
        -- exists (IE e :: l'). split; [discriminate|]. destruct S as [(tk1 & E1 & E2 & T)|(x & tl & E2 & CL & E1 & T)].
           ++ left. replace (skipc false tk1) with tk1 in E2 by (destruct tk1 as [|[]]; reflexivity). subst tk1. split; [exact E1|].
              intros r. cbn [app]. apply t_nobr; [exact I|]. constructor. apply T.
           ++ right. exists x, tl. repeat (split; [assumption|]). apply t_nobr; [exact I|]. constructor. exact T.
        -- intros X. exfalso.
           assert (X' : exists s toks', toks1 = TExpr (SStr s) :: toks' /\ character t).
           { destruct S as [(tk1 & E1 & _)|(x & tl & _ & _ & E1 & _)]; rewrite toksOf_cons in E1; cbn [text app] in E1; rewrite E1 in X |- *;
             destruct e; try contradiction; eauto. }
           destruct X' as (s & toks' & -> & X'). apply CK in X'. rewrite X' in STR. discriminate STR.
Qed.

Definition mesound (o : Z) (ms : list (Z * cty)) (tot : Z) (braces : bool) toks d tk : Prop :=
  exists l, l <> [] /\
   ((exists tk1, toks = toksOf l tk1 /\ tk = skipc braces tk1 /\ forall r, mems o ms tot (l ++ r) d r) \/
    (exists x tl, tk = TRb :: x /\ closing tl x /\ toks = toksOf l tl /\ mems o ms tot l d [])).
Lemma members_sound (one : Z -> list itok -> res (list cell * list itok)) tot fuel F :
  (forall q t toks d tk, okt q t -> nrb toks -> one q toks = Ok (d, tk) -> consumed t toks d tk) ->
  forall (u braces : bool) p q prs ms o toks d0 o' tk,
  memberLoop one F u p q o braces toks = Ok (d0, o', tk) ->
  Forall2 (okmem W st tot fuel) ((p, q) :: prs) ms -> 0 <= o <= tot -> tot < M ->
  (if u then prs = [] else chain st q prs) ->
  (exists x, toks = TRb :: x /\ d0 = [] /\ o' = o /\ tk = toks) \/
  (0 < o' <= tot /\ mesound o ms tot braces toks (d0 ++ zeros (tot - o')) tk).
Proof.
  intros ONE. pose proof (M_le W HW) as ML.
  induction F as [|F IH]; intros u braces p q prs ms o toks d0 o' tk H F2 OO TM CH; [discriminate H|]. cbn [InitModel.memberLoop] in H.
  inversion F2 as [|a [p0 t] la ms' OK1 F2' E1 E2]; subst. destruct OK1 as (P0 & K & DF & PP & PS). cbn [fst snd] in *. subst p0.
  destruct (okt_size W HW cs st q t K) as (G & U & SZ).
  destruct (match toks with TRb :: _ => true | _ => false end) eqn:RB.
  { left. destruct toks as [|[] toks]; try discriminate RB. injection H as <- <- <-. eexists. repeat split. }
  assert (NR : nrb toks) by (destruct toks as [|[]]; (discriminate RB || exact I)).
  rewrite (nrb_if toks NR) in H. clear RB. right. rewrite G in H. cbn [rbind] in H. apply rbind_ok in H. destruct H as ([d1 tk1] & O & H).
  apply (ONE q t _ _ _ K NR) in O. destruct O as (l1 & N1 & O).
  rewrite (zeros_if W HW) in H by lia.
  assert (OF : u32 (p + s32 (size t)) = p + size t).
  { rewrite <- U at 2. unfold u32. rewrite <- wrap_add_r. rewrite wrap_small; [reflexivity|]. fold u32. rewrite U. change (2 ^ 32) with (2 ^ 32). lia. }
  rewrite OF in H. destruct (scanM (skipn (Z.to_nat q) st) q 1) as [next|] eqn:NX; [|discriminate H].
  assert (LAST : ms' = [] -> Ok (zeros (p - o) ++ d1, p + size t, skipc braces tk1) = Ok (d0, o', tk) ->
     0 < o' <= tot /\ mesound o ((p, t) :: ms') tot braces toks (d0 ++ zeros (tot - o')) tk).
  { intros -> X. injection X as <- <- <-. split; [lia|]. rewrite <- app_assoc. exists l1. split; [exact N1|].
    destruct O as [[E T]|(x & tl & -> & CL & E & T)].
    - left. exists tk1. split; [exact E|]. split; [reflexivity|]. intros r. eapply me_next; [apply T|apply me_all].
    - right. exists x, tl. split; [reflexivity|]. split; [exact CL|]. split; [exact E|]. eapply me_next; [apply T|apply me_all]. }
  destruct next as [[p' q']|].
  2: { apply LAST; [|exact H]. destruct u; [subst prs; inversion F2'; reflexivity|].
       inversion CH; subst; [inversion F2'; reflexivity|congruence]. }
  destruct u; [apply LAST; [subst prs; inversion F2'; reflexivity|exact H]|].
  inversion CH as [|a1 a2 a3 prs' a5 CH1 CH2]; subst; [congruence|]. rewrite NX in CH1. injection CH1 as -> ->. clear LAST.
  assert (MS : ms' <> []) by (intros ->; inversion F2').
  assert (OUT : forall x tl, takes t l1 d1 [] -> d0 = zeros (p - o) ++ d1 -> o' = p + size t -> tk = TRb :: x -> closing tl x -> toks = toksOf l1 tl ->
      0 < o' <= tot /\ mesound o ((p, t) :: ms') tot braces toks (d0 ++ zeros (tot - o')) tk).
  { intros x tl T -> -> -> CL E. split; [lia|]. exists l1. split; [exact N1|]. right. exists x, tl. repeat (split; [reflexivity || assumption|]).
    rewrite <- app_assoc. eapply me_next; [exact T|]. apply me_out. exact MS. }
  destruct O as [[E T]|(x & tl & -> & CL & E & T)].
  2: { injection H as <- <- <-. eapply OUT; try eassumption; reflexivity. }
  destruct tk1 as [|[] tk1]; try discriminate H.
  - injection H as <- <- <-. pose proof (T []) as T0. rewrite app_nil_r in T0. eapply (OUT tk1 (TRb :: tk1)); try reflexivity; try assumption. left. reflexivity.
  - apply rbind_ok in H. destruct H as ([[d2 o2] tk2] & H1 & H). injection H as <- <- <-.
    destruct (IH false braces a2 a3 prs' ms' (p + size t) tk1 d2 o2 tk2 H1 F2' ltac:(lia) TM CH2) as [(x & -> & -> & -> & ->)|(C2 & l2 & N2 & S2)].
    + pose proof (T []) as T0. rewrite ?app_nil_r in *. eapply (OUT x (TComma :: TRb :: x)); try reflexivity; try assumption. right. reflexivity.
    + split; [lia|]. exists (l1 ++ l2). split; [destruct l1; [contradiction|discriminate]|].
      destruct S2 as [(tk3 & E3 & K3 & T3)|(x & tl & K3 & CL & E3 & T3)].
      * left. exists tk3. split; [rewrite E, E3, toksOf_app by exact N1; destruct l2; [contradiction|reflexivity]|]. split; [exact K3|].
        intros r. rewrite <- !app_assoc. eapply me_next; [apply T|]. apply T3.
      * right. exists x, tl. split; [exact K3|]. split; [exact CL|]. split; [rewrite E, E3, toksOf_app by exact N1; destruct l2; [contradiction|reflexivity]|].
        rewrite <- !app_assoc. eapply me_next; [apply T|]. exact T3.
Qed.

Lemma struct_sound u ms fuel q j toks d tk : okt q (TyAgg u ms) -> zget st q = Some (KStructPtr, j) -> nrb toks ->
  (forall q t toks d tk, okt q t -> nrb toks -> init fuel q toks = Ok (d, tk) -> consumed t toks d tk) ->
  initStruct (init fuel) j toks = Ok (d, tk) ->
  consumed (TyAgg u ms) toks d tk /\
  (match toks with TLb :: _ => True | _ => False end -> single (TyAgg u ms) toks d tk).
Proof.
  intros K Z0 NR ONE H. pose proof (M_le W HW) as ML.
  destruct (okt_members W HW st q u ms (depth (TyAgg u ms)) K (Nat.le_refl _)) as (j' & v & p0 & q0 & prs & Z0' & Z1 & Z2 & SC & F2 & CH & _).
  rewrite Z0 in Z0'. injection Z0' as <-. destruct (okt_size W HW cs st _ _ K) as (_ & _ & SZ).
  unfold InitModel.initStruct in H. rewrite Z1, Z2, SC in H.
  replace (kind_eqb (if u then KUnion else KStruct) KUnion) with u in H by (destruct u; reflexivity).
  destruct (open toks) as [b toks1] eqn:OP. apply open_ok in OP. destruct OP as [-> NLB].
  apply rbind_ok in H. destruct H as ([[d0 o0] tk0] & H1 & H).
  destruct (b && (o0 =? 0)) eqn:B0; [discriminate H|]. apply rbind_ok in H. destruct H as (tk' & H2 & H). apply close_ok in H2.
  destruct (members_sound (init fuel) _ _ _ ONE u b p0 q0 prs _ 0 toks1 d0 o0 tk0 H1 F2 ltac:(lia) (k_sz _ _ _ _ K) CH) as [(x & E1 & E2 & E3 & E4)|(C0 & l & NL & S)].
  - exfalso. subst toks1 o0. destruct b; [discriminate B0|exact NR].
  - rewrite (zeros_if W HW) in H by lia. injection H as <- ->.
    set (dd := d0 ++ zeros (size (TyAgg u ms) - o0)) in *. clearbody dd.
    destruct b.
    + assert (CL : exists tl, closing tl tk /\ toks1 = toksOf l tl /\ mems 0 (inimems W u ms) (size (TyAgg u ms)) l dd []).
      { subst tk0. cbn [app] in S. destruct S as [(tk1 & E1 & E2 & T)|(x & tl & E2 & CL & E1 & T)].
        - exists tk1. split; [|split; [exact E1|]].
          + destruct tk1 as [|[] tk1]; cbn [skipc] in E2; try discriminate E2; [left|right]; congruence.
          + pose proof (T []) as T0. rewrite app_nil_r in T0. exact T0.
        - exists tl. injection E2 as <-. repeat split; assumption. }
      destruct CL as (tl & CL & E1 & T).
      assert (SG : single (TyAgg u ms) (TLb :: toks1) dd tk).
      { destruct (braces_list l (TLb :: toks1) tl tk CL NL ltac:(now rewrite E1)) as [cc E]. exists (IL l cc). split; [exact E|].
        intros r. apply t_br; [exact I|exact NL|]. constructor. exact T. }
      split; [apply single_consumed|intros _]; exact SG.
    + cbn [app] in *. subst tk0.
      assert (HD : exists e l', l = IE e :: l').
      { destruct l as [|[e|ll cc] l']; [contradiction|eauto|]. exfalso.
        destruct S as [(tk1 & E1 & _)|(x & tl & _ & _ & E1 & _)]; rewrite toksOf_cons, text_IL in E1; exact (NLB eq_refl _ E1). }
      destruct HD as (e & l' & ->). split.
      * exists (IE e :: l'). split; [discriminate|]. destruct S as [(tk1 & E1 & E2 & T)|(x & tl & E2 & CL & E1 & T)].
        -- left. replace (skipc false tk1) with tk1 in E2 by (destruct tk1 as [|[]]; reflexivity). subst tk1. split; [exact E1|].
           intros r. cbn [app]. apply t_nobr; [exact I|]. constructor. apply T.
        -- right. exists x, tl. repeat (split; [assumption|]). apply t_nobr; [exact I|]. constructor. exact T.
      * intros X. exfalso. destruct toks1 as [|[] toks1]; try contradiction. exact (NLB eq_refl _ eq_refl).
Qed.

Lemma sound fuel : forall q t toks d tk, okt q t -> nrb toks -> init fuel q toks = Ok (d, tk) -> consumed t toks d tk.
Proof.
  induction fuel as [|fuel IH]; intros q t toks d tk K NR H; [discriminate H|].
  destruct t as [s| |n t|u ms].
  - rewrite (init_scalar W cs st q (TySc s)) in H by (assumption || exact I). apply single_consumed. eapply scalar_sound; [exact K|exact I|exact H].
  - rewrite (init_scalar W cs st q TyPtr) in H by (assumption || exact I). apply single_consumed. eapply scalar_sound; [exact K|exact I|exact H].
  - rewrite (init_array W HW cs st q n t) in H by assumption. apply rbind_ok in H. destruct H as ([[d1 c1] tk1] & H1 & H). injection H as <- <-.
    destruct (okt_elem W HW st q n t K) as (KE & _).
    eapply (array_sound n t fuel q toks d1 c1 tk1 K NR); [|exact H1]. intros; eapply IH; eassumption.
  - destruct (okt_members W HW st q u ms _ K (Nat.le_refl _)) as (j & v & p0 & q0 & prs & Z0 & _).
    rewrite (init_struct W cs st q j) in H by exact Z0. eapply (struct_sound u ms fuel q j); eassumption.
Qed.

(** ** the initialiser of an object *)
Definition ends (rest : list itok) : Prop := exists r, rest = TComma :: r \/ rest = TSemi :: r.
Lemma ends_ok {A} (a : A) rest b : match rest with (TComma | TSemi) :: _ => Ok a | _ => Bad end = Ok b <-> a = b /\ ends rest.
Proof.
  unfold ends. split.
  - destruct rest as [|[] rest]; intros H; try discriminate H; injection H as <-; (split; [reflexivity|eauto]).
  - intros (<- & r & [-> | ->]); reflexivity.
Qed.
Lemma initVar_eq fuel q toks d o rest : initVar W cs st fuel q toks = Ok (d, o, rest) <->
  ends rest /\ exists k j, zget st q = Some (k, j) /\
   match k with
   | KLb =>
       match toks with TLb :: _ => True | TExpr (SStr _) :: _ => exists ek v, zget st (q + 3) = Some (ek, v) /\ isCharKind ek = true | _ => False end /\
       exists cnt, initArray (init fuel) q toks = Ok (d, cnt, rest) /\
         o = match zget st (q + 1) with Some (_, req) => if u32 req =? 0 then Some cnt else None | None => None end
   | KStructPtr => o = None /\ match toks with TLb :: _ => True | _ => False end /\ initStruct (init fuel) j toks = Ok (d, rest)
   | _ => o = None /\ initScalar q toks = Ok (d, rest)
   end.
Proof.
  unfold InitModel.initVar. destruct (zget st q) as [[k j]|] eqn:Z0; [|split; [discriminate|intros (_ & k & j & X & _); discriminate X]].
  assert (BIND : forall r : res (list cell * option Z * list itok),
    rbind r (fun '(d, n, toks) => match toks with (TComma | TSemi) :: _ => Ok (d, n, toks) | _ => Bad end) = Ok (d, o, rest) <->
    ends rest /\ r = Ok (d, o, rest)).
  { intros r. split.
    - intros H. apply rbind_ok in H. destruct H as ([[d1 o1] r1] & E & H). apply ends_ok in H. destruct H as [H1 H2].
      injection H1 as -> -> ->. split; assumption.
    - intros [E ->]. cbn [rbind]. apply ends_ok. split; [reflexivity|exact E]. }
  rewrite BIND. clear BIND. 
  assert (X : forall P : Prop, (exists k0 j0, Some (k, j) = Some (k0, j0) /\
     match k0 with
     | KLb => match toks with TLb :: _ => True | TExpr (SStr _) :: _ => exists ek v, zget st (q + 3) = Some (ek, v) /\ isCharKind ek = true | _ => False end /\
       exists cnt, initArray (init fuel) q toks = Ok (d, cnt, rest) /\
         o = match zget st (q + 1) with Some (_, req) => if u32 req =? 0 then Some cnt else None | None => None end
     | KStructPtr => o = None /\ match toks with TLb :: _ => True | _ => False end /\ initStruct (init fuel) j0 toks = Ok (d, rest)
     | _ => o = None /\ initScalar q toks = Ok (d, rest)
     end) <-> 
     match k with
     | KLb => match toks with TLb :: _ => True | TExpr (SStr _) :: _ => exists ek v, zget st (q + 3) = Some (ek, v) /\ isCharKind ek = true | _ => False end /\
       exists cnt, initArray (init fuel) q toks = Ok (d, cnt, rest) /\
         o = match zget st (q + 1) with Some (_, req) => if u32 req =? 0 then Some cnt else None | None => None end
     | KStructPtr => o = None /\ match toks with TLb :: _ => True | _ => False end /\ initStruct (init fuel) j toks = Ok (d, rest)
     | _ => o = None /\ initScalar q toks = Ok (d, rest)
     end).
  { intros _. split; [intros (k0 & j0 & E & H); injection E as <- <-; exact H|intros H; exists k, j; split; [reflexivity|exact H]]. }
  rewrite (X True). clear X.
  assert (SC : rbind (initScalar q toks) (fun '(d, toks) => Ok (d, None, toks)) = Ok (d, o, rest) <-> o = None /\ initScalar q toks = Ok (d, rest)).
  { split.
    - intros H. apply rbind_ok in H. destruct H as ([d1 r1] & E & H). injection H as <- <- <-. split; [reflexivity|exact E].
    - intros [-> ->]. reflexivity. }
  destruct k; try (rewrite SC; reflexivity).
  - assert (AR : forall P : Prop, P -> (rbind (initArray (init fuel) q toks) (fun '(d, cnt, toks) =>
        Ok (d, match zget st (q + 1) with Some (_, req) => if u32 req =? 0 then Some cnt else None | None => None end, toks)) = Ok (d, o, rest) <->
        P /\ exists cnt, initArray (init fuel) q toks = Ok (d, cnt, rest) /\
         o = match zget st (q + 1) with Some (_, req) => if u32 req =? 0 then Some cnt else None | None => None end)).
    { intros P HP. split.
      - intros H. apply rbind_ok in H. destruct H as ([[d1 c1] r1] & E & H). injection H as <- <- <-. split; [exact HP|]. eauto.
      - intros (_ & cnt & -> & ->). reflexivity. }
    assert (NO : forall (x : res (list cell * option Z * list itok)) (P : Prop), x = Bad \/ x = Internal -> ~ P -> forall Q : Prop, (ends rest /\ x = Ok (d, o, rest) <-> ends rest /\ P /\ Q)).
    { intros x P [-> | ->] NP Q; split; [intros [_ H]; discriminate H|tauto|intros [_ H]; discriminate H|tauto]. }
    destruct toks as [|[| | | |[]] toks]; cbn [rbind]; try (apply NO; [left; reflexivity|tauto]).
    + rewrite (AR True I). reflexivity.
    + destruct (zget st (q + 3)) as [[ek v]|] eqn:Z3.
      * destruct (isCharKind ek) eqn:IC; cbn [rbind].
        -- rewrite (AR (exists ek0 v0, Some (ek, v) = Some (ek0, v0) /\ isCharKind ek0 = true)); [reflexivity|eauto].
        -- apply NO; [left; reflexivity|]. intros (ek' & v' & E & X). injection E as <- <-. congruence.
      * apply NO; [right; reflexivity|]. intros (ek' & v' & E & X). discriminate E.
  - destruct toks as [|[] toks]; try (split; [intros [_ H]; discriminate H|tauto]).
    assert (ST : rbind (initStruct (init fuel) j (TLb :: toks)) (fun '(d, toks) => Ok (d, None, toks)) = Ok (d, o, rest) <->
       o = None /\ True /\ initStruct (init fuel) j (TLb :: toks) = Ok (d, rest)).
    { split.
      - intros H. apply rbind_ok in H. destruct H as ([d1 r1] & E & H). injection H as <- <- <-. repeat split. exact E.
      - intros (-> & _ & ->). reflexivity. }
    rewrite ST. reflexivity.
Qed.

Lemma object_scalar q t fuel toks d o rest : okt q t -> scalar t ->
  (initVar W cs st fuel q toks = Ok (d, o, rest) <->
   o = None /\ exists i, initialises W false t i d /\ toks = text i ++ rest /\ ends rest).
Proof.
  intros K Sc. rewrite initVar_eq. destruct (scalar_kind W st q t Sc (k_enc _ _ _ _ K)) as (k & v & Z0 & SK). split.
  - intros (EN & k0 & j & E & H). rewrite Z0 in E. injection E as <- <-.
    assert (o = None /\ initScalar q toks = Ok (d, rest)) as [-> H'] by (destruct k; (discriminate SK || exact H)).
    split; [reflexivity|]. destruct (scalar_sound q t toks d rest K Sc H') as (i & E & T). exists i.
    split; [split; [destruct t; (contradiction || exact I)|apply T]|split; assumption].
  - intros (-> & i & (_ & T) & -> & EN). split; [exact EN|]. exists k, v. split; [exact Z0|].
    assert (H : initScalar q (text i ++ rest) = Ok (d, rest)).
    { inversion T; subst; try contradiction.
      - apply (initScalar_ok W HW cs st q t e d false); trivial.
      - apply (initScalar_ok W HW cs st q t e d c); trivial. destruct c; [|reflexivity].
        match goal with X : okcomma _ _ |- _ => specialize (X eq_refl); discriminate X end.
      - destruct t; contradiction.
      - destruct t; contradiction. }
    destruct k; (discriminate SK || (split; [reflexivity|exact H])).
Qed.
Theorem object q t fuel toks d o rest : okt q t -> (depth t < fuel)%nat ->
  (initVar W cs st fuel q toks = Ok (d, o, rest) <->
   o = None /\ exists i, initialises W false t i d /\ toks = text i ++ rest /\ ends rest).
Proof.
  intros K DF. destruct t as [s| |n t|u ms]; [apply object_scalar; [exact K|exact I]|apply object_scalar; [exact K|exact I]|rewrite initVar_eq|rewrite initVar_eq].
  - destruct (okt_elem W HW st q n t K) as (KE & N & Z1 & SN & v & Z0). pose proof (M_le W HW) as ML.
    destruct (char_kind W st _ _ (k_enc _ _ _ _ KE)) as (ek & v3 & Z3 & CK).
    split.
    + intros (EN & k & j & E & H). rewrite Z0 in E. injection E as <- <-. destruct H as (HD & cnt & H & ->). rewrite Z1, (u32_small n) by lia.
      replace (n =? 0) with false by lia. split; [reflexivity|].
      assert (NR : nrb toks) by (destruct toks as [|[]]; (contradiction || exact I)).
      destruct (array_sound n t fuel q toks d cnt rest K NR (fun toks d tk => sound fuel (q + 3) t toks d tk KE) H) as [_ SG].
      assert (HD' : match toks with TLb :: _ => True | TExpr (SStr _) :: _ => character t | _ => False end).
      { destruct toks as [|[| | | |[]] toks]; try exact HD. destruct HD as (ek' & v' & E & X). rewrite Z3 in E. injection E as <- <-. apply CK. exact X. }
      destruct (SG HD') as (i & E & T). exists i. split; [split; [|apply T]|split; assumption].
      cbn [braced]. destruct i as [e|l c]; [|exact I]. rewrite E in HD'. cbn [text app] in HD'. destruct e; try contradiction. exact HD'.
    + intros (-> & i & (B & T) & -> & EN). split; [exact EN|]. exists KLb, v. split; [exact Z0|].
      rewrite Z1, (u32_small n) by lia. replace (n =? 0) with false by lia.
      inversion T; subst; try contradiction.
      * destruct (array_string W HW cs st n t s q (init fuel) false rest K ltac:(assumption) ltac:(assumption)) as (c & E).
        { match goal with X : okstr _ _ _ |- _ => destruct X as [X|X]; [exact X|discriminate X] end. }
        split; [cbn; exists ek, v3; split; [exact Z3|apply CK; assumption]|]. exists c. split; [exact E|reflexivity].
      * destruct (array_string W HW cs st n t s q (init fuel) true rest K ltac:(assumption) ltac:(assumption)) as (c' & E).
        { match goal with X : okstr _ _ _ |- _ => destruct X as [X|X]; [exact X|discriminate X] end. }
        destruct c; [match goal with X : okcomma _ _ |- _ => specialize (X eq_refl); discriminate X end|].
        split; [exact I|]. exists c'. split; [exact E|reflexivity].
      * match goal with X : parts _ _ _ _ |- _ => inversion X; subst end.
        destruct (accepted W HW cs st) as (_ & _ & AE & _).
        match goal with X : elems _ _ _ _ _ |- _ => destruct (AE _ _ _ _ _ X) as [X1 X2] end.
        destruct (array_list W HW cs st n t l d [] q fuel true _ _ K ltac:(cbn [depth] in DF; lia) (closing_c c rest) X1 X2 ltac:(assumption) eq_refl) as (c0 & tk & E1 & E2).
        rewrite text_IL. split; [exact I|]. exists c0. subst tk. split; [exact E1|reflexivity].
      * exfalso. cbn [braced] in B. destruct e; try contradiction.
        match goal with X : parts _ _ _ _ |- _ => inversion X; subst end.
        match goal with X : elems _ _ _ _ _ |- _ => apply (notstr W HW _ _ _ _ _ _ X ltac:(lia)) end. exact B.
  - destruct (okt_members W HW st q u ms _ K (Nat.le_refl _)) as (j & v & p0 & q0 & prs & Z0 & _).
    split.
    + intros (EN & k & j' & E & H). rewrite Z0 in E. injection E as <- <-. destruct H as (-> & HD & H). split; [reflexivity|].
      assert (NR : nrb toks) by (destruct toks as [|[]]; (contradiction || exact I)).
      destruct (struct_sound u ms fuel q j toks d rest K Z0 NR (sound fuel) H) as [_ SG].
      destruct (SG HD) as (i & E & T). exists i. split; [split; [|apply T]|split; assumption].
      cbn [braced]. destruct i as [e|l c]; [|exact I]. rewrite E in HD. exact HD.
    + intros (-> & i & (B & T) & -> & EN). split; [exact EN|]. exists KStructPtr, j. split; [exact Z0|]. split; [reflexivity|].
      inversion T; subst; try contradiction.
      match goal with X : parts _ _ _ _ |- _ => inversion X; subst end.
      destruct (accepted W HW cs st) as (_ & _ & _ & AM).
      match goal with X : mems _ _ _ _ _ _ |- _ => destruct (AM _ _ _ _ _ _ X) as [X1 X2] end.
      destruct (struct_list W HW cs st u ms l d [] q fuel true _ _ K ltac:(lia) (closing_c c rest) X2 ltac:(assumption) eq_refl) as (j' & tk & Z0' & E1 & E2).
      rewrite Z0 in Z0'. injection Z0' as <-. rewrite text_IL. split; [exact I|]. subst tk. exact E1.
Qed.

(** ** arrays of unknown length *)
Lemma all_len t l n d : all W false t l n d -> wfty t -> 0 <= n <= zlen l /\ (l = [] -> n = 0 /\ d = []) /\ (l <> [] -> 0 < n).
Proof.
  intros A. induction A as [|t l d l' n d' T A IH]; intros WT; [change (zlen (@nil ini)) with 0; repeat split; lia || congruence|].
  destruct (takes_suffix W t l d l' T WT) as (l0 & N0 & ->). destruct (IH WT) as (I1 & _ & _).
  rewrite zlen_app. assert (0 < zlen l0). { destruct l0; [contradiction|]. rewrite zlen_cons. pose proof (zlen_nonneg l0). lia. }
  repeat split; try lia; destruct l0; try contradiction; discriminate.
Qed.
Lemma elements_all t l n d : all W false t l n d -> forall q fuel F cnt tl x, okt q t -> (depth t < fuel)%nat -> closing tl x ->
  0 <= cnt -> cnt + n < 2 ^ 32 -> l <> [] -> (length l < F)%nat ->
  elements (init fuel q) F 0 cnt true (toksOf l tl) = Ok (d, cnt + n, TRb :: x).
Proof.
  intros A. induction A as [|t l d l' n d' T A IH]; intros q fuel F cnt tl x K DF CL CN CM NL LF; [contradiction|].
  destruct (all_len _ _ _ _ A (k_wf _ _ _ _ K)) as (L1 & L2 & L3).
  destruct F as [|F]; [lia|]. cbn [elements]. rewrite (not_rb l tl NL).
  destruct (accepted W HW cs st) as (AT & _). destruct (AT t l d l' T q fuel K DF tl x CL) as (tk1 & O1 & A1). rewrite O1. cbn [rbind].
  rewrite (u32_small (cnt + 1)) by lia. replace ((0 <=? cnt + 1) && negb (0 =? 0)) with false by lia.
  destruct l' as [|i l'].
  - destruct (L2 eq_refl) as [-> ->]. rewrite app_nil_r.
    assert (RB : forall tk, closing tk x -> match tk with
        | TComma :: toks => let! (d', cnt0, toks) := elements (init fuel q) F 0 (cnt + 1) true toks in Ok (d ++ d', cnt0, toks)
        | TRb :: _ => Ok (d, cnt + 1, tk) | _ => Bad end = Ok (d, cnt + (1 + 0), TRb :: x)).
    { intros tk [-> | ->]; [reflexivity|]. destruct F as [|F].
      - exfalso. destruct l; [contradiction|]. cbn [length] in *; lia.
      - rewrite elements_end. cbn [rbind]. rewrite app_nil_r. reflexivity. }
    apply RB. destruct A1 as [A1|[_ A1]]; rewrite A1; [exact CL|left; reflexivity].
  - destruct A1 as [A1|[A1 _]]; [|discriminate A1]. rewrite A1. cbn [after].
    assert (LL : (length (i :: l') < F)%nat).
    { destruct (takes_suffix W t l d (i :: l') T (k_wf _ _ _ _ K)) as (l0 & N0 & ->). rewrite app_length in LF. destruct l0; [contradiction|]. cbn [length] in *. lia. }
    rewrite (IH q fuel F (cnt + 1) tl x K DF CL ltac:(lia) ltac:(lia) ltac:(discriminate) LL). cbn [rbind]. f_equal. f_equal. f_equal. lia.
Qed.
Lemma elements_all_sound one t F : forall cnt braces toks d cnt' tk,
  (forall toks d tk, nrb toks -> one toks = Ok (d, tk) -> consumed t toks d tk) ->
  elements one F 0 cnt braces toks = Ok (d, cnt', tk) -> 0 <= cnt -> cnt + zlen toks < 2 ^ 32 ->
  (exists x, toks = TRb :: x /\ d = [] /\ cnt' = cnt /\ tk = toks) \/
  (cnt < cnt' /\ exists l x tl, l <> [] /\ tk = TRb :: x /\ closing tl x /\ toks = toksOf l tl /\ all W false t l (cnt' - cnt) d).
Proof.
  induction F as [|F IH]; intros cnt braces toks d0 cnt' tk ONE H C RM; [discriminate H|]. cbn [elements] in H.
  destruct (match toks with TRb :: _ => true | _ => false end) eqn:RB.
  { left. destruct toks as [|[] toks]; try discriminate RB. injection H as <- <- <-. eexists. repeat split. }
  assert (NR : nrb toks) by (destruct toks as [|[]]; (discriminate RB || exact I)).
  rewrite (nrb_if toks NR) in H. clear RB. right. apply rbind_ok in H. destruct H as ([d1 tk1] & O & H). cbv zeta in H.
  apply (ONE _ _ _ NR) in O. destruct O as (l1 & N1 & O).
  assert (TP : 0 < zlen toks).
  { assert (X : exists tl, toks = toksOf l1 tl) by (destruct O as [[E _]|(x & tl & _ & _ & E & _)]; eauto). destruct X as [tl ->].
    pose proof (toksOf_len l1 tl). destruct l1; [contradiction|]. cbn [length] in *. unfold zlen. lia. }
  rewrite (u32_small (cnt + 1)) in H by lia.
  replace ((0 <=? cnt + 1) && negb (0 =? 0)) with false in H by lia.
  assert (OUT : forall x tl, takes t l1 d1 [] -> d0 = d1 -> cnt' = cnt + 1 -> tk = TRb :: x -> closing tl x -> toks = toksOf l1 tl ->
      cnt < cnt' /\ exists l x tl, l <> [] /\ tk = TRb :: x /\ closing tl x /\ toks = toksOf l tl /\ all W false t l (cnt' - cnt) d0).
  { intros x tl T -> -> -> CL E. split; [lia|]. exists l1, x, tl. repeat (split; [reflexivity || assumption|]).
    replace (cnt + 1 - cnt) with (1 + 0) by lia. rewrite <- (app_nil_r d1). eapply a_next; [exact T|constructor]. }
  destruct O as [[E T]|(x & tl & -> & CL & E & T)].
  2: { injection H as <- <- <-. eapply OUT; try eassumption; reflexivity. }
  destruct tk1 as [|[] tk1]; try discriminate H.
  - injection H as <- <- <-. pose proof (T []) as T0. rewrite app_nil_r in T0. eapply (OUT tk1 (TRb :: tk1)); try reflexivity; try assumption. left. reflexivity.
  - apply rbind_ok in H. destruct H as ([[d2 c2] tk2] & H1 & H). injection H as <- <- <-.
    assert (LT : zlen tk1 + 1 <= zlen toks).
    { rewrite E. pose proof (toksOf_len l1 (TComma :: tk1)). unfold zlen. cbn [length] in *. lia. }
    destruct (IH (cnt + 1) braces tk1 d2 c2 tk2 ONE H1 ltac:(lia) ltac:(lia)) as [(x & -> & -> & -> & ->)|(C2 & l2 & x & tl & N2 & K3 & CL & E3 & T3)].
    + pose proof (T []) as T0. rewrite ?app_nil_r in *. eapply (OUT x (TComma :: TRb :: x)); try reflexivity; try assumption. right. reflexivity.
    + split; [lia|]. exists (l1 ++ l2), x, tl. split; [destruct l1; [contradiction|discriminate]|]. split; [exact K3|]. split; [exact CL|].
      split; [rewrite E, E3, toksOf_app by exact N1; destruct l2; [contradiction|reflexivity]|].
      replace (c2 - cnt) with (1 + (c2 - (cnt + 1))) by lia. eapply a_next; [apply T|exact T3].
Qed.

Theorem unknown q t fuel toks d o rest v : zget st q = Some (KLb, v) -> zget st (q + 1) = Some (KNum, 0) -> okt (q + 3) t ->
  (depth t < fuel)%nat -> zlen toks < 2 ^ 32 ->
  (initVar W cs st fuel q toks = Ok (d, o, rest) <->
   exists n i, o = Some n /\ completes W false t i n d /\ toks = text i ++ rest /\ ends rest).
Proof.
  intros Z0 Z1 KE DF TL. rewrite initVar_eq. pose proof (M_le W HW) as ML.
  destruct (okt_size W HW cs st _ _ KE) as (G & U & SZ). destruct (char_kind W st _ _ (k_enc _ _ _ _ KE)) as (ek & v3 & Z3 & CK).
  assert (TU : truncUint W (u32 (-1)) = M - 1).
  { rewrite (tU W HW), (w_u32 W HW). unfold word, wrap. destruct HW as [E|E]; rewrite E; reflexivity. }
  assert (UZ : character t -> uz W (size t) = zeros 1).
  { intros C. destruct (char_size W t C) as (S1 & _). rewrite S1. apply (uz_ok W HW). destruct HW as [E|E]; rewrite E; lia. }
  split.
  - intros (EN & k & j & E & H). rewrite Z0 in E. injection E as <- <-. destruct H as (HD & cnt & H & ->). rewrite Z1.
    change (u32 0 =? 0) with true. cbv iota. exists cnt.
    unfold InitModel.initArray in H. rewrite Z1, Z3, G in H. cbn [rbind] in H. rewrite U in H. change (u32 0) with 0 in H.
    destruct (open toks) as [b toks1] eqn:OP. apply open_ok in OP. destruct OP as [-> NLB].
    destruct (match toks1 with TExpr (SStr s) :: toks => if isCharKind ek then Some (s, toks) else None | _ => None end) as [[s toks2]|] eqn:STR.
    + assert (toks1 = TExpr (SStr s) :: toks2 /\ character t) as [-> CH].
      { destruct toks1 as [|[| | | |[| |s0|]] toks1]; try discriminate STR. destruct (isCharKind ek) eqn:IC; [|discriminate STR].
        injection STR as <- <-. split; [reflexivity|]. apply CK. reflexivity. }
      rewrite TU in H. destruct (M - 1 <=? zlen s) eqn:L1; [discriminate H|].
      cbn [Z.eqb negb andb] in H. pose proof (zlen_nonneg s). replace (zlen s <? 0) with false in H by lia. cbn [app] in H.
      apply rbind_ok in H. destruct H as (tk' & H1 & H). apply close_ok in H1. subst toks2. rewrite UZ in H by exact CH. injection H as <- <- ->.
      rewrite u32_small by lia.
      destruct b.
      * exists (IL [IE (SStr s)] false). split; [reflexivity|]. split; [|split; [reflexivity|exact EN]]. apply c_strb; [exact CH|left; lia|discriminate].
      * exists (IE (SStr s)). split; [reflexivity|]. split; [|split; [reflexivity|exact EN]]. apply c_str; [exact CH|left; lia].
    + assert (b = true) as ->.
      { destruct b; [reflexivity|]. cbn [app] in HD. destruct toks1 as [|[| | | |[]] toks1]; try contradiction.
        - exfalso. exact (NLB eq_refl _ eq_refl).
        - destruct HD as (ek' & v' & E & X). rewrite Z3 in E. injection E as <- <-. rewrite X in STR. discriminate STR. }
      apply rbind_ok in H. destruct H as ([[d0 c0] tk0] & H1 & H). cbn [app] in *. rewrite zlen_cons in TL.
      destruct (true && (c0 =? 0)) eqn:B0; [discriminate H|]. apply rbind_ok in H. destruct H as (tk' & H2 & H). apply close_ok in H2.
      destruct (elements_all_sound _ t _ 0 true toks1 d0 c0 tk0 (fun toks d tk => sound fuel (q + 3) t toks d tk KE) H1 ltac:(lia) ltac:(lia)) as [(x & E1 & E2 & E3 & E4)|(C0 & l & x & tl & NL & E2 & CL & E1 & A)].
      * exfalso. subst c0. discriminate B0.
      * replace (c0 <? 0) with false in H by lia. rewrite app_nil_r in H. injection H as -> <- ->.
        rewrite E2 in H2. injection H2 as ->.
        destruct (braces_list l (TLb :: toks1) tl rest CL NL ltac:(now rewrite E1)) as [cc E]. exists (IL l cc). split; [reflexivity|].
        split; [|split; [exact E|exact EN]]. replace (c0 - 0) with c0 in A by lia. apply c_list; assumption.
  - intros (n & i & -> & CO & -> & EN). split; [exact EN|]. exists KLb, v. split; [exact Z0|]. rewrite Z1. change (u32 0 =? 0) with true. cbv iota.
    assert (STR : forall s (b : bool), character t -> okstr W false s ->
      initArray (init fuel) q ((if b then [TLb] else []) ++ TExpr (SStr s) :: (if b then [TRb] else []) ++ rest) = Ok (map CByte s ++ zeros 1, zlen s + 1, rest)).
    { intros s b CH [OS|OS]; [|discriminate OS]. pose proof (zlen_nonneg s).
      unfold InitModel.initArray. rewrite Z1, Z3, G. cbn [rbind]. rewrite U. change (u32 0) with 0.
      assert (OP : open ((if b then [TLb] else []) ++ TExpr (SStr s) :: (if b then [TRb] else []) ++ rest) =
        (b, TExpr (SStr s) :: (if b then [TRb] else []) ++ rest)) by (destruct b; reflexivity).
      rewrite OP. rewrite (proj2 CK CH). rewrite TU. replace (M - 1 <=? zlen s) with false by lia.
      cbn [Z.eqb negb andb]. replace (zlen s <? 0) with false by lia.
      replace (close b ((if b then [TRb] else []) ++ rest)) with (Ok rest) by (destruct b; reflexivity). cbn [rbind app].
      rewrite UZ by exact CH. rewrite u32_small by lia. reflexivity. }
    inversion CO as [s CH OS|s c CH OS OC|l c n' d' NL A]; subst.
    + split; [cbn; exists ek, v3; split; [exact Z3|apply CK; exact CH]|]. eexists. split; [apply (STR s false); assumption|reflexivity].
    + destruct c; [specialize (OC eq_refl); discriminate OC|].
      split; [exact I|]. eexists. split; [apply (STR s true); assumption|reflexivity].
    + rewrite text_IL in TL |- *. split; [exact I|]. exists n. split; [|reflexivity].
      set (tl := (if c then [TComma] else []) ++ TRb :: rest) in *. assert (CL : closing tl rest) by (apply closing_c).
      destruct (all_len _ _ _ _ A (k_wf _ _ _ _ KE)) as (L1 & L2 & L3). specialize (L3 NL).
      pose proof (toksOf_len l tl) as TK. rewrite zlen_cons in TL.
      unfold InitModel.initArray. rewrite Z1, Z3, G. cbn [rbind open]. rewrite U. change (u32 0) with 0.
      assert (NS : match toksOf l tl with TExpr (SStr s) :: toks => if isCharKind ek then Some (s, toks) else None | _ => None end = None).
      { destruct l as [|i l]; [contradiction|]. rewrite toksOf_cons. destruct i as [[]|]; try reflexivity. cbn [text app].
        destruct (isCharKind ek) eqn:IC; [|reflexivity]. exfalso. inversion A as [|a1 a2 a3 l' a5 a6 T A']; subst.
        eapply (notstr W HW 1 t s l); [|lia|apply CK; reflexivity]. eapply el_next; [lia|exact T|apply el_all]. }
      rewrite NS. rewrite (elements_all t l n d A (q + 3) fuel _ 0 tl rest KE DF CL ltac:(lia)).
      * cbn [rbind]. replace (0 + n) with n by lia. replace (true && (n =? 0)) with false by lia. cbn [close rbind].
        replace (n <? 0) with false by lia. rewrite app_nil_r. reflexivity.
      * unfold zlen in *. lia.
      * exact NL.
      * lia.
Qed.
End P.
