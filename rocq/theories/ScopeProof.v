(** Proofs about the symbol table. *)
From Verif Require Import Base BaseLemmas LexModel ScopeSpec ScopeModel.

(** ** the declarations in the table *)
Inductive sitem := SD (d : decl) | SS.
Definition kindOf (t nx : Z) : kind :=
  if t =? tokTypedef then Typename else if nx =? tokNumInt then EnumConst else if nx =? tokLocalOfs then Auto
  else if nx =? tokIdent then Static else Linked.
Section scan.
Context (numeric : Z -> bool).
Fixpoint scan (c nx : Z) (st : stack) : option (list sitem) :=
  match st with
  | [] => if c =? 0 then Some [] else None
  | (t, v) :: r =>
      if negb (c =? 0) then scan (c + paren t) t r
      else if t =? cR then scan (-1) t r
      else if t =? cHash then option_map (cons SS) (scan 0 t r)
      else if (t =? tokTypedef) || (t =? tokIdent) then
        if numeric v then scan 0 t r else option_map (cons (SD (Name v (kindOf t nx) (zlen r)))) (scan 0 t r)
      else if t =? tokTag then option_map (cons (SD (Tag v (match r with (w, _) :: _ => w | [] => 0 end) (zlen r - 1)))) (scan 0 t r)
      else scan 0 t r
  end.
Lemma scan_nx c nx nx' st : c <> 0 -> scan c nx st = scan c nx' st.
Proof. intros C. destruct st as [|[t v] r]; [reflexivity|]. cbn [scan]. replace (c =? 0) with false by lia. reflexivity. Qed.
(** types: parameters in parentheses, anything else that is no declaration *)
Inductive inner : stack -> Prop :=
| in_nil : inner []
| in_tok t v b : t <> cL -> t <> cR -> inner b -> inner ((t, v) :: b)
| in_par x y a b : inner a -> inner b -> inner ((cL, x) :: a ++ (cR, y) :: b).
Definition plaintok (t : Z) : Prop := t <> cL /\ t <> cR /\ t <> cHash /\ t <> tokTypedef /\ t <> tokIdent /\ t <> tokTag.
Inductive wbody : stack -> Prop :=
| wb_nil : wbody []
| wb_tok t v b : plaintok t -> wbody b -> wbody ((t, v) :: b)
| wb_par x y a b : inner a -> wbody b -> wbody ((cL, x) :: a ++ (cR, y) :: b).

Lemma scan_inner b : inner b -> forall c nx st, c < 0 -> scan c nx (rev b ++ st) = scan c nx st.
Proof.
  induction 1 as [|t v b TL TR _ IH|x y a b _ IHa _ IHb]; intros c nx st C.
  - reflexivity.
  - cbn [rev]. rewrite <- app_assoc. rewrite IH by lia. cbn [app scan]. replace (c =? 0) with false by lia. cbn [negb].
    replace (c + paren t) with c by (unfold paren; replace (t =? cL) with false by lia; replace (t =? cR) with false by lia; lia). apply scan_nx. lia.
  - cbn [rev]. rewrite rev_app_distr. cbn [rev]. rewrite <- !app_assoc. rewrite IHb by lia. cbn [app scan]. replace (c =? 0) with false by lia. cbn [negb].
    change (paren cR) with (-1). rewrite IHa by lia. cbn [scan]. replace (c + -1 =? 0) with false by lia. cbn [negb]. change (paren cL) with 1. replace (c + -1 + 1) with c by lia. apply scan_nx. lia.
Qed.
Definition first (nx : Z) (b : stack) : Z := match b with (t, _) :: _ => t | [] => nx end.
Lemma scan_body b : wbody b -> forall nx st, scan 0 nx (rev b ++ st) = scan 0 (first nx b) st.
Proof.
  induction 1 as [|t v b (T1 & T2 & T3 & T4 & T5 & T6) _ IH|x y a b IA _ IH]; intros nx st.
  - reflexivity.
  - cbn [rev]. rewrite <- app_assoc. rewrite IH. cbn [app scan first]. change (negb (0 =? 0)) with false. cbv iota.
    replace (t =? cR) with false by lia. replace (t =? cHash) with false by lia. replace (t =? tokTypedef) with false by lia. replace (t =? tokIdent) with false by lia. replace (t =? tokTag) with false by lia. reflexivity.
  - cbn [rev]. rewrite rev_app_distr. cbn [rev]. rewrite <- !app_assoc. rewrite IH. cbn [app scan first]. change (negb (0 =? 0)) with false. change (cR =? cR) with true. cbv iota.
    rewrite scan_inner by (assumption || lia). cbn [scan]. change (negb (-1 =? 0)) with true. cbv iota. change (-1 + paren cL) with 0. reflexivity.
Qed.

(** ** lookups *)
Fixpoint sfind {A} (f : sitem -> option A) (l : list sitem) : option A :=
  match l with [] => None | x :: l => match f x with Some a => Some a | None => sfind f l end end.
Definition fsym (n : Z) (i : sitem) : option Z :=
  match i with SD (Name m k h) => if (m =? n) && negb (typename (Name m k h)) then Some h else None | _ => None end.
Definition ftyp (n : Z) (i : sitem) : option Z :=
  match i with SD (Name m k h) => if m =? n then Some (if typename (Name m k h) then h else -1) else None | _ => None end.
Lemma kindOf_typename t nx v h : (t =? tokTypedef) || (t =? tokIdent) = true -> typename (Name v (kindOf t nx) h) = (t =? tokTypedef).
Proof.
  intros T. unfold kindOf. destruct (t =? tokTypedef); [reflexivity|]. destruct (nx =? tokNumInt); [reflexivity|]. destruct (nx =? tokLocalOfs); [reflexivity|]. destruct (nx =? tokIdent); reflexivity.
Qed.
Lemma findSymbol_scan n : numeric n = false -> forall st c nx l, scan c nx st = Some l ->
  findSymbol c n st = Ok (match sfind (fsym n) l with Some h => h | None => -1 end).
Proof.
  intros NN. induction st as [|[t v] r IH]; intros c nx l E; cbn [scan findSymbol] in *.
  - destruct (c =? 0); [injection E as <-; reflexivity|discriminate E].
  - destruct (negb (c =? 0)); [eauto|]. destruct (Z.eqb_spec t cR) as [-> |R]; [change (cR =? tokIdent) with false; cbn [andb]; eauto|].
    destruct (Z.eqb_spec t cHash) as [-> |H].
    { change (cHash =? tokIdent) with false. cbn [andb]. destruct (scan 0 cHash r) as [l'|] eqn:S; [|discriminate E]. injection E as <-. exact (IH _ _ _ S). }
    destruct ((t =? tokTypedef) || (t =? tokIdent)) eqn:T.
    + destruct (numeric v) eqn:NV.
      * assert ((v =? n) = false) as -> by (destruct (Z.eqb_spec v n); [subst; congruence|reflexivity]). rewrite andb_false_r. eauto.
      * destruct (scan 0 t r) as [l'|] eqn:S; [|discriminate E]. injection E as <-. cbn [sfind fsym]. rewrite kindOf_typename by exact T.
        destruct (Z.eqb_spec t tokTypedef) as [-> |TT]; [change (tokTypedef =? tokIdent) with false; cbn [andb negb]; rewrite andb_false_r; exact (IH _ _ _ S)|].
        cbn [orb] in T. rewrite T. cbn [andb negb]. rewrite andb_true_r. destruct (v =? n); [reflexivity|exact (IH _ _ _ S)].
    + apply orb_false_iff in T. destruct T as [T1 T2]. rewrite T2. cbn [andb]. destruct (t =? tokTag); [|eauto].
      destruct (scan 0 t r) as [l'|] eqn:S; [|discriminate E]. injection E as <-. exact (IH _ _ _ S).
Qed.
Lemma findTypedef_scan n : numeric n = false -> forall st c nx l, scan c nx st = Some l ->
  findTypedef c n st = Ok (match sfind (ftyp n) l with Some h => h | None => -1 end).
Proof.
  intros NN. induction st as [|[t v] r IH]; intros c nx l E; cbn [scan findTypedef] in *.
  - destruct (c =? 0); [injection E as <-; reflexivity|discriminate E].
  - destruct (negb (c =? 0)); [eauto|]. destruct (Z.eqb_spec t cR) as [-> |R]; [change ((cR =? tokTypedef) || (cR =? tokIdent)) with false; cbn [andb]; eauto|].
    destruct (Z.eqb_spec t cHash) as [-> |H].
    { change ((cHash =? tokTypedef) || (cHash =? tokIdent)) with false. cbn [andb]. destruct (scan 0 cHash r) as [l'|] eqn:S; [|discriminate E]. injection E as <-. exact (IH _ _ _ S). }
    destruct ((t =? tokTypedef) || (t =? tokIdent)) eqn:T.
    + cbn [andb]. destruct (numeric v) eqn:NV.
      * assert ((v =? n) = false) as -> by (destruct (Z.eqb_spec v n); [subst; congruence|reflexivity]). eauto.
      * destruct (scan 0 t r) as [l'|] eqn:S; [|discriminate E]. injection E as <-. cbn [sfind ftyp]. rewrite kindOf_typename by exact T.
        destruct (v =? n); [|exact (IH _ _ _ S)]. destruct (Z.eqb_spec t tokTypedef) as [-> |TT]; [reflexivity|]. cbn [orb] in T. rewrite T. reflexivity.
    + cbn [andb]. destruct (t =? tokTag); [|eauto]. destruct (scan 0 t r) as [l'|] eqn:S; [|discriminate E]. injection E as <-. exact (IH _ _ _ S).
Qed.
Fixpoint ftag (n : Z) (scope : bool) (l : list sitem) : Z * bool :=
  match l with
  | [] => (-1, scope)
  | SS :: l => ftag n false l
  | SD (Tag m _ h) :: l => if m =? n then (h, scope) else ftag n scope l
  | SD (Name _ _ _) :: l => ftag n scope l
  end.
Lemma findTag_scan n : forall st c nx l scope, scan c nx st = Some l -> findTaggedDecl c n scope st = Ok (ftag n scope l).
Proof.
  induction st as [|[t v] r IH]; intros c nx l scope E; cbn [scan findTaggedDecl] in *.
  - destruct (c =? 0); [injection E as <-; reflexivity|discriminate E].
  - destruct (negb (c =? 0)); [eauto|]. destruct (Z.eqb_spec t cR) as [-> |R]; [change (cR =? tokTag) with false; cbn [andb]; eauto|].
    destruct (Z.eqb_spec t cHash) as [-> |H].
    { change (cHash =? tokTag) with false. cbn [andb]. destruct (scan 0 cHash r) as [l'|] eqn:S; [|discriminate E]. injection E as <-. exact (IH _ _ _ _ S). }
    destruct ((t =? tokTypedef) || (t =? tokIdent)) eqn:T.
    + replace (t =? tokTag) with false by (unfold tokTypedef, tokIdent, tokTag in *; lia). cbn [andb]. destruct (numeric v) eqn:NV; [eauto|].
      destruct (scan 0 t r) as [l'|] eqn:S; [|discriminate E]. injection E as <-. exact (IH _ _ _ _ S).
    + destruct (t =? tokTag); [|cbn [andb]; eauto]. cbn [andb]. destruct (scan 0 t r) as [l'|] eqn:S; [|discriminate E]. injection E as <-. cbn [ftag].
      destruct (v =? n); [reflexivity|exact (IH _ _ _ _ S)].
Qed.

(** ** redeclarations *)
Section red.
Context (compat : Z -> Z -> bool) (lvl last id : Z) (other external : bool).
Fixpoint sred (level : Z) (l : list sitem) : res unit :=
  match l with
  | [] => Ok tt
  | SS :: l => if other || negb external then Ok tt else sred (level - 1) l
  | SD (Name n k h) :: l =>
      if n =? id then
        let plain := match k with Typename | EnumConst => false | _ => true end in
        let own := match k with Auto | Static => true | _ => false end in
        if level =? lvl then
          if other || negb plain then Err else
          if negb (level =? 0) && (own || negb external) then Err else
          if compat last h then Ok tt else Err
        else
          if plain && negb own then if compat last h then Ok tt else Err
          else sred level l
      else sred level l
  | SD (Tag _ _ _) :: l => sred level l
  end.
Lemma redecl_scan : numeric id = false -> forall st c nx l level, scan c nx st = Some l -> redecl compat lvl last id other external c level nx st = sred level l.
Proof.
  intros NN. induction st as [|[t v] r IH]; intros c nx l level E; cbn [scan redecl] in *.
  - destruct (c =? 0); [injection E as <-; reflexivity|discriminate E].
  - destruct (negb (c =? 0)); [eauto|]. destruct (Z.eqb_spec t cR) as [-> |R]; [eauto|].
    destruct (Z.eqb_spec t cHash) as [-> |H].
    { destruct (scan 0 cHash r) as [l'|] eqn:S; [|discriminate E]. injection E as <-. cbn [sred]. destruct (other || negb external); [reflexivity|]. exact (IH _ _ _ _ S). }
    destruct ((t =? tokTypedef) || (t =? tokIdent)) eqn:T.
    + cbn [andb]. destruct (numeric v) eqn:NV.
      * assert ((v =? id) = false) as -> by (destruct (Z.eqb_spec v id); [subst; congruence|reflexivity]). eauto.
      * destruct (scan 0 t r) as [l'|] eqn:S; [|discriminate E]. injection E as <-. cbn [sred]. destruct (v =? id); [|exact (IH _ _ _ _ S)]. cbv zeta.
        assert (PL : (match kindOf t nx with Typename | EnumConst => false | _ => true end) = (t =? tokIdent) && negb (nx =? tokNumInt)).
        { unfold kindOf. destruct (Z.eqb_spec t tokTypedef) as [-> |]; [reflexivity|]. cbn [orb] in T. rewrite T. cbn [andb]. destruct (nx =? tokNumInt); [reflexivity|]. destruct (nx =? tokLocalOfs); [reflexivity|]. destruct (nx =? tokIdent); reflexivity. }
        assert (OW : (t =? tokIdent) && negb (nx =? tokNumInt) = true -> (match kindOf t nx with Auto | Static => true | _ => false end) = (nx =? tokLocalOfs) || (nx =? tokIdent)).
        { rewrite <- PL. unfold kindOf. destruct (t =? tokTypedef); [discriminate|]. destruct (nx =? tokNumInt); [discriminate|]. intros _. destruct (nx =? tokLocalOfs); [reflexivity|]. destruct (nx =? tokIdent); reflexivity. }
        rewrite PL. destruct ((t =? tokIdent) && negb (nx =? tokNumInt)) eqn:P.
        -- rewrite (OW eq_refl). cbn [negb andb]. rewrite (IH _ _ _ level S). reflexivity.
        -- cbn [negb andb]. rewrite (IH _ _ _ level S), orb_true_r. reflexivity.
    + cbn [andb]. destruct (t =? tokTag); [|eauto]. destruct (scan 0 t r) as [l'|] eqn:S; [|discriminate E]. injection E as <-. exact (IH _ _ _ _ S).
Qed.
End red.
End scan.

Section rep.
Context (numeric : Z -> bool).
Notation scan := (scan numeric).
Definition flat (e : env) : list sitem := flat_map (fun s => map SD s ++ [SS]) e.
Definition isother (k : kind) : bool := match k with Typename | EnumConst => true | _ => false end.
Definition isext (k : kind) : bool := match k with Linked => true | _ => false end.

(** in a scope, a name that is declared more than once is linked *)
Fixpoint good (s : list decl) : Prop :=
  match s with
  | [] => True
  | d :: s => (match d with Name n _ _ => forall d', In d' s -> named n d' = true -> linked d = true /\ linked d' = true | Tag _ _ _ => True end) /\ good s
  end.
Definition filescope (d : decl) : Prop := match d with Name _ (Auto | Static) _ => False | _ => True end.

Lemma sred_outer compat lvl h n e : forall level, level < lvl ->
  sred compat lvl h n false true level (flat e) = match innermost (fun d => named n d && linked d) e with Some d => if compat h (handle d) then Ok tt else Err | None => Ok tt end.
Proof.
  induction e as [|s e IH]; intros level L; [reflexivity|]. cbn [flat flat_map]. fold (flat e). rewrite <- app_assoc.
  induction s as [|d s IHs]; cbn [map app].
  - cbn [sred negb orb innermost find]. apply IH. lia.
  - destruct d as [m k hd|m w hd]; cbn [sred innermost find named linked andb].
    + destruct (m =? n); [|exact IHs]. cbv zeta. replace (level =? lvl) with false by lia. destruct k; cbn [andb negb]; try exact IHs. reflexivity.
    + exact IHs.
Qed.
Lemma sred_may compat lvl h n k s e : good s -> (lvl = 0 -> Forall filescope s /\ filescope (Name n k h)) ->
  sred compat lvl h n (isother k) (isext k) lvl (flat (s :: e)) = if mayDeclare compat (s :: e) n k h then Ok tt else Err.
Proof.
  intros G F. cbn [flat flat_map]. fold (flat e). rewrite <- app_assoc. unfold mayDeclare. fold (isext k).
  change (match k with Linked => true | _ => false end) with (isext k).
  assert (OE : isother k || negb (isext k) = negb (isext k)) by (destruct k; reflexivity).
  assert (FS : lvl = 0 -> isother k || isext k = true) by (intros L; destruct (F L) as [_ F2]; destruct k; cbn in F2; try contradiction; reflexivity).
  assert (FA : lvl = 0 -> Forall filescope s) by (intros L; apply F; exact L). clear F.
  induction s as [|d s IHs]; cbn [map app].
  - cbn [sred existsb negb andb innermost find]. rewrite OE. destruct (isext k) eqn:X; [|reflexivity]. cbn [negb].
    assert (isother k = false) as -> by (destruct k; reflexivity || discriminate X). rewrite sred_outer by lia. destruct (innermost _ e) as [d|]; [destruct (compat h (handle d)); reflexivity|reflexivity].
  - cbn [good] in G. destruct G as [GD GS]. assert (FA' : lvl = 0 -> Forall filescope s) by (intros L; specialize (FA L); inversion FA; assumption).
    specialize (IHs GS FA').
    destruct d as [m kd hd|m w hd]; cbn [sred existsb innermost find named linked andb orb negb].
    + destruct (Z.eqb_spec m n) as [-> |N].
      * cbv zeta. rewrite Z.eqb_refl. cbn [andb].
        destruct (negb ((match kd with Linked => true | _ => false end) && isext k)) eqn:C.
        -- cbn [orb negb andb]. destruct (isother k) eqn:OK; [reflexivity|]. cbn [orb].
           destruct (Z.eqb_spec lvl 0) as [L|L].
           ++ specialize (FA L). apply Forall_inv in FA. cbn in FA. specialize (FS L). cbn [orb] in FS. rewrite FS in C. destruct kd; cbn in *; try contradiction; try discriminate C; reflexivity.
           ++ cbn [negb andb]. destruct kd; cbn [negb andb orb] in *; try reflexivity. rewrite C. reflexivity.
        -- cbn [orb]. assert (kd = Linked /\ isext k = true) as [-> X] by (destruct kd; cbn in C; try discriminate C; split; [reflexivity|destruct (isext k); [reflexivity|discriminate C]]).
           rewrite X. assert (isother k = false) as -> by (destruct k; reflexivity || discriminate X). cbn [orb negb andb]. rewrite andb_false_r.
           assert (EX : existsb (fun d => named n d && negb (linked d && true)) s = false).
           { apply not_true_is_false. intros E. apply existsb_exists in E. destruct E as (d' & IN & E). apply andb_true_iff in E. destruct E as [E1 E2]. destruct (GD d' IN E1) as [_ E3]. rewrite E3 in E2. discriminate E2. }
           rewrite EX. cbn [negb andb handle]. destruct (compat h hd); reflexivity.
      * cbn [andb orb]. exact IHs.
    + exact IHs.
Qed.

(** ** the invariant *)
Definition SC (st : stack) (e : env) : Prop := forall nx, scan 0 nx st = Some (flat e).
Definition startok (b : stack) : Prop := exists t v b', b = (t, v) :: b' /\ t <> tokNumInt /\ t <> tokLocalOfs /\ t <> tokIdent.
Inductive Rep : env -> stack -> Z -> list undo -> Prop :=
| Rep_file f st : SC st [f] -> good f -> Forall filescope f -> Rep [f] st 0 []
| Rep_fxn f st0 n body s top : let st := rev ((tokIdent, n) :: body) ++ st0 in
    SC st0 [f] -> good f -> Forall filescope f -> wbody body -> startok body -> numeric n = false ->
    SC (top ++ (cHash, 0) :: st) [s; Name n Linked (zlen st0) :: f] -> good s ->
    Rep [s; Name n Linked (zlen st0) :: f] (top ++ (cHash, 0) :: st) 1 [UFxn (zlen st) (zlen st0)]
| Rep_block e st lvl us s top : Rep e st lvl us -> 0 < lvl -> SC (top ++ (cHash, 0) :: st) (s :: e) -> good s ->
    Rep (s :: e) (top ++ (cHash, 0) :: st) (lvl + 1) (UBlock (zlen st) :: us)
| Rep_for e st lvl us s top : Rep e st lvl us -> 0 < lvl -> SC (top ++ (cHash, 0) :: st) (s :: e) -> good s ->
    Rep (s :: e) (top ++ (cHash, 0) :: st) lvl (UFor (zlen st) :: us).
Lemma Rep_SC e st lvl us : Rep e st lvl us -> SC st e.
Proof. destruct 1; assumption. Qed.
Lemma Rep_lvl e st lvl us : Rep e st lvl us -> (lvl = 0 /\ exists f, e = [f] /\ us = [] /\ Forall filescope f) \/ (0 < lvl /\ exists s t e', e = s :: t :: e').
Proof.
  induction 1 as [f|f st0 n body s top|e st lvl us s top R IH L|e st lvl us s top R IH L]; [left; eauto 6|right; split; [lia|eauto]| |];
  (right; split; [lia|]; destruct IH as [[-> _]|[_ (a & b & e' & ->)]]; [lia|eauto]).
Qed.
Lemma Rep_good s e st lvl us : Rep (s :: e) st lvl us -> good s.
Proof. intros R. inversion R; assumption. Qed.
(** more declarations in the innermost scope *)
Lemma Rep_push s e st lvl us l s' : Rep (s :: e) st lvl us -> SC (l ++ st) (s' :: e) -> good s' -> (lvl = 0 -> Forall filescope s') -> Rep (s' :: e) (l ++ st) lvl us.
Proof.
  intros R S G F. inversion R; subst.
  - apply Rep_file; auto.
  - rewrite app_assoc. apply Rep_fxn; try assumption. rewrite <- app_assoc. assumption.
  - rewrite app_assoc. apply Rep_block; try assumption. rewrite <- app_assoc. assumption.
  - rewrite app_assoc. apply Rep_for; try assumption. rewrite <- app_assoc. assumption.
Qed.
Lemma cutTo_app (a b : stack) : cutTo (a ++ b) (zlen b) = b.
Proof.
  unfold cutTo. rewrite zlen_app. replace (Z.to_nat (zlen a + zlen b - zlen b)) with (List.length a) by (unfold zlen; lia).
  rewrite skipn_app, skipn_all, Nat.sub_diag. reflexivity.
Qed.
Lemma atp_rev (l st : stack) i x : nth_error l i = Some x -> atp (rev l ++ st) (zlen st + Z.of_nat i) = Ok x.
Proof.
  intros H. pose proof (nth_error_Some l i) as LT. assert (i < List.length l)%nat as LI by (apply LT; congruence).
  unfold atp, zget. rewrite zlen_app. unfold zlen. rewrite rev_length.
  replace (Z.of_nat (List.length l) + Z.of_nat (List.length st) - 1 - (Z.of_nat (List.length st) + Z.of_nat i) <? 0) with false by lia.
  replace (Z.to_nat (Z.of_nat (List.length l) + Z.of_nat (List.length st) - 1 - (Z.of_nat (List.length st) + Z.of_nat i))) with (List.length l - 1 - i)%nat by lia.
  rewrite nth_error_app1 by (rewrite rev_length; lia).
  rewrite (nth_error_nth' _ (0, 0)) by (rewrite rev_length; lia). rewrite rev_nth by lia. replace (List.length l - S (List.length l - 1 - i))%nat with i by lia.
  rewrite (nth_error_nth l i (0, 0) H). reflexivity.
Qed.

(** the shapes of declarations *)
Definition shape (k : kind) (n : Z) (l : stack) : Prop :=
  match k with
  | Linked => exists b, l = (tokIdent, n) :: b /\ wbody b /\ startok b
  | Static => exists m b, l = (tokIdent, n) :: (tokIdent, m) :: b /\ wbody b /\ numeric m = true
  | Auto => exists o b, l = (tokIdent, n) :: (tokLocalOfs, o) :: b /\ wbody b
  | EnumConst => exists v, l = [(tokIdent, n); (tokNumInt, v)]
  | Typename => exists b, l = (tokTypedef, n) :: b /\ wbody b /\ b <> []
  end.
Lemma shape_scan k n l st : shape k n l -> numeric n = false -> forall nx, scan 0 nx (rev l ++ st) = option_map (cons (SD (Name n k (zlen st)))) (scan 0 (if isother k then match k with Typename => tokTypedef | _ => tokIdent end else tokIdent) st).
Proof.
  intros SH N nx. assert (PL : plaintok tokLocalOfs /\ plaintok tokNumInt) by (unfold plaintok, tokLocalOfs, tokNumInt, cL, cR, cHash, tokTypedef, tokIdent, tokTag; lia).
  destruct k; cbn [shape isother] in *.
  - destruct SH as (b & -> & W & (t & v & b' & -> & T1 & T2 & T3)). cbn [rev]. rewrite <- app_assoc. rewrite (scan_body numeric _ W). cbn [app scan first].
    change (negb (0 =? 0)) with false. change (tokIdent =? cR) with false. change (tokIdent =? cHash) with false. change ((tokIdent =? tokTypedef) || (tokIdent =? tokIdent)) with true. cbv iota. rewrite N.
    unfold kindOf. change (tokIdent =? tokTypedef) with false. replace (t =? tokNumInt) with false by lia. replace (t =? tokLocalOfs) with false by lia. replace (t =? tokIdent) with false by lia. reflexivity.
  - destruct SH as (m & b & -> & W & M). cbn [rev]. rewrite <- !app_assoc. rewrite (scan_body numeric _ W). cbn [app scan first].
    change (negb (0 =? 0)) with false. change (tokIdent =? cR) with false. change (tokIdent =? cHash) with false. change ((tokIdent =? tokTypedef) || (tokIdent =? tokIdent)) with true. cbv iota. rewrite N, M. reflexivity.
  - destruct SH as (o & b & -> & W). change ((tokIdent, n) :: (tokLocalOfs, o) :: b) with ([(tokIdent, n)] ++ (tokLocalOfs, o) :: b). rewrite rev_app_distr, <- app_assoc.
    rewrite (scan_body numeric ((tokLocalOfs, o) :: b)) by (constructor; tauto). cbn [rev app scan first].
    change (negb (0 =? 0)) with false. change (tokIdent =? cR) with false. change (tokIdent =? cHash) with false. change ((tokIdent =? tokTypedef) || (tokIdent =? tokIdent)) with true. cbv iota. rewrite N. reflexivity.
  - destruct SH as (v & ->). change (rev [(tokIdent, n); (tokNumInt, v)] ++ st) with (rev [(tokNumInt, v)] ++ (tokIdent, n) :: st). rewrite (scan_body numeric [(tokNumInt, v)]) by (constructor; [tauto|constructor]). cbn [scan first].
    change (negb (0 =? 0)) with false. change (tokIdent =? cR) with false. change (tokIdent =? cHash) with false. change ((tokIdent =? tokTypedef) || (tokIdent =? tokIdent)) with true. cbv iota. rewrite N. reflexivity.
  - destruct SH as (b & -> & W & _). cbn [rev]. rewrite <- app_assoc. rewrite (scan_body numeric _ W). cbn [app scan].
    change (negb (0 =? 0)) with false. change (tokTypedef =? cR) with false. change (tokTypedef =? cHash) with false. change ((tokTypedef =? tokTypedef) || (tokTypedef =? tokIdent)) with true. cbv iota. rewrite N. reflexivity.
Qed.
Lemma shape_check compat lvl k n l st : shape k n l -> numeric n = false -> forall its, (forall nx, scan 0 nx st = Some its) ->
  checkRedecl compat lvl (rev l ++ st) (zlen st) = sred compat lvl (zlen st) n (isother k) (isext k) lvl its.
Proof.
  intros SH N its S. unfold checkRedecl. rewrite zlen_app.
  replace (Z.to_nat (zlen (rev l) + zlen st - zlen st)) with (List.length (rev l)) by (unfold zlen; lia).
  rewrite skipn_app, skipn_all, Nat.sub_diag. cbn [app skipn].
  assert (A0 : forall x l', l = x :: l' -> atp (rev l ++ st) (zlen st) = Ok x) by (intros x l' ->; rewrite <- (Z.add_0_r (zlen st)) at 1; apply (atp_rev (x :: l') st 0 x); reflexivity).
  assert (A1 : forall x y l', l = x :: y :: l' -> atp (rev l ++ st) (zlen st + 1) = Ok y) by (intros x y l' ->; apply (atp_rev (x :: y :: l') st 1 y); reflexivity).
  destruct k; cbn [shape isother isext] in *.
  - destruct SH as (b & -> & W & (t & v & b' & -> & T1 & T2 & T3)). rewrite (A0 _ _ eq_refl). cbn [rbind]. rewrite (A1 _ _ _ eq_refl). cbn [rbind]. change (tokIdent =? tokIdent) with true.
    replace (t =? tokNumInt) with false by lia. replace (t =? tokLocalOfs) with false by lia. replace (t =? tokIdent) with false by lia. cbn [andb orb negb]. exact (redecl_scan numeric _ _ _ _ _ _ N _ _ _ _ _ (S _)).
  - destruct SH as (m & b & -> & W & M). rewrite (A0 _ _ eq_refl). cbn [rbind]. rewrite (A1 _ _ _ eq_refl). cbn [rbind]. exact (redecl_scan numeric _ _ _ _ _ _ N _ _ _ _ _ (S _)).
  - destruct SH as (o & b & -> & W). rewrite (A0 _ _ eq_refl). cbn [rbind]. rewrite (A1 _ _ _ eq_refl). cbn [rbind]. exact (redecl_scan numeric _ _ _ _ _ _ N _ _ _ _ _ (S _)).
  - destruct SH as (v & ->). rewrite (A0 _ _ eq_refl). cbn [rbind]. rewrite (A1 _ _ _ eq_refl). cbn [rbind]. exact (redecl_scan numeric _ _ _ _ _ _ N _ _ _ _ _ (S _)).
  - destruct SH as (b & -> & W & NE). destruct b as [|[t v] b]; [contradiction|]. rewrite (A0 _ _ eq_refl). cbn [rbind]. rewrite (A1 _ _ _ eq_refl). cbn [rbind]. exact (redecl_scan numeric _ _ _ _ _ _ N _ _ _ _ _ (S _)).
Qed.

(** ** steps *)
Definition okop (o : op) : Prop :=
  match o with
  | ODecl _ _ n m _ b => numeric n = false /\ numeric m = true /\ wbody b /\ startok b
  | OTypedef n b => numeric n = false /\ wbody b /\ b <> []
  | OEnum n _ => numeric n = false
  | OTag w _ => plaintok w
  | OToks b => wbody b
  | OFxn n b => numeric n = false /\ wbody b /\ startok b
  | OOpen | OFor | OClose => True
  end.
Lemma declared_ok compat s e k n l : Rep e (stk s) (level s) (undos s) -> shape k n l -> numeric n = false -> (level s = 0 -> filescope (Name n k 0)) ->
  match declared compat s l with
  | Ok s' => exists e', sstep compat e (Declare n k) (zlen (stk s)) = Some e' /\ Rep e' (stk s') (level s') (undos s')
  | Err => sstep compat e (Declare n k) (zlen (stk s)) = None
  | Oob => False
  end.
Proof.
  intros R SH N FS. pose proof (Rep_SC _ _ _ _ R) as SCS. destruct e as [|s0 e]; [destruct (Rep_lvl _ _ _ _ R) as [[_ (f & E & _)]|[_ (a & b & e' & E)]]; discriminate E|].
  pose proof (Rep_good _ _ _ _ _ R) as G. unfold declared, pushAll. cbv zeta. rewrite (shape_check compat (level s) k n l (stk s) SH N _ SCS).
  assert (F0 : level s = 0 -> Forall filescope s0 /\ filescope (Name n k (zlen (stk s)))).
  { intros L. destruct (Rep_lvl _ _ _ _ R) as [[_ (f & E & _ & F)]|[L' _]]; [|lia]. injection E as -> _. split; [exact F|]. exact (FS L). }
  rewrite (sred_may compat (level s) (zlen (stk s)) n k s0 e G F0). cbn [sstep].
  destruct (mayDeclare compat (s0 :: e) n k (zlen (stk s))) eqn:M; cbn [rbind]; [|reflexivity].
  eexists. split; [reflexivity|]. cbn [stk level undos]. apply (Rep_push s0).
  - exact R.
  - intros nx. rewrite (shape_scan k n l (stk s) SH N nx). rewrite SCS. reflexivity.
  - cbn [good]. split; [|exact G]. intros d' IN ND. unfold mayDeclare in M. apply andb_true_iff in M. destruct M as [M _]. apply negb_true_iff in M.
    assert (E : named n d' && negb (linked d' && isext k) = false).
    { apply not_true_is_false. intros E. apply not_true_iff_false in M. apply M. apply existsb_exists. exists d'. auto. }
    rewrite ND in E. cbn [andb] in E. apply negb_false_iff, andb_true_iff in E. destruct E as [E1 E2]. split; [|exact E1]. destruct k; try discriminate E2. reflexivity.
  - intros L. destruct (F0 L). constructor; assumption.
Qed.
Lemma Rep_level e s : Rep e (stk s) (level s) (undos s) -> negb (level s =? 0) = match e with _ :: _ :: _ => true | _ => false end.
Proof. intros R. destruct (Rep_lvl _ _ _ _ R) as [[-> (f & -> & _)]|[L (a & b & e' & ->)]]; [reflexivity|]. lia. Qed.
Definition infun (e : env) : bool := match e with _ :: _ :: _ => true | _ => false end.
Lemma step_ok compat s e o : Rep e (stk s) (level s) (undos s) -> okop o ->
  match step compat s o with
  | Ok s' => exists e', sstep compat e (meaning (infun e) o) (zlen (stk s)) = Some e' /\ Rep e' (stk s') (level s') (undos s')
  | Err => sstep compat e (meaning (infun e) o) (zlen (stk s)) = None
  | Oob => False
  end.
Proof.
  intros R OK. pose proof (Rep_level e s R) as LV. fold (infun e) in LV. pose proof (Rep_SC _ _ _ _ R) as SCS. pose proof (Rep_lvl _ _ _ _ R) as RL.
  assert (L0 : infun e = true -> level s <> 0) by (intros E L; rewrite E, L in LV; discriminate LV).
  destruct o as [sto fn n m ofs b|n b|n v|w n|b|n b| | |]; cbn [step okop meaning] in *.
  - destruct OK as (N & M & W & ST). rewrite LV. destruct sto.
    + destruct (infun e && negb fn) eqn:I.
      * apply declared_ok; [exact R| |exact N|intros L; apply andb_true_iff in I; destruct I as [I _]; specialize (L0 I); lia]. exists ofs, b. split; [reflexivity|exact W].
      * apply declared_ok; [exact R| |exact N|intros _; exact Logic.I]. exists b. auto.
    + destruct (infun e) eqn:I.
      * destruct fn; cbn [andb]; [reflexivity|]. apply declared_ok; [exact R| |exact N|intros L; specialize (L0 eq_refl); lia]. exists m, b. auto.
      * cbn [andb]. apply declared_ok; [exact R| |exact N|intros _; exact Logic.I]. exists b. auto.
    + apply declared_ok; [exact R| |exact N|intros _; exact Logic.I]. exists b. auto.
  - destruct OK as (N & W & NE). apply declared_ok; [exact R| |exact N|intros _; exact Logic.I]. exists b. auto.
  - apply declared_ok; [exact R| |exact OK|intros _; exact Logic.I]. exists v. reflexivity.
  - destruct e as [|s0 e]; [destruct RL as [[_ (f & E & _)]|[_ (a & b & e' & E)]]; discriminate E|]. cbn [sstep]. eexists. split; [reflexivity|]. cbn [stk level undos]. unfold pushAll. cbn [rev app].
    change ((tokTag, n) :: (w, 0) :: stk s) with ([(tokTag, n); (w, 0)] ++ stk s). apply (Rep_push s0 e _ _ _ _ _ R).
    + intros nx. cbn [app scan]. change (negb (0 =? 0)) with false. change (tokTag =? cR) with false. change (tokTag =? cHash) with false. change ((tokTag =? tokTypedef) || (tokTag =? tokIdent)) with false. change (tokTag =? tokTag) with true. cbv iota.
      destruct OK as (T1 & T2 & T3 & T4 & T5 & T6). replace (w =? cR) with false by lia. replace (w =? cHash) with false by lia. replace (w =? tokTypedef) with false by lia. replace (w =? tokIdent) with false by lia. replace (w =? tokTag) with false by lia. cbn [orb].
      rewrite SCS. cbn [option_map flat flat_map map app]. replace (zlen ((w, 0) :: stk s) - 1) with (zlen (stk s)) by (unfold zlen; cbn [List.length]; lia). reflexivity.
    + cbn [good]. split; [exact I|]. exact (Rep_good _ _ _ _ _ R).
    + intros L. destruct RL as [[_ (f & E & _ & F)]|[L' _]]; [|lia]. injection E as -> _. constructor; [exact I|exact F].
  - destruct e as [|s0 e]; [destruct RL as [[_ (f & E & _)]|[_ (a & b' & e' & E)]]; discriminate E|]. exists (s0 :: e). split; [reflexivity|]. cbn [stk level undos]. unfold pushAll. apply (Rep_push s0 e _ _ _ _ _ R).
    + intros nx. rewrite (scan_body numeric b OK). apply SCS.
    + exact (Rep_good _ _ _ _ _ R).
    + intros L. destruct RL as [[_ (f & E & _ & F)]|[L' _]]; [|lia]. injection E as -> _. exact F.
  - destruct OK as (N & W & ST). rewrite LV. destruct RL as [[L (f & -> & U & F)]|[L (a & b' & e' & ->)]].
    + cbn [infun sstep]. eexists. split; [reflexivity|]. cbn [stk level undos]. rewrite U. unfold pushAll. change (rev [(cHash, 0)] ++ rev ((tokIdent, n) :: b) ++ stk s) with ([] ++ (cHash, 0) :: rev ((tokIdent, n) :: b) ++ stk s).
      apply Rep_fxn; try assumption; [exact (Rep_good _ _ _ _ _ R)| |exact I].
      intros nx. change ([] ++ (cHash, 0) :: rev ((tokIdent, n) :: b) ++ stk s) with ((cHash, 0) :: rev ((tokIdent, n) :: b) ++ stk s). cbn [scan]. change (negb (0 =? 0)) with false. change (cHash =? cR) with false. change (cHash =? cHash) with true. cbv iota.
      rewrite (shape_scan Linked n ((tokIdent, n) :: b) (stk s) ltac:(exists b; auto) N), SCS. reflexivity.
    + cbn [infun sstep]. reflexivity.
  - replace (level s =? 0) with (negb (infun e)) by (rewrite <- LV, negb_involutive; reflexivity). destruct RL as [[L (f & -> & U & F)]|[L (a & b' & e' & ->)]]; cbn [infun negb sstep]; [reflexivity|].
    eexists. split; [reflexivity|]. cbn [stk level undos]. unfold pushAll. change (rev [(cHash, 0)] ++ stk s) with ([] ++ (cHash, 0) :: stk s). apply Rep_block; [exact R|exact L| |exact I].
    intros nx. cbn [app scan]. change (negb (0 =? 0)) with false. change (cHash =? cR) with false. change (cHash =? cHash) with true. cbv iota. rewrite SCS. reflexivity.
  - replace (level s =? 0) with (negb (infun e)) by (rewrite <- LV, negb_involutive; reflexivity). destruct RL as [[L (f & -> & U & F)]|[L (a & b' & e' & ->)]]; cbn [infun negb sstep]; [reflexivity|].
    eexists. split; [reflexivity|]. cbn [stk level undos]. unfold pushAll. change (rev [(cHash, 0)] ++ stk s) with ([] ++ (cHash, 0) :: stk s). apply Rep_for; [exact R|exact L| |exact I].
    intros nx. cbn [app scan]. change (negb (0 =? 0)) with false. change (cHash =? cR) with false. change (cHash =? cHash) with true. cbv iota. rewrite SCS. reflexivity.
  - destruct s as [st lvl us]. cbn [stk level undos] in *. inversion R as [f st' S G F|f st0 n body s top st' S0 G F W ST N S GS|e0 st' lvl' us' s top R' L S GS|e0 st' lvl' us' s top R' L S GS]; subst; cbn [step].
    + reflexivity.
    + unfold step. cbn [undos stk level]. change (top ++ (cHash, 0) :: st') with (top ++ [(cHash, 0)] ++ st'). rewrite app_assoc, cutTo_app. change (1 - 1) with 0.
      assert (SH : shape Linked n ((tokIdent, n) :: body)) by (exists body; auto).
      unfold st'. rewrite (shape_check compat 0 Linked n _ st0 SH N _ S0). rewrite (sred_may compat 0 (zlen st0) n Linked f [] G ltac:(intros _; split; [exact F|exact I])).
      cbn [sstep]. destruct (mayDeclare compat [f] n Linked (zlen st0)) eqn:M; cbn [rbind]; [|reflexivity]. eexists. split; [reflexivity|]. cbn [stk level undos]. apply Rep_file.
      * intros nx. rewrite (shape_scan Linked n _ st0 SH N), S0. reflexivity.
      * cbn [good]. split; [|exact G]. intros d' IN ND. unfold mayDeclare in M. apply andb_true_iff in M. destruct M as [M _]. apply negb_true_iff in M.
        assert (E : named n d' && negb (linked d' && true) = false).
        { apply not_true_is_false. intros E. apply not_true_iff_false in M. apply M. apply existsb_exists. exists d'. auto. }
        rewrite ND in E. cbn [andb] in E. apply negb_false_iff, andb_true_iff in E. destruct E as [E1 E2]. split; [reflexivity|exact E1].
      * constructor; [exact I|exact F].
    + unfold step. cbn [undos stk level]. change (top ++ (cHash, 0) :: st') with (top ++ [(cHash, 0)] ++ st'). rewrite app_assoc, cutTo_app. exists e0.
      destruct (Rep_lvl _ _ _ _ R') as [[L' _]|[_ (a & b' & e' & ->)]]; [lia|]. split; [destruct a as [|[? ? ?|? ? ?] ?]; reflexivity|]. cbn [stk level undos]. replace (lvl' + 1 - 1) with lvl' by lia. exact R'.
    + unfold step. cbn [undos stk level]. change (top ++ (cHash, 0) :: st') with (top ++ [(cHash, 0)] ++ st'). rewrite app_assoc, cutTo_app. exists e0.
      destruct (Rep_lvl _ _ _ _ R') as [[L' _]|[_ (a & b' & e' & ->)]]; [lia|]. split; [destruct a as [|[? ? ?|? ? ?] ?]; reflexivity|]. cbn [stk level undos]. exact R'.
Qed.
Lemma start_Rep dummy : numeric dummy = true -> Rep [[]] (stk (start dummy)) (level (start dummy)) (undos (start dummy)).
Proof.
  intros D. apply Rep_file; [|exact I|constructor]. intros nx. lazy. rewrite D. reflexivity.
Qed.

(** ** what lookups find *)
Lemma sfind_sym n e : sfind (fsym n) (flat e) = option_map handle (innermost (fun d => named n d && negb (typename d)) e).
Proof.
  induction e as [|s e IH]; [reflexivity|]. cbn [flat flat_map]. fold (flat e). rewrite <- app_assoc. induction s as [|d s IHs]; cbn [map app sfind innermost find].
  - exact IH.
  - destruct d as [m k h|m w h]; cbn [fsym named typename]; [|exact IHs]. destruct (m =? n); cbn [andb]; [|exact IHs]. destruct k; cbn [negb]; try reflexivity. exact IHs.
Qed.
Lemma sfind_typ n e : sfind (ftyp n) (flat e) = option_map (fun d => if typename d then handle d else -1) (innermost (named n) e).
Proof.
  induction e as [|s e IH]; [reflexivity|]. cbn [flat flat_map]. fold (flat e). rewrite <- app_assoc. induction s as [|d s IHs]; cbn [map app sfind innermost find].
  - exact IH.
  - destruct d as [m k h|m w h]; cbn [ftyp named typename]; [|exact IHs]. destruct (m =? n); [reflexivity|exact IHs].
Qed.
Lemma ftag_false n e : forall b, fst (ftag n b (flat e)) = match innermost (tagged n) e with Some d => handle d | None => -1 end /\ (b = false -> snd (ftag n b (flat e)) = false).
Proof.
  induction e as [|s e IH]; intros b; [split; auto|]. cbn [flat flat_map]. fold (flat e). rewrite <- app_assoc. induction s as [|d s IHs]; cbn [map app ftag innermost find].
  - destruct (IH false) as [A B]. split; [exact A|]. intros _. apply B. reflexivity.
  - destruct d as [m k h|m w h]; cbn [tagged]; [exact IHs|]. destruct (m =? n); [split; [reflexivity|auto]|exact IHs].
Qed.
Lemma ftag_true n s e : (exists d, find (tagged n) s = Some d) -> snd (ftag n true (flat (s :: e))) = true.
Proof.
  cbn [flat flat_map]. fold (flat e). rewrite <- app_assoc. intros [d F]. induction s as [|x s IHs]; cbn [find] in F; [discriminate F|]. cbn [map app ftag].
  destruct x as [m k h|m w h]; cbn [tagged] in F; [apply IHs; exact F|]. destruct (m =? n); [reflexivity|apply IHs; exact F].
Qed.
Lemma ftag_none n s e : find (tagged n) s = None -> innermost (tagged n) e <> None -> snd (ftag n true (flat (s :: e))) = false.
Proof.
  cbn [flat flat_map]. fold (flat e). rewrite <- app_assoc. intros F _. induction s as [|x s IHs]; cbn [find] in F; cbn [map app ftag]; [exact (proj2 (ftag_false n e false) eq_refl)|].
  destruct x as [m k h|m w h]; cbn [tagged] in F; [apply IHs; exact F|]. destruct (m =? n); [discriminate F|apply IHs; exact F].
Qed.
End rep.
