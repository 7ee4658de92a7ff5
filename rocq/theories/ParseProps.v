(** C03: the parser groups operators as the C grammar does. *)
From Verif Require Import Base BaseLemmas TokCodes ParseModel ParseSpec ParseProof ParseRoom.

(** A token that ends an expression: end of input ; : ) ] } and, where arguments are separated
    by commas, the comma. *)
Definition ends_expr (commaSep : bool) (rest : list (Z * Z)) : Prop :=
  match rest with
  | [] => True
  | (k, _) :: _ => In k [cSemi; cColon; cRPar; cRBrk; cRBrace] \/ (commaSep = true /\ k = cComma)
  end.
Lemma ends_stops c rest : ends_expr c rest -> stops c rest.
Proof.
  unfold ends_expr, stops. destruct rest as [|[k v] r]; [intros _|].
  - apply in_or_app; right. left. reflexivity.
  - intros [I|(-> & ->)]; [|now left]. apply in_or_app; right. right. exact I.
Qed.

(** For every expression of the grammar (an assignment expression where the comma is a
    separator), followed by a token that ends it, the parser stops at that token, leaves on the
    expression stack exactly the postfix form of the tree the grammar gives, above what was
    there, and the operator stack as it was; or it reports that the expression is too long. *)
Theorem C03_groups (commaSep : bool) toks e rest stk ops :
  derives (if commaSep then 2 else 1) toks e -> ends_expr commaSep rest ->
  exists k, forall fuel, (k <= fuel)%nat ->
    expr fuel commaSep stk ops (toks ++ rest) = Ok (stk ++ postfix e, ops, rest, true) \/
    expr fuel commaSep stk ops (toks ++ rest) = TooLong.
Proof.
  intros D E. apply derives_M in D. apply ends_stops in E.
  eapply (M_PE _ commaSep toks e); [| |exact D|exact E]; destruct commaSep; (discriminate || lia).
Qed.

(** The recursion bound is not an issue: with any bound the parser gives that answer or none. *)
Theorem C03_any_fuel (commaSep : bool) toks e rest stk ops fuel :
  derives (if commaSep then 2 else 1) toks e -> ends_expr commaSep rest ->
  expr fuel commaSep stk ops (toks ++ rest) = Fuel \/
  expr fuel commaSep stk ops (toks ++ rest) = Ok (stk ++ postfix e, ops, rest, true) \/
  expr fuel commaSep stk ops (toks ++ rest) = TooLong.
Proof.
  intros D E. destruct (C03_groups commaSep toks e rest stk ops D E) as (k & H).
  specialize (H (max k fuel) ltac:(lia)).
  destruct (expr_fuel fuel (max k fuel) commaSep stk ops (toks ++ rest) ltac:(lia)) as [F|F]; [now left|].
  right. rewrite F. exact H.
Qed.

(** The expression is never too long when what is to be read fits (129 entries; a token needs at
    most two). *)
Theorem C03_fits (commaSep : bool) toks e rest stk ops :
  derives (if commaSep then 2 else 1) toks e -> ends_expr commaSep rest ->
  zlen stk + zlen ops + 2 * zlen (toks ++ rest) < 129 ->
  exists k, forall fuel, (k <= fuel)%nat ->
    expr fuel commaSep stk ops (toks ++ rest) = Ok (stk ++ postfix e, ops, rest, true).
Proof.
  intros D E L. destruct (C03_groups commaSep toks e rest stk ops D E) as (k & H). exists k. intros f F.
  destruct (H f F) as [R|R]; [exact R|]. now apply expr_room in R.
Qed.

(** The postfix form determines the tree: nothing about the grouping is lost. *)
Inductive item := IE (e : ast) | IT (v : Z) | IO | IC.
Fixpoint collect (st : list item) : option (list ast * list item) :=
  match st with
  | IO :: r => Some ([], r)
  | IE a :: IO :: r => Some ([a], r)
  | IE a :: IC :: r => let? (l, r') := collect r in Some (a :: l, r')
  | _ => None
  end.
Definition unary_kinds : list Z :=
  [tokUnaryAnd; tokUnaryStar; tokUnaryPlus; tokUnaryMinus; cCompl; tokInc; tokDec; tokPostInc; tokPostDec].
Definition leaf_kinds : list Z := tokIdent :: consts.
Definition dstep (st : list item) (t : Z * Z) : option (list item) :=
  let '(k, v) := t in
  if k =? cLPar then Some (IO :: st)
  else if k =? cComma then Some (IC :: st)
  else if k =? cRPar then
    match st with IE f :: r => let? (l, r') := collect r in Some (IE (ECall f l) :: r') | _ => None end
  else if k =? tokIdType then Some (IT v :: st)
  else if k =? tokIdCast then match st with IE e :: r => Some (IE (ECast v e) :: r) | _ => None end
  else if k =? tokSizeof then
    match st with IT w :: r => Some (IE (ESizeT w) :: r) | IE e :: r => Some (IE (EUn tokSizeof e) :: r) | _ => None end
  else if k =? cQuest then match st with IE a :: IE b :: IE c :: r => Some (IE (ECond c a b) :: r) | _ => None end
  else if existsb (Z.eqb k) unary_kinds then match st with IE e :: r => Some (IE (EUn k e) :: r) | _ => None end
  else if existsb (Z.eqb k) leaf_kinds then Some (IE (ELeaf k v) :: st)
  else match st with IE b :: IE a :: r => Some (IE (EBin k a b) :: r) | _ => None end.
Fixpoint decode (l : list (Z * Z)) (st : list item) : option (list item) :=
  match l with [] => Some st | t :: l => let? st := dstep st t in decode l st end.

Fixpoint astack (l : list ast) : list item :=
  match l with [] => [] | [a] => [IE a] | a :: l => IE a :: IC :: astack l end.
Lemma collect_astack l st : collect (astack l ++ IO :: st) = Some (l, st).
Proof.
  induction l as [|a l IH]; [reflexivity|]. destruct l as [|b l]; [reflexivity|].
  change (astack (a :: b :: l)) with (IE a :: IC :: astack (b :: l)). cbn [app collect]. rewrite IH. reflexivity.
Qed.

Definition DD (_ : Z) (_ : list (Z * Z)) (e : ast) : Prop := forall r st, decode (postfix e ++ r) st = decode r (IE e :: st).
Definition DA (_ : list (Z * Z)) (l : list ast) : Prop :=
  l <> [] /\ forall r st, decode (pargs l ++ r) (IO :: st) = decode r (astack l ++ IO :: st).

Lemma DD_un n t k e : existsb (Z.eqb k) (tokSizeof :: unary_kinds) = true -> DD n t e -> DD n t (EUn k e).
Proof.
  intros K H r st. cbn [postfix]. rewrite <- app_assoc, H. cbn [app decode].
  replace (dstep (IE e :: st) (k, 0)) with (Some (IE (EUn k e) :: st)); [reflexivity|].
  apply existsb_exists in K as (k' & I & E). apply Z.eqb_eq in E as <-.
  cbn [In unary_kinds] in I. repeat (destruct I as [<-|I]; [reflexivity|]). destruct I.
Qed.
Lemma DD_bin n t k a b n' t' : In k (map fst binops ++ assignops ++ [tokComma; tokArrow]) -> DD n t a -> DD n' t' b -> DD n t (EBin k a b).
Proof.
  intros K H1 H2 r st. cbn [postfix]. rewrite <- !app_assoc, H1, H2. cbn [app decode].
  replace (dstep (IE b :: IE a :: st) (k, 0)) with (Some (IE (EBin k a b) :: st)); [reflexivity|].
  cbv in K. repeat (destruct K as [<-|K]; [reflexivity|]). destruct K.
Qed.
Lemma DD_leaf n t k v : In k leaf_kinds -> DD n t (ELeaf k v).
Proof.
  intros K r st. cbn [postfix app decode].
  replace (dstep st (k, v)) with (Some (IE (ELeaf k v) :: st)); [reflexivity|].
  cbv in K. repeat (destruct K as [<-|K]; [reflexivity|]). destruct K.
Qed.
Lemma DD_call n t f l : (forall r st, decode (pargs l ++ r) (IO :: st) = decode r (astack l ++ IO :: st)) -> DD n t f -> DD n t (ECall f l).
Proof.
  intros HA HF r st. change (postfix (ECall f l)) with ((cLPar, 0) :: pargs l ++ postfix f ++ [(cRPar, 0)]).
  cbn [app decode dstep]. change (cLPar =? cLPar) with true. cbv iota. cbn [obind].
  rewrite <- !app_assoc, HA, HF. cbn [app decode]. 
  replace (dstep (IE f :: astack l ++ IO :: st) (cRPar, 0)) with (Some (IE (ECall f l) :: st)); [reflexivity|].
  unfold dstep. change (cRPar =? cLPar) with false. change (cRPar =? cComma) with false. change (cRPar =? cRPar) with true. cbv iota.
  rewrite collect_astack. reflexivity.
Qed.

Lemma derives_decode n t e : derives n t e -> DD n t e.
Proof.
  apply (derives_mut DD DA).
  - intros n0 t0 e0 _ _ H. exact H.
  - intros k v I. apply DD_leaf. now right.
  - intros v. apply DD_leaf. now left.
  - intros v. apply DD_leaf. now left.
  - intros v w t0 e0 _ H. exact H.
  - intros v w t1 a t2 b _ H1 _ H2. apply DD_un; [reflexivity|]. eapply DD_bin; [cbv; tauto|exact H1|exact H2].
  - intros v w t0 f _ H. apply DD_call; [|exact H]. intros r st. reflexivity.
  - intros v w t0 f ta l _ H _ (_ & A). now apply DD_call.
  - intros v t0 e0 m _ H. apply DD_un; [reflexivity|]. eapply DD_bin; [cbv; tauto| |].
    + apply DD_un; [reflexivity|exact H].
    + apply (DD_leaf 0 []). now left.
  - intros v t0 e0 m _ H. apply DD_un; [reflexivity|]. eapply DD_bin; [cbv; tauto|exact H|].
    apply (DD_leaf 0 []). now left.
  - intros v t0 e0 _ H. now apply DD_un.
  - intros v t0 e0 _ H. now apply DD_un.
  - intros o k v t0 e0 I _ H. apply DD_un; [|exact H].
    cbn [In prefixops] in I. repeat (destruct I as [E|I]; [injection E as <- <-; reflexivity|]). destruct I.
  - intros v t0 e0 _ H. eapply DD_bin; [cbv; tauto|exact H|]. apply (DD_leaf 0 []). right. now left.
  - intros v w x n0 r st. reflexivity.
  - intros v n0 w t0 e0 _ H r st. cbn [postfix]. rewrite <- app_assoc, H. reflexivity.
  - intros o n0 v t1 a t2 b I _ H1 _ H2. eapply DD_bin; [|exact H1|exact H2].
    apply in_or_app; left. apply in_map_iff. now exists (o, n0).
  - intros v w tc c t1 a t2 b _ H1 _ H2 _ H3 r st. cbn [postfix]. rewrite <- !app_assoc, H1, H3, H2. reflexivity.
  - intros o v t1 a t2 b I _ H1 _ H2. eapply DD_bin; [|exact H1|exact H2].
    apply in_or_app; right. apply in_or_app; now left.
  - intros v t1 a t2 b _ H1 _ H2. eapply DD_bin; [|exact H1|exact H2]. cbv. tauto.
  - intros t0 e0 _ H. split; [discriminate|]. intros r st. apply H.
  - intros v t0 e0 ta l _ H _ (NE & A). split; [discriminate|]. intros r st.
    destruct l as [|b l]; [now destruct NE|].
    change (pargs (e0 :: b :: l)) with (pargs (b :: l) ++ (cComma, 0) :: postfix e0).
    rewrite <- app_assoc, A. cbn [app decode dstep]. change (cComma =? cLPar) with false. change (cComma =? cComma) with true.
    cbv iota. cbn [obind]. rewrite H. reflexivity.
Qed.

Theorem C03_postfix_unambiguous n1 t1 e1 n2 t2 e2 :
  derives n1 t1 e1 -> derives n2 t2 e2 -> postfix e1 = postfix e2 -> e1 = e2.
Proof.
  intros D1 D2 E. apply derives_decode in D1, D2. specialize (D1 [] []). specialize (D2 [] []).
  rewrite E, D2 in D1. cbn [decode] in D1. now injection D1.
Qed.

(** a = b + c * d[i], x ? y : z  (with several levels of nesting) *)
Definition ex_toks : list (Z * Z) :=
  [(tokIdent, 1); (cAssign, 0); (tokIdent, 2); (cAdd, 0); (tokIdent, 3); (cMul, 0); (tokIdent, 4); (cLBrk, 0);
   (tokIdent, 5); (cRBrk, 0); (cComma, 0); (tokIdent, 6); (cQuest, 0); (tokIdent, 7); (cColon, 0); (tokIdent, 8)].
Example C03_case : expr 40 false [] [] (ex_toks ++ [(cSemi, 0)]) =
  Ok (postfix (EBin tokComma
        (EBin cAssign (ELeaf tokIdent 1)
           (EBin cAdd (ELeaf tokIdent 2) (EBin cMul (ELeaf tokIdent 3) (EUn tokUnaryStar (EBin cAdd (ELeaf tokIdent 4) (ELeaf tokIdent 5))))))
        (ECond (ELeaf tokIdent 6) (ELeaf tokIdent 7) (ELeaf tokIdent 8))), [], [(cSemi, 0)], true).
Proof. vm_compute. reflexivity. Qed.
(** and the grammar derives it *)
Ltac up := apply d_up; [lia|]; match goal with |- derives ?n _ _ => let m := eval vm_compute in n in change n with m end.
Ltac dleaf := repeat (first [apply d_ident | up]).
Example C03_case_derives : derives 1 ex_toks (EBin tokComma
        (EBin cAssign (ELeaf tokIdent 1)
           (EBin cAdd (ELeaf tokIdent 2) (EBin cMul (ELeaf tokIdent 3) (EUn tokUnaryStar (EBin cAdd (ELeaf tokIdent 4) (ELeaf tokIdent 5))))))
        (ECond (ELeaf tokIdent 6) (ELeaf tokIdent 7) (ELeaf tokIdent 8))).
Proof.
  apply (d_comma 0 [(tokIdent, 1); (cAssign, 0); (tokIdent, 2); (cAdd, 0); (tokIdent, 3); (cMul, 0); (tokIdent, 4); (cLBrk, 0);
    (tokIdent, 5); (cRBrk, 0)] _ [(tokIdent, 6); (cQuest, 0); (tokIdent, 7); (cColon, 0); (tokIdent, 8)]).
  - up. apply (d_assign cAssign 0 [(tokIdent, 1)] _ [(tokIdent, 2); (cAdd, 0); (tokIdent, 3); (cMul, 0); (tokIdent, 4); (cLBrk, 0);
    (tokIdent, 5); (cRBrk, 0)]); [now left|dleaf|]. do 10 up.
    apply (d_binary cAdd 12 0 [(tokIdent, 2)] _ [(tokIdent, 3); (cMul, 0); (tokIdent, 4); (cLBrk, 0); (tokIdent, 5); (cRBrk, 0)]); [cbv; tauto|dleaf|].
    apply (d_binary cMul 13 0 [(tokIdent, 3)] _ [(tokIdent, 4); (cLBrk, 0); (tokIdent, 5); (cRBrk, 0)]); [cbv; tauto|dleaf|].
    change (13 + 1) with 14. do 2 up. apply (d_index 0 0 [(tokIdent, 4)] _ [(tokIdent, 5)]); dleaf.
  - up. apply (d_cond 0 0 [(tokIdent, 6)] _ [(tokIdent, 7)] _ [(tokIdent, 8)]); dleaf.
Qed.

Print Assumptions C03_groups.
Print Assumptions C03_any_fuel.
Print Assumptions C03_fits.
Print Assumptions C03_postfix_unambiguous.
