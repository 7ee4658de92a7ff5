(** The parser builds the postfix form of the tree the grammar gives. *)
From Verif Require Import Base BaseLemmas TokCodes ParseModel ParseSpec.

Scheme derives_mut := Minimality for derives Sort Prop
  with dargs_mut := Minimality for dargs Sort Prop.

(** ** Results up to the size limits *)
Definition okl {A} (r : res A) (x : A) : Prop := r = Ok x \/ r = TooLong.
Lemma okl_ret {A} (x : A) : okl (Ok x) x. Proof. now left. Qed.
Lemma okl_bind {A B} (r : res A) (k : A -> res B) a b : okl r a -> okl (k a) b -> okl (rbind r k) b.
Proof. intros [-> | ->] H; [exact H|now right]. Qed.

(** With enough fuel. *)
Definition runs {A} (F : nat -> res A) (x : A) : Prop := exists k, forall f, (k <= f)%nat -> okl (F f) x.
Lemma runs_ret {A} (x : A) : runs (fun _ => Ok x) x. Proof. exists O. intros. apply okl_ret. Qed.
Lemma runs_const {A} (r : res A) x : okl r x -> runs (fun _ => r) x. Proof. intros. exists O. auto. Qed.
Lemma runs_bind {A B} (F : nat -> res A) (K : nat -> A -> res B) a b :
  runs F a -> runs (fun f => K f a) b -> runs (fun f => rbind (F f) (K f)) b.
Proof.
  intros (k1 & H1) (k2 & H2). exists (max k1 k2). intros f L. eapply okl_bind; [apply H1|apply H2]; lia.
Qed.
Lemma runs_S {A} (F G : nat -> res A) x : (forall f, F (S f) = G f) -> runs G x -> runs F x.
Proof. intros E (k & H). exists (S k). intros [|f] L; [lia|]. rewrite E. apply H. lia. Qed.
Lemma runs_ext {A} (F G : nat -> res A) x : (forall f, F f = G f) -> runs G x -> runs F x.
Proof. intros E (k & H). exists k. intros f L. rewrite E. now apply H. Qed.

(** ** Stack operations *)
Lemma push2_ok stk v w : okl (push2 stk v w) (stk ++ [(v, w)]).
Proof. unfold push2. destruct (_ >=? _); [now right|now left]. Qed.
Lemma push_ok stk v : okl (push stk v) (stk ++ [(v, 0)]). Proof. apply push2_ok. Qed.
Lemma pushop_ok ops v w : okl (pushop2 ops v w) ((v, w) :: ops).
Proof. unfold pushop2. destruct (_ >=? _); [now right|now left]. Qed.
Lemma ins_ok a b v w : okl (ins2 (a ++ b) (zlen a) v w) (a ++ (v, w) :: b).
Proof.
  unfold ins2. destruct (_ >=? _); [now right|left]. unfold zlen. rewrite Nat2Z.id.
  rewrite firstn_app, skipn_app, firstn_all, skipn_all, Nat.sub_diag. cbn. now rewrite app_nil_r.
Qed.
Lemma pop2_snoc s t : pop2 (s ++ [t]) = Ok (t, s).
Proof. unfold pop2. rewrite rev_app_distr. cbn. now rewrite rev_involutive. Qed.

Lemma move_back_ok l : forall stk ops, okl (move_back (length l) stk (l ++ ops)) (stk ++ l, ops).
Proof.
  induction l as [|[v w] l IH]; intros stk ops; cbn [length move_back app popop2 rbind].
  - rewrite app_nil_r. apply okl_ret.
  - eapply okl_bind; [apply push2_ok|]. pose proof (IH (stk ++ [(v, w)]) ops) as H. rewrite <- app_assoc in H. exact H.
Qed.
Lemma move_mid_ok l : forall stk ops, okl (move_mid (length l) (stk ++ l) ops) (stk, l ++ ops).
Proof.
  induction l as [|[v w] l IH] using rev_ind; intros stk ops.
  - cbn. rewrite app_nil_r. apply okl_ret.
  - rewrite app_length, Nat.add_comm. cbn [length Nat.add move_mid]. rewrite app_assoc, pop2_snoc. cbn [rbind].
    eapply okl_bind; [apply pushop_ok|]. rewrite <- app_assoc. apply IH.
Qed.
Lemma move_arg_ok l : forall a x b, okl (move_arg (length l) (zlen a) (a ++ x :: b ++ l)) (a ++ x :: l ++ b).
Proof.
  induction l as [|[v w] l IH] using rev_ind; intros a x b.
  - cbn. rewrite app_nil_r. apply okl_ret.
  - rewrite app_length, Nat.add_comm. cbn [length Nat.add move_arg].
    replace (a ++ x :: b ++ l ++ [(v, w)]) with ((a ++ x :: b ++ l) ++ [(v, w)])
      by (rewrite <- app_assoc; cbn [app]; now rewrite <- app_assoc).
    rewrite pop2_snoc. cbn [rbind].
    replace (a ++ x :: b ++ l) with ((a ++ [x]) ++ b ++ l) by (now rewrite <- app_assoc).
    replace (zlen a + 1) with (zlen (a ++ [x])) by (rewrite zlen_app; reflexivity).
    eapply okl_bind; [apply ins_ok|].
    replace ((a ++ [x]) ++ (v, w) :: b ++ l) with (a ++ x :: ((v, w) :: b) ++ l) by (now rewrite <- app_assoc).
    replace (a ++ x :: (l ++ [(v, w)]) ++ b) with (a ++ x :: l ++ (v, w) :: b) by (now rewrite <- app_assoc).
    apply IH.
Qed.

(** ** Pending operators *)
(** [Pend n s p sF]: popping the operators p (top first, all of level n or more) from the
    operator stack turns the expression stack s into sF. *)
Inductive Pend (n : Z) : stack_t -> stack_t -> stack_t -> Prop :=
| pd_nil s : Pend n s [] s
| pd_op s o p sF : n <= preced o -> 1 <= preced o -> preced o <> 3 -> Pend n (s ++ [(o, 0)]) p sF ->
    Pend n s ((o, 0) :: p) sF
| pd_cond s l p sF : n <= 3 -> Pend n (s ++ l ++ [(cQuest, 0)]) p sF ->
    Pend n s ((cQuest, zlen l) :: l ++ p) sF.

Lemma Pend_app n s p s1 q s2 : Pend n s p s1 -> Pend n s1 q s2 -> Pend n s (p ++ q) s2.
Proof.
  induction 1; intros Q; cbn [app]; [exact Q|constructor; auto|]. rewrite <- app_assoc. constructor; auto.
Qed.
Lemma Pend_le m n s p sF : n <= m -> Pend m s p sF -> Pend n s p sF.
Proof. intros L. induction 1; constructor; auto; lia. Qed.

(** Which tokens pop every operator of level n. *)
Definition clos (n : Z) : Z := if (n =? 3) || (n =? 2) then n - 1 else n.
Lemma clos_mono n : 1 <= n -> clos n <= clos (n + 1).
Proof. intros L. unfold clos. destruct (Z.eq_dec n 1) as [->|]; [reflexivity|]. destruct ((n =? 3) || (n =? 2)) eqn:A, ((n + 1 =? 3) || (n + 1 =? 2)) eqn:B; lia. Qed.

Lemma geq_pops o t n : n <= preced o -> 1 <= preced o -> preced t <= clos n -> 1 <= n -> precedGEQ o t = true.
Proof.
  unfold precedGEQ, clos. intros A B C D.
  destruct ((n =? 3) || (n =? 2)) eqn:E; destruct ((preced o =? 3) && (preced t >=? 3)) eqn:F;
    try (change (0 =? 2) with false; cbn [andb]);
    try (destruct ((preced o =? 2) && (preced t >=? 2)) eqn:G); lia.
Qed.
Lemma preced_quest : preced cQuest = 3. Proof. reflexivity. Qed.

Lemma pop_geq_ok n s p sF : Pend n s p sF -> 1 <= n -> forall tok top v ops m,
  preced tok <= clos n -> precedGEQ top tok = false -> (length (p ++ (top, v) :: ops) <= m)%nat ->
  okl (pop_geq m tok s (p ++ (top, v) :: ops)) (sF, (top, v) :: ops).
Proof.
  intros P N. induction P as [s|s o p sF L L1 N3 P IH|s l p sF L P IH]; intros tok top v ops m C G M.
  - cbn [app]. destruct m; cbn [pop_geq popop2 rbind]; rewrite G; apply okl_ret.
  - cbn [app length] in M |- *. destruct m as [|m]; [lia|]. cbn [pop_geq popop2 rbind].
    rewrite (geq_pops o tok n) by lia. unfold pop_one. cbn [popop2 rbind].
    replace (o =? cQuest) with false by (destruct (Z.eqb_spec o cQuest) as [->|]; [now rewrite preced_quest in N3|reflexivity]).
    eapply okl_bind; [eapply okl_bind; [apply push2_ok|apply okl_ret]|]. apply IH; auto. lia.
  - cbn [app length] in M |- *. destruct m as [|m]; [lia|]. cbn [pop_geq popop2 rbind].
    rewrite (geq_pops cQuest tok n) by (rewrite ?preced_quest; lia). unfold pop_one. cbn [popop2 rbind].
    change (cQuest =? cQuest) with true. cbv iota.
    replace (Z.to_nat (zlen l)) with (length l) by (unfold zlen; lia). rewrite <- app_assoc.
    eapply okl_bind.
    { eapply okl_bind; [apply move_back_ok|]. eapply okl_bind; [apply push2_ok|apply okl_ret]. }
    rewrite <- app_assoc. apply IH; auto. rewrite <- app_assoc, app_length in M. lia.
Qed.
Lemma pop_all_ok n s p sF : Pend n s p sF -> forall v ops m,
  (length (p ++ (tokEof, v) :: ops) <= m)%nat ->
  okl (pop_all m s (p ++ (tokEof, v) :: ops)) (sF, (tokEof, v) :: ops).
Proof.
  intros P. induction P as [s|s o p sF L L1 N3 P IH|s l p sF L P IH]; intros v ops m M.
  - cbn [app]. destruct m; cbn [pop_all popop2 rbind]; apply okl_ret.
  - cbn [app length] in M |- *. destruct m as [|m]; [lia|]. cbn [pop_all popop2 rbind].
    replace (o =? tokEof) with false by (destruct (Z.eqb_spec o tokEof) as [->|]; [now cbv in L1|reflexivity]).
    unfold pop_one. cbn [popop2 rbind].
    replace (o =? cQuest) with false by (destruct (Z.eqb_spec o cQuest) as [->|]; [now rewrite preced_quest in N3|reflexivity]).
    eapply okl_bind; [eapply okl_bind; [apply push2_ok|apply okl_ret]|]. apply IH; auto. lia.
  - cbn [app length] in M |- *. destruct m as [|m]; [lia|]. cbn [pop_all popop2 rbind].
    change (cQuest =? tokEof) with false. cbv iota. unfold pop_one. cbn [popop2 rbind].
    change (cQuest =? cQuest) with true. cbv iota.
    replace (Z.to_nat (zlen l)) with (length l) by (unfold zlen; lia). rewrite <- app_assoc.
    eapply okl_bind.
    { eapply okl_bind; [apply move_back_ok|]. eapply okl_bind; [apply push2_ok|apply okl_ret]. }
    rewrite <- app_assoc. apply IH; auto. rewrite <- app_assoc, app_length in M. lia.
Qed.

(** ** Claims *)
Definition rstate := (stack_t * stack_t * list token * bool)%type.
(** No postfix operator. *)
Definition nopost (ts : list token) : Prop :=
  ~ In (kind ts) [cLPar; cLBrk; tokInc; tokDec; cDot; tokArrow].
(** The operand that follows an operator, and the rest of the loop. *)
Definition opnd (f : nat) (c : bool) (stk ops : stack_t) (ts : list token) : res rstate :=
  do (stk, ops, ts, got) <- unary f c false stk ops ts;
  if negb got then Unexpected else eloop f c stk ops ts got.

(** Postfix level: parsing t and then whatever follows in the loop over postfix operators. *)
Definition P16 (t : list token) (e : ast) : Prop :=
  forall c szof stk ops rest s o ts,
    runs (fun f => postl f (zlen stk) (stk ++ postfix e) ops rest) (s, o, ts) ->
    runs (fun f => unary f c szof stk ops (t ++ rest)) (s, o, conv c ts, true).
(** Unary and cast level. *)
Definition P14 (n : Z) (t : list token) (e : ast) : Prop :=
  forall c szof stk ops rest, (szof = true -> n <> 14) -> nopost rest ->
    runs (fun f => unary f c szof stk ops (t ++ rest)) (stk ++ postfix e, ops, conv c rest, true).
(** The operator on top of the stack stays there while operators of level n or more arrive. *)
Definition ctx (n : Z) (ops : stack_t) : Prop :=
  match ops with [] => False | (top, _) :: _ => forall t, n <= preced t -> precedGEQ top t = false end.
(** Level n. *)
Definition PB (n : Z) (t : list token) (e : ast) : Prop :=
  forall c stk ops rest, (c = true -> 2 <= n) -> ctx n ops -> nopost rest ->
    exists stk' pend, Pend n stk' pend (stk ++ postfix e) /\
      forall x, runs (fun f => eloop f c stk' (pend ++ ops) (conv c rest) true) x ->
                runs (fun f => opnd f c stk ops (t ++ rest)) x.
Definition stops (c : bool) (ts : list token) : Prop :=
  In (kind ts) ((if c then [cComma] else []) ++ [tokEof; cSemi; cColon; cRPar; cRBrk; cRBrace]).
Definition PE (c : bool) (t : list token) (e : ast) : Prop :=
  forall stk ops rest, stops c rest ->
    runs (fun f => expr f c stk ops (t ++ rest)) (stk ++ postfix e, ops, rest, true).

Lemma nopost_postl rest inspos stk ops : nopost rest -> runs (fun f => postl f inspos stk ops rest) (stk, ops, rest).
Proof.
  intros N. eapply runs_S; [intros f; cbn [postl]|apply runs_ret].
  unfold nopost in N. cbn [In] in N.
  repeat match goal with |- context [kind rest =? ?x] => replace (kind rest =? x) with false by
    (symmetry; apply Z.eqb_neq; intros E; apply N; rewrite E; tauto) end. reflexivity.
Qed.

Lemma P16_P14 n t e : P16 t e -> P14 n t e.
Proof. intros P c szof stk ops rest _ N. apply P. now apply nopost_postl. Qed.

Lemma P14_PB n t e : n = 14 \/ n = 15 -> P14 n t e -> PB 14 t e.
Proof.
  intros E P c stk ops rest _ _ N. exists (stk ++ postfix e), []. split; [constructor|].
  intros x R. unfold opnd. eapply runs_bind; [apply P; [discriminate|exact N]|]. exact R.
Qed.

Lemma PB_down n t e : 1 <= n <= 13 -> PB (n + 1) t e -> PB n t e.
Proof.
  intros L P c stk ops rest C X N.
  destruct (P c stk ops rest) as (stk' & pend & P1 & P2); [intros E; apply C in E; lia| |exact N|].
  - destruct ops as [|[top v] ops]; [exact X|]. intros t0 T. apply X. lia.
  - exists stk', pend. split; [|exact P2]. eapply Pend_le; [|exact P1]. lia.
Qed.

Lemma stops_conv c ts : stops c ts -> conv c ts = ts.
Proof.
  unfold stops, conv. intros I. destruct (Z.eqb_spec (kind ts) cComma) as [E|]; [|reflexivity].
  destruct c; [reflexivity|]. rewrite E in I. cbn in I. exfalso. intuition discriminate.
Qed.
Lemma stops_nopost c ts : stops c ts -> nopost ts.
Proof.
  unfold stops, nopost. intros I J. destruct c; cbn [In app] in I, J; 
    repeat (destruct I as [I|I]; [rewrite <- I in J; cbv in J; intuition discriminate|]); destruct I.
Qed.
Lemma stops_test c ts : stops c ts ->
  negb (kind ts =? tokEof) && negb (existsb (Z.eqb (kind ts)) [cComma; cSemi; cColon; cRPar; cRBrk; cRBrace]) = false.
Proof.
  unfold stops. intros I. destruct c; cbn [In app] in I; repeat (destruct I as [I|I]; [rewrite <- I; reflexivity|]); destruct I.
Qed.
Lemma ctx_eof n v ops : 1 <= n -> ctx n ((tokEof, v) :: ops).
Proof. intros L t T. unfold precedGEQ. change (preced tokEof) with 0. cbn [Z.eqb andb]. lia. Qed.

Lemma PB_PE n c t e : (c = true -> 2 <= n) -> 1 <= n -> PB n t e -> PE c t e.
Proof.
  intros C L P stk ops rest S.
  eapply runs_S; [intros f; cbn [expr]; reflexivity|].
  eapply runs_bind; [apply runs_const, pushop_ok|].
  assert (R : runs (fun f => opnd f c stk ((tokEof, 0) :: ops) (t ++ rest)) (stk ++ postfix e, ops, rest, true)).
  { destruct (P c stk ((tokEof, 0) :: ops) rest C (ctx_eof n 0 ops L) (stops_nopost c rest S)) as (stk' & pend & P1 & P2).
    apply P2. rewrite stops_conv by exact S. eapply runs_S; [intros f; cbn [eloop]; reflexivity|].
    rewrite (stops_test c) by exact S. cbn [andb]. cbv iota.
    eapply runs_bind; [apply runs_const; eapply pop_all_ok; [exact P1|apply le_n]|]. cbn [popop2 rbind]. apply runs_ret. }
  destruct R as (k & R). exists k. intros f F. specialize (R f F). unfold opnd in R.
  destruct (unary f c false stk ((tokEof, 0) :: ops) (t ++ rest)) as [[[[s o] ts] got]| | | |]; cbn [rbind] in *; try exact R.
  destruct got; [exact R|]. cbn [negb] in R. destruct R; discriminate.
Qed.

(** ** First tokens *)
Definition first_toks : list Z :=
  consts ++ [tokIdent; tokString; cLPar; cNot] ++ map fst prefixops.
Lemma derives_first n t e : derives n t e -> exists k v t', t = (k, v) :: t' /\ In k first_toks.
Proof.
  intros D. induction D using derives_mut with (P0 := fun _ _ => True); auto;
    try (destruct IHD as (k0 & v0 & t0 & -> & I); eexists k0, v0, _; split; [reflexivity|exact I]);
    try (destruct IHD1 as (k0 & v0 & t0 & -> & I); eexists k0, v0, _; split; [reflexivity|exact I]);
    try (eexists _, _, _; split; [reflexivity|]; try (cbv; tauto)).
  - apply in_or_app. now left.
  - unfold first_toks. apply in_or_app; right. apply in_or_app; right. apply in_map_iff. exists (o, k). auto.
Qed.

(** ** The main induction *)
Definition pargs := fix args l := match l with
                     | [] => []
                     | [a] => postfix a
                     | a :: l => args l ++ (cComma, 0) :: postfix a
                     end.
Definition PA (ta : list token) (l : list ast) : Prop :=
  l <> [] /\ forall more sep v a m ops w rest,
  runs (fun f => args f (zlen a) more (a ++ (cLPar, 0) :: m) ops ((sep, v) :: ta ++ (cRPar, w) :: rest))
       (a ++ (cLPar, 0) :: pargs l ++ m, ops, (cRPar, w) :: rest).

Ltac ev := cbn [kind tval tl app]; cbv beta iota zeta; cbn [kind tval tl app];
  repeat match goal with |- context [if ?b then _ else _] =>
    let v := eval vm_compute in b in
    match v with true => change b with true | false => change b with false end; cbv iota end;
  cbv beta iota zeta; cbn [kind tval tl app].
Ltac stepf := eapply runs_S; [intros ?f; cbn [unary postl args expr eloop]; reflexivity|]; ev.
Ltac bindc L := eapply runs_bind; [apply runs_const; apply L|]; ev.

Lemma leaf_P16 (k k' v : Z) : (forall f c szof stk ops ts, unary (S f) c szof stk ops ((k, v) :: ts) =
    rbind (push2 stk k' v) (fun stk' => rbind (postl f (zlen stk) stk' ops ts) (fun '(s, o, ts) => Ok (s, o, conv c ts, true)))) ->
  P16 [(k, v)] (ELeaf k' v).
Proof.
  intros U c szof stk ops rest s o ts R. eapply runs_S; [intros f; cbn [app]; apply U|].
  bindc push2_ok. eapply runs_bind; [exact R|]. apply runs_ret.
Qed.

Lemma no_type n t e rest : derives n t e -> kind (t ++ rest) =? tokTypeName = false.
Proof.
  intros D. apply derives_first in D as (k & v & t' & -> & I). cbn [app kind].
  cbv in I. repeat (destruct I as [<-|I]; [reflexivity|]). destruct I.
Qed.

Lemma paren_P16 v w t e n : derives n t e -> PE false t e -> P16 ((cLPar, v) :: t ++ [(cRPar, w)]) e.
Proof.
  intros D P c szof stk ops rest s o ts R. stepf. rewrite <- !app_assoc. cbn [app].
  rewrite (no_type n t e _ D). cbv iota.
  eapply runs_bind; [apply P; right; cbn; tauto|]. ev. eapply runs_bind; [exact R|]. apply runs_ret.
Qed.

(** A postfix operator after a postfix expression. *)
Lemma post_P16 t e t2 e2 :
  (forall stk ops rest x, runs (fun f => postl f (zlen stk) (stk ++ postfix e2) ops rest) x ->
     runs (fun f => postl f (zlen stk) (stk ++ postfix e) ops (t2 ++ rest)) x) ->
  P16 t e -> P16 (t ++ t2) e2.
Proof.
  intros H P c szof stk ops rest s o ts R. rewrite <- app_assoc. apply P. now apply H.
Qed.

Lemma args_step e : forall a m,
  okl (move_arg (Z.to_nat (zlen ((a ++ (cLPar, 0) :: m) ++ postfix e) - zlen (a ++ (cLPar, 0) :: m))) (zlen a)
         ((a ++ (cLPar, 0) :: m) ++ postfix e)) (a ++ (cLPar, 0) :: postfix e ++ m).
Proof.
  intros a m. rewrite zlen_app. replace (Z.to_nat _) with (length (postfix e)) by (unfold zlen; lia).
  rewrite <- app_assoc. cbn [app]. apply move_arg_ok.
Qed.

Lemma nopost_of k v ts : ~ In k [cLPar; cLBrk; tokInc; tokDec; cDot; tokArrow] -> nopost ((k, v) :: ts).
Proof. intros H. exact H. Qed.

Lemma prefix_op o k : In (o, k) prefixops ->
  isop o && (isunary o || (o =? cAnd) || (o =? cMul) || (o =? cAdd) || (o =? cSub)) = true /\
  (forall stk, push_prefix stk o = push stk k) /\ (o = tokSizeof \/ (o =? tokSizeof) = false) /\
  ((o =? tokInc) || (o =? tokDec) || (o =? tokSizeof) = false -> o <> tokSizeof).
Proof.
  intros I. cbn [In prefixops] in I.
  repeat (destruct I as [E|I]; [injection E as <- <-; split; [reflexivity|split; [reflexivity|split; [(left; reflexivity) || (right; reflexivity)|intros H; try discriminate H; discriminate]]]|]).
  destruct I.
Qed.

Lemma conv_conv c ts : conv c (conv c ts) = conv c ts.
Proof.
  unfold conv. destruct (kind ts =? cComma) eqn:E; cbn [andb]; [|now rewrite E].
  destruct c; cbn [negb]; [now rewrite E|]. reflexivity.
Qed.

Lemma binop_facts o n : In (o, n) binops ->
  preced o = n /\ 4 <= n <= 13 /\ isop o && negb (isunary o) = true /\ (o =? cQuest) = false /\ (o =? cComma) = false /\
  negb (o =? tokEof) && negb (existsb (Z.eqb o) [cComma; cSemi; cColon; cRPar; cRBrk; cRBrace]) = true /\
  ~ In o [cLPar; cLBrk; tokInc; tokDec; cDot; tokArrow].
Proof.
  intros I. cbn [In binops] in I.
  repeat (destruct I as [E|I]; [injection E as <- <-; repeat split; try reflexivity; try lia; cbv; intuition discriminate|]).
  destruct I.
Qed.
Lemma assign_facts o : In o assignops ->
  preced o = 2 /\ isop o && negb (isunary o) = true /\ (o =? cQuest) = false /\ (o =? cComma) = false /\
  negb (o =? tokEof) && negb (existsb (Z.eqb o) [cComma; cSemi; cColon; cRPar; cRBrk; cRBrace]) = true /\
  ~ In o [cLPar; cLBrk; tokInc; tokDec; cDot; tokArrow].
Proof.
  intros I. cbn [In assignops] in I.
  repeat (destruct I as [<-|I]; [repeat split; try reflexivity; try lia; cbv; intuition discriminate|]).
  destruct I.
Qed.

Lemma ctx_op n o v ops : (forall t, n <= preced t -> precedGEQ o t = false) -> ctx n ((o, v) :: ops).
Proof. intros H. exact H. Qed.

(** Two operands and a binary operator between them (n1, n2 the levels of the operands). *)
Lemma bin_PB n n1 n2 o o' v t1 a t2 b :
  1 <= n <= n1 -> n <= n2 -> preced o' = n -> n <> 3 -> n <= clos n1 ->
  isop o' && negb (isunary o') = true -> (o' =? cQuest) = false ->
  negb (o' =? tokEof) && negb (existsb (Z.eqb o') [cComma; cSemi; cColon; cRPar; cRBrk; cRBrace]) = true ->
  ~ In o [cLPar; cLBrk; tokInc; tokDec; cDot; tokArrow] ->
  (forall c ts, (c = true -> 2 <= n) -> conv c ((o, v) :: ts) = (o', v) :: ts) ->
  (forall t, n2 <= preced t -> precedGEQ o' t = false) ->
  PB n1 t1 a -> PB n2 t2 b -> PB n (t1 ++ (o, v) :: t2) (EBin o' a b).
Proof.
  intros L1 L2 PO N3 CL OP NQ ST NP CV CT IH1 IH2 c stk ops rest C X N.
  destruct ops as [|[top w] ops]; [destruct X|].
  destruct (IH1 c stk ((top, w) :: ops) ((o, v) :: t2 ++ rest)) as (s1 & p1 & P1 & R1);
    [intros E; apply C in E; lia|intros t T; apply X; lia|now apply nopost_of|].
  destruct (IH2 c (stk ++ postfix a) ((o', 0) :: (top, w) :: ops) rest) as (s2 & p2 & P2 & R2);
    [intros E; apply C in E; lia|now apply ctx_op|exact N|].
  exists s2, (p2 ++ [(o', 0)]). split.
  - eapply Pend_app; [eapply Pend_le; [|exact P2]; lia|]. constructor; [lia|lia|lia|].
    cbn [postfix]. rewrite <- !app_assoc. constructor.
  - intros x RX. rewrite <- app_assoc. cbn [app]. apply R1. rewrite CV by exact C.
    eapply runs_S; [intros f; cbn [eloop]; reflexivity|]. cbn [kind]. cbv zeta. rewrite ST. cbn [andb]. cbv iota. rewrite OP. cbv iota.
    eapply runs_bind; [apply runs_const; eapply pop_geq_ok; [exact P1|lia|rewrite PO; exact CL|apply X; lia|apply le_n]|].
    cbv beta iota. rewrite NQ. cbv iota.
    eapply runs_bind; [eapply runs_bind; [apply runs_const, pushop_ok|apply runs_ret]|]. cbv beta iota. cbn [tl].
    apply (R2 x). rewrite <- app_assoc in RX. exact RX.
Qed.

Lemma conv_id k v ts c : (k =? cComma) = false -> conv c ((k, v) :: ts) = (k, v) :: ts.
Proof. intros E. unfold conv. cbn [kind]. now rewrite E. Qed.

Definition M (n : Z) (t : list token) (e : ast) : Prop :=
  (16 <= n <= 17 -> P16 t e) /\ (14 <= n <= 17 -> P14 n t e) /\ (1 <= n <= 14 -> PB n t e).

Lemma PB_from n m t e : 1 <= m <= n -> n <= 14 -> PB n t e -> PB m t e.
Proof.
  intros L L2 P. replace m with (n - Z.of_nat (Z.to_nat (n - m))) by lia.
  assert (K : n - Z.of_nat (Z.to_nat (n - m)) >= 1) by lia. revert K.
  induction (Z.to_nat (n - m)) as [|k IH]; intros K; [now replace (n - Z.of_nat 0) with n by lia|].
  apply PB_down; [lia|]. replace (n - Z.of_nat (S k) + 1) with (n - Z.of_nat k) by lia. apply IH. lia.
Qed.

Lemma M_up n t e : 1 <= n <= 16 -> M (n + 1) t e -> M n t e.
Proof.
  intros L (A & B & C). split; [|split].
  - intros H. apply A. lia.
  - intros H c szof stk ops rest S N. apply B; [lia| |exact N]. intros E. apply S in E. lia.
  - intros H. destruct (Z.eq_dec n 14) as [->|].
    + apply (P14_PB 15); [auto|]. apply B. lia.
    + apply PB_down; [lia|]. apply C. lia.
Qed.
Lemma M_PE n c t e : (c = true -> 2 <= n) -> 1 <= n <= 14 -> M n t e -> PE c t e.
Proof. intros A B (_ & _ & H). eapply PB_PE; [exact A|lia|]. apply H. lia. Qed.

(** From the postfix and unary levels. *)
Lemma M_16 n t e : n = 16 \/ n = 17 -> P16 t e -> M n t e.
Proof.
  intros L P. split; [auto|]. split; [|lia]. intros _. now apply P16_P14.
Qed.
Lemma M_15 n t e : n = 14 \/ n = 15 -> P14 n t e -> M n t e.
Proof.
  intros L P. split; [lia|]. split; [auto|]. intros H. assert (n = 14) as -> by lia.
  apply (P14_PB 14); auto.
Qed.
Lemma M_low n t e : 1 <= n <= 13 -> PB n t e -> M n t e.
Proof. intros L P. split; [lia|]. split; [lia|auto]. Qed.

Theorem derives_M n t e : derives n t e -> M n t e.
Proof.
  apply (derives_mut M PA).
  - (* up *) intros. now apply M_up.
  - (* const *) intros k v I. apply M_16; [auto|]. apply leaf_P16. intros f c szof stk ops ts.
    cbn [In consts] in I. repeat (destruct I as [<-|I]; [cbn [unary]; ev; reflexivity|]). destruct I.
  - intros v. apply M_16; [auto|]. apply leaf_P16. intros. cbn [unary]. ev. reflexivity.
  - intros v. apply M_16; [auto|]. apply leaf_P16. intros. cbn [unary]. ev. reflexivity.
  - (* paren *) intros v w t0 e0 D H. apply M_16; [auto|]. eapply paren_P16; [exact D|]. eapply M_PE; [| |exact H]; [discriminate|lia].
  - (* index *) intros v w t1 a t2 b D1 H1 D2 H2. apply M_16; [auto|].
    apply (post_P16 t1 a); [|apply H1; lia]. intros stk ops rest x R. stepf. rewrite <- app_assoc. cbn [app].
    eapply runs_bind; [apply (M_PE 1 false t2 b ltac:(discriminate) ltac:(lia) H2); right; cbn; tauto|]. ev.
    bindc push_ok. bindc push_ok. cbn [postfix] in R. rewrite <- !app_assoc in R. rewrite <- !app_assoc. exact R.
  - (* call, no arguments *) intros v w t0 f0 D H. apply M_16; [auto|].
    apply (post_P16 t0 f0); [|apply H; lia]. intros stk ops rest x R. stepf.
    bindc ins_ok. eapply runs_bind.
    { stepf. eapply runs_bind.
      - stepf. bindc pushop_ok. eapply runs_bind; [stepf; apply runs_ret|]. ev. stepf.
        cbn [length pop_all popop2 rbind]. ev. apply runs_ret.
      - ev. rewrite Z.sub_diag. cbn [Z.to_nat move_arg rbind]. ev. apply runs_ret. }
    ev. bindc push_ok. cbn [postfix pargs app] in R. rewrite <- !app_assoc. exact R.
  - (* call *) intros v w t0 f0 ta l D H _ (NE & A). apply M_16; [auto|].
    apply (post_P16 t0 f0); [|apply H; lia]. intros stk ops rest x R. stepf.
    bindc ins_ok. rewrite <- app_assoc. cbn [app]. eapply runs_bind; [apply A|]. ev. bindc push_ok.
    rewrite <- app_assoc. cbn [app]. rewrite <- app_assoc. exact R.
  - (* dot *) intros v t0 e0 m D H. apply M_16; [auto|].
    apply (post_P16 t0 e0); [|apply H; lia]. intros stk ops rest x R. stepf.
    bindc push_ok. bindc push2_ok. bindc push_ok. bindc push_ok.
    cbn [postfix] in R. rewrite <- !app_assoc in R. rewrite <- !app_assoc. exact R.
  - (* arrow *) intros v t0 e0 m D H. apply M_16; [auto|].
    apply (post_P16 t0 e0); [|apply H; lia]. intros stk ops rest x R. stepf. cbn [rbind].
    bindc push2_ok. bindc push_ok. bindc push_ok.
    cbn [postfix] in R. rewrite <- !app_assoc in R. rewrite <- !app_assoc. exact R.
  - (* ++ *) intros v t0 e0 D H. apply M_16; [auto|].
    apply (post_P16 t0 e0); [|apply H; lia]. intros stk ops rest x R. stepf. bindc push_ok.
    rewrite <- app_assoc. exact R.
  - (* -- *) intros v t0 e0 D H. apply M_16; [auto|].
    apply (post_P16 t0 e0); [|apply H; lia]. intros stk ops rest x R. stepf. bindc push_ok.
    rewrite <- app_assoc. exact R.
  - (* prefix *) intros o k v t0 e0 I D H. apply M_15; [auto|].
    intros c szof stk ops rest S N. destruct (prefix_op o k I) as (F1 & F2 & F3 & F4).
    eapply runs_S; [intros f; cbn [unary]; reflexivity|]. cbn [app kind tl]. cbv zeta. rewrite F1. cbv iota.
    eapply runs_bind.
    { destruct H as (_ & H & _). apply H; [destruct ((o =? tokInc) || _ || _); lia| |exact N].
      intros E. destruct ((o =? tokInc) || (o =? tokDec) || (o =? tokSizeof)) eqn:B; [lia|]. specialize (F4 eq_refl). lia. }
    cbv beta iota. cbn [negb]. rewrite F2. bindc push_ok. rewrite conv_conv, <- app_assoc. apply runs_ret.
  - (* not *) intros v t0 e0 D H. apply M_15; [auto|].
    intros c szof stk ops rest S N. stepf.
    eapply runs_bind; [destruct H as (_ & H & _); apply H; [lia|discriminate|exact N]|]. ev.
    eapply runs_bind; [apply runs_const; eapply okl_bind; [apply push_ok|apply push_ok]|]. ev.
    rewrite conv_conv, <- !app_assoc. cbn [app postfix]. apply runs_ret.
  - (* sizeof type *) intros v w x n0. apply M_15; [auto|].
    intros c szof stk ops rest S N. stepf. eapply runs_bind; [stepf; bindc push2_ok; apply runs_ret|]. ev.
    cbn [push_prefix]. unfold push_prefix. ev. bindc push_ok. rewrite conv_conv, <- !app_assoc. apply runs_ret.
  - (* cast *) intros v n0 w t0 e0 D H. apply M_15; [auto|].
    intros c szof stk ops rest S N. destruct szof; [now destruct (S eq_refl)|]. stepf.
    eapply runs_bind; [destruct H as (_ & H & _); apply H; [lia|discriminate|exact N]|]. ev.
    bindc push2_ok. eapply runs_bind.
    { apply nopost_postl. unfold nopost in *. unfold conv. destruct ((kind rest =? cComma) && negb c); [cbv; intuition discriminate|exact N]. }
    ev. rewrite conv_conv, <- app_assoc. apply runs_ret.
  - (* binary *) intros o n0 v t1 a t2 b I D1 H1 D2 H2. destruct (binop_facts o n0 I) as (F1 & F2 & F3 & F4 & F5 & F6 & F7).
    apply M_low; [lia|].
    apply (bin_PB n0 n0 (n0 + 1) o o v); try assumption; try lia.
    + unfold clos. destruct ((n0 =? 3) || (n0 =? 2)) eqn:E; lia.
    + intros. now apply conv_id.
    + intros t0 T. unfold precedGEQ. rewrite F1. replace (n0 =? 3) with false by lia. cbn [andb].
      replace (n0 =? 2) with false by lia. cbn [andb]. lia.
    + apply H1. lia.
    + apply H2. lia.
  - (* conditional *) intros v w tc cc t1 a t2 b D1 H1 D2 H2 D3 H3. apply M_low; [lia|].
    intros c stk ops rest C X N. destruct ops as [|[top u] ops]; [destruct X|].
    destruct H1 as (_ & _ & H1). destruct H3 as (_ & _ & H3).
    destruct (H1 ltac:(lia) c stk ((top, u) :: ops) ((cQuest, v) :: t1 ++ (cColon, w) :: t2 ++ rest)) as (s1 & p1 & P1 & R1);
      [lia|intros t0 T; apply X; lia|apply nopost_of; cbv; intuition discriminate|].
    destruct (H3 ltac:(lia) c (stk ++ postfix cc) ((cQuest, zlen (postfix a)) :: postfix a ++ (top, u) :: ops) rest)
      as (s2 & p2 & P2 & R2); [exact C| |exact N|].
    { apply ctx_op. intros t0 T. unfold precedGEQ. rewrite preced_quest. replace ((3 =? 3) && (preced t0 >=? 3)) with true by lia.
      change (0 =? 2) with false. cbn [andb]. lia. }
    exists s2, (p2 ++ (cQuest, zlen (postfix a)) :: postfix a ++ []). split.
    + eapply Pend_app; [exact P2|]. constructor; [lia|]. cbn [postfix]. rewrite <- !app_assoc. constructor.
    + intros x RX. rewrite app_nil_r in RX. rewrite <- !app_assoc. cbn [app]. rewrite <- app_assoc. cbn [app]. apply R1.
      rewrite conv_id by reflexivity. stepf.
      eapply runs_bind; [apply runs_const; eapply pop_geq_ok; [exact P1|lia|rewrite preced_quest; cbv; discriminate|apply X; rewrite preced_quest; lia|apply le_n]|].
      cbv beta iota. eapply runs_bind.
      { ev. eapply runs_bind; [apply (M_PE 1 false t1 a ltac:(discriminate) ltac:(lia) H2); right; cbn; tauto|]. ev. cbn [negb orb]. ev.
        eapply runs_bind.
        { apply runs_const. rewrite (zlen_app (stk ++ postfix cc)). replace (Z.to_nat _) with (length (postfix a)) by (unfold zlen; lia). apply move_mid_ok. }
        cbv beta iota. bindc pushop_ok. apply runs_ret. }
      cbv beta iota. cbn [tl]. rewrite zlen_app. replace (zlen (stk ++ postfix cc) + zlen (postfix a) - zlen (stk ++ postfix cc)) with (zlen (postfix a)) by lia.
      apply (R2 x). rewrite <- app_assoc in RX. exact RX.
  - (* assignment *) intros o v t1 a t2 b I D1 H1 D2 H2. destruct (assign_facts o I) as (F1 & F3 & F4 & F5 & F6 & F7).
    apply M_low; [lia|].
    apply (bin_PB 2 14 2 o o v); try assumption; try lia.
    + cbv. discriminate.
    + intros. now apply conv_id.
    + intros t0 T. unfold precedGEQ. rewrite F1. change (2 =? 3) with false. cbn [andb].
      replace ((2 =? 2) && (preced t0 >=? 2)) with true by lia. lia.
    + apply (P14_PB 15); [auto|]. destruct H1 as (_ & H1 & _). apply H1. lia.
    + apply H2. lia.
  - (* comma *) intros v t1 a t2 b D1 H1 D2 H2. apply M_low; [lia|].
    apply (bin_PB 1 1 2 cComma tokComma v); try reflexivity; try lia.
    + cbv. intuition discriminate.
    + intros c ts C. destruct c; [specialize (C eq_refl); lia|reflexivity].
    + intros t0 T. unfold precedGEQ. change (preced tokComma) with 1. cbv zeta. cbn [Z.eqb Pos.eqb andb]. lia.
    + apply H1. lia.
    + apply H2. lia.
  - (* one argument *) intros t0 e0 D H. split; [discriminate|]. intros more sep v a m ops w rest. stepf.
    eapply runs_bind; [apply (M_PE 2 true t0 e0 ltac:(lia) ltac:(lia) H); right; cbn; tauto|]. cbv beta iota.
    eapply runs_bind; [apply runs_const, args_step|]. ev. destruct more; cbn [andb negb]; apply runs_ret.
  - (* more *) intros v0 t0 e0 ta l D H _ (NE & A). split; [discriminate|]. intros more sep v a m ops w rest.
    stepf. rewrite <- app_assoc. cbn [app].
    eapply runs_bind; [apply (M_PE 2 true t0 e0 ltac:(lia) ltac:(lia) H); left; reflexivity|]. cbv beta iota.
    eapply runs_bind; [apply runs_const, args_step|]. ev.
    eapply runs_bind.
    { apply runs_const. replace (a ++ (cLPar, 0) :: postfix e0 ++ m) with ((a ++ [(cLPar, 0)]) ++ postfix e0 ++ m) by (now rewrite <- app_assoc).
      replace (zlen a + 1) with (zlen (a ++ [(cLPar, 0)])) by (rewrite zlen_app; reflexivity). apply ins_ok. }
    rewrite <- app_assoc. cbn [app].
    replace (pargs (e0 :: l) ++ m) with (pargs l ++ (cComma, 0) :: postfix e0 ++ m).
    2:{ destruct l as [|l0 l]; [now destruct NE|]. cbn [pargs]. fold pargs. now rewrite <- app_assoc. }
    apply A.
Qed.
