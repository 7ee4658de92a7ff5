(** Two facts about the parser that do not depend on the grammar: more fuel does not change a
    result, and the stacks cannot overflow on a short input. *)
From Verif Require Import Base BaseLemmas TokCodes ParseModel.

(** ** Fuel *)
Definition le {A} (a b : res A) : Prop := a = Fuel \/ a = b.
Lemma le_refl {A} (a : res A) : le a a. Proof. now right. Qed.
Lemma le_fuel {A} (a : res A) : le Fuel a. Proof. now left. Qed.
Lemma le_bind {A B} (a b : res A) (k l : A -> res B) : le a b -> (forall x, le (k x) (l x)) -> le (rbind a k) (rbind b l).
Proof. intros [-> | ->] H; [now left|]. destruct b; cbn; try (apply H); now right. Qed.

Ltac lemono := repeat (first
  [ apply le_refl | assumption
  | apply le_bind; [|intros]
  | match goal with
    | H : forall _, _ |- _ => apply H
    | |- le (let '(_, _) := ?x in _) _ => destruct x
    | |- le (if ?b then _ else _) _ => destruct b
    end ]).

Lemma more_fuel f : forall g, (f <= g)%nat ->
  (forall c z stk ops ts, le (unary f c z stk ops ts) (unary g c z stk ops ts)) /\
  (forall i stk ops ts, le (postl f i stk ops ts) (postl g i stk ops ts)) /\
  (forall i m stk ops ts, le (args f i m stk ops ts) (args g i m stk ops ts)) /\
  (forall c stk ops ts, le (expr f c stk ops ts) (expr g c stk ops ts)) /\
  (forall c stk ops ts b, le (eloop f c stk ops ts b) (eloop g c stk ops ts b)).
Proof.
  induction f as [|f IH]; intros [|g] L; try lia; try (repeat split; intros; apply le_fuel).
  destruct (IH g ltac:(lia)) as (IH1 & IH2 & IH3 & IH4 & IH5). clear IH L.
  repeat split; intros; cbn [unary postl args expr eloop]; cbv zeta; lemono.
Qed.
Lemma expr_fuel f g c stk ops ts : (f <= g)%nat -> le (expr f c stk ops ts) (expr g c stk ops ts).
Proof. intros L. now apply more_fuel. Qed.

(** ** Room: what is on the stacks plus twice the tokens to come never grows *)
Definition phi (stk ops ts : list token) : Z := zlen stk + zlen ops + 2 * zlen ts.
(** [room d r ok]: r is not an overflow unless d, and if it is a result it satisfies ok. *)
Definition room {A} (d : Prop) (r : res A) (ok : A -> Prop) : Prop :=
  (r = TooLong -> d) /\ (forall a, r = Ok a -> ok a).
Lemma room_ok {A} (d : Prop) (a : A) (ok : A -> Prop) : ok a -> room d (Ok a) ok.
Proof. intros H. split; [discriminate|]. intros b E. now injection E as <-. Qed.
Lemma room_err {A} (d : Prop) (r : res A) (ok : A -> Prop) : r = Unexpected \/ r = Internal \/ r = Fuel -> room d r ok.
Proof. intros [->|[->| ->]]; split; discriminate. Qed.
Lemma room_bind {A B} d (r : res A) (k : A -> res B) ok1 ok : room d r ok1 -> (forall a, ok1 a -> room d (k a) ok) ->
  room d (rbind r k) ok.
Proof.
  intros (R1 & R2) H. destruct r; cbn [rbind]; try (apply H; now apply R2); try (apply room_err; tauto).
  split; [intros _; now apply R1|discriminate].
Qed.
Lemma room_weak {A} (d d' : Prop) (r : res A) (ok ok' : A -> Prop) : room d r ok -> (d -> d') -> (forall a, ok a -> ok' a) -> room d' r ok'.
Proof. intros (A1 & A2) B C. split; [intros E; apply B, A1, E|intros a E; apply C, A2, E]. Qed.

Lemma room_push2 (d : Prop) (stk : list token) v w : (STACK_SIZE <= zlen stk -> d) -> room d (push2 stk v w) (fun s => zlen s = zlen stk + 1).
Proof.
  intros H. unfold push2. destruct (Z.geb_spec (zlen stk) STACK_SIZE) as [L|L]; [split; [intros _; apply H; lia|discriminate]|].
  apply room_ok. rewrite zlen_app. reflexivity.
Qed.
Lemma room_ins2 (d : Prop) (stk : list token) p v w : (STACK_SIZE <= zlen stk -> d) -> room d (ins2 stk p v w) (fun s => zlen s = zlen stk + 1).
Proof.
  intros H. unfold ins2. destruct (Z.geb_spec (zlen stk) STACK_SIZE) as [L|L]; [split; [intros _; apply H; lia|discriminate]|].
  apply room_ok. rewrite zlen_app, zlen_cons. rewrite <- (firstn_skipn (Z.to_nat p) stk) at 3. rewrite zlen_app. lia.
Qed.
Lemma room_pushop (d : Prop) (ops : list token) v w : (STACK_SIZE <= zlen ops -> d) -> room d (pushop2 ops v w) (fun s => zlen s = zlen ops + 1).
Proof.
  intros H. unfold pushop2, OPERATOR_STACK_SIZE.
  destruct (Z.geb_spec (zlen ops) STACK_SIZE) as [L|L]; [split; [intros _; apply H; lia|discriminate]|].
  apply room_ok. rewrite zlen_cons. lia.
Qed.
Lemma room_pop2 (d : Prop) (stk : list token) : room d (pop2 stk) (fun '(_, s) => zlen stk = zlen s + 1).
Proof.
  unfold pop2. destruct (rev stk) as [|t r] eqn:E; [apply room_err; tauto|]. apply room_ok.
  assert (zlen (rev stk) = zlen (t :: r)) by now rewrite E. unfold zlen in *. rewrite rev_length in *. cbn [length] in *. lia.
Qed.
Lemma room_popop2 (d : Prop) (ops : list token) : room d (popop2 ops) (fun '(_, s) => zlen ops = zlen s + 1).
Proof. destruct ops as [|t r]; [apply room_err; tauto|]. apply room_ok. rewrite zlen_cons. lia. Qed.

(** Moving items between the stacks keeps their total size. *)
Definition same (n : Z) (p : list token * list token) : Prop := let '(s, o) := p in zlen s + zlen o = n.
Ltac rb L := eapply room_bind; [apply L; try lia|cbv beta].
Lemma room_move_back n : forall stk ops, room (STACK_SIZE < zlen stk + zlen ops) (move_back n stk ops) (same (zlen stk + zlen ops)).
Proof.
  induction n as [|n IH]; intros stk ops; cbn [move_back]; [apply room_ok; reflexivity|].
  pose proof (zlen_nonneg ops).
  rb room_popop2. intros [[v w] o] E. pose proof (zlen_nonneg o). rb room_push2. intros s E2.
  eapply room_weak; [apply IH|lia|]. intros [a b]. unfold same. lia.
Qed.
Lemma room_pop_one (stk ops : list token) : room (STACK_SIZE < zlen stk + zlen ops) (pop_one stk ops) (same (zlen stk + zlen ops)).
Proof.
  unfold pop_one. rb room_popop2. intros [[v w] o] E. pose proof (zlen_nonneg o). destruct (v =? cQuest).
  - eapply room_bind; [eapply room_weak; [apply room_move_back|lia|intros a P; exact P]|].
    intros [s o2] E2. unfold same in E2. pose proof (zlen_nonneg o2). rb room_push2. intros s2 E3. apply room_ok. unfold same. lia.
  - rb room_push2. intros s E2. apply room_ok. unfold same. lia.
Qed.
Lemma room_pop_geq n tok : forall stk ops, room (STACK_SIZE < zlen stk + zlen ops) (pop_geq n tok stk ops) (same (zlen stk + zlen ops)).
Proof.
  induction n as [|n IH]; intros stk ops; cbn [pop_geq]; (rb room_popop2; intros [[v w] o] E);
    (destruct (precedGEQ v tok); [|apply room_ok; reflexivity]).
  - apply room_err. tauto.
  - eapply room_bind; [apply room_pop_one|]. intros [s o2] E2. unfold same in E2.
    eapply room_weak; [apply IH|lia|]. intros [a b]. unfold same. lia.
Qed.
Lemma room_pop_all n : forall stk ops, room (STACK_SIZE < zlen stk + zlen ops) (pop_all n stk ops) (same (zlen stk + zlen ops)).
Proof.
  induction n as [|n IH]; intros stk ops; cbn [pop_all]; (rb room_popop2; intros [[v w] o] E);
    (destruct (v =? tokEof); [apply room_ok; reflexivity|]).
  - apply room_err. tauto.
  - eapply room_bind; [apply room_pop_one|]. intros [s o2] E2. unfold same in E2.
    eapply room_weak; [apply IH|lia|]. intros [a b]. unfold same. lia.
Qed.
Lemma room_move_mid n : forall stk ops, room (STACK_SIZE < zlen stk + zlen ops) (move_mid n stk ops) (same (zlen stk + zlen ops)).
Proof.
  induction n as [|n IH]; intros stk ops; cbn [move_mid]; [apply room_ok; reflexivity|].
  rb room_pop2. intros [[v w] s] E. pose proof (zlen_nonneg s). rb room_pushop. intros o E2.
  eapply room_weak; [apply IH|lia|]. intros [a b]. unfold same. lia.
Qed.
Lemma room_move_arg n i : forall stk, room (STACK_SIZE < zlen stk) (move_arg n i stk) (fun s => zlen s = zlen stk).
Proof.
  induction n as [|n IH]; intros stk; cbn [move_arg]; [apply room_ok; reflexivity|].
  rb room_pop2. intros [[v w] s] E. rb room_ins2. intros s2 E2.
  eapply room_weak; [apply IH|lia|]. cbv beta. intros a. lia.
Qed.

Lemma zlen_conv c ts : zlen (conv c ts) = zlen ts.
Proof.
  unfold conv. destruct ((kind ts =? cComma) && negb c) eqn:E; [|reflexivity].
  destruct ts as [|t r]; [discriminate E|]. reflexivity.
Qed.
Lemma zlen_tl1 (ts : list token) : kind ts <> 0 -> zlen ts = zlen (tl ts) + 1.
Proof. destruct ts as [|t r]; [intros H; now destruct H|]. intros _. rewrite zlen_cons. cbn [tl]. lia. Qed.
Lemma zlen_tl_le (ts : list token) : 0 <= zlen (tl ts) <= zlen ts.
Proof. split; [apply zlen_nonneg|]. destruct ts as [|t r]; cbn [tl]; [lia|]. rewrite zlen_cons. lia. Qed.

Definition ok4 (n : Z) (p : list token * list token * list token * bool) : Prop :=
  let '(s, o, ts, _) := p in phi s o ts <= n.
Definition ok3 (n : Z) (p : list token * list token * list token) : Prop :=
  let '(s, o, ts) := p in phi s o ts <= n.
Definition BIG := STACK_SIZE + 1.

Lemma room_prefix (d : Prop) (stk : list token) k : (STACK_SIZE <= zlen stk + 1 -> d) -> room d (push_prefix stk k) (fun s => zlen s <= zlen stk + 2).
Proof.
  intros H. unfold push_prefix.
  repeat match goal with |- context [if ?b then _ else _] => destruct b end;
    try (eapply room_weak; [apply (room_push2 d); intros; apply H; lia|auto|cbv beta; intros; lia]).
  rb (room_push2 d); [intros; apply H; lia|]. intros s E.
  eapply room_weak; [apply (room_push2 d); intros; apply H; lia|auto|cbv beta; intros; lia].
Qed.

Lemma kind_nz ts k : kind ts =? k = true -> k <> 0 -> kind ts <> 0. Proof. lia. Qed.

Lemma room_parser f :
  (forall c z stk ops ts, room (BIG <= phi stk ops ts) (unary f c z stk ops ts) (ok4 (phi stk ops ts))) /\
  (forall i stk ops ts, room (BIG <= phi stk ops ts) (postl f i stk ops ts) (ok3 (phi stk ops ts))) /\
  (forall i m stk ops ts, kind ts <> 0 -> room (BIG + 1 <= phi stk ops ts) (args f i m stk ops ts)
     (fun p => ok3 (phi stk ops ts - 2) p /\ let '(_, _, ts') := p in kind ts' <> 0)) /\
  (forall c stk ops ts, room (STACK_SIZE <= phi stk ops ts) (expr f c stk ops ts) (ok4 (phi stk ops ts))) /\
  (forall c stk ops ts b, room (BIG <= phi stk ops ts) (eloop f c stk ops ts b) (ok4 (phi stk ops ts - 1))).
Proof.
  induction f as [|f (IU & IP & IA & IE & IL)]; [repeat split; discriminate|].
  assert (UN : forall c z stk ops ts, room (BIG <= phi stk ops ts) (unary (S f) c z stk ops ts) (ok4 (phi stk ops ts))).
  { intros c z stk ops ts. cbn [unary]. cbv zeta.
    pose proof (zlen_nonneg stk). pose proof (zlen_nonneg ops). pose proof (zlen_nonneg ts). pose proof (zlen_nonneg (tl ts)).
    destruct (isop (kind ts) && _) eqn:OP.
    { assert (NZ : kind ts <> 0) by (intros E; rewrite E in OP; discriminate OP). apply zlen_tl1 in NZ.
      eapply room_bind; [eapply room_weak; [apply IU|unfold phi in *; lia|intros a P; exact P]|].
      intros [[[s o] t] g] P. unfold ok4, phi in *. pose proof (zlen_nonneg o). pose proof (zlen_nonneg t).
      destruct g; cbn [negb]; [|apply room_err; tauto].
      eapply room_bind; [apply room_prefix; unfold BIG; lia|]. cbv beta. intros s2 E2.
      apply room_ok. unfold ok4, phi. rewrite zlen_conv. lia. }
    assert (POST : forall s o t i, phi s o t <= phi stk ops ts ->
      room (BIG <= phi stk ops ts) (do (s, o, t) <- postl f i s o t; Ok (s, o, conv c t, true)) (ok4 (phi stk ops ts))).
    { intros s o t i L. eapply room_bind; [eapply room_weak; [apply IP|lia|intros a P; exact P]|].
      intros [[s2 o2] t2] P. apply room_ok. unfold ok4, ok3, phi in *. rewrite zlen_conv. lia. }
    destruct (_ || (kind ts =? tokNumUint)) eqn:NUM.
    { assert (NZ : kind ts <> 0) by (intros E; rewrite E in NUM; discriminate NUM). apply zlen_tl1 in NZ.
      rb room_push2; [unfold BIG, phi in *; lia|]. cbv beta. intros s E. apply POST. unfold phi in *. lia. }
    destruct ((kind ts =? tokString) || _) eqn:STR.
    { assert (NZ : kind ts <> 0) by (intros E; rewrite E in STR; discriminate STR). apply zlen_tl1 in NZ.
      rb room_push2; [unfold BIG, phi in *; lia|]. cbv beta. intros s E. apply POST. unfold phi in *. lia. }
    destruct (kind ts =? cLPar) eqn:PAR; [|apply room_ok; unfold ok4, phi; rewrite zlen_conv; lia].
    apply kind_nz in PAR; [|discriminate]. apply zlen_tl1 in PAR. pose proof (zlen_nonneg (tl ts)).
    destruct (kind (tl ts) =? tokTypeName) eqn:TY.
    { apply kind_nz in TY; [|discriminate]. apply zlen_tl1 in TY.
      destruct (negb (kind (tl (tl ts)) =? cRPar)); [apply room_err; tauto|].
      pose proof (zlen_tl_le (tl (tl ts))). destruct z.
      - rb room_push2; [unfold BIG, phi in *; lia|]. cbv beta. intros s E. apply room_ok. unfold ok4, phi in *. rewrite zlen_conv. lia.
      - eapply room_bind; [eapply room_weak; [apply IU|unfold phi in *; lia|intros a P; exact P]|].
        intros [[[s o] t] g] P. unfold ok4 in P. pose proof (zlen_nonneg o). pose proof (zlen_nonneg t).
        destruct g; cbn [negb]; [|apply room_err; tauto].
        rb room_push2; [unfold BIG, phi in *; lia|]. cbv beta. intros s2 E2. apply POST. unfold phi in *. lia. }
    eapply room_bind; [eapply room_weak; [apply IE|unfold phi, BIG in *; lia|intros a P; exact P]|].
    intros [[[s o] t] g] P. unfold ok4 in P.
    destruct (negb (kind t =? cRPar)); [apply room_err; tauto|]. destruct g; cbn [negb]; [|apply room_err; tauto].
    apply POST. pose proof (zlen_tl_le t). unfold phi in *. lia. }
  split; [exact UN|]. clear UN.
  split; [|split; [|split]].
  - intros i stk ops ts. cbn [postl]. cbv zeta.
    pose proof (zlen_nonneg stk). pose proof (zlen_nonneg ops). pose proof (zlen_nonneg ts). pose proof (zlen_nonneg (tl ts)).
    assert (NEXT : forall s o t, kind t <> 0 -> phi s o t - 2 <= phi stk ops ts ->
      room (BIG <= phi stk ops ts) (postl f i s o (tl t)) (ok3 (phi stk ops ts))).
    { intros s o t NZ L. apply zlen_tl1 in NZ. eapply room_weak; [apply IP|unfold phi in *; lia|].
      intros [[a b] d]. unfold ok3, phi in *. lia. }
    destruct (kind ts =? cLPar) eqn:C1.
    { apply kind_nz in C1; [|discriminate]. pose proof (zlen_tl1 ts C1). pose proof (zlen_nonneg (tl ts)).
      rb room_ins2; [unfold BIG, phi in *; lia|]. cbv beta. intros s E.
      eapply room_bind; [eapply room_weak; [apply IA; exact C1|unfold phi in *; lia|intros a P; exact P]|].
      intros [[s1 o1] t1] (P & NZ). unfold ok3 in P. pose proof (zlen_nonneg o1). pose proof (zlen_tl1 t1 NZ). pose proof (zlen_nonneg (tl t1)).
      rb room_push2; [unfold BIG, phi in *; lia|]. cbv beta. intros s2 E2. apply NEXT; [exact NZ|]. unfold phi in *. lia. }
    destruct (kind ts =? cLBrk) eqn:C2.
    { apply kind_nz in C2; [|discriminate]. pose proof (zlen_tl1 ts C2).
      eapply room_bind; [eapply room_weak; [apply IE|unfold phi, BIG in *; lia|intros a P; exact P]|].
      intros [[[s o] t] g] P. unfold ok4 in P. destruct g; cbn [negb]; [|apply room_err; tauto].
      destruct (kind t =? cRBrk) eqn:C3; cbn [negb]; [|apply room_err; tauto].
      apply kind_nz in C3; [|discriminate]. pose proof (zlen_tl1 t C3). pose proof (zlen_nonneg (tl t)). pose proof (zlen_nonneg o).
      rb room_push2; [unfold BIG, phi in *; lia|]. cbv beta. intros s2 E2. rb room_push2; [unfold BIG, phi in *; lia|].
      cbv beta. intros s3 E3. apply NEXT; [exact C3|]. unfold phi in *. lia. }
    destruct (kind ts =? tokInc) eqn:C3.
    { apply kind_nz in C3; [|discriminate]. pose proof (zlen_tl1 ts C3). pose proof (zlen_nonneg (tl ts)).
      rb room_push2; [unfold BIG, phi in *; lia|]. cbv beta. intros s E. apply NEXT; [exact C3|]. unfold phi in *. lia. }
    destruct (kind ts =? tokDec) eqn:C4.
    { apply kind_nz in C4; [|discriminate]. pose proof (zlen_tl1 ts C4). pose proof (zlen_nonneg (tl ts)).
      rb room_push2; [unfold BIG, phi in *; lia|]. cbv beta. intros s E. apply NEXT; [exact C4|]. unfold phi in *. lia. }
    destruct ((kind ts =? cDot) || (kind ts =? tokArrow)) eqn:C5.
    { assert (NZ : kind ts <> 0) by (intros E; rewrite E in C5; discriminate C5). pose proof (zlen_tl1 ts NZ).
      pose proof (zlen_nonneg (tl ts)).
      apply (room_bind _ _ _ (fun s => zlen s <= zlen stk + 1)).
      { destruct (kind ts =? cDot); [|apply room_ok; lia].
        eapply room_weak; [apply (room_push2 (BIG <= phi stk ops ts)); unfold BIG, phi in *; lia|auto|cbv beta; intros; lia]. }
      intros s E. destruct (kind (tl ts) =? tokIdent) eqn:C6; cbn [negb]; [|apply room_err; tauto].
      apply kind_nz in C6; [|discriminate]. pose proof (zlen_tl1 (tl ts) C6). pose proof (zlen_nonneg (tl (tl ts))).
      rb room_push2; [unfold BIG, phi in *; lia|]. cbv beta. intros s2 E2.
      rb room_push2; [unfold BIG, phi in *; lia|]. cbv beta. intros s3 E3.
      rb room_push2; [unfold BIG, phi in *; lia|]. cbv beta. intros s4 E4.
      apply NEXT; [exact C6|]. unfold phi in *. lia. }
    apply room_ok. unfold ok3. lia.
  - intros i m stk ops ts NZ. pose proof (zlen_tl1 ts NZ). cbn [args]. cbv zeta.
    pose proof (zlen_nonneg stk). pose proof (zlen_nonneg ops). pose proof (zlen_nonneg (tl ts)).
    eapply room_bind; [eapply room_weak; [apply IE|unfold phi, BIG in *; lia|intros a P; exact P]|].
    intros [[[s o] t] g] P. unfold ok4 in P. pose proof (zlen_nonneg o). pose proof (zlen_nonneg t).
    eapply room_bind; [eapply room_weak; [apply room_move_arg|unfold phi, BIG in *; lia|intros a Q; exact Q]|].
    cbv beta. intros s2 E2. destruct (kind t =? cComma) eqn:C1.
    + destruct g; cbn [negb]; [|apply room_err; tauto].
      apply kind_nz in C1; [|discriminate]. rb room_ins2; [unfold BIG, phi in *; lia|]. cbv beta. intros s3 E3.
      eapply room_weak; [apply IA; exact C1|unfold phi, BIG in *; lia|].
      intros [[a b] d] (Q1 & Q2). split; [|exact Q2]. unfold ok3, phi in *. lia.
    + destruct (kind t =? cRPar) eqn:C2; [|apply room_err; tauto]. destruct (m && negb g); [apply room_err; tauto|].
      apply room_ok. split; [unfold ok3, phi in *; lia|]. apply kind_nz in C2; [exact C2|discriminate].
  - intros c stk ops ts. cbn [expr]. pose proof (zlen_nonneg stk). pose proof (zlen_nonneg ops). pose proof (zlen_nonneg ts). pose proof (zlen_nonneg (tl ts)).
    rb room_pushop; [unfold phi; lia|]. cbv beta. intros o E.
    eapply room_bind; [eapply room_weak; [apply IU|unfold phi, BIG in *; lia|intros a P; exact P]|].
    intros [[[s o2] t] g] P. unfold ok4 in P.
    eapply room_weak; [apply IL|unfold phi, BIG in *; lia|]. intros [[[a b] d] h]. unfold ok4, phi in *. lia.
  - intros c stk ops ts b. cbn [eloop]. cbv zeta. pose proof (zlen_nonneg stk). pose proof (zlen_nonneg ops). pose proof (zlen_nonneg ts). pose proof (zlen_nonneg (tl ts)).
    destruct (negb (kind ts =? tokEof) && _ && b) eqn:LP.
    + assert (NZ : kind ts <> 0) by (intros E; rewrite E in LP; discriminate LP). pose proof (zlen_tl1 ts NZ). pose proof (zlen_nonneg (tl ts)).
      destruct (isop (kind ts) && negb (isunary (kind ts))); [|apply room_err; tauto].
      eapply room_bind; [eapply room_weak; [apply room_pop_geq|unfold phi, BIG in *; lia|intros a P; exact P]|].
      intros [s o] E. unfold same in E. pose proof (zlen_nonneg s). pose proof (zlen_nonneg o).
      apply (room_bind _ _ _ (fun p => let '(s1, o1, t1) := p in kind t1 <> 0 /\ phi s1 o1 t1 <= phi stk ops ts + 1)).
      { destruct (kind ts =? cQuest).
        - eapply room_bind; [eapply room_weak; [apply IE|unfold phi, BIG in *; lia|intros a P; exact P]|].
          intros [[[s1 o1] t1] g] P. unfold ok4 in P. pose proof (zlen_nonneg t1).
          destruct g; cbn [negb orb]; [|apply room_err; tauto].
          destruct (kind t1 =? cColon) eqn:C1; cbn [negb]; [|apply room_err; tauto]. apply kind_nz in C1; [|discriminate].
          eapply room_bind; [eapply room_weak; [apply room_move_mid|unfold phi, BIG in *; lia|intros a Q; exact Q]|].
          intros [s2 o2] E2. unfold same in E2. pose proof (zlen_nonneg s2). pose proof (zlen_nonneg o2).
          rb room_pushop; [unfold phi, BIG in *; lia|]. cbv beta. intros o3 E3. apply room_ok. split; [exact C1|]. unfold phi in *. lia.
        - rb room_pushop; [unfold phi, BIG in *; lia|]. cbv beta. intros o3 E3. apply room_ok. split; [exact NZ|]. unfold phi in *. lia. }
      intros [[s1 o1] t1] (N1 & P1). pose proof (zlen_tl1 t1 N1).
      eapply room_bind; [eapply room_weak; [apply IU|unfold phi, BIG in *; lia|intros a P; exact P]|].
      intros [[[s2 o2] t2] g] P. unfold ok4 in P. destruct g; cbn [negb]; [|apply room_err; tauto].
      eapply room_weak; [apply IL|unfold phi, BIG in *; lia|]. intros [[[x y] u] h]. unfold ok4, phi in *. lia.
    + eapply room_bind; [eapply room_weak; [apply room_pop_all|unfold phi, BIG in *; lia|intros a P; exact P]|].
      intros [s o] E. unfold same in E. rb room_popop2. intros [x o2] E2. apply room_ok. unfold ok4, phi in *. lia.
Qed.
Lemma expr_room f c stk ops ts : zlen stk + zlen ops + 2 * zlen ts < STACK_SIZE -> expr f c stk ops ts <> TooLong.
Proof. intros L E. destruct (room_parser f) as (_ & _ & _ & R & _). destruct (R c stk ops ts) as (R1 & _). apply R1 in E. unfold phi in E. lia. Qed.
