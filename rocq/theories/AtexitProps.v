(** C61: atexit and exit. *)
From Verif Require Import Base AtexitSpec AtexitModel.
Ltac Zify.zify_post_hook ::= idtac.

Lemma matched_app t u : matched t -> matched u -> matched (t ++ u).
Proof.
  intros H Hu. induction H as [|f t H IH|f t v H1 IH1 H2 IH2]; cbn [app].
  - exact Hu.
  - now constructor.
  - rewrite <- app_assoc. cbn [app]. now constructor.
Qed.

(** A history with the functions [st] pending, the latest first. *)
Inductive open : list ev -> list Z -> Prop :=
| o_nil t : matched t -> open t []
| o_reg t f d st : open t st -> matched d -> open (t ++ EReg f :: d) (f :: st).

Lemma open_app t st d : open t st -> matched d -> open (t ++ d) st.
Proof.
  intros H Hd. destruct H as [t H|t f e st H He].
  - constructor. now apply matched_app.
  - rewrite <- app_assoc. cbn [app]. constructor; [exact H|now apply matched_app].
Qed.

Lemma pending_app t u : pending (t ++ u) = pending t + pending u.
Proof. induction t as [|[]]; cbn [app pending]; lia. Qed.
Lemma pending_matched t : matched t -> pending t = 0.
Proof. induction 1; cbn [pending]; rewrite ?pending_app; cbn [pending]; lia. Qed.
Lemma pending_open t st : open t st -> pending t = Z.of_nat (length st).
Proof.
  induction 1 as [t H|t f d st H IH Hd]; [now rewrite pending_matched|].
  rewrite pending_app. cbn [pending length]. rewrite (pending_matched d Hd). lia.
Qed.

(** The array holds the pending functions. *)
Inductive arr (g : Z -> Z) : list Z -> Prop :=
| a_nil : arr g []
| a_cons f st : arr g st -> g (Z.of_nat (length st)) = f -> arr g (f :: st).
Lemma arr_ext g g' st : arr g st -> (forall i, 0 <= i < Z.of_nat (length st) -> g' i = g i) -> arr g' st.
Proof.
  induction 1 as [|f st H IH E]; intros X; constructor.
  - apply IH. intros i Hi. apply X. cbn [length]. lia.
  - rewrite X by (cbn [length]; lia). exact E.
Qed.

Lemma rev_case {A} (l : list A) : l = [] \/ exists t y, l = t ++ [y].
Proof. destruct l using rev_ind; [now left|right; eauto]. Qed.
Lemma snoc_inv {A} (t t1 t2 : list A) (x e : A) : t ++ [x] = t1 ++ e :: t2 -> t1 = t /\ e = x /\ t2 = [] \/ exists t3, t2 = t3 ++ [x] /\ t = t1 ++ e :: t3.
Proof.
  destruct (rev_case t2) as [->|(t3 & y & ->)]; intros E.
  - apply app_inj_tail in E as (-> & ->). left. auto.
  - right. exists t3. change (e :: t3 ++ [y]) with ((e :: t3) ++ [y]) in E. rewrite app_assoc in E. apply app_inj_tail in E as (-> & ->). auto.
Qed.

Definition inv (s : ax) (st : list Z) : Prop :=
  arr (functions s) st /\ fcnt s = Z.of_nat (length st) /\ fcnt s <= 32 /\ open (hist s) st /\ room_for_32 (hist s) /\ (piter s = false -> st = []).

Lemma room_call t f : room_for_32 t -> room_for_32 (t ++ [ECall f]).
Proof.
  intros (H1 & H2). split; intros t1 g t2 E; apply snoc_inv in E as [(-> & E & _)|(t3 & -> & ->)]; try discriminate; eauto.
Qed.
Lemma room_reg t f : room_for_32 t -> pending t < 32 -> room_for_32 (t ++ [EReg f]).
Proof.
  intros (H1 & H2) L. split; intros t1 g t2 E; apply snoc_inv in E as [(-> & E & _)|(t3 & -> & ->)]; try discriminate; eauto.
Qed.
Lemma room_ref t f : room_for_32 t -> 32 <= pending t -> room_for_32 (t ++ [ERef f]).
Proof.
  intros (H1 & H2) L. split; intros t1 g t2 E; apply snoc_inv in E as [(-> & E & _)|(t3 & -> & ->)]; try discriminate; eauto.
Qed.

Lemma perform_ok a : forall s st, inv s st -> exists s' st', perform a s = Fin s' /\ inv s' st' /\ exists u, hist s' = hist s ++ u.
Proof.
  induction a as [|f k IH]; intros s st (A & C & L & O1 & R & P); cbn [perform].
  - exists s, st. split; [reflexivity|]. split; [repeat split; auto; apply R|]. exists []. now rewrite app_nil_r.
  - unfold atexit. pose proof (pending_open _ _ O1) as PE. destruct (Z.leb_spec 32 (fcnt s)) as [G|G].
    + destruct (IH false (mkax (functions s) (fcnt s) (piter s) (hist s ++ [ERef f])) st) as (s' & st' & E & V & u & U).
      { split; [exact A|]. split; [exact C|]. split; [exact L|]. cbn [hist]. split; [apply open_app; [exact O1|repeat constructor]|].
        split; [apply room_ref; [exact R|lia]|exact P]. }
      exists s', st'. split; [exact E|]. split; [exact V|]. exists (ERef f :: u). rewrite U. cbn [hist]. now rewrite <- app_assoc.
    + replace (fcnt s <? 0) with false by lia.
      destruct (IH true (mkax (fun i => if i =? fcnt s then f else functions s i) (fcnt s + 1) true (hist s ++ [EReg f])) (f :: st)) as (s' & st' & E & V & u & U).
      { split; cbn [functions fcnt hist piter].
        - constructor; [|rewrite C, Z.eqb_refl; reflexivity]. apply (arr_ext (functions s)); [exact A|]. intros i Hi. replace (i =? fcnt s) with false by lia. reflexivity.
        - split; [cbn [length]; lia|]. split; [lia|]. split; [constructor; [exact O1|constructor]|]. split; [apply room_reg; [exact R|lia]|discriminate]. }
      exists s', st'. split; [exact E|]. split; [exact V|]. exists (EReg f :: u). rewrite U. cbn [hist]. now rewrite <- app_assoc.
Qed.

Lemma iterator_ok beh fuel : forall s st, inv s st ->
  iterator beh fuel s = Fuel \/ exists s', iterator beh fuel s = Fin s' /\ matched (hist s') /\ room_for_32 (hist s').
Proof.
  induction fuel as [|fuel IH]; intros s st V; [now left|]. cbn [iterator]. pose proof V as (A & C & L & O1 & R & P).
  destruct (Z.eqb_spec (fcnt s) 0) as [Z0|N0].
  - right. exists s. split; [reflexivity|]. split; [|exact R]. destruct st; [now inversion O1|cbn [length] in C; lia].
  - destruct st as [|f st]; [cbn [length] in C; lia|]. cbn [length] in C. replace ((fcnt s - 1 <? 0) || (32 <=? fcnt s - 1)) with false by lia.
    inversion A as [|f' st' A' Ef]; subst f' st'. replace (fcnt s - 1) with (Z.of_nat (length st)) by lia. rewrite Ef.
    destruct (perform_ok (beh (hist s) f) (mkax (functions s) (Z.of_nat (length st)) (piter s) (hist s ++ [ECall f])) st) as (s' & st' & E & V' & _).
    { split; [exact A'|]. split; [reflexivity|]. split; [cbn [fcnt]; lia|]. cbn [hist piter]. split.
      - inversion O1 as [|t f' d st' O2 D]; subst. rewrite <- app_assoc. cbn [app]. apply open_app; [exact O2|]. constructor; [exact D|constructor].
      - split; [now apply room_call|]. intros X. apply P in X. discriminate. }
    rewrite E. now apply (IH s' st').
Qed.

Lemma inv0 : inv ax0 [].
Proof.
  repeat split; cbn [ax0 functions fcnt hist piter length]; try lia; try constructor; try constructor; intros t1 f t2 E; destruct t1; discriminate.
Qed.

(** Whatever the program and the registered functions do: if exit gets to the end, then registrations
    and calls match like brackets (so each registered function is called exactly once for each
    registration, latest first), and registrations were refused only with 32 functions pending.  The array is
    never overrun. *)
Theorem C61_order (beh : list ev -> Z -> act) (main : act) (fuel : nat) :
  run beh fuel main <> Ub /\ forall t, run beh fuel main = Fin t -> matched t /\ room_for_32 t.
Proof.
  unfold run. destruct (perform_ok main ax0 [] inv0) as (s & st & E & V & _). rewrite E. destruct (piter s) eqn:Ep.
  - destruct (iterator_ok beh fuel s st V) as [->|(s' & -> & Hm & Hr)]; split; try discriminate. intros t X. injection X as <-. auto.
  - split; [discriminate|]. intros t X. injection X as <-. destruct V as (_ & _ & _ & O1 & R & P). rewrite (P Ep) in O1. split; [now inversion O1|exact R].
Qed.

(** If the registered functions register nothing, exit does get to the end, with 33 steps at most;
    and after what the program did come the calls only, latest registration first. *)
Theorem C61_all_called (beh : list ev -> Z -> act) (main : act) :
  (forall t f, beh t f = Done) ->
  exists u fs, run beh 33 main = Fin (u ++ map ECall fs) /\ (forall f, ~ In (ECall f) u) /\ matched (u ++ map ECall fs) /\ Z.of_nat (length fs) = pending u.
Proof.
  intros B.
  assert (NC : forall a s s', perform a s = Fin s' -> (forall f, ~ In (ECall f) (hist s)) -> forall f, ~ In (ECall f) (hist s')).
  { induction a as [|g k IH]; intros s s' E N f; cbn [perform] in E; [injection E as <-; auto|]. unfold atexit in E.
    destruct (32 <=? fcnt s); [|destruct (fcnt s <? 0); [discriminate|]].
    - apply (IH _ _ _ E). intros f'. cbn [hist]. rewrite in_app_iff. intros [X|[X|[]]]; [exact (N f' X)|discriminate].
    - apply (IH _ _ _ E). intros f'. cbn [hist]. rewrite in_app_iff. intros [X|[X|[]]]; [exact (N f' X)|discriminate]. }
  assert (IT : forall fuel s st, inv s st -> (length st < fuel)%nat -> exists s', iterator beh fuel s = Fin s' /\ hist s' = hist s ++ map ECall st).
  { induction fuel as [|fuel IH]; intros s st V Hf; [lia|]. cbn [iterator]. pose proof V as (A & C & L & O1 & R & P).
    destruct st as [|f st]; cbn [length] in C, Hf.
    - rewrite C. cbn [Z.of_nat Z.eqb map]. exists s. now rewrite app_nil_r.
    - replace (fcnt s =? 0) with false by lia. replace ((fcnt s - 1 <? 0) || (32 <=? fcnt s - 1)) with false by lia.
      inversion A as [|f' st' A' Ef]; subst f' st'. replace (fcnt s - 1) with (Z.of_nat (length st)) by lia. rewrite Ef, B. cbn [perform].
      destruct (IH (mkax (functions s) (Z.of_nat (length st)) (piter s) (hist s ++ [ECall f])) st) as (s' & E & H); [|lia|].
      + split; [exact A'|]. split; [reflexivity|]. split; [cbn [fcnt]; lia|]. cbn [hist piter]. split.
        * inversion O1 as [|t f' d st' O2 D]; subst. rewrite <- app_assoc. cbn [app]. apply open_app; [exact O2|]. constructor; [exact D|constructor].
        * split; [now apply room_call|]. intros X. apply P in X. discriminate.
      + exists s'. split; [exact E|]. rewrite H. cbn [hist map]. now rewrite <- app_assoc. }
  destruct (perform_ok main ax0 [] inv0) as (s & st & E & V & _). pose proof V as (A & C & L & O1 & R & P).
  assert (RUN : run beh 33 main = Fin (hist s ++ map ECall st)).
  { unfold run. rewrite E. destruct (piter s) eqn:Ep.
    - destruct (IT 33%nat s st V ltac:(lia)) as (s' & -> & ->). reflexivity.
    - rewrite (P eq_refl). cbn [map]. now rewrite app_nil_r. }
  exists (hist s), st. split; [exact RUN|]. split; [|split].
  - apply (NC main ax0 s E). intros f [].
  - exact (proj1 (proj2 (C61_order beh main 33) _ RUN)).
  - symmetry. now apply pending_open.
Qed.

(** A program that registers 1 and 2; function 2 registers 3. *)
Example C61_case : run (fun _ f => if f =? 2 then Try 3 (fun _ => Done) else Done) 10 (Try 1 (fun _ => Try 2 (fun _ => Done))) =
  Fin [EReg 1; EReg 2; ECall 2; EReg 3; ECall 3; ECall 1].
Proof. reflexivity. Qed.

(** The 33rd registration is refused. *)
Example C61_full : exists t, run (fun _ _ => Done) 33 (Nat.iter 33 (fun a => Try 5 (fun _ => a)) Done) = Fin (repeat (EReg 5) 32 ++ ERef 5 :: t).
Proof. eexists. vm_compute. reflexivity. Qed.

Print Assumptions C61_order.
Print Assumptions C61_all_called.
