(** GenPrep computes the prepared form of every expression. *)
From Verif Require Import Base BaseLemmas X86 ExprSpec CgModel CgTree CgFuse MipsModel MipsSpec MipsCode.
Ltac Zify.zify_post_hook ::= idtac.

(** With [c], also when nothing follows. *)
Definition prepc (c : bool) (ts ps : list mtok) : Prop :=
  forall pre post fuel, (c = true \/ post <> []) -> (2 * length ts <= fuel)%nat ->
  gen_prep fuel (pre ++ ts ++ post) (zlen pre + zlen ts - 1) = Some (pre ++ ps ++ post, zlen pre - 1).
Notation prepped := (prepc false).
Lemma prepc_false c ts ps : prepc c ts ps -> prepped ts ps.
Proof. intros H pre post fuel [Hp|Hp]; [discriminate|]. apply H. now right. Qed.

Ltac nn := repeat match goal with |- context [@zlen ?T ?l] => is_var l;
  lazymatch goal with H : 0 <= zlen l |- _ => fail | _ => pose proof (@zlen_nonneg T l) end end.
Ltac gz := eapply zget_at; [reflexivity|unfold stack in *; zl; try lia].
Ltac las_in H := repeat (rewrite <- app_assoc in H || (progress cbn [app] in H)).

Lemma prep_S fuel s idx t s' t' :
  zget s idx = Some t -> prep_udiv s t (idx - 1) = Some (s', t') ->
  gen_prep (S fuel) s idx =
  let orr := idx - 1 in
  match prep_kind t' with
  | PLeaf =>
      match t' with
      | MT (TNumU n) => let? s := zset s' idx (MT (TNum n)) in Some (s, orr)
      | _ => Some (s', orr)
      end
  | POne => gen_prep fuel s' orr
  | PTwo => let? (s, ol) := gen_prep fuel s' orr in gen_prep fuel s ol
  | PAssign =>
      let? s := prep_assign0 s' t' orr in
      let? (s, ol) := gen_prep fuel s orr in
      let? (s, i) := gen_prep fuel s ol in
      let? s := prep_rev s ol orr in
      Some (s, i)
  | PComm t =>
      let? (s, ol) := gen_prep fuel s' orr in
      let? (s, i) := gen_prep fuel s ol in
      let? s := prep_comm s t ol orr in
      Some (s, i)
  | PCall => prep_args fuel s' orr
  | PBad => None
  end.
Proof. intros H1 H2. cbn [gen_prep]. rewrite H1. cbn [obind]. rewrite H2. reflexivity. Qed.

Lemma udiv_none s t orr : udiv_kind t = None -> prep_udiv s t orr = Some (s, t).
Proof. intros H. unfold prep_udiv. now rewrite H. Qed.

Lemma udiv_simple t : match prep_kind t with PLeaf | POne | PCall => True | _ => False end -> udiv_kind t = None.
Proof. destruct t as [[]| | | |]; try reflexivity; destruct a; cbn; intros H; try contradiction; reflexivity. Qed.

(** Leaves. *)
Lemma prepped_leaf c t : prep_kind t = PLeaf -> prepc c [t] [match t with MT (TNumU n) => MT (TNum n) | t => t end].
Proof.
  intros Hk pre post fuel Hp Hf. destruct fuel; [cbn in Hf; lia|]. change (zlen [t]) with 1.
  replace (zlen pre + 1 - 1) with (zlen pre) by lia.
  assert (G : zget (pre ++ [t] ++ post) (zlen pre) = Some t) by gz.
  rewrite (prep_S _ _ _ _ _ _ G (udiv_none _ t _ (udiv_simple t ltac:(rewrite Hk; exact Logic.I)))).
  cbv zeta. rewrite Hk. destruct t as [[]| | | |]; try discriminate Hk; try reflexivity.
  rewrite (zset_at _ pre (MT (TNumU n)) post) by reflexivity. reflexivity.
Qed.

Lemma prepped_one c a a' t : prepped a a' -> prep_kind t = POne -> prepc c (a ++ [t]) (a' ++ [t]).
Proof.
  intros Ha Hk pre post fuel Hp Hf. rewrite app_length in Hf. cbn [length] in Hf.
  destruct fuel; [lia|]. zl.
  assert (G : zget (pre ++ (a ++ [t]) ++ post) (zlen pre + (zlen a + (1 + 0)) - 1) = Some t)
    by (apply zget_at with (a := pre ++ a) (b := post); [now las|zl; lia]).
  rewrite (prep_S _ _ _ _ _ _ G (udiv_none _ t _ (udiv_simple t ltac:(rewrite Hk; exact Logic.I)))).
  cbv zeta. rewrite Hk.
  replace (pre ++ (a ++ [t]) ++ post) with (pre ++ a ++ t :: post) by now las.
  replace (zlen pre + (zlen a + (1 + 0)) - 1 - 1) with (zlen pre + zlen a - 1) by lia.
  rewrite Ha by ((right; discriminate) || lia). now las.
Qed.

(** Both operands of a binary operator. *)
Lemma two_operands fuel a a' b b' pre post :
  prepped a a' -> prepped b b' -> post <> [] -> (2 * length a + 2 * length b <= fuel)%nat -> b <> [] -> b' <> [] ->
  (let? (s, ol) := gen_prep fuel (pre ++ a ++ b ++ post) (zlen pre + zlen a + zlen b - 1) in
   let? (s, i) := gen_prep fuel s ol in Some (s, ol, i)) =
  Some (pre ++ a' ++ b' ++ post, zlen pre + zlen a - 1, zlen pre - 1).
Proof.
  intros Ha Hb Hp Hf Hn Hn'.
  pose proof (Hb (pre ++ a) post fuel (or_intror Hp) ltac:(lia)) as Eb. rewrite zlen_app, <- !app_assoc in Eb. rewrite Eb. cbn [obind].
  rewrite Ha; [reflexivity|right; destruct b'; [contradiction|discriminate]|lia].
Qed.

Definition lastnum (x : mtok) : bool := match num_of x with Some _ => true | None => false end.
(** The effect of the first switch on the last token of the right operand and the operator. *)
Definition udiv_res (t x : mtok) : mtok * mtok :=
  match udiv_kind t, num_of x with
  | Some (md, mk), Some n =>
      let m := tru n in
      if pow2 m then (mk (if md then BAnd else BUShr), renum x (if md then m - 1 else Z.log2 m)) else (t, x)
  | _, _ => (t, x)
  end.
Lemma udiv_ok u x t post t' x' :
  udiv_res t x = (t', x') ->
  prep_udiv (u ++ x :: t :: post) t (zlen u) = Some (u ++ x' :: t' :: post, t').
Proof.
  unfold udiv_res, prep_udiv. intros H. destruct (udiv_kind t) as [[md mk]|]; [|injection H as <- <-; reflexivity].
  erewrite zget_at by reflexivity. cbn [obind]. destruct (num_of x) as [n|]; [|injection H as <- <-; reflexivity].
  cbv zeta in *. destruct (pow2 (tru n)); [|injection H as <- <-; reflexivity]. injection H as <- <-.
  erewrite zset_at by reflexivity. cbn [obind].
  rewrite (zset_at _ (u ++ [renum x (if md then tru n - 1 else Z.log2 (tru n))]) t post) by (now las || (zl; lia)).
  cbn [obind]. now las.
Qed.

Lemma bin_start pre a b0 x t post t' x' :
  udiv_res t x = (t', x') -> let s := pre ++ (a ++ (b0 ++ [x]) ++ [t]) ++ post in
  let idx := zlen pre + zlen (a ++ (b0 ++ [x]) ++ [t]) - 1 in
  zget s idx = Some t /\ prep_udiv s t (idx - 1) = Some (pre ++ a ++ (b0 ++ [x']) ++ t' :: post, t') /\
  idx - 1 = zlen pre + zlen a + zlen (b0 ++ [x']) - 1.
Proof.
  intros Hu s idx. subst s idx. split; [|split].
  - apply zget_at with (a := pre ++ a ++ b0 ++ [x]) (b := post); [now las|zl; lia].
  - replace (pre ++ (a ++ (b0 ++ [x]) ++ [t]) ++ post) with ((pre ++ a ++ b0) ++ x :: t :: post) by now las.
    replace (zlen pre + zlen (a ++ (b0 ++ [x]) ++ [t]) - 1 - 1) with (zlen (pre ++ a ++ b0)) by (zl; lia).
    rewrite (udiv_ok _ _ _ _ _ _ Hu). now las.
  - zl. lia.
Qed.

Lemma prepped_bin c a a' b0 x b' t t' x' :
  udiv_res t x = (t', x') -> prepped a a' -> prepped (b0 ++ [x']) b' -> b' <> [] -> prep_kind t' = PTwo ->
  prepc c (a ++ (b0 ++ [x]) ++ [t]) (a' ++ b' ++ [t']).
Proof.
  intros Hu Ha Hb Hn Hk pre post fuel Hp Hf. rewrite !app_length in Hf. cbn [length] in Hf.
  destruct fuel; [lia|]. destruct (bin_start pre a b0 x t post t' x' Hu) as (G1 & G2 & G3).
  rewrite (prep_S _ _ _ _ _ _ G1 G2). cbv zeta. rewrite Hk, G3.
  pose proof (two_operands fuel a a' (b0 ++ [x']) b' pre (t' :: post) Ha Hb ltac:(discriminate)
    ltac:(rewrite app_length; cbn [length]; lia) ltac:(destruct b0; discriminate) Hn) as E.
  apply obind_Some in E as ([s ol] & E1 & E2). rewrite E1. cbn [obind] in *.
  apply obind_Some in E2 as ([s2 i] & E2 & E3). rewrite E2. apply some_inj in E3. injection E3 as -> _ ->. now las.
Qed.

(** *** Commutative operators and comparisons *)
Lemma rotate_ok (a b c : list mtok) x y :
  rotate (a ++ (x :: b) ++ c) (zlen a) (zlen a + zlen b) y = Some (a ++ b ++ y :: c).
Proof.
  unfold rotate. pose proof (zlen_nonneg a). pose proof (zlen_nonneg b). pose proof (zlen_nonneg c). replace (_ && _ && _) with true by (symmetry; rewrite !andb_true_iff; repeat split; zl; lia).
  f_equal. replace (Z.to_nat (zlen a)) with (length a) by (unfold zlen; lia).
  replace (Z.to_nat (zlen a + zlen b - zlen a)) with (length b) by (unfold zlen; lia).
  replace (Z.to_nat (zlen a + 1)) with (length (a ++ [x])) by (rewrite app_length; cbn; unfold zlen; lia).
  replace (Z.to_nat (zlen a + zlen b + 1)) with (length (a ++ x :: b)) by (rewrite app_length; cbn; unfold zlen; lia).
  replace (skipn (length (a ++ [x])) (a ++ (x :: b) ++ c)) with (b ++ c).
  2:{ replace (a ++ (x :: b) ++ c) with ((a ++ [x]) ++ b ++ c) by now las. now rewrite skipn_app, skipn_all, Nat.sub_diag. }
  replace (skipn (length (a ++ x :: b)) (a ++ (x :: b) ++ c)) with c.
  2:{ rewrite (app_assoc a). now rewrite skipn_app, skipn_all, Nat.sub_diag. }
  rewrite firstn_app, firstn_all, Nat.sub_diag. cbn [firstn]. rewrite app_nil_r.
  rewrite firstn_app, firstn_all, Nat.sub_diag. cbn [firstn]. now rewrite app_nil_r.
Qed.

Definition isnum (x : mtok) : bool := match x with MT (TNum _) => true | _ => false end.
Definition onum (x : mtok) : option Z := match x with MT (TNum k) => Some k | _ => None end.
Definition sole (a : list mtok) : option Z := match a with [x] => onum x | _ => None end.
Definition comm_res (a b : list mtok) (t : tok) (u : list mtok) (x : mtok) : list mtok :=
  match onum x with
  | Some k => let '(k', t') := special_const t k in a ++ u ++ [MT (TNum k'); MT t']
  | None =>
      match sole a with
      | Some k => let '(k', t') := special_const (flip t) k in b ++ [MT (TNum k'); MT t']
      | None => a ++ b ++ [MT t]
      end
  end.
Lemma onum_no x : isnum x = false -> onum x = None.
Proof. destruct x as [[]| | | |]; try discriminate; reflexivity. Qed.
Lemma match_no {A} x (f : Z -> A) d : isnum x = false -> match x with MT (TNum k) => f k | _ => d end = d.
Proof. destruct x as [[]| | | |]; try discriminate; reflexivity. Qed.
Lemma isnum_inv x : isnum x = true -> exists k, x = MT (TNum k).
Proof. destruct x as [[]| | | |]; try discriminate. eauto. Qed.

Lemma comm_ok pre a b u x v y t t0 post :
  b = u ++ [x] -> a = v ++ [y] -> (isnum y = true -> v = []) ->
  prep_comm (pre ++ a ++ b ++ t0 :: post) t (zlen pre + zlen a - 1) (zlen pre + zlen a + zlen b - 1) =
  Some (pre ++ comm_res a b t u x ++ post).
Proof.
  intros Eb Ea Hy. unfold prep_comm.
  assert (G1 : zget (pre ++ a ++ b ++ t0 :: post) (zlen pre + zlen a + zlen b - 1) = Some x).
  { subst b. apply zget_at with (a := pre ++ a ++ u) (b := t0 :: post); [now las|zl; lia]. }
  assert (G2 : zget (pre ++ a ++ b ++ t0 :: post) (zlen pre + zlen a - 1) = Some y).
  { subst a. apply zget_at with (a := pre ++ v) (b := b ++ t0 :: post); [now las|zl; lia]. }
  rewrite G1, G2. cbn [obind].
  assert (Fin : forall k tt q z, forall s, s = pre ++ q ++ MT (TNum k) :: z :: post ->
     zlen pre + zlen a + zlen b - 1 = zlen pre + zlen q ->
     (let? r := zget s (zlen pre + zlen a + zlen b - 1) in
      match r with
      | MT (TNum n) =>
          let '(n', t') := special_const tt n in
          let? s := zset s (zlen pre + zlen a + zlen b - 1) (MT (TNum n')) in
          zset s (zlen pre + zlen a + zlen b - 1 + 1) (MT t')
      | _ => zset s (zlen pre + zlen a + zlen b - 1 + 1) (MT tt)
      end) = let '(n', t') := special_const tt k in Some (pre ++ (q ++ [MT (TNum n'); MT t']) ++ post)).
  { intros k tt q z s -> Hi. rewrite Hi.
    erewrite zget_at with (a := pre ++ q) (x := MT (TNum k)) by (now las || (zl; lia)). cbn [obind].
    destruct (special_const tt k) as [n' t'].
    rewrite (zset_at _ (pre ++ q) (MT (TNum k)) (z :: post)) by (now las || (zl; lia)). cbn [obind].
    rewrite (zset_at _ (pre ++ q ++ [MT (TNum n')]) z post) by (now las || (zl; lia)). now las. }
  assert (Oth : (let? r := zget (pre ++ a ++ b ++ t0 :: post) (zlen pre + zlen a + zlen b - 1) in
      match r with
      | MT (TNum n) =>
          let '(n', t') := special_const t n in
          let? s := zset (pre ++ a ++ b ++ t0 :: post) (zlen pre + zlen a + zlen b - 1) (MT (TNum n')) in
          zset s (zlen pre + zlen a + zlen b - 1 + 1) (MT t')
      | _ => zset (pre ++ a ++ b ++ t0 :: post) (zlen pre + zlen a + zlen b - 1 + 1) (MT t)
      end) = match x with
             | MT (TNum k) => let '(n', t') := special_const t k in Some (pre ++ (a ++ u ++ [MT (TNum n'); MT t']) ++ post)
             | _ => Some (pre ++ (a ++ b ++ [MT t]) ++ post)
             end).
  { destruct (isnum x) eqn:Ex.
    - apply isnum_inv in Ex as [k ->]. rewrite (Fin k t (a ++ u) t0) by (subst b; (now las) || (zl; lia)).
      destruct (special_const t k). now las.
    - rewrite G1. cbn [obind]. rewrite (zset_at _ (pre ++ a ++ b) t0 post) by (now las || (zl; lia)).
      rewrite !match_no by assumption. now las. }
  destruct (isnum x) eqn:Ex.
  { apply isnum_inv in Ex as [k ->]. cbn [obind]. etransitivity; [exact Oth|]. unfold comm_res. cbn [onum]. destruct (special_const t k); reflexivity. }
  destruct (isnum y) eqn:Ey.
  2:{ etransitivity; [apply (f_equal (fun z => obind z _)); rewrite match_no by assumption; apply match_no; assumption|].
      cbn [obind]. etransitivity; [exact Oth|]. rewrite match_no by assumption. unfold comm_res. rewrite (onum_no x) by assumption.
      replace (sole a) with (@None Z); [reflexivity|]. subst a. destruct v as [|v1 [|]]; cbn [app sole]; try reflexivity.
      symmetry. now apply onum_no. }
  specialize (Hy eq_refl). apply isnum_inv in Ey as [k ->]. subst v a. cbn [app] in *.
  assert (Er : rotate (pre ++ MT (TNum k) :: b ++ t0 :: post) (zlen pre + zlen [MT (TNum k)] - 1)
     (zlen pre + zlen [MT (TNum k)] + zlen b - 1) (MT (TNum k)) = Some (pre ++ b ++ MT (TNum k) :: t0 :: post)).
  { change (zlen [MT (TNum k)]) with 1. replace (zlen pre + 1 - 1) with (zlen pre) by lia.
    replace (zlen pre + 1 + zlen b - 1) with (zlen pre + zlen b) by lia. apply (rotate_ok pre b (t0 :: post)). }
  etransitivity.
  { rewrite match_no by assumption. rewrite Er. cbn [obind].
    apply (Fin k (flip t) b t0); (reflexivity || (change (zlen [MT (TNum k)]) with 1; lia)). }
  unfold comm_res. rewrite (onum_no x) by assumption. cbn [sole onum]. destruct (special_const (flip t) k); reflexivity.
Qed.

Lemma prepped_comm c a a' b0 x b' t t' x' tt u x2 v y :
  udiv_res t x = (t', x') -> prepped a a' -> prepped (b0 ++ [x']) b' -> prep_kind t' = PComm tt ->
  b' = u ++ [x2] -> a' = v ++ [y] -> (isnum y = true -> v = []) -> zlen a = zlen a' -> zlen (b0 ++ [x']) = zlen b' ->
  prepc c (a ++ (b0 ++ [x]) ++ [t]) (comm_res a' b' tt u x2).
Proof.
  intros Hu Ha Hb Hk Eb Ea Hy L1 L2 pre post fuel Hp Hf. rewrite !app_length in Hf. cbn [length] in Hf.
  destruct fuel; [lia|]. destruct (bin_start pre a b0 x t post t' x' Hu) as (G1 & G2 & G3).
  rewrite (prep_S _ _ _ _ _ _ G1 G2). cbv zeta. rewrite Hk, G3.
  pose proof (two_operands fuel a a' (b0 ++ [x']) b' pre (t' :: post) Ha Hb ltac:(discriminate)
    ltac:(rewrite app_length; cbn [length]; lia) ltac:(destruct b0; discriminate) ltac:(subst b'; destruct u; discriminate)) as E.
  apply obind_Some in E as ([s ol] & E1 & E2). rewrite E1. cbn [obind] in *.
  apply obind_Some in E2 as ([s2 i] & E2 & E3). rewrite E2. apply some_inj in E3. injection E3 as -> -> ->. cbn [obind].
  rewrite L1, L2. rewrite (comm_ok pre a' b' u x2 v y tt t' post Eb Ea Hy). cbn [obind]. reflexivity.
Qed.

(** *** Assignments *)
Definition asg_res (a b : list mtok) (t : mtok) : list mtok :=
  match a with
  | [MT (TIdent n)] => b ++ [RevIdent n; t]
  | [MT (TLocal n)] => b ++ [RevLocal n; t]
  | _ => a ++ b ++ [t]
  end.
Definition isvar (x : mtok) : bool := match x with MT (TIdent _) | MT (TLocal _) => true | _ => false end.
Lemma rev_ok pre a b v y t post : a = v ++ [y] -> (isvar y = true -> v = []) ->
  prep_rev (pre ++ a ++ b ++ t :: post) (zlen pre + zlen a - 1) (zlen pre + zlen a + zlen b - 1) =
  Some (pre ++ asg_res a b t ++ post).
Proof.
  intros Ea Hy. unfold prep_rev.
  assert (G2 : zget (pre ++ a ++ b ++ t :: post) (zlen pre + zlen a - 1) = Some y).
  { subst a. apply zget_at with (a := pre ++ v) (b := b ++ t :: post); [now las|zl; lia]. }
  rewrite G2. cbn [obind]. destruct (isvar y) eqn:Ey.
  - specialize (Hy eq_refl). subst v a. cbn [app] in *. change (zlen [y]) with 1.
    replace (zlen pre + 1 - 1) with (zlen pre) by lia. replace (zlen pre + 1 + zlen b - 1) with (zlen pre + zlen b) by lia.
    destruct y as [[]| | | |]; try discriminate Ey;
      (etransitivity; [apply (rotate_ok pre b (t :: post))|]); cbn [asg_res]; now las.
  - assert (Ec : asg_res a b t = a ++ b ++ [t]).
    { subst a. destruct v as [|v1 v]; cbn [app asg_res].
      - destruct y as [[]| | | |]; try discriminate Ey; reflexivity.
      - destruct v; cbn [app]; destruct v1 as [[]| | | |]; reflexivity. }
    rewrite Ec. destruct y as [[]| | | |]; try discriminate Ey; now las.
Qed.

(** With an arbitrary tail: [x = 0] at the very end of the stack is treated specially. *)
Definition asg0 (t x : mtok) (post : list mtok) : mtok * mtok :=
  match t, num_of x, post with
  | MT (TAssign v), Some n, [] => if tru n =? 0 then (Assign0 v, Num0) else (t, x)
  | _, _, _ => (t, x)
  end.
Lemma assign0_ok u x t post t' x' : asg0 t x post = (t', x') ->
  prep_assign0 (u ++ x :: t :: post) t (zlen u) = Some (u ++ x' :: t' :: post).
Proof.
  unfold asg0, prep_assign0. intros H.
  destruct t as [[]| | | |]; try (injection H as <- <-; reflexivity).
  erewrite zget_at by reflexivity. cbn [obind]. destruct (num_of x) as [n|]; [|injection H as <- <-; reflexivity].
  zl. destruct post as [|p post].
  - change (zlen (@nil mtok)) with 0. replace (zlen u + 1 =? zlen u + (1 + (1 + 0)) - 1) with true by (symmetry; lia).
    cbn [andb]. destruct (tru n =? 0); [|injection H as <- <-; reflexivity]. injection H as <- <-.
    erewrite zset_at by reflexivity. cbn [obind].
    rewrite (zset_at _ (u ++ [Num0]) (MT (TAssign v)) []) by (now las || (zl; lia)). now las.
  - injection H as <- <-. replace (zlen u + 1 =? _) with false by (symmetry; zl; nn; lia). reflexivity.
Qed.
Lemma prep_asg_gen pre post fuel a a' b0 x b' t t' x' t2 x2 v y :
  udiv_res t x = (t', x') -> asg0 t' x' post = (t2, x2) -> prep_kind t' = PAssign ->
  prepped a a' -> prepped (b0 ++ [x2]) b' -> b' <> [] -> a' = v ++ [y] -> (isvar y = true -> v = []) ->
  zlen a = zlen a' -> zlen (b0 ++ [x2]) = zlen b' ->
  (2 * length (a ++ (b0 ++ [x]) ++ [t]) <= fuel)%nat ->
  gen_prep fuel (pre ++ (a ++ (b0 ++ [x]) ++ [t]) ++ post) (zlen pre + zlen (a ++ (b0 ++ [x]) ++ [t]) - 1) =
  Some (pre ++ asg_res a' b' t2 ++ post, zlen pre - 1).
Proof.
  intros Hu H0 Hk Ha Hb Hn Ea Hy L1 L2 Hf. rewrite !app_length in Hf. cbn [length] in Hf.
  destruct fuel; [lia|]. destruct (bin_start pre a b0 x t post t' x' Hu) as (G1 & G2 & G3).
  rewrite (prep_S _ _ _ _ _ _ G1 G2). cbv zeta. rewrite Hk, G3.
  replace (pre ++ a ++ (b0 ++ [x']) ++ t' :: post) with ((pre ++ a ++ b0) ++ x' :: t' :: post) by now las.
  replace (zlen pre + zlen a + zlen (b0 ++ [x']) - 1) with (zlen (pre ++ a ++ b0)) by (zl; lia).
  rewrite (assign0_ok _ _ _ _ _ _ H0). cbn [obind].
  replace ((pre ++ a ++ b0) ++ x2 :: t2 :: post) with (pre ++ a ++ (b0 ++ [x2]) ++ t2 :: post) by now las.
  replace (zlen (pre ++ a ++ b0)) with (zlen pre + zlen a + zlen (b0 ++ [x2]) - 1) by (zl; lia).
  pose proof (two_operands fuel a a' (b0 ++ [x2]) b' pre (t2 :: post) Ha Hb ltac:(discriminate)
    ltac:(rewrite app_length; cbn [length]; lia) ltac:(destruct b0; discriminate) Hn) as E.
  apply obind_Some in E as ([s ol] & E1 & E2). rewrite E1. cbn [obind] in *.
  apply obind_Some in E2 as ([s2 i] & E2 & E3). rewrite E2. apply some_inj in E3. injection E3 as -> -> ->. cbn [obind].
  rewrite L1, L2. rewrite (rev_ok pre a' b' v y t2 post Ea Hy). reflexivity.
Qed.

(** *** Ends of stacks *)
Notation T := (fun e => map MT (rpn 4 e)).
Definition onum_ex (e : ex) : option Z := match e with ENum _ k => Some k | _ => None end.

Lemma bconst_eq t l r : bconst t l r =
  match onum_ex r with
  | Some k => let '(k', t') := rconst t k in Some (false, k', t')
  | None =>
      match onum_ex l with
      | Some k => if iscomm t then let '(k', t') := special_const (flip t) k in Some (true, k', t') else None
      | None => None
      end
  end.
Proof. destruct r; try reflexivity; destruct l; reflexivity. Qed.

Definition isleaf (x : mtok) : bool :=
  match x with MT (TNum _) | MT (TNumU _) | MT (TIdent _) | MT (TLocal _) => true | _ => false end.
Lemma special_binop t k : match t with TArith _ _ | TCmp _ _ => True | _ => False end ->
  isleaf (MT (snd (special_const t k))) = false.
Proof.
  destruct t; try contradiction; intros _; unfold special_const; [destruct a|destruct c];
    repeat match goal with |- context [if ?b then _ else _] => destruct b end; reflexivity.
Qed.
Lemma flip_binop t : match t with TArith _ _ | TCmp _ _ => True | _ => False end ->
  match flip t with TArith _ _ | TCmp _ _ => True | _ => False end.
Proof. destruct t; try contradiction; intros _; exact Logic.I. Qed.
Lemma rconst_binop t k : match t with TArith _ _ | TCmp _ _ => True | _ => False end ->
  isleaf (MT (snd (rconst t k))) = false.
Proof.
  intros H. unfold rconst. pose proof (special_binop t k H) as Hs.
  destruct t; try contradiction; [destruct a|]; cbn [iscomm] in *;
    repeat match goal with |- context [if ?b then _ else _] => destruct b end; auto.
Qed.
Lemma bconst_leaf t l r sw k t' : match t with TArith _ _ | TCmp _ _ => True | _ => False end ->
  bconst t l r = Some (sw, k, t') -> isleaf (MT t') = false.
Proof.
  intros H. rewrite bconst_eq. destruct (onum_ex r) as [k0|].
  - pose proof (rconst_binop t k0 H) as Hr. destruct (rconst t k0). intros [= _ _ <-]. exact Hr.
  - destruct (onum_ex l) as [k0|]; [|discriminate]. destruct (iscomm t); [|discriminate].
    pose proof (special_binop (flip t) k0 (flip_binop _ H)) as Hr. destruct (special_const (flip t) k0). intros [= _ _ <-]. exact Hr.
Qed.

Definition isleaf_ex (e : ex) : bool := match e with ENum _ _ | EIdent _ | ELocal _ => true | _ => false end.
Lemma P_end e : wf 4 e -> exists v y, P e = v ++ [MT y] /\ (isleaf_ex e = false -> isleaf (MT y) = false) /\ (isleaf_ex e = true -> v = []).
Proof.
  destruct e; cbn [wf P isleaf_ex]; intros Hw; try contradiction;
    try (eexists [], _; split; [reflexivity|split; [discriminate|reflexivity]]);
    try (eexists _, _; split; [reflexivity|split; [intros _; destruct inc; reflexivity|discriminate]]).
  - eexists _, _; split; [reflexivity|split; [reflexivity|discriminate]].
  - eexists (P e ++ [_]), _; split; [now las|split; [intros _; destruct add; reflexivity|discriminate]].
  - eexists _, _; split; [reflexivity|split; [reflexivity|discriminate]].
  - destruct (bconst _ e1 e2) as [[[sw k] t]|] eqn:Eb.
    + eexists (_ ++ [_]), _; split; [rewrite <- app_assoc; reflexivity|split; [intros _; refine (bconst_leaf _ _ _ _ _ _ _ Eb); exact Logic.I|discriminate]].
    + eexists (P e1 ++ P e2), _; split; [now las|split; [reflexivity|discriminate]].
  - destruct (bconst _ e1 e2) as [[[sw k] t]|] eqn:Eb.
    + eexists (_ ++ [_]), _; split; [rewrite <- app_assoc; reflexivity|split; [intros _; refine (bconst_leaf _ _ _ _ _ _ _ Eb); exact Logic.I|discriminate]].
    + eexists (P e1 ++ P e2), _; split; [now las|split; [reflexivity|discriminate]].
  - destruct (pl e1).
    + eexists (P e2 ++ [_]), _; split; [now las|split; [reflexivity|discriminate]].
    + eexists (P e1 ++ P e2), _; split; [now las|split; [reflexivity|discriminate]].
  - cbv zeta. set (pr := match anum _ _ with Some _ => _ | None => _ end). destruct (pl e1).
    + eexists (pr ++ [_]), _; split; [now las|split; [reflexivity|discriminate]].
    + eexists (P e1 ++ pr), _; split; [now las|split; [reflexivity|discriminate]].
  - eexists (P e1 ++ P e2), _; split; [now las|split; [reflexivity|discriminate]].
  - eexists (P e1 ++ _ :: P e2), _; split; [now las|split; [reflexivity|discriminate]].
  - eexists (P e1 ++ _ :: P e2), _; split; [now las|split; [reflexivity|discriminate]].
  - eexists (P e1 ++ _ :: P e3 ++ _ :: _ :: P e2), _; split; [now las|split; [reflexivity|discriminate]].
  - eexists (_ :: P_args args ++ P e), _; split; [fold P_args; now las|split; [reflexivity|discriminate]].
Qed.
Lemma T_end e : wf 4 e -> exists v y, T e = v ++ [y] /\ (onum_ex e = None -> num_of y = None).
Proof.
  intros Hw. destruct (rpn_last 4 e Hw) as (a & b & E & _). exists (map MT a), (MT b). split; [rewrite E, map_app; reflexivity|].
  intros Hn. destruct e; cbn [wf rpn onum_ex] in *; try contradiction; try discriminate;
   repeat (rewrite app_assoc in E || rewrite app_comm_cons in E); try (change [TIdent id] with ([] ++ [TIdent id]) in E);
   try (change [TLocal ofs] with ([] ++ [TLocal ofs]) in E);
   try (apply app_inj_tail in E as [_ <-]; try destruct inc; reflexivity).
  - change [TNum n; if add then TPostAdd sz else TPostSub sz] with ([TNum n] ++ [if add then TPostAdd sz else TPostSub sz]) in E.
    rewrite app_assoc in E. apply app_inj_tail in E as [_ <-]. destruct add; reflexivity.
Qed.

Lemma P_ne e : wf 4 e -> P e <> [].
Proof. intros Hw. destruct (P_end e Hw) as (v & y & -> & _). destruct v; discriminate. Qed.
Lemma P_num e : wf 4 e -> exists v y, P e = v ++ [y] /\ (isnum y = true -> v = []) /\ onum y = onum_ex e /\ sole (P e) = onum_ex e.
Proof.
  intros Hw. destruct (P_end e Hw) as (v & y0 & E & H1 & H2). set (y := MT y0) in *. exists v, y. split; [exact E|].
  destruct (isleaf_ex e) eqn:El.
  - destruct e; try discriminate El; cbn [P] in *; destruct v as [|? [|]]; try discriminate E; injection E as <-; cbn; auto.
  - assert (Hn : isnum y = false) by (specialize (H1 eq_refl); destruct y as [[]| | | |]; try discriminate H1; reflexivity).
    split; [congruence|]. rewrite (onum_no y Hn). split; [destruct e; try discriminate El; reflexivity|].
    rewrite E. destruct v as [|? [|]]; cbn [app sole]; try rewrite (onum_no y Hn); destruct e; try discriminate El; reflexivity.
Qed.
Lemma P_var e : wf 4 e -> exists v y, P e = v ++ [y] /\ (isvar y = true -> v = []) /\
  forall b t, asg_res (P e) b t = match pl e with Some p => b ++ [rev_tok p; t] | None => P e ++ b ++ [t] end.
Proof.
  intros Hw. destruct (P_end e Hw) as (v & y0 & E & H1 & H2). set (y := MT y0) in *. exists v, y. split; [exact E|].
  destruct (isleaf_ex e) eqn:El.
  - destruct e; try discriminate El; cbn [P] in *; destruct v as [|? [|]]; try discriminate E; injection E as <-; cbn; auto.
  - assert (Hn : isvar y = false) by (specialize (H1 eq_refl); destruct y as [[]| | | |]; try discriminate H1; reflexivity).
    split; [congruence|]. intros b t. replace (pl e) with (@None place) by (destruct e; try discriminate El; reflexivity).
    rewrite E. destruct v as [|v1 [|]]; cbn [app asg_res].
    + destruct y as [[]| | | |]; try discriminate Hn; reflexivity.
    + destruct v1 as [[]| | | |]; reflexivity.
    + destruct v1 as [[]| | | |]; reflexivity.
Qed.
Lemma udiv_nonum t x : num_of x = None -> udiv_res t x = (t, x).
Proof. intros H. unfold udiv_res. rewrite H. destruct (udiv_kind t) as [[]|]; reflexivity. Qed.
Lemma udiv_notdiv t x : udiv_kind t = None -> udiv_res t x = (t, x).
Proof. intros H. unfold udiv_res. now rewrite H. Qed.

(** *** All expressions *)
Definition T_args (l : list ex) := map MT (rpn_args 4 l).
Lemma T_args_cons a l : T_args (a :: l) = T_args l ++ T a ++ [MT TArgSep].
Proof. unfold T_args. cbn [rpn_args]. now rewrite !map_app. Qed.
Lemma P_args_cons a l : P_args (a :: l) = P_args l ++ P a ++ [MT TArgSep].
Proof. reflexivity. Qed.
Lemma P_call f args : P (ECall f args) = MT (TLParen (4 * zlen args)) :: P_args args ++ P f ++ [MT (TRParen (4 * zlen args))].
Proof. reflexivity. Qed.
Lemma T_call f args : T (ECall f args) = MT (TLParen (4 * zlen args)) :: T_args args ++ T f ++ [MT (TRParen (4 * zlen args))].
Proof. unfold T_args. cbn [rpn map]. now rewrite !map_app. Qed.

Definition na (e : ex) : bool := match is_assign0 e with None => true | _ => false end.
Definition pok (e : ex) : Prop := wf 4 e -> prepc (na e) (T e) (P e) /\ zlen (P e) = zlen (T e).
Lemma pk e : pok e -> wf 4 e -> prepped (T e) (P e) /\ zlen (P e) = zlen (T e).
Proof. intros H Hw. destruct (H Hw) as [H1 H2]. split; [exact (prepc_false _ _ _ H1)|exact H2]. Qed.

Lemma prep_args_ok args : Forall pok args -> wf_args 4 args ->
  zlen (P_args args) = zlen (T_args args) /\
  forall fuel pre v post, post <> [] -> (2 * length (T_args args) < fuel)%nat ->
  prep_args fuel (pre ++ MT (TLParen v) :: T_args args ++ post)
    (zlen pre + zlen (T_args args) - match args with [] => 0 | _ => 1 end) =
  Some (pre ++ MT (TLParen v) :: P_args args ++ post, zlen pre - 1).
Proof.
  induction args as [|a l IH]; intros Hf Hw.
  - split; [reflexivity|]. intros fuel pre v post Hp Hl. destruct fuel; [lia|]. cbn [prep_args T_args map P_args rpn_args app].
    change (zlen []) with 0. rewrite (zget_at _ pre (MT (TLParen v)) post) by (reflexivity || lia). cbn [obind].
    replace (zlen pre + 0 - 0 - 1) with (zlen pre - 1) by lia. reflexivity.
  - inversion Hf as [|? ? Ha Hl]; subst. destruct Hw as [Hwa Hwl]. destruct (pk a Ha Hwa) as [Pa La].
    destruct (IH Hl Hwl) as [Ll IH']. rewrite T_args_cons, P_args_cons. split; [rewrite !zlen_app; lia|].
    intros fuel pre v post Hp Hlen. rewrite !app_length in Hlen. cbn [length] in Hlen. destruct fuel; [lia|]. cbn [prep_args].
    destruct (T_end a Hwa) as (u & y & Ey & _).
    assert (Hy : forall v, y <> MT (TLParen v)).
    { intros v0 ->. destruct (CgFuse.rpn_last 4 a Hwa) as (a0 & b0 & E0 & _ & Hb). cbv beta in Ey. rewrite E0, map_app in Ey.
      apply app_inj_tail in Ey as [_ Ey]. injection Ey as Ey. now apply Hb in Ey. }
    assert (G : zget (pre ++ MT (TLParen v) :: (T_args l ++ T a ++ [MT TArgSep]) ++ post)
       (zlen pre + zlen (T_args l ++ T a ++ [MT TArgSep]) - 1) = Some y).
    { cbv beta in Ey |- *. rewrite Ey. apply zget_at with (a := pre ++ MT (TLParen v) :: T_args l ++ u) (b := MT TArgSep :: post); [now las|zl; lia]. }
    rewrite G. cbn [obind]. clear G.
    assert (Em : forall {A} (f : Z -> A) d, match y with MT (TLParen v) => f v | _ => d end = d).
    { intros A f d. destruct y as [[]| | | |]; try reflexivity. now elim (Hy v0). }
    rewrite Em. clear Em Hy Ey u y.
    replace (pre ++ MT (TLParen v) :: (T_args l ++ T a ++ [MT TArgSep]) ++ post) with
      ((pre ++ MT (TLParen v) :: T_args l) ++ T a ++ MT TArgSep :: post) by now las.
    replace (zlen pre + zlen (T_args l ++ T a ++ [MT TArgSep]) - 1) with
      (zlen (pre ++ MT (TLParen v) :: T_args l) + zlen (T a) - 1) by (zl; lia).
    rewrite Pa by ((right; discriminate) || lia). cbn [obind].
    assert (G : exists t, zget ((pre ++ MT (TLParen v) :: T_args l) ++ P a ++ MT TArgSep :: post)
       (zlen (pre ++ MT (TLParen v) :: T_args l) - 1) = Some t /\
       match t with MT TArgSep => zlen (pre ++ MT (TLParen v) :: T_args l) - 1 - 1 | _ => zlen (pre ++ MT (TLParen v) :: T_args l) - 1 end =
       zlen pre + zlen (T_args l) - match l with [] => 0 | _ => 1 end).
    { destruct l as [|b l].
      - exists (MT (TLParen v)). split; [|cbn [T_args map rpn_args]; zl; cbn; lia].
        apply zget_at with (a := pre) (b := P a ++ MT TArgSep :: post); [now las|zl; cbn; lia].
      - exists (MT TArgSep). rewrite T_args_cons. split; [|zl; lia].
        apply zget_at with (a := pre ++ MT (TLParen v) :: T_args l ++ T b) (b := P a ++ MT TArgSep :: post); [now las|zl; lia]. }
    destruct G as (t & G1 & G2). rewrite G1. cbn [obind]. rewrite G2.
    replace ((pre ++ MT (TLParen v) :: T_args l) ++ P a ++ MT TArgSep :: post) with
      (pre ++ MT (TLParen v) :: T_args l ++ (P a ++ MT TArgSep :: post)) by now las.
    rewrite IH' by (lia || (pose proof (P_ne a Hwa); destruct (P a); [contradiction|discriminate])). now las.
Qed.

Lemma rconst_comm t k : iscomm t = true -> rconst t k = special_const t k.
Proof. destruct t; try discriminate; [destruct a; try discriminate|]; reflexivity. Qed.
Lemma kind_comm t : match t with TArith _ _ | TCmp _ _ => True | _ => False end ->
  prep_kind (MT t) = if iscomm t then PComm t else PTwo.
Proof. destruct t; try contradiction; [destruct a|]; reflexivity. Qed.
Lemma rconst_special t k : match t with TArith _ _ | TCmp _ _ => True | _ => False end ->
  exists k1 t1 (x1 : bool -> mtok), forall u : bool, let x := MT (if u then TNumU k else TNum k) in
    udiv_res (MT t) x = (MT t1, x1 u) /\ prepped [x1 u] [MT (TNum k1)] /\
    match t1 with TArith _ _ | TCmp _ _ => True | _ => False end /\
    (if iscomm t1 then special_const t1 k1 else (k1, t1)) = rconst t k.
Proof.
  intros Ht. cbv zeta. destruct (udiv_kind (MT t)) as [[md mk]|] eqn:Eu.
  2:{ exists k, t, (fun u : bool => MT (if u then TNumU k else TNum k)). intros u. split; [now apply udiv_notdiv|].
      split; [destruct u; now apply prepped_leaf|]. split; [exact Ht|].
      destruct (iscomm t) eqn:Ec; [now rewrite rconst_comm|].
      destruct t; try contradiction; try discriminate; destruct a; try discriminate; reflexivity. }
  destruct (pow2 (tru k)) eqn:Ep; unfold udiv_res; rewrite Eu.
  - destruct t; try contradiction; try discriminate. destruct a; try discriminate; injection Eu as <- <-; cbn [num_of].
    + exists (Z.log2 (tru k)), (TArith BUShr v), (fun u : bool => MT (if u then TNumU (Z.log2 (tru k)) else TNum (Z.log2 (tru k)))).
      intros u. cbn [rconst iscomm]. rewrite Ep. destruct u; (split; [cbn [num_of renum]; cbv zeta; rewrite Ep; reflexivity|split; [now apply prepped_leaf|split; [exact Logic.I|reflexivity]]]).
    + exists (tru k - 1), (TArith BAnd v), (fun u : bool => MT (if u then TNumU (tru k - 1) else TNum (tru k - 1))).
      intros u. cbn [rconst iscomm]. rewrite Ep. destruct u; (split; [cbn [num_of renum]; cbv zeta; rewrite Ep; reflexivity|split; [now apply prepped_leaf|split; [exact Logic.I|reflexivity]]]).
  - exists k, t, (fun u : bool => MT (if u then TNumU k else TNum k)). intros u. split; [destruct u; cbn [num_of]; cbv zeta; rewrite Ep; reflexivity|].
    split; [destruct u; now apply prepped_leaf|]. split; [exact Ht|].
    destruct t; try contradiction; try discriminate; destruct a; try discriminate; cbn [rconst iscomm]; rewrite Ep; reflexivity.
Qed.

Lemma pok_bin t l r : match t with TArith _ _ | TCmp _ _ => True | _ => False end ->
  wf 4 l -> wf 4 r -> prepped (T l) (P l) /\ zlen (P l) = zlen (T l) -> prepped (T r) (P r) /\ zlen (P r) = zlen (T r) ->
  let q := match bconst t l r with
      | Some (sw, k, t') => (if sw then P r else P l) ++ [MT (TNum k); MT t']
      | None => P l ++ P r ++ [MT t]
      end in
  prepc true (T l ++ T r ++ [MT t]) q /\ zlen q = zlen (T l ++ T r ++ [MT t]).
Proof.
  intros Ht Hl Hr [Pl Ll] [Pr Lr] q. subst q. rewrite bconst_eq.
  destruct (P_num l Hl) as (v & y & Ey & Hy & On & So).
  destruct (onum_ex r) as [k|] eqn:Er.
  - destruct r; try discriminate Er. injection Er as ->. cbn [P rpn map] in *.
    destruct (rconst_special t k Ht) as (k1 & t1 & x1 & H). specialize (H uns). cbv zeta in H. destruct H as (H1 & H2 & H3 & H4).
    destruct (rconst t k) as [k' t'] eqn:Ec. cbn beta iota. split; [|zl; lia].
    pose proof (kind_comm t1 H3) as Hk. destruct (iscomm t1) eqn:Ei.
    + replace (P l ++ [MT (TNum k'); MT t']) with (comm_res (P l) [MT (TNum k1)] t1 [] (MT (TNum k1)))
        by (unfold comm_res; cbn [onum]; rewrite H4; reflexivity).
      apply (prepped_comm _ (T l) (P l) [] _ [MT (TNum k1)] (MT t) (MT t1) (x1 uns) t1 [] (MT (TNum k1)) v y); auto.
    + injection H4 as -> ->. apply (prepped_bin _ (T l) (P l) [] _ [MT (TNum k')] (MT t) (MT t') (x1 uns)); auto; discriminate.
  - destruct (T_end r Hr) as (b0 & x & Ex & Hx). specialize (Hx Er). pose proof (udiv_nonum (MT t) x Hx) as Hu.
    destruct (P_num r Hr) as (vr & yr & Eyr & Hyr & Onr & Sor). rewrite Er in *.
    pose proof (kind_comm t Ht) as Hk. destruct (iscomm t) eqn:Ei.
    + assert (Hq : prepc true (T l ++ T r ++ [MT t]) (comm_res (P l) (P r) t vr yr)).
      { rewrite Ex in *. eapply prepped_comm; eauto. }
      unfold comm_res in Hq. rewrite Onr, So in Hq. destruct (onum_ex l) as [k|].
      * destruct (special_const (flip t) k) as [k' t']. split; [exact Hq|].
        assert (zlen (P l) = 1). { rewrite Ey in So |- *. destruct v as [|? [|]]; try discriminate So; reflexivity. } zl. lia.
      * split; [exact Hq|zl; lia].
    + destruct (onum_ex l); (split; [|zl; lia]); rewrite Ex in *; eapply prepped_bin; eauto; rewrite Eyr; destruct vr; discriminate.
Qed.

(** The assigned constant, possibly zero at the very end. *)
Lemma aop_ok o v r : wf 4 r -> prepped (T r) (P r) /\ zlen (P r) = zlen (T r) ->
  let pr := match anum o r with Some k => [MT (TNum k)] | None => P r end in
  exists b0 x x1, T r = b0 ++ [x] /\ udiv_res (MT (TAssignOp o v)) x = (MT (TAssignOp (aop o r) v), x1) /\
    prepped (b0 ++ [x1]) pr /\ zlen pr = zlen (T r).
Proof.
  intros Hr [Pr Lr] pr. subst pr. destruct (onum_ex r) as [k|] eqn:Er.
  - destruct r; try discriminate Er. injection Er as ->. cbn [rpn map anum P] in *.
    exists [], (MT (if uns then TNumU k else TNum k)). unfold aop, udiv_res, rconst. cbn [udiv_kind iscomm].
    assert (Hp : forall n, prepped [MT (if uns then TNumU n else TNum n)] [MT (TNum n)]) by (intros; destruct uns; now apply prepped_leaf).
    destruct o; try (eexists; split; [reflexivity|split; [reflexivity|split; [apply Hp|reflexivity]]]);
      (destruct uns; destruct (pow2 (tru k)) eqn:Ep;
       (eexists; split; [reflexivity|split; [cbn [num_of]; cbv zeta; rewrite Ep; reflexivity|split; [apply Hp|reflexivity]]])).
  - destruct (T_end r Hr) as (b0 & x & Ex & Hx). specialize (Hx Er). exists b0, x, x. split; [exact Ex|].
    rewrite udiv_nonum by exact Hx. replace (aop o r) with o by (destruct r; try discriminate Er; reflexivity).
    replace (anum o r) with (@None Z) by (destruct r; try discriminate Er; reflexivity). rewrite <- Ex. auto.
Qed.

Ltac mm := cbn [rpn map]; repeat (rewrite map_app || (progress cbn [map])).
Lemma prep_ok e : pok e.
Proof.
  induction e using ex_ind2; intros Hw; cbn [wf] in Hw; try contradiction.
  - split; [destruct u; now apply prepped_leaf|reflexivity].
  - split; [now apply prepped_leaf|reflexivity].
  - split; [now apply prepped_leaf|reflexivity].
  - destruct Hw as [_ Hw]. destruct (pk e IHe Hw) as [H1 H2]. mm. cbn [P]. split; [now apply prepped_one|zl; lia].
  - destruct Hw as [_ Hw]. destruct (pk e IHe Hw) as [H1 H2]. mm. cbn [P]. split; [apply prepped_one; auto; now destruct i|zl; lia].
  - destruct Hw as [_ Hw]. destruct (pk e IHe Hw) as [H1 H2]. mm. cbn [P]. split; [apply prepped_one; auto; now destruct i|zl; lia].
  - destruct Hw as [_ Hw]. destruct (pk e IHe Hw) as [H1 H2]. mm. cbn [P]. split; [|zl; lia].
    change [MT (TNum n); MT (if i then TPostAdd sz else TPostSub sz)] with (([] ++ [MT (TNum n)]) ++ [MT (if i then TPostAdd sz else TPostSub sz)]).
    apply (prepped_bin _ (T e) (P e) [] (MT (TNum n)) [MT (TNum n)] (MT (if i then TPostAdd sz else TPostSub sz)) _ (MT (TNum n)));
      [apply udiv_notdiv; now destruct i|assumption|now apply prepped_leaf|discriminate|now destruct i].
  - destruct Hw as [_ Hw]. destruct (pk e IHe Hw) as [H1 H2]. mm. cbn [P]. split; [now apply prepped_one|zl; lia].
  - destruct Hw as [Hw1 Hw2]. mm. cbn [P]. apply (pok_bin (TArith (tok_arith o) 0) e1 e2 Logic.I); auto using pk.
  - destruct Hw as [Hw1 Hw2]. mm. cbn [P]. apply (pok_bin (TCmp (tok_cmp o) 0) e1 e2 Logic.I); auto using pk.
  - destruct Hw as (_ & Hw1 & Hw2). destruct (pk e1 IHe1 Hw1) as [H1 L1], (pk e2 IHe2 Hw2) as [H2 L2]. mm. cbn [P].
    destruct (P_var e1 Hw1) as (v & y & Ey & Hy & Ha). rewrite <- Ha. destruct (T_end e2 Hw2) as (b0 & x & Ex & _).
    split.
    + intros pre post fuel Hp Hf. cbv beta in *. rewrite Ex in *.
      apply (prep_asg_gen pre post fuel _ (P e1) b0 x (P e2) (MT (TAssign sz)) (MT (TAssign sz)) x (MT (TAssign sz)) x v y); auto.
      * unfold asg0. destruct (num_of x) as [n0|] eqn:En; destruct post; try reflexivity. destruct Hp as [Hp|[]]; [|reflexivity].
        unfold na in Hp. cbn [is_assign0] in Hp.
        destruct (onum_ex e2) as [k|] eqn:Eo.
        -- destruct e2; try discriminate Eo. cbn [rpn map] in Ex. destruct b0 as [|? [|]]; try discriminate Ex. injection Ex as <-.
           assert (n0 = n) as -> by (destruct uns; cbn in En; congruence). destruct (tru n =? 0); [discriminate|reflexivity].
        -- destruct (T_end e2 Hw2) as (b1 & x1 & Ex1 & Hx1). cbv beta in Ex1. rewrite Ex in Ex1. apply app_inj_tail in Ex1 as [_ <-]. rewrite Hx1 in En by assumption. discriminate.
      * now apply P_ne.
    + rewrite Ha. destruct (pl e1) eqn:Ep; [assert (zlen (map MT (rpn 4 e1)) = 1) by (destruct e1; try discriminate Ep; reflexivity); zl; lia|zl; lia].
  - destruct Hw as (_ & Hw1 & Hw2). destruct (pk e1 IHe1 Hw1) as [H1 L1]. pose proof (pk e2 IHe2 Hw2) as H2. mm. cbn [P]. cbv zeta.
    destruct (P_var e1 Hw1) as (v & y & Ey & Hy & Ha). rewrite <- Ha.
    destruct (aop_ok (tok_arith o) sz e2 Hw2 H2) as (b0 & x & x1 & Ex & Hu & Hp2 & L2). set (pr := match anum _ _ with Some _ => _ | None => _ end) in *.
    split.
    + intros pre post fuel Hp Hf. cbv beta in *. rewrite Ex in *.
      apply (prep_asg_gen pre post fuel _ (P e1) b0 x pr (MT (TAssignOp (tok_arith o) sz)) (MT (TAssignOp (aop (tok_arith o) e2) sz)) x1 (MT (TAssignOp (aop (tok_arith o) e2) sz)) x1 v y); auto.
      * subst pr. destruct (anum _ _); [discriminate|now apply P_ne].
      * rewrite L2. zl. lia.
    + rewrite Ha. destruct (pl e1) eqn:Ep; [assert (zlen (map MT (rpn 4 e1)) = 1) by (destruct e1; try discriminate Ep; reflexivity); zl; lia|zl; lia].
  - destruct Hw as (Hw1 & Hw2). destruct (pk e1 IHe1 Hw1) as [H1 L1], (pk e2 IHe2 Hw2) as [H2 L2]. mm. cbn [P].
    destruct (T_end e2 Hw2) as (b0 & x & Ex & _). split; [|zl; lia]. cbv beta in *. rewrite Ex in *.
    eapply prepped_bin; eauto; [now apply udiv_notdiv|now apply P_ne].
  - destruct Hw as (_ & _ & _ & Hw1 & Hw2). destruct (pk e1 IHe1 Hw1) as [H1 L1], (pk e2 IHe2 Hw2) as [H2 L2]. mm. cbn [P].
    destruct (T_end e2 Hw2) as (b0 & x & Ex & _). split; [|zl; lia].
    replace (T e1 ++ MT (TShortCirc k) :: T e2 ++ [MT (TLogAnd k)]) with ((T e1 ++ [MT (TShortCirc k)]) ++ T e2 ++ [MT (TLogAnd k)]) by now las.
    replace (P e1 ++ MT (TShortCirc k) :: P e2 ++ [MT (TLogAnd k)]) with ((P e1 ++ [MT (TShortCirc k)]) ++ P e2 ++ [MT (TLogAnd k)]) by now las.
    cbv beta in *. rewrite Ex in *.
    eapply prepped_bin; eauto; [now apply udiv_notdiv|now apply prepped_one|now apply P_ne].
  - destruct Hw as (_ & _ & _ & Hw1 & Hw2). destruct (pk e1 IHe1 Hw1) as [H1 L1], (pk e2 IHe2 Hw2) as [H2 L2]. mm. cbn [P].
    destruct (T_end e2 Hw2) as (b0 & x & Ex & _). split; [|zl; lia].
    replace (T e1 ++ MT (TShortCirc (- k)) :: T e2 ++ [MT (TLogOr k)]) with ((T e1 ++ [MT (TShortCirc (- k))]) ++ T e2 ++ [MT (TLogOr k)]) by now las.
    replace (P e1 ++ MT (TShortCirc (- k)) :: P e2 ++ [MT (TLogOr k)]) with ((P e1 ++ [MT (TShortCirc (- k))]) ++ P e2 ++ [MT (TLogOr k)]) by now las.
    cbv beta in *. rewrite Ex in *.
    eapply prepped_bin; eauto; [now apply udiv_notdiv|now apply prepped_one|now apply P_ne].
  - destruct Hw as (_ & Hw1 & Hw2 & Hw3). destruct (pk e1 IHe1 Hw1) as [H1 L1], (pk e2 IHe2 Hw2) as [H2 L2], (pk e3 IHe3 Hw3) as [H3 L3]. mm. cbn [P].
    split; [|zl; lia]. destruct (T_end e2 Hw2) as (b0 & x & Ex & _).
    assert (Q : prepped ((T e1 ++ [MT (TShortCirc (- k))]) ++ (T e3 ++ [MT (TGoto (k + 1))]) ++ [MT (TLogAnd k)])
       ((P e1 ++ [MT (TShortCirc (- k))]) ++ (P e3 ++ [MT (TGoto (k + 1))]) ++ [MT (TLogAnd k)])).
    { eapply prepped_bin; [now apply udiv_notdiv|now apply prepped_one|now apply prepped_one|destruct (P e3); discriminate|reflexivity]. }
    replace (T e1 ++ MT (TShortCirc (- k)) :: T e3 ++ MT (TGoto (k + 1)) :: MT (TLogAnd k) :: T e2 ++ [MT (TLogAnd (k + 1))]) with
      (((T e1 ++ [MT (TShortCirc (- k))]) ++ (T e3 ++ [MT (TGoto (k + 1))]) ++ [MT (TLogAnd k)]) ++ T e2 ++ [MT (TLogAnd (k + 1))]) by now las.
    replace (P e1 ++ MT (TShortCirc (- k)) :: P e3 ++ MT (TGoto (k + 1)) :: MT (TLogAnd k) :: P e2 ++ [MT (TLogAnd (k + 1))]) with
      (((P e1 ++ [MT (TShortCirc (- k))]) ++ (P e3 ++ [MT (TGoto (k + 1))]) ++ [MT (TLogAnd k)]) ++ P e2 ++ [MT (TLogAnd (k + 1))]) by now las.
    cbv beta in *. rewrite Ex in *. eapply prepped_bin; [now apply udiv_notdiv|exact Q|exact H2|now apply P_ne|reflexivity].
  - destruct Hw as (Hw1 & Hw2). fold (wf_args 4) in Hw2. change (wf_args 4 args) in Hw2. destruct (pk e IHe Hw1) as [H1 L1].
    destruct (prep_args_ok args H Hw2) as [La Ha]. cbv beta. pose proof (T_call e args) as ET. cbv beta in ET. rewrite ET, P_call. clear ET. split; [|zl; lia].
    intros pre post fuel Hp Hf. cbn [length] in Hf. rewrite !app_length in Hf. cbn [length] in Hf.
    destruct fuel; [lia|]. set (v := 4 * zlen args).
    assert (G : zget (pre ++ (MT (TLParen v) :: T_args args ++ T e ++ [MT (TRParen v)]) ++ post)
       (zlen pre + zlen (MT (TLParen v) :: T_args args ++ T e ++ [MT (TRParen v)]) - 1) = Some (MT (TRParen v))).
    { apply zget_at with (a := pre ++ MT (TLParen v) :: T_args args ++ T e) (b := post); [now las|zl; lia]. }
    rewrite (prep_S _ _ _ _ _ _ G (udiv_none _ (MT (TRParen v)) _ eq_refl)). cbv zeta. cbn [prep_kind]. clear G.
    destruct fuel; [lia|]. cbn [prep_args].
    destruct (T_end e Hw1) as (u & y & Ey & _).
    assert (Hy : forall v, y <> MT (TLParen v)).
    { intros v0 ->. destruct (CgFuse.rpn_last 4 e Hw1) as (a0 & b0 & E0 & _ & Hb). cbv beta in Ey. rewrite E0, map_app in Ey.
      apply app_inj_tail in Ey as [_ Ey]. injection Ey as Ey. now apply Hb in Ey. }
    assert (G : zget (pre ++ (MT (TLParen v) :: T_args args ++ T e ++ [MT (TRParen v)]) ++ post)
       (zlen pre + zlen (MT (TLParen v) :: T_args args ++ T e ++ [MT (TRParen v)]) - 1 - 1) = Some y).
    { cbv beta in Ey |- *. rewrite Ey. apply zget_at with (a := pre ++ MT (TLParen v) :: T_args args ++ u) (b := MT (TRParen v) :: post); [now las|zl; lia]. }
    rewrite G. cbn [obind]. clear G.
    assert (Em : forall {A} (f : Z -> A) d, match y with MT (TLParen v) => f v | _ => d end = d).
    { intros A f d. destruct y as [[]| | | |]; try reflexivity. now elim (Hy v0). }
    rewrite Em. clear Em Hy Ey u y.
    replace (pre ++ (MT (TLParen v) :: T_args args ++ T e ++ [MT (TRParen v)]) ++ post) with
      ((pre ++ MT (TLParen v) :: T_args args) ++ T e ++ MT (TRParen v) :: post) by now las.
    replace (zlen pre + zlen (MT (TLParen v) :: T_args args ++ T e ++ [MT (TRParen v)]) - 1 - 1) with
      (zlen (pre ++ MT (TLParen v) :: T_args args) + zlen (T e) - 1) by (zl; lia).
    rewrite H1 by ((right; discriminate) || lia). cbn [obind].
    assert (G : exists t, zget ((pre ++ MT (TLParen v) :: T_args args) ++ P e ++ MT (TRParen v) :: post)
       (zlen (pre ++ MT (TLParen v) :: T_args args) - 1) = Some t /\
       match t with MT TArgSep => zlen (pre ++ MT (TLParen v) :: T_args args) - 1 - 1 | _ => zlen (pre ++ MT (TLParen v) :: T_args args) - 1 end =
       zlen pre + zlen (T_args args) - match args with [] => 0 | _ => 1 end).
    { destruct args as [|b l].
      - exists (MT (TLParen v)). split; [|cbn [T_args map rpn_args]; zl; cbn; lia].
        apply zget_at with (a := pre) (b := P e ++ MT (TRParen v) :: post); [now las|zl; cbn; lia].
      - exists (MT TArgSep). rewrite T_args_cons. split; [|zl; lia].
        apply zget_at with (a := pre ++ MT (TLParen v) :: T_args l ++ T b) (b := P e ++ MT (TRParen v) :: post); [now las|zl; lia]. }
    destruct G as (t & G1 & G2). rewrite G1. cbn [obind]. rewrite G2.
    replace ((pre ++ MT (TLParen v) :: T_args args) ++ P e ++ MT (TRParen v) :: post) with
      (pre ++ MT (TLParen v) :: T_args args ++ (P e ++ MT (TRParen v) :: post)) by now las.
    rewrite Ha by (lia || (pose proof (P_ne e Hw1); destruct (P e); [contradiction|discriminate])). now las.
Qed.

(** The whole expression: a final [x = 0] is special. *)
Lemma prep_top e fuel : wf 4 e -> (2 * length (T e) <= fuel)%nat ->
  gen_prep fuel (T e) (zlen (T e) - 1) = Some (Ptop e, -1).
Proof.
  intros Hw Hf. destruct (na e) eqn:En.
  - destruct (prep_ok e Hw) as [H _]. rewrite En in H. specialize (H [] [] fuel (or_introl eq_refl) Hf). cbn [app] in H.
    rewrite !app_nil_r in H. change (zlen []) with 0 in H. rewrite Z.add_0_l in H. cbv beta. etransitivity; [exact H|].
    unfold Ptop, na in *. destruct (is_assign0 e); [discriminate|reflexivity].
  - unfold na in En. unfold Ptop. destruct (is_assign0 e) as [[sz l]|] eqn:Ea; [|discriminate]. clear En.
    destruct e as [| | | | | | | | | | |sz' l' r| | | | | |]; try discriminate Ea. cbn [is_assign0] in Ea. destruct r; try discriminate Ea.
    destruct (tru n =? 0) eqn:Ez; [|discriminate]. injection Ea as -> ->. destruct Hw as (_ & Hw & _).
    destruct (pk l (prep_ok l) Hw) as [H1 L1]. destruct (P_var l Hw) as (v & y & Ey & Hy & Ha).
    pose proof (prep_asg_gen [] [] fuel (T l) (P l) [] (MT (if uns then TNumU n else TNum n)) [Num0] (MT (TAssign sz)) (MT (TAssign sz))
      (MT (if uns then TNumU n else TNum n)) (Assign0 sz) Num0 v y) as H. cbn [app] in H. rewrite !app_nil_r in H.
    change (zlen []) with 0 in H. rewrite Z.add_0_l in H. cbv beta. cbn [rpn]. rewrite !map_app. cbn [map app].
    etransitivity; [apply H; auto|].
    + unfold asg0. destruct uns; cbn [num_of]; rewrite Ez; reflexivity.
    + now apply prepped_leaf.
    + discriminate.
    + cbv beta in Hf. cbn [rpn] in Hf. rewrite !map_app in Hf. exact Hf.
    + rewrite Ha. destruct (pl l); reflexivity.
Qed.
