(** C15: names denote their innermost declarations; redeclarations in a scope are rejected. *)
From Verif Require Import Base BaseLemmas LexModel ScopeSpec ScopeModel ScopeProof.

(** Every state the compiler reaches by declarations, functions, blocks and for statements, with
    the scopes as the specification has them.  [numeric]: the names the compiler makes up for
    static objects, which no program declares.  The types may be compatible or not at any step. *)
Inductive reach (numeric : Z -> bool) : state -> env -> Prop :=
| re_start dummy : numeric dummy = true -> reach numeric (start dummy) [[]]
| re_step compat s e o s' e' : reach numeric s e -> okop numeric o -> step compat s o = Ok s' ->
    sstep compat e (meaning (infun e) o) (zlen (stk s)) = Some e' -> reach numeric s' e'.
Lemma reach_Rep numeric s e : reach numeric s e -> Rep numeric e (stk s) (level s) (undos s).
Proof.
  induction 1 as [dummy D|compat s e o s' e' R IH OK E SE]; [exact (start_Rep numeric dummy D)|].
  pose proof (step_ok numeric compat s e o IH OK) as H. rewrite E in H. destruct H as (e2 & E2 & R2). rewrite SE in E2. injection E2 as <-. exact R2.
Qed.

(** The compiler accepts exactly what the specification accepts, never reaches outside its table,
    and the scopes stay those of the specification: the end of a block drops what the block
    declared and nothing else, and a redeclaration is refused where it must be. *)
Theorem C15_steps : forall numeric compat s e o, reach numeric s e -> okop numeric o ->
  match step compat s o with
  | Ok s' => exists e', sstep compat e (meaning (infun e) o) (zlen (stk s)) = Some e' /\ reach numeric s' e'
  | Err => sstep compat e (meaning (infun e) o) (zlen (stk s)) = None
  | Oob => False
  end.
Proof.
  intros numeric compat s e o R OK. pose proof (step_ok numeric compat s e o (reach_Rep _ _ _ R) OK) as H.
  destruct (step compat s o) as [s'| |] eqn:E; [|exact H|exact H]. destruct H as (e' & SE & _). exists e'. split; [exact SE|]. exact (re_step numeric compat s e o s' e' R OK E SE).
Qed.
(** A name whose innermost declaration is not that of a type denotes it. *)
Theorem C15_innermost_partial : forall numeric s e n d, reach numeric s e -> numeric n = false ->
  innermost (named n) e = Some d -> typename d = false -> findSymbol 0 n (stk s) = Ok (handle d).
Proof.
  intros numeric s e n d R N I T. pose proof (Rep_SC _ _ _ _ _ (reach_Rep _ _ _ R)) as SCS. rewrite (findSymbol_scan numeric n N _ _ 0 _ (SCS 0)), sfind_sym.
  assert (E : innermost (fun d => named n d && negb (typename d)) e = Some d).
  { clear -I T. induction e as [|s e IH]; [discriminate I|]. cbn [innermost] in *. induction s as [|x s IHs]; cbn [find] in *; [auto|].
    destruct (named n x) eqn:NX; cbn [andb]; [|auto]. injection I as ->. rewrite T. reflexivity. }
  rewrite E. reflexivity.
Qed.
(** A name that no scope declares is not found. *)
Theorem C15_undeclared : forall numeric s e n, reach numeric s e -> numeric n = false -> innermost (named n) e = None -> findSymbol 0 n (stk s) = Ok (-1).
Proof.
  intros numeric s e n R N I. pose proof (Rep_SC _ _ _ _ _ (reach_Rep _ _ _ R)) as SCS. rewrite (findSymbol_scan numeric n N _ _ 0 _ (SCS 0)), sfind_sym.
  assert (E : innermost (fun d => named n d && negb (typename d)) e = None).
  { clear -I. induction e as [|s e IH]; [reflexivity|]. cbn [innermost] in *. induction s as [|x s IHs]; cbn [find] in *; [auto|].
    destruct (named n x) eqn:NX; cbn [andb]; [discriminate I|auto]. }
  rewrite E. reflexivity.
Qed.
(** A name is taken for a type exactly when its innermost declaration is that of a type, which is
    then the type it denotes. *)
Theorem C15_typename : forall numeric s e n, reach numeric s e -> numeric n = false ->
  findTypedef 0 n (stk s) = Ok (match innermost (named n) e with Some d => if typename d then handle d else -1 | None => -1 end).
Proof.
  intros numeric s e n R N. pose proof (Rep_SC _ _ _ _ _ (reach_Rep _ _ _ R)) as SCS. rewrite (findTypedef_scan numeric n N _ _ 0 _ (SCS 0)), sfind_typ.
  destruct (innermost (named n) e); reflexivity.
Qed.
(** A tag denotes its innermost declaration; the compiler knows whether that is in the same scope. *)
Theorem C15_tag : forall numeric s e n, reach numeric s e ->
  exists cur, findTaggedDecl 0 n true (stk s) = Ok (match innermost (tagged n) e with Some d => handle d | None => -1 end, cur) /\
    (innermost (tagged n) e <> None -> cur = match e with sc :: _ => existsb (tagged n) sc | [] => false end).
Proof.
  intros numeric s e n R. pose proof (Rep_SC _ _ _ _ _ (reach_Rep _ _ _ R)) as SCS. rewrite (findTag_scan numeric n _ _ 0 _ true (SCS 0)).
  exists (snd (ftag n true (flat e))). split; [rewrite <- (proj1 (ftag_false n e true)); destruct (ftag n true (flat e)); reflexivity|]. intros NN.
  destruct e as [|sc e]; [exfalso; apply NN; reflexivity|]. destruct (find (tagged n) sc) as [d|] eqn:F.
  - rewrite (ftag_true n sc e) by eauto. symmetry. apply existsb_exists. exists d. apply find_some in F. exact F.
  - rewrite (ftag_none n sc e F) by (cbn [innermost] in NN; rewrite F in NN; exact NN). symmetry. apply not_true_is_false. intros E. apply existsb_exists in E. destruct E as (d & IN & T).
    rewrite (find_none _ _ F d IN) in T. discriminate T.
Qed.
(** Missing from C15_innermost_partial, because it is false: a type name declared in an inner
    scope does not hide an outer object in expressions.
      int x;  int f(void) { typedef int x;  return x; }  *)
Definition hist : list op := [ODecl SNone false 100 7 0 [(19, 0)]; OFxn 101 [(40, 0); (17, 0); (41, 0); (19, 0)]; OTypedef 100 [(19, 0)]].
Fixpoint steps (compat : Z -> Z -> bool) (s : state) (h : list op) : res state :=
  match h with [] => Ok s | o :: h => let! s := step compat s o in steps compat s h end.
Fixpoint ssteps (compat : Z -> Z -> bool) (s : state) (e : env) (h : list op) : option env :=
  match h with
  | [] => Some e
  | o :: h => match step compat s o, sstep compat e (meaning (infun e) o) (zlen (stk s)) with Ok s, Some e => ssteps compat s e h | _, _ => None end
  end.
Lemma run_reach numeric compat h : forall s e s' e', reach numeric s e -> Forall (okop numeric) h -> steps compat s h = Ok s' -> ssteps compat s e h = Some e' -> reach numeric s' e'.
Proof.
  induction h as [|o h IH]; intros s e s' e' R F E SE; cbn [steps ssteps] in *; [congruence|].
  inversion F as [|? ? OK F']; subst. destruct (step compat s o) as [s1| |] eqn:E1; [|discriminate SE|discriminate SE].
  destruct (sstep compat e (meaning (infun e) o) (zlen (stk s))) as [e1|] eqn:S1; [|discriminate SE]. exact (IH s1 e1 s' e' (re_step numeric compat s e o s1 e1 R OK E1 S1) F' E SE).
Qed.
Definition num : Z -> bool := fun v => v <? 100.
Ltac okb := repeat first [apply wb_nil | apply (wb_par 0 0 [(17, 0)] [(19, 0)]) | apply wb_tok; [cbv; repeat split; discriminate|] | apply in_nil | apply in_tok; [discriminate|discriminate|]].
Ltac oks := eexists _, _, _; split; [reflexivity|]; repeat split; discriminate.
Theorem C15_typedef_refuted : exists s e d, reach num s e /\ innermost (named 100) e = Some d /\ typename d = true /\
  findSymbol 0 100 (stk s) <> Ok (-1) /\ findSymbol 0 100 (stk s) <> Ok (handle d).
Proof.
  eexists _, _, _. split.
  - apply (run_reach num (fun _ _ => true) hist (start 7) [[]]); [apply re_start; reflexivity| |vm_compute; reflexivity|vm_compute; reflexivity].
    constructor; [|constructor; [|constructor; [|constructor]]]; cbn [okop].
    + split; [reflexivity|]. split; [reflexivity|]. split; [okb|oks].
    + split; [reflexivity|]. split; [okb|oks].
    + split; [reflexivity|]. split; [okb|discriminate].
  - split; [vm_compute; reflexivity|]. split; [reflexivity|]. split; vm_compute; discriminate.
Qed.
(** A variable of an inner block hides the parameter, and is gone after the block. *)
Example C15_ex : exists s e, reach num s e /\ findSymbol 0 100 (stk s) = Ok 23 /\ findSymbol 0 102 (stk s) = Ok 11 /\
  (exists s2, step (fun _ _ => true) s OClose = Ok s2 /\ findSymbol 0 100 (stk s2) = Ok 19) /\
  step (fun _ _ => true) s (ODecl SNone false 100 7 0 [(19, 0)]) = Err.
Proof.
  eexists _, _. split.
  - apply (run_reach num (fun _ _ => true) [ODecl SNone false 102 7 0 [(19, 0)]; OFxn 101 [(40, 0); (17, 0); (41, 0); (19, 0)]; ODecl SNone false 100 7 4 [(19, 0)]; OOpen; ODecl SStatic false 100 7 0 [(19, 0)]] (start 7) [[]]);
      [apply re_start; reflexivity| |vm_compute; reflexivity|vm_compute; reflexivity].
    repeat (apply Forall_cons; [cbn [okop]; first [exact I|split; [reflexivity|]; try (split; [reflexivity|]); split; [okb|oks]]|]). constructor.
  - split; [vm_compute; reflexivity|]. split; [vm_compute; reflexivity|]. split; [eexists; split; vm_compute; reflexivity|vm_compute; reflexivity].
Qed.
Print Assumptions C15_steps.
Print Assumptions C15_innermost_partial.
Print Assumptions C15_undeclared.
Print Assumptions C15_typename.
Print Assumptions C15_tag.
Print Assumptions C15_typedef_refuted.
