(** The section names found, their order (C40). *)
From Verif Require Import Base BaseLemmas LexModel LexSpec LexProof LinkModel LinkSpec LinkResolve LinkLayout.
From Coq Require Import Sorted String Permutation.
Close Scope string_scope.

Definition attrSet : list Z := [0; 1; 4; 5; 8; 9; 12; 13].
Lemma has_testbit n x : 0 <= n -> has (2 ^ n) x = Z.testbit x n.
Proof.
  intros H. unfold has. destruct (Z.testbit x n) eqn:E.
  - apply negb_true_iff, Z.eqb_neq. intros C. assert (Z.testbit (Z.land x (2 ^ n)) n = false) by (rewrite C; apply Z.bits_0).
    rewrite Z.land_spec, E, Z.pow2_bits_true in H0 by auto. discriminate.
  - apply negb_false_iff, Z.eqb_eq. apply Z.bits_inj'. intros m Hm. rewrite Z.land_spec, Z.bits_0, Z.pow2_bits_eqb by auto.
    destruct (n =? m) eqn:N; [|apply andb_false_r]. replace m with n by lia. rewrite E. reflexivity.
Qed.
Lemma has_alloc s : has SHF_ALLOC (sh_flags s) = true <-> alloc s.
Proof. unfold alloc. change SHF_ALLOC with (2 ^ 1). rewrite has_testbit by lia. tauto. Qed.

Lemma land_single n x : 0 <= n -> Z.land x (2 ^ n) = if Z.testbit x n then 2 ^ n else 0.
Proof.
  intros H. apply Z.bits_inj'. intros m Hm. rewrite Z.land_spec, Z.pow2_bits_eqb by auto.
  destruct (n =? m) eqn:N.
  - replace m with n by lia. destruct (Z.testbit x n); cbn [andb]; [rewrite Z.pow2_bits_true; auto|rewrite Z.bits_0; auto].
  - rewrite andb_false_r. destruct (Z.testbit x n); [rewrite Z.pow2_bits_false by lia; auto|rewrite Z.bits_0; auto].
Qed.
Lemma attrs_eq s : attrs s = (if Z.testbit (sh_flags s) 0 then 1 else 0) + (if Z.testbit (sh_flags s) 2 then 4 else 0) +
  (if Z.testbit (sh_type s) 3 then 8 else 0).
Proof.
  unfold attrs. change SHT_NOBITS with (2 ^ 3). rewrite land_single by lia.
  rewrite Z.land_lor_distr_r. change SHF_WRITE with (2 ^ 0). change SHF_EXECINSTR with (2 ^ 2). rewrite !land_single by lia.
  destruct (Z.testbit (sh_flags s) 0), (Z.testbit (sh_flags s) 2), (Z.testbit (sh_type s) 3); reflexivity.
Qed.
Lemma attrs_set s : In (attrs s) attrSet.
Proof.
  rewrite attrs_eq. unfold attrSet.
  destruct (Z.testbit (sh_flags s) 0), (Z.testbit (sh_flags s) 2), (Z.testbit (sh_type s) 3); cbn; tauto.
Qed.
Definition okD (d : descr) : Prop := In (d_attrs d) attrSet.
Lemma keep_eq a b : In a attrSet -> In b attrSet -> has KEEP (Z.lxor a b) = false -> a = b.
Proof.
  assert (T : forallb (fun a => forallb (fun b => has KEEP (Z.lxor a b) || (a =? b)) attrSet) attrSet = true) by (vm_compute; reflexivity).
  rewrite forallb_forall in T. intros A B H. specialize (T a A). rewrite forallb_forall in T. specialize (T b B). rewrite H in T. cbn in T. lia.
Qed.
Definition rank (a : Z) : Z := (if has SHT_NOBITS a then 4 else 0) + (if has SHF_EXECINSTR a then 0 else 2) + (if has SHF_WRITE a then 1 else 0).
Lemma sectCmp_rank p1 p2 : okD p1 -> okD p2 ->
  rank (d_attrs p1) = rank (d_attrs p2) \/ sectCmp p1 p2 < 0 /\ rank (d_attrs p1) < rank (d_attrs p2) \/
  0 < sectCmp p1 p2 /\ rank (d_attrs p2) < rank (d_attrs p1).
Proof.
  unfold okD, sectCmp. destruct p1 as [n1 a1 x1 y1], p2 as [n2 a2 x2 y2]. cbn [d_attrs d_name]. cbv zeta. intros A B.
  assert (T : forallb (fun a1 => forallb (fun a2 =>
    let x := Z.lxor a1 a2 in
    if has SHT_NOBITS x then let c := Z.land a1 SHT_NOBITS - Z.land a2 SHT_NOBITS in ((c <? 0) && (rank a1 <? rank a2)) || ((0 <? c) && (rank a2 <? rank a1))
    else if has SHF_EXECINSTR x then let c := - (Z.land a1 SHF_EXECINSTR - Z.land a2 SHF_EXECINSTR) in ((c <? 0) && (rank a1 <? rank a2)) || ((0 <? c) && (rank a2 <? rank a1))
    else if has SHF_WRITE x then let c := Z.land a1 SHF_WRITE - Z.land a2 SHF_WRITE in ((c <? 0) && (rank a1 <? rank a2)) || ((0 <? c) && (rank a2 <? rank a1))
    else rank a1 =? rank a2) attrSet) attrSet = true) by (vm_compute; reflexivity).
  rewrite forallb_forall in T. specialize (T a1 A). rewrite forallb_forall in T. specialize (T a2 B). cbv zeta in T.
  destruct (has SHT_NOBITS (Z.lxor a1 a2)); [lia|]. destruct (has SHF_EXECINSTR (Z.lxor a1 a2)); [lia|].
  destruct (has SHF_WRITE (Z.lxor a1 a2)); [lia|]. lia.
Qed.

Definition rankLe (d d' : descr) : Prop := rank (d_attrs d) <= rank (d_attrs d').
Lemma insert_perm d l : Permutation (d :: l) (insert d l).
Proof.
  induction l as [|e l IH]; cbn [insert]; [constructor; constructor|]. destruct (sectCmp d e <=? 0); [apply Permutation_refl|].
  eapply perm_trans; [apply perm_swap|]. constructor. exact IH.
Qed.
Lemma sort_perm l : Permutation l (LinkModel.sort l).
Proof. induction l as [|d l IH]; cbn; [constructor|]. eapply perm_trans; [constructor; exact IH|]. apply insert_perm. Qed.
Lemma insert_sorted d l : okD d -> Forall okD l -> StronglySorted rankLe l -> StronglySorted rankLe (insert d l).
Proof.
  intros D F SS. induction SS as [|e l SS IH H]; cbn [insert]; [constructor; constructor|].
  inversion_clear F as [|? ? F1 F2]. destruct (sectCmp_rank d e D F1) as [C|[C|C]].
  - destruct (sectCmp d e <=? 0); constructor; auto.
    + constructor; auto. + constructor; [unfold rankLe; lia|]. revert H. apply Forall_impl. unfold rankLe. lia.
    + apply (Permutation_Forall (insert_perm d l)). constructor; auto. unfold rankLe. lia.
  - destruct (sectCmp d e <=? 0) eqn:E; [|lia]. constructor; [constructor; auto|]. constructor; [unfold rankLe; lia|].
    revert H. apply Forall_impl. unfold rankLe. lia.
  - destruct (sectCmp d e <=? 0) eqn:E; [lia|]. constructor; [auto|].
    apply (Permutation_Forall (insert_perm d l)). constructor; auto. unfold rankLe. lia.
Qed.
Lemma sort_sorted l : Forall okD l -> StronglySorted rankLe (LinkModel.sort l).
Proof.
  induction l as [|d l IH]; cbn; intros F; [constructor|]. inversion_clear F as [|? ? F1 F2]. apply insert_sorted; auto.
  apply (Permutation_Forall (sort_perm l)). auto.
Qed.

(** ** the names *)
Definition incl (os : list (obj * bool)) (f k : nat) (o : obj) (s : sect) : Prop := nth_error os f = Some (o, true) /\ nth_error o k = Some s.

Definition fromSect (P : sect -> Prop) (d : descr) : Prop := exists s, P s /\ alloc s /\ d_name d = sh_name s /\ d_attrs d = attrs s.
Definition descrFor (ds : list descr) (s : sect) : Prop := exists d, In d ds /\ d_name d = sh_name s /\ d_attrs d = attrs s.

Lemma findSect_ok ds n a : Forall okD ds -> In a attrSet ->
  match findSect ds n a with
  | Ok true => exists d, In d ds /\ d_name d = n /\ d_attrs d = a
  | Ok false => ~ In n (map d_name ds)
  | _ => True
  end.
Proof.
  intros F A. induction F as [|d ds F1 F IH]; cbn [findSect map]; [tauto|].
  destruct (eqs (d_name d) n) eqn:E.
  - apply eqs_true in E. destruct (has KEEP (Z.lxor (d_attrs d) a)) eqn:K; [auto|]. exists d. split; [left; auto|]. split; auto.
    apply keep_eq; auto.
  - destruct (findSect ds n a) as [[|]| |]; auto.
    + destruct IH as (d' & I1 & I2). exists d'. split; [right; auto|auto].
    + intros [C|C]; [|auto]. rewrite C in E. rewrite (proj2 (eqs_true n n) eq_refl) in E. discriminate.
Qed.

Lemma addSects_ok fmt (P : sect -> Prop) ss : forall ds relod ds' relod',
  Forall okD ds -> NoDup (map d_name ds) -> Forall (fromSect P) ds -> (fmt = FormatDosExeUnreal -> ~ In RELOD (map d_name ds)) ->
  (fmt <> FormatDosExeUnreal -> relod = 0) -> 0 <= relod < 2 ^ 32 ->
  (forall s, In s ss -> P s) ->
  addSects fmt ss ds relod = Ok (ds', relod') ->
  Forall okD ds' /\ NoDup (map d_name ds') /\ Forall (fromSect P) ds' /\ (fmt = FormatDosExeUnreal -> ~ In RELOD (map d_name ds')) /\
  (fmt <> FormatDosExeUnreal -> relod' = 0) /\ 0 <= relod' < 2 ^ 32 /\
  (forall d, In d ds -> In d ds') /\ (forall s, In s ss -> alloc s -> descrFor ds' s).
Proof.
  induction ss as [|s ss IH]; intros ds relod ds' relod' OK ND FS RO R0 RR PS H; cbn [addSects] in H.
  { injection H as <- <-. repeat (split; auto). intros s []. }
  destruct (has SHF_ALLOC (sh_flags s)) eqn:AL; cbn [negb] in H.
  2:{ eapply IH in H; auto.
      - destruct H as (H1 & H2 & H3 & H4 & H5 & H6 & H7 & H8). repeat (split; auto). intros s' [-> |I] A; [|auto].
        apply has_alloc in A. congruence.
      - intros NE. rewrite R0 by auto. destruct (fmt =? FormatDosExeUnreal) eqn:E; [lia|reflexivity].
      - destruct (_ && _); [apply u32_range|auto].
      - intros; apply PS; right; auto. }
  apply has_alloc in AL.
  pose proof (findSect_ok ds (sh_name s) (attrs s) OK (attrs_set s)) as FO.
  destruct (findSect ds (sh_name s) (attrs s)) as [[|]| |] eqn:E; try discriminate; cbn [rbind] in H.
  - eapply IH in H; auto. 2:{ intros; apply PS; right; auto. }
    destruct H as (H1 & H2 & H3 & H4 & H5 & H6 & H7 & H8). repeat (split; auto). intros s' [<- |I] A; [|auto].
    destruct FO as (d & D1 & D2 & D3). exists d. auto.
  - destruct ((fmt =? FormatDosExeUnreal) && eqs (sh_name s) RELOD) eqn:EU; [discriminate|].
    eapply IH in H; auto.
    + destruct H as (H1 & H2 & H3 & H4 & H5 & H6 & H7 & H8).
      split; [auto|]. split; [auto|]. split; [auto|]. split; [auto|]. split; [auto|]. split; [auto|]. split.
      * intros d I. apply H7. apply in_or_app. auto.
      * intros s' [<- |I] A; [|auto]. exists (mkDescr (sh_name s) (attrs s) 0 0). split; [|auto]. apply H7. apply in_or_app. right. left. reflexivity.
    + apply Forall_app. split; auto. constructor; [apply attrs_set|constructor].
    + rewrite map_app. cbn [map d_name]. apply (Permutation_NoDup (Permutation_cons_append _ _)). constructor; auto.
    + apply Forall_app. split; auto. constructor; [|constructor]. exists s. cbn. repeat split; auto. apply PS. left. auto.
    + intros EF. rewrite map_app. cbn [map d_name]. intros C. apply in_app_or in C as [C|[C|[]]]; [apply RO; auto|].
      rewrite C in EU. rewrite (proj2 (eqs_true RELOD RELOD) eq_refl) in EU. lia.
    + intros; apply PS; right; auto.
Qed.

Lemma addObjs_ok fmt os (P : sect -> Prop) : forall ds relod ds' relod',
  Forall okD ds -> NoDup (map d_name ds) -> Forall (fromSect P) ds -> (fmt = FormatDosExeUnreal -> ~ In RELOD (map d_name ds)) ->
  (fmt <> FormatDosExeUnreal -> relod = 0) -> 0 <= relod < 2 ^ 32 ->
  (forall o s, In (o, true) os -> In s o -> P s) ->
  addObjs fmt os ds relod = Ok (ds', relod') ->
  Forall okD ds' /\ NoDup (map d_name ds') /\ Forall (fromSect P) ds' /\ (fmt = FormatDosExeUnreal -> ~ In RELOD (map d_name ds')) /\
  (fmt <> FormatDosExeUnreal -> relod' = 0) /\ 0 <= relod' < 2 ^ 32 /\
  (forall d, In d ds -> In d ds') /\ (forall o s, In (o, true) os -> In s o -> alloc s -> descrFor ds' s).
Proof.
  induction os as [|[o nd] os IH]; intros ds relod ds' relod' OK ND FS RO R0 RR PS H; cbn [addObjs] in H.
  { injection H as <- <-. repeat (split; auto). intros o s []. }
  destruct nd.
  - destruct (addSects fmt o ds relod) as [[ds1 r1]| |] eqn:E; try discriminate. cbn [rbind] in H.
    destruct (addSects_ok fmt P o ds relod ds1 r1) as (A1 & A2 & A3 & A4 & A5 & A6 & A7 & A8); auto.
    { intros s I. eapply PS; [left; reflexivity|auto]. }
    eapply IH in H; auto. 2:{ intros o' s I J. eapply PS; [right; exact I|auto]. }
    destruct H as (H1 & H2 & H3 & H4 & H5 & H6 & H7 & H8). repeat (split; auto).
    intros o' s [C|I] J A; [|eauto]. injection C as <-. destruct (A8 s J A) as (d & D1 & D2). exists d. auto.
  - eapply IH in H; auto. 2:{ intros o' s I J. eapply PS; [right; exact I|auto]. }
    destruct H as (H1 & H2 & H3 & H4 & H5 & H6 & H7 & H8). repeat (split; auto).
    intros o' s [C|I] J A; [discriminate|eauto].
Qed.

Definition inAny (os : list (obj * bool)) (s : sect) : Prop := exists o, In (o, true) os /\ In s o.

(** the descriptors: sorted by kind, distinct names; one for the name of every section in memory *)
Lemma findSections_ok fmt os dfr ds bs relod : findSections fmt os dfr = Ok (ds, bs, relod) ->
  exists l hidden, ds = l ++ hidden /\ List.length hidden = 3%nat /\
    l <> [] /\ Forall okD l /\ NoDup (map d_name l) /\ StronglySorted rankLe l /\
    (forall d, In d l -> fromSect (inAny os) d \/ d = mkDescr RELOD 0 0 0 /\ relod <> 0) /\
    (forall o s, In (o, true) os -> In s o -> alloc s -> descrFor l s) /\
    (fmt <> FormatDosExeUnreal -> relod = 0) /\ 0 <= relod < 2 ^ 32 /\
    (relod <> 0 -> In (mkDescr RELOD 0 0 0) l /\ forall s, inAny os s -> alloc s -> sh_name s <> RELOD) /\
    (forall d, hd_error l = Some d -> has SHF_EXECINSTR (d_attrs d) = true) /\
    (forall d, In d l -> has SHF_EXECINSTR (d_attrs d) = true -> d_attrs d = 4) /\
    linkDeferred ds dfr = Ok bs /\
    hidden = [mkDescr (str "allcode__") 0 0 0;
        mkDescr (if has SHF_EXECINSTR (d_attrs (last l (mkDescr [] 0 0 0))) then [] else str "alldata__") 0 0 0;
        mkDescr (if (fmt =? FormatDosComTiny) || (fmt =? FormatDosExeSmall) then str "stack__" else []) 0 0 0].
Proof.
  unfold findSections. intros H.
  destruct (addObjs fmt os [] 0) as [[l1 r1]| |] eqn:E; try discriminate. cbn [rbind] in H.
  destruct (addObjs_ok fmt os (inAny os) [] 0 l1 r1) as (A1 & A2 & A3 & A4 & A5 & A6 & A7 & A8); auto; try constructor; try lia; auto.
  { intros o s I J. exists o. auto. }
  set (l2 := if r1 =? 0 then l1 else l1 ++ [mkDescr RELOD 0 0 0]) in *.
  assert (L2 : Forall okD l2 /\ NoDup (map d_name l2) /\ (forall d, In d l2 -> fromSect (inAny os) d \/ d = mkDescr RELOD 0 0 0 /\ r1 <> 0) /\
     (forall d, In d l1 -> In d l2) /\ (r1 <> 0 -> In (mkDescr RELOD 0 0 0) l2)).
  { rewrite Forall_forall in A3. unfold l2. destruct (r1 =? 0) eqn:R.
    - repeat (split; auto). intros; lia.
    - assert (EF : fmt = FormatDosExeUnreal) by (destruct (Z.eq_dec fmt FormatDosExeUnreal); [auto|specialize (A5 n); lia]).
      repeat split.
      + apply Forall_app. split; auto. constructor; [left; reflexivity|constructor].
      + rewrite map_app. cbn [map d_name]. apply (Permutation_NoDup (Permutation_cons_append _ _)). constructor; auto.
      + intros d I. apply in_app_or in I as [I|[<- |[]]]; [left; auto|right; split; [auto|lia]].
      + intros d I. apply in_or_app. auto.
      + intros _. apply in_or_app. right. left. reflexivity. }
  destruct L2 as (B1 & B2 & B3 & B4 & B5). pose proof (sort_perm l2) as SP. pose proof (sort_sorted l2 B1) as SS.
  set (l := LinkModel.sort l2) in *. clearbody l. destruct l as [|d0 l'] eqn:EL; [discriminate|]. rewrite <- EL in *.
  destruct (negb (has SHF_EXECINSTR (d_attrs d0))) eqn:E0; [discriminate|].
  destruct (existsb _ l) eqn:EX; [discriminate|].
  set (hidden := [_; _; _]) in H. destruct (linkDeferred (l ++ hidden) dfr) as [bs1| |] eqn:ED; try discriminate. cbn [rbind] in H.
  injection H as <- <- <-. exists l, hidden.
  assert (OKl : Forall okD l) by (apply (Permutation_Forall SP); auto).
  repeat split; auto.
  - rewrite EL. discriminate.
  - apply (Permutation_NoDup (Permutation_map d_name SP)). auto.
  - intros d I. apply B3. apply (Permutation_in d (Permutation_sym SP)). auto.
  - intros o s I J A. destruct (A8 o s I J A) as (d & D1 & D2 & D3). exists d. split; [|auto]. apply (Permutation_in d SP). auto.
  - lia.
  - lia.
  - apply (Permutation_in _ SP). apply B5. auto.
  - intros s (o & I & J) A C. destruct (A8 o s I J A) as (d & D1 & D2 & D3).
    assert (EF : fmt = FormatDosExeUnreal) by (destruct (Z.eq_dec fmt FormatDosExeUnreal); [auto|specialize (A5 n); lia]).
    apply A4; auto. rewrite <- C, <- D2. apply in_map. auto.
  - intros d D. rewrite EL in D. injection D as <-. destruct (has SHF_EXECINSTR (d_attrs d0)); [reflexivity|discriminate].
  - intros d I X. assert (Q : has SHF_EXECINSTR (d_attrs d) && has (Z.lor SHT_NOBITS SHF_WRITE) (d_attrs d) = false).
    { destruct (has SHF_EXECINSTR (d_attrs d) && has (Z.lor SHT_NOBITS SHF_WRITE) (d_attrs d)) eqn:Q; auto.
      assert (existsb (fun d => has SHF_EXECINSTR (d_attrs d) && has (Z.lor SHT_NOBITS SHF_WRITE) (d_attrs d)) l = true) by (apply existsb_exists; exists d; auto).
      congruence. }
    rewrite X in Q. cbn [andb] in Q. rewrite Forall_forall in OKl. specialize (OKl d I). unfold okD in OKl.
    assert (T : forallb (fun a => negb (has SHF_EXECINSTR a) || has (Z.lor SHT_NOBITS SHF_WRITE) a || (a =? 4)) attrSet = true) by (vm_compute; reflexivity).
    rewrite forallb_forall in T. specialize (T _ OKl). rewrite X, Q in T. cbn in T. lia.
  - unfold hidden. rewrite EL. f_equal. f_equal. f_equal. f_equal. f_equal. clear. revert d0. induction l' as [|x l' IH]; intros d0; [reflexivity|].
    cbn [last] in *. destruct l'; auto. 
Qed.
