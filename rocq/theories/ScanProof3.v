(** scanf: the floating point conversions, continued. *)
From Verif Require Import Base BaseLemmas CtypeModel FpModel FloatSpec FpProof FpMain StrtolSpec StrtolProof NumModel NumSpec NumProof NumFloat NumProps
  StrtofSpec StrtofModel StrtofProof StrtofProof2 StrtofProof3 StrtofProps ScanModel ScanSpec ScanProof ScanProof2.

Ltac Zify.zify_post_hook ::= idtac.

Definition noexp (v : fvars) : Prop := fesign v = 0 /\ feexp v = 0.
Definition nz (l : list Z) : bool := negb (zlen l =? 0).
Lemma nz_true l : nz l = true -> l <> [].
Proof. intros H ->. discriminate H. Qed.
Lemma nz_false l : nz l = false -> l = [].
Proof. unfold nz. intros H. apply nil_len. lia. Qed.
Lemma nz_app a b : nz (a ++ b) = nz a || nz b.
Proof. unfold nz. rewrite zlen_app. pose proof (zlen_nonneg a). pose proof (zlen_nonneg b). lia. Qed.
Lemma nz_snoc a c : nz (a ++ [c]) = true.
Proof. rewrite nz_app. apply orb_true_r. Qed.
Lemma upper_e c : upper c = 69 -> c = 101 \/ c = 69.
Proof. unfold upper. destruct ((97 <=? c) && (c <=? 122)) eqn:E; lia. Qed.

(** A finished mantissa. *)
Lemma got_mant sgn dot ip fp v : numv sgn dot ip fp v -> noexp v -> ip ++ fp <> [] ->
  fform (mtext dot ip fp) (FNum (digit_nums (ip ++ fp)) (0 - zlen fp)) /\ fgood sgn v (FNum (digit_nums (ip ++ fp)) (0 - zlen fp)) (mtext dot ip fp).
Proof.
  intros (N1 & N2 & N3 & N4 & N5 & N6) (X1 & X2) NE. split.
  - rewrite <- (app_nil_r (mtext dot ip fp)). apply form_mant; auto.
  - split; [exact N1|]. split; [exact N2|]. exists dot, ip, fp, 0. pose proof (mtext_len dot ip fp N6). rewrite X1, X2.
    repeat (split; [first [reflexivity|assumption]|]). cbn. lia.
Qed.

Ltac fend W AE := 
  let stop := fresh "stop" in let EST := fresh "EST" in let Q := fresh in
  destruct (next_end _ _ W AE) as (stop & Q & EST); rewrite Q; clear Q;
  change (toupper EOF) with (Some EOF); change (test isdigit EOF) with (Some false); cbn [obind]; rewrite ?unget_eof.

Lemma phase_frac sgn ip inp : Forall byte inp -> forall fuel v fp, numv sgn true ip fp v -> noexp v ->
  0 <= fgotint v -> 0 <= fgotfrct v -> (fgotint v =? 0) = negb (nz ip) -> (fgotfrct v =? 0) = negb (nz fp) ->
  strip ip <> [] \/ strip fp <> [] \/ hd 0 inp <> 48 -> 0 <= fw v -> (length inp + 2 < fuel)%nat ->
  outcome (GDot (nz ip || nz fp)) (mtext true ip fp) sgn inp (fw v) (fch v) (float_loop fuel F_FRCT inp v).
Proof.
  intros FB. induction inp as [|c t IH]; intros fuel v fp N X P1 P2 G1 G2 SZ W FU; (destruct fuel as [|fuel]; [lia|]).
  all: assert (GG : (Z.lor (fgotint v) (fgotfrct v) =? 0) = negb (nz ip || nz fp)) by
    (rewrite negb_orb, <- G1, <- G2; destruct (Z.eqb_spec (fgotint v) 0) as [->|A]; [rewrite Z.lor_0_l; reflexivity|];
     cbn [andb]; apply Z.eqb_neq; intros Q; apply Z.lor_eq_0_iff in Q; tauto).
  all: assert (STOP : forall inp0 w0 e0, 0 <= w0 -> stuck gdelta (GDot (nz ip || nz fp)) w0 inp0 -> (e0 = true -> inp0 = []) ->
         outcome (GDot (nz ip || nz fp)) (mtext true ip fp) sgn inp0 w0 (fch v)
           (if nz ip || nz fp then Some (Got v inp0 (fch v)) else Some (Fail e0 inp0))).
  1,3: intros inp0 w0 e0 W0 ST E0; rewrite <- nz_app in *; destruct (nz (ip ++ fp)) eqn:NZ;
       [destruct (got_mant sgn true ip fp v N X (nz_true _ NZ)); eapply out_got; eauto
       |apply out_fail; auto; apply nz_false in NZ; apply app_eq_nil in NZ; destruct NZ as (-> & ->); exists [48]; eexists;
        rewrite <- (app_nil_r (_ ++ [48])); apply (form_mant true [] [48] [] 0); [constructor|apply zero_digit|discriminate|discriminate|auto]].
  - fstep. fend W (or_intror eq_refl : at_end (fw v) []). fstep.
    replace (stop || (EOF >=? 0)) with stop by (now rewrite orb_false_r). rewrite GG, negb_involutive, andb_false_l.
    apply STOP; [exact W|left; right; reflexivity|reflexivity].
  - pose proof (Forall_inv FB) as B; pose proof (Forall_inv_tail FB) as FB'. destruct (read_cases (fw v) (c :: t) W) as [AE|(c0 & t0 & Q & PW)].
    + fstep. fend W AE. fstep. replace (stop || (EOF >=? 0)) with stop by (now rewrite orb_false_r). rewrite GG, negb_involutive, andb_false_l.
      apply STOP; [exact W|left; exact AE|]. destruct stop; [discriminate|]. intros _. now apply EST.
    + injection Q as <- <-. fstep. turn c t v PW B. cbn [hd] in SZ. destruct (is_dec c) eqn:DC.
      * apply (out_step _ (GDot true)); [exact PW|cbn [gdelta]; now rewrite DC|].
        replace (mtext true ip fp ++ [c]) with (mtext true ip (fp ++ [c])) by (unfold mtext; now rewrite <- app_assoc).
        change MAX_CONST_DIGITS with 112.
        set (v2 := set_num (take_f v) _ _ _ _). change (fw v - 1) with (fw v2). change (fch v + 1) with (fch v2).
        replace true with (nz ip || nz (fp ++ [c])) at 1 by (rewrite nz_snoc; apply orb_true_r).
        pose proof N as (N1 & N2 & N3 & N4 & N5 & N6).
        apply (IH FB' fuel v2 (fp ++ [c])); try assumption.
        -- split; [exact N1|]. split; [exact N2|]. split; [|split; [exact N4|split; [now apply dec_snoc|discriminate]]].
           rewrite mant_frac by exact SZ. rewrite <- N3. reflexivity.
        -- cbn. lia.
        -- now rewrite nz_snoc.
        -- destruct SZ as [SZ|SZ]; [left; exact SZ|right; left]. rewrite strip_snoc by exact SZ. destruct (strip fp); discriminate.
        -- cbn. lia.
        -- cbn [length] in FU. lia.
      * rewrite GG, negb_involutive. destruct ((upper c =? 69) && (nz ip || nz fp)) eqn:UE.
        -- apply andb_prop in UE. destruct UE as (UE & NZ). apply Z.eqb_eq in UE. rewrite <- nz_app in NZ.
           apply (out_step _ GE); [exact PW|cbn [gdelta]; rewrite DC, UE, <- nz_app, NZ; reflexivity|].
           set (v2 := set_exp (take_f v) _ _ _). change (fw v - 1) with (fw v2). change (fch v + 1) with (fch v2).
           destruct X as (X1 & X2). apply phase_exp_sign; try assumption; [now apply upper_e|now apply nz_true|reflexivity|cbn; lia|cbn [length] in FU; lia].
        -- rewrite orb_true_r. cbn [negb]. apply STOP; [lia| |discriminate].
           right. exists c, t. split; [reflexivity|]. cbn [gdelta]. now rewrite DC, UE.
Qed.

Lemma phase_frac0 sgn ip inp : Forall byte inp -> strip ip = [] -> forall fuel v fp, numv sgn true ip fp v -> noexp v -> strip fp = [] ->
  0 <= fgotint v -> 0 <= fgotfrct v -> (fgotint v =? 0) = negb (nz ip) -> (fgotfrct v =? 0) = negb (nz fp) ->
  0 <= fw v -> (length inp + 3 < fuel)%nat ->
  outcome (GDot (nz ip || nz fp)) (mtext true ip fp) sgn inp (fw v) (fch v) (float_loop fuel F_FRCT_0 inp v).
Proof.
  intros FB SI. induction inp as [|c t IH]; intros fuel v fp N X SF P1 P2 G1 G2 W FU; (destruct fuel as [|fuel]; [lia|]).
  all: assert (GG : (Z.lor (fgotint v) (fgotfrct v) =? 0) = negb (nz ip || nz fp)) by
    (rewrite negb_orb, <- G1, <- G2; destruct (Z.eqb_spec (fgotint v) 0) as [->|A]; [rewrite Z.lor_0_l; reflexivity|];
     cbn [andb]; apply Z.eqb_neq; intros Q; apply Z.lor_eq_0_iff in Q; tauto).
  all: assert (STOP : forall inp0 w0 e0, 0 <= w0 -> stuck gdelta (GDot (nz ip || nz fp)) w0 inp0 -> (e0 = true -> inp0 = []) ->
         outcome (GDot (nz ip || nz fp)) (mtext true ip fp) sgn inp0 w0 (fch v)
           (if nz ip || nz fp then Some (Got v inp0 (fch v)) else Some (Fail e0 inp0))).
  1,3: intros inp0 w0 e0 W0 ST E0; rewrite <- nz_app in *; destruct (nz (ip ++ fp)) eqn:NZ;
       [destruct (got_mant sgn true ip fp v N X (nz_true _ NZ)); eapply out_got; eauto
       |apply out_fail; auto; apply nz_false in NZ; apply app_eq_nil in NZ; destruct NZ as (-> & ->); exists [48]; eexists;
        rewrite <- (app_nil_r (_ ++ [48])); apply (form_mant true [] [48] [] 0); [constructor|apply zero_digit|discriminate|discriminate|auto]].
  - fstep. fend W (or_intror eq_refl : at_end (fw v) []). fstep.
    change (EOF =? 48) with false. change (EOF <? 0) with true. cbv iota. rewrite GG, negb_involutive.
    apply STOP; [exact W|left; right; reflexivity|reflexivity].
  - pose proof (Forall_inv FB) as B; pose proof (Forall_inv_tail FB) as FB'. destruct (read_cases (fw v) (c :: t) W) as [AE|(c0 & t0 & Q & PW)].
    + fstep. fend W AE. fstep. change (EOF =? 48) with false. change (EOF <? 0) with true. cbv iota. rewrite GG, negb_involutive.
      apply STOP; [exact W|left; exact AE|]. destruct stop; [discriminate|]. intros _. now apply EST.
    + injection Q as <- <-. fstep. turn c t v PW B. pose proof N as (N1 & N2 & N3 & N4 & N5 & N6). destruct (Z.eqb_spec c 48) as [->|NZ].
      * apply (out_step _ (GDot true)); [exact PW|reflexivity|].
        replace (mtext true ip fp ++ [48]) with (mtext true ip (fp ++ [48])) by (unfold mtext; now rewrite <- app_assoc).
        set (v2 := set_num (take_f v) _ _ _ _). change (fw v - 1) with (fw v2). change (fch v + 1) with (fch v2).
        replace true with (nz ip || nz (fp ++ [48])) at 1 by (rewrite nz_snoc; apply orb_true_r).
        destruct (mant_frac_zero ip fp SI SF) as (SF' & M).
        apply (IH FB' fuel v2 (fp ++ [48])); try assumption.
        -- split; [exact N1|]. split; [exact N2|]. split; [|split; [exact N4|split; [now apply dec_snoc|discriminate]]].
           rewrite M. rewrite <- N3. reflexivity.
        -- cbn. lia.
        -- now rewrite nz_snoc.
        -- cbn. lia.
        -- cbn [length] in FU. lia.
      * apply phase_frac; try assumption; [right; right; exact NZ|cbn [length] in *; lia].
Qed.

Lemma phase_int sgn inp : Forall byte inp -> forall fuel v ip s0, numv sgn false ip [] v -> noexp v ->
  fgotint v = (if nz (strip ip) then 2 else if nz ip then 1 else 0) -> fgotfrct v = 0 ->
  strip ip <> [] \/ hd 0 inp <> 48 -> gacc s0 = nz ip ->
  (forall c t, inp = c :: t -> gdelta s0 c = if is_dec c then Some GInt else if c =? 46 then Some (GDot (nz ip)) else if (upper c =? 69) && nz ip then Some GE else None) ->
  0 <= fw v -> (length inp + 4 < fuel)%nat ->
  outcome s0 ip sgn inp (fw v) (fch v) (float_loop fuel F_INT inp v).
Proof.
  intros FB. induction inp as [|c t IH]; intros fuel v ip s0 N X G1 G2 SZ A0 H0 W FU; (destruct fuel as [|fuel]; [lia|]).
  all: assert (NS : nz (strip ip) = true -> nz ip = true) by (intros H; pose proof (strip_len ip); unfold nz in *; lia).
  all: assert (GG : negb (fgotint v =? 0) = nz ip) by (rewrite G1; destruct (nz (strip ip)); [now rewrite NS|]; now destruct (nz ip)).
  all: assert (MT : mtext false ip [] = ip) by (unfold mtext; apply app_nil_r).
  all: assert (STOP : forall inp0 w0 e0, 0 <= w0 -> stuck gdelta s0 w0 inp0 -> (e0 = true -> inp0 = []) ->
         outcome s0 ip sgn inp0 w0 (fch v) (if nz ip then Some (Got v inp0 (fch v)) else Some (Fail e0 inp0))).
  1,3: intros inp0 w0 e0 W0 ST E0; destruct (nz ip) eqn:NZ;
       [destruct (got_mant sgn false ip [] v N X ltac:(rewrite app_nil_r; exact (nz_true _ NZ))) as (F & G); rewrite MT in F, G; eapply out_got; eauto
       |apply out_fail; auto; apply nz_false in NZ; subst ip; exists [48]; eexists;
        apply (form_mant false [48] [] [] 0); [apply zero_digit|constructor|reflexivity|discriminate|auto]].
  - fstep. fend W (or_intror eq_refl : at_end (fw v) []). fstep. rewrite GG.
    change (EOF =? 46) with false. change (EOF =? 69) with false. cbn [andb]. cbv iota.
    replace (stop || (EOF >=? 0)) with stop by (now rewrite orb_false_r).
    apply STOP; [exact W|left; right; reflexivity|reflexivity].
  - pose proof (Forall_inv FB) as B; pose proof (Forall_inv_tail FB) as FB'. destruct (read_cases (fw v) (c :: t) W) as [AE|(c0 & t0 & Q & PW)].
    + fstep. fend W AE. fstep. rewrite GG. change (EOF =? 46) with false. change (EOF =? 69) with false. cbn [andb]. cbv iota.
      replace (stop || (EOF >=? 0)) with stop by (now rewrite orb_false_r).
      apply STOP; [exact W|left; exact AE|]. destruct stop; [discriminate|]. intros _. now apply EST.
    + injection Q as <- <-. fstep. turn c t v PW B. pose proof N as (N1 & N2 & N3 & N4 & N5 & N6). cbn [hd] in SZ. specialize (H0 c t eq_refl).
      destruct (is_dec c) eqn:DC.
      * apply (out_step _ GInt); [exact PW|exact H0|].
        set (v2 := if _ <? _ then _ else _). assert (W2 : fw v2 = fw v - 1 /\ fch v2 = fch v + 1) by (unfold v2; destruct (_ <? _); auto).
        destruct W2 as (W2 & C2). rewrite <- W2, <- C2. pose proof (mant_int ip c SZ) as M. rewrite <- N3 in M.
        assert (SS : strip (ip ++ [c]) <> []) by (rewrite strip_snoc by exact SZ; destruct (strip ip); discriminate).
        assert (SB : nz (strip (ip ++ [c])) = true) by (destruct (nz (strip (ip ++ [c]))) eqn:Q; [reflexivity|]; now apply nz_false in Q).
        apply (IH FB' fuel v2 (ip ++ [c]) GInt).
        -- split; [unfold v2; destruct (_ <? _); exact N1|]. split; [unfold v2; destruct (_ <? _); exact N2|].
           split; [|split; [now apply dec_snoc|split; [constructor|reflexivity]]]. rewrite M. unfold v2. change MAX_CONST_DIGITS with 112. now destruct (zlen (fds v) <? 112).
        -- unfold v2. destruct (_ <? _); exact X.
        -- rewrite SB. unfold v2. destruct (_ <? _); reflexivity.
        -- unfold v2. destruct (_ <? _); exact G2.
        -- left. exact SS.
        -- now rewrite nz_snoc.
        -- intros c0 t0 _. rewrite nz_snoc, andb_true_r. reflexivity.
        -- lia.
        -- cbn [length] in FU. lia.
      * destruct (Z.eqb_spec c 46) as [->|N46].
        -- apply (out_step _ (GDot (nz ip))); [exact PW|exact H0|].
           replace (ip ++ [46]) with (mtext true ip []) by reflexivity.
           replace (GDot (nz ip)) with (GDot (nz ip || nz [])) by (cbn; now rewrite orb_false_r).
           change (fw v - 1) with (fw (take_f v)). change (fch v + 1) with (fch (take_f v)).
           assert (N' : numv sgn true ip [] (take_f v)).
           { split; [exact N1|]. split; [exact N2|]. split; [rewrite mant_dot; exact N3|]. split; [exact N4|]. split; [constructor|reflexivity]. }
           assert (P1 : 0 <= fgotint v) by (rewrite G1; destruct (nz (strip ip)); [lia|]; destruct (nz ip); lia).
           assert (Z1 : (fgotint v =? 0) = negb (nz ip)) by (rewrite <- GG; now rewrite negb_involutive).
           destruct (nz (strip ip)) eqn:SB.
           ++ rewrite G1. change (2 =? 2) with true. cbv iota. apply phase_frac; try assumption.
              ** cbn. rewrite G2. lia.
              ** cbn. rewrite G2. reflexivity.
              ** left. now apply nz_true.
              ** cbn. lia.
              ** cbn [length] in FU. lia.
           ++ replace (fgotint v =? 2) with false by (rewrite G1; destruct (nz ip); reflexivity).
              apply phase_frac0; try assumption.
              ** now apply nz_false.
              ** reflexivity.
              ** cbn. rewrite G2. lia.
              ** cbn. rewrite G2. reflexivity.
              ** cbn. lia.
              ** cbn [length] in FU. lia.
        -- rewrite GG. destruct ((upper c =? 69) && nz ip) eqn:UE.
           ++ apply (out_step _ GE); [exact PW|exact H0|]. apply andb_prop in UE. destruct UE as (UE & NZ). apply Z.eqb_eq in UE.
              set (v2 := set_exp (take_f v) _ _ _). change (fw v - 1) with (fw v2). change (fch v + 1) with (fch v2).
              destruct X as (X1 & X2). rewrite <- MT at 1.
              apply phase_exp_sign; try assumption; [now apply upper_e|rewrite app_nil_r; now apply nz_true|reflexivity|cbn; lia|cbn [length] in FU; lia].
           ++ rewrite orb_true_r. cbn [negb]. apply STOP; [lia|right; eauto|discriminate].
Qed.

Lemma phase_zero sgn inp : Forall byte inp -> forall fuel v ip s0, numv sgn false ip [] v -> noexp v -> strip ip = [] ->
  fgotint v = (if nz ip then 1 else 0) -> fgotfrct v = 0 -> gacc s0 = nz ip ->
  (forall c t, inp = c :: t -> gdelta s0 c = if is_dec c then Some GInt else if c =? 46 then Some (GDot (nz ip)) else if (upper c =? 69) && nz ip then Some GE else None) ->
  0 <= fw v -> (length inp + 5 < fuel)%nat ->
  outcome s0 ip sgn inp (fw v) (fch v) (float_loop fuel F_LEADING_0 inp v).
Proof.
  intros FB. induction inp as [|c t IH]; intros fuel v ip s0 N X S0 G1 G2 A0 H0 W FU; (destruct fuel as [|fuel]; [lia|]).
  all: assert (GG : negb (fgotint v =? 0) = nz ip) by (rewrite G1; now destruct (nz ip)).
  all: assert (MT : mtext false ip [] = ip) by (unfold mtext; apply app_nil_r).
  all: assert (STOP : forall inp0 w0 e0, 0 <= w0 -> stuck gdelta s0 w0 inp0 -> (e0 = true -> inp0 = []) ->
         outcome s0 ip sgn inp0 w0 (fch v) (if nz ip then Some (Got v inp0 (fch v)) else Some (Fail e0 inp0))).
  1,3: intros inp0 w0 e0 W0 ST E0; destruct (nz ip) eqn:NZ;
       [destruct (got_mant sgn false ip [] v N X ltac:(rewrite app_nil_r; exact (nz_true _ NZ))) as (F & G); rewrite MT in F, G; eapply out_got; eauto
       |apply out_fail; auto; apply nz_false in NZ; subst ip; exists [48]; eexists;
        apply (form_mant false [48] [] [] 0); [apply zero_digit|constructor|reflexivity|discriminate|auto]].
  - fstep. fend W (or_intror eq_refl : at_end (fw v) []). fstep. rewrite GG.
    change (EOF =? 48) with false. change (EOF <? 0) with true. cbv iota.
    apply STOP; [exact W|left; right; reflexivity|reflexivity].
  - pose proof (Forall_inv FB) as B; pose proof (Forall_inv_tail FB) as FB'. destruct (read_cases (fw v) (c :: t) W) as [AE|(c0 & t0 & Q & PW)].
    + fstep. fend W AE. fstep. rewrite GG. change (EOF =? 48) with false. change (EOF <? 0) with true. cbv iota.
      apply STOP; [exact W|left; exact AE|]. destruct stop; [discriminate|]. intros _. now apply EST.
    + injection Q as <- <-. fstep. turn c t v PW B. pose proof N as (N1 & N2 & N3 & N4 & N5 & N6).
      destruct (Z.eqb_spec c 48) as [->|NZ].
      * apply (out_step _ GInt); [exact PW|exact (H0 48 t eq_refl)|].
        destruct (mant_int_zero ip S0) as (S1 & M).
        set (v2 := set_num (take_f v) _ _ _ _). change (fw v - 1) with (fw v2). change (fch v + 1) with (fch v2).
        apply (IH FB' fuel v2 (ip ++ [48]) GInt).
        -- split; [exact N1|]. split; [exact N2|]. split; [|split; [now apply dec_snoc|split; [constructor|reflexivity]]]. rewrite M. exact N3.
        -- exact X.
        -- exact S1.
        -- now rewrite nz_snoc.
        -- exact G2.
        -- now rewrite nz_snoc.
        -- intros c0 t0 _. rewrite nz_snoc, andb_true_r. reflexivity.
        -- cbn. lia.
        -- cbn [length] in FU. lia.
      * apply phase_int; try assumption.
        -- rewrite S0. exact G1.
        -- right. exact NZ.
        -- cbn [length] in *. lia.
Qed.

(** Words. *)
Lemma word_cases w dn rest : w = W_INF \/ w = W_NAN -> w = dn ++ rest -> rest <> [] -> dn <> [] ->
  (zlen dn =? 3) = gacc (GW rest) /\ (zlen dn = 3 -> w = W_INF /\ dn = [73; 78; 70]).
Proof.
  intros HW E NR ND. destruct HW as [-> | ->]; unfold W_INF, W_NAN in *.
  - do 9 (destruct dn as [|? dn]; [try congruence; cbn [app] in E; try (injection E as <-); subst; try congruence; try (split; [reflexivity|]; cbn; try lia; auto)|
      cbn [app] in E; try discriminate E; injection E as <- E]).
  - do 4 (destruct dn as [|? dn]; [try congruence; cbn [app] in E; try (injection E as <-); subst; try congruence; try (split; [reflexivity|]; cbn; try lia; auto)|
      cbn [app] in E; try discriminate E; injection E as <- E]).
Qed.
Lemma word_form w pre : w = W_INF \/ w = W_NAN -> Forall2 letter w pre -> exists fv, fform pre fv /\ (fv = FInf /\ w = W_INF \/ fv = FNan /\ w = W_NAN).
Proof. intros [-> | ->] F; [exists FInf; split; [now apply ff_infinity|auto]|exists FNan; split; [now apply ff_nan|auto]]. Qed.
Lemma F2_snoc w pre u c : Forall2 letter w pre -> letter u c -> Forall2 letter (w ++ [u]) (pre ++ [c]).
Proof. intros F L. apply Forall2_app; [exact F|]. constructor; [exact L|constructor]. Qed.
Lemma F2_self w : Forall2 letter w w.
Proof. induction w; constructor; [now left|assumption]. Qed.

Lemma phase_word sgn w inp : w = W_INF \/ w = W_NAN -> Forall byte inp -> forall fuel v dn rest pre,
  fsign v = sgn -> fword v = w -> fwidx v = zlen dn -> w = dn ++ rest -> rest <> [] -> dn <> [] -> Forall2 letter dn pre ->
  0 <= fw v -> (length inp < fuel)%nat ->
  outcome (GW rest) pre sgn inp (fw v) (fch v) (float_loop fuel F_WORD inp v).
Proof.
  intros HW FB. induction inp as [|c t IH]; intros fuel v dn rest pre SG FW IX EW NR ND F2 W FU; (destruct fuel as [|fuel]; [lia|]).
  all: destruct (word_cases w dn rest HW EW NR ND) as (WC & W3).
  all: destruct rest as [|u rest]; [congruence|].
  all: assert (ZG : zget (fword v ++ [0]) (fwidx v) = Some u) by
    (rewrite FW, IX, EW, <- app_assoc, zget_app_r by lia; rewrite Z.sub_diag; reflexivity).
  all: assert (CU : capital u) by (assert (CA : Forall capital w) by (destruct HW as [-> | ->]; repeat constructor; lia);
    rewrite EW in CA; apply Forall_app in CA; destruct CA as (_ & CA); now inversion CA).
  all: assert (STOP : forall inp0 w0, 0 <= w0 -> stuck gdelta (GW (u :: rest)) w0 inp0 ->
         outcome (GW (u :: rest)) pre sgn inp0 w0 (fch v) (if fwidx v =? 3 then Some (Got v inp0 (fch v)) else Some (Fail false inp0))).
  1,3: intros inp0 w0 W0 ST; rewrite IX; destruct (Z.eqb_spec (zlen dn) 3) as [E3|E3];
       [destruct (W3 E3) as (Q1 & Q2); rewrite Q2 in F2; apply (out_got _ _ _ _ _ _ v FInf); [exact W0|exact ST|now apply ff_inf|split; [exact SG|cbn; congruence]]
       |apply out_fail; [exact W0|exact ST|symmetry; exact WC| |discriminate];
        destruct (word_form w (pre ++ u :: rest) HW) as (fv & F & _); [rewrite EW; apply Forall2_app; [exact F2|apply F2_self]|]; eauto].
  - fstep. fend W (or_intror eq_refl : at_end (fw v) []). rewrite ZG. cbn [obind].
    unfold capital in CU. replace (EOF =? u) with false by (unfold EOF; lia). fstep. apply STOP; [exact W|left; right; reflexivity].
  - pose proof (Forall_inv FB) as B; pose proof (Forall_inv_tail FB) as FB'. destruct (read_cases (fw v) (c :: t) W) as [AE|(c0 & t0 & Q & PW)].
    + fstep. fend W AE. rewrite ZG. cbn [obind]. unfold capital in CU. replace (EOF =? u) with false by (unfold EOF; lia). fstep. apply STOP; [exact W|left; exact AE].
    + injection Q as <- <-. fstep. turn c t v PW B. rewrite ZG. cbn [obind]. destruct (Z.eqb_spec (upper c) u) as [U|U].
      * apply (out_step _ (GW rest)); [exact PW|cbn [gdelta]; now rewrite U, Z.eqb_refl|].
        assert (L : letter u c) by now apply letter_upper.
        assert (EW' : w = (dn ++ [u]) ++ rest) by (rewrite <- app_assoc; exact EW).
        assert (IX' : fwidx v + 1 = zlen (dn ++ [u])) by (rewrite zlen_app; change (zlen [u]) with 1; lia).
        rewrite FW. rewrite IX'. rewrite EW' at 1. rewrite <- (app_assoc _ rest), zget_app_r by lia. rewrite Z.sub_diag.
        destruct rest as [|u' rest]; cbn [app].
        -- change (zget [0] 0) with (Some 0). cbn [obind]. change (0 =? 0) with true. rewrite orb_true_r. cbv iota. fstep.
           set (v2 := set_word (take_f v) _ _). change (fw v - 1) with (fw v2). change (fch v + 1) with (fch v2).
           destruct (word_form w (pre ++ [c]) HW) as (fv & F & WF); [rewrite EW', app_nil_r; now apply F2_snoc|].
           apply (out_got _ _ _ _ _ _ v2 fv); [cbn; lia| |exact F|].
           ++ destruct t as [|c1 t]; [left; right; reflexivity|right; exists c1, t; auto].
           ++ split; [exact SG|]. destruct WF as [(-> & Q)|(-> & Q)]; exact Q.
        -- rewrite zget_cons_0. cbn [obind].
           assert (CU' : capital u') by (assert (CA : Forall capital w) by (destruct HW as [-> | ->]; repeat constructor; lia);
             rewrite EW' in CA; apply Forall_app in CA; destruct CA as (_ & CA); now inversion CA).
           unfold capital in CU'. replace (u' =? 0) with false by lia. cbn [orb].
           set (v2 := set_word (take_f v) _ _). change (fw v - 1) with (fw v2). change (fch v + 1) with (fch v2).
           apply (IH FB' fuel v2 (dn ++ [u])); try assumption; [reflexivity|reflexivity|discriminate|destruct dn; discriminate|now apply F2_snoc|cbn; lia|cbn [length] in FU; lia].
      * fstep. apply STOP; [lia|]. right. exists c, t. split; [reflexivity|]. cbn [gdelta]. now replace (upper c =? u) with false by lia.
Qed.

(** After the sign, and the whole. *)
Definition freshv (w ch sgn : Z) : fvars := FV w ch [] 0 sgn [] 0 0 0 0 0 0.
Lemma phase_body sgn inp : Forall byte inp -> forall fuel w ch, 0 <= w -> (length inp + 6 < fuel)%nat ->
  outcome G1 [] sgn inp w ch (float_loop fuel F_INF_NAN inp (freshv w ch sgn)).
Proof.
  intros FB fuel w ch W FU. destruct fuel as [|fuel]; [lia|]. set (v := freshv w ch sgn).
  destruct (read_cases w inp W) as [AE|(c & t & -> & PW)].
  - fstep. fend (W : 0 <= fw v) (AE : at_end (fw v) inp). cbn.
    apply out_fail; [exact W|left; exact AE|reflexivity| |destruct stop; [discriminate|]; intros _; now apply EST].
    exists [48]. eexists. apply (form_mant false [48] [] [] 0); [apply zero_digit|constructor|reflexivity|discriminate|auto].
  - pose proof (Forall_inv FB) as B; pose proof (Forall_inv_tail FB) as FB'. change w with (fw v) in PW. fstep. turn c t v PW B.
    cbn [length] in FU.
    destruct (Z.eqb_spec (upper c) 73) as [U|U]; [|destruct (Z.eqb_spec (upper c) 78) as [U2|U2]].
    + apply (out_step _ (GW [78; 70; 73; 78; 73; 84; 89])); [exact PW|cbn [gdelta]; unfold gdelta1; now rewrite U|].
      apply (phase_word sgn W_INF t ltac:(auto) FB' fuel (set_word (take_f v) W_INF 1) [73]); try reflexivity; try discriminate; [|cbn; cbn in PW; lia|lia].
      constructor; [apply letter_upper; [lia|exact U]|constructor].
    + apply (out_step _ (GW [65; 78])); [exact PW|cbn [gdelta]; unfold gdelta1; now rewrite U2|].
      apply (phase_word sgn W_NAN t ltac:(auto) FB' fuel (set_word (take_f v) W_NAN 1) [78]); try reflexivity; try discriminate; [|cbn; cbn in PW; lia|lia].
      constructor; [apply letter_upper; [lia|exact U2]|constructor].
    + change w with (fw v). change ch with (fch v). apply (phase_zero sgn (c :: t) FB fuel v [] G1); try reflexivity.
      * split; [reflexivity|]. split; [reflexivity|]. split; [reflexivity|]. repeat (split; [constructor|]). reflexivity.
      * split; reflexivity.
      * intros c0 t0 Q. injection Q as <- <-. cbn [gdelta]. unfold gdelta1. replace (upper c =? 73) with false by lia. replace (upper c =? 78) with false by lia.
        change (nz []) with false. rewrite andb_false_r. reflexivity.
      * exact W.
      * cbn [length]. lia.
Qed.

Lemma float_loop_ok inp fuel w ch : Forall byte inp -> 0 < w -> inp <> [] -> (length inp + 7 < fuel)%nat ->
  exists C r s, inp = C ++ r /\ zlen C <= w /\ dend gdelta G0 C = Some s /\ stuck gdelta s (w - zlen C) r /\
    ((exists v' neg fv, float_seq C neg fv /\ fgood (fsign v') v' fv C /\ (fsign v' =? 45) = neg /\
        float_loop fuel F_SIGN inp (freshv w ch 0) = Some (Got v' r (ch + zlen C))) \/
     (gacc s = false /\ (exists ext neg fv, float_seq (C ++ ext) neg fv) /\
      exists e, float_loop fuel F_SIGN inp (freshv w ch 0) = Some (Fail e r) /\ (e = true -> r = []))).
Proof.
  intros FB W NE FU. destruct fuel as [|fuel]; [lia|]. destruct inp as [|c t]; [congruence|]. set (v := freshv w ch 0).
  pose proof (Forall_inv FB) as B; pose proof (Forall_inv_tail FB) as FB'. change w with (fw v) in W. fstep. turn c t v W B. cbn [length] in FU.
  assert (TX : forall sgn v' fv a b, fgood sgn v' fv b -> zlen b <= zlen a -> fgood sgn v' fv a).
  { intros sgn v' fv a b (A & G) L. split; [exact A|]. destruct fv as [| |ds e]; [exact G|exact G|].
    destruct G as (G1 & dot & ip & fp & ex & H1 & H2 & H3 & H4 & H5 & H6 & H7 & H8 & H9). split; [exact G1|]. exists dot, ip, fp, ex.
    repeat (split; [first [assumption|lia]|]). assumption. }
  destruct ((c =? 45) || (c =? 43)) eqn:SC.
  - change (set_sign (take_f v) c) with (freshv (w - 1) (ch + 1) c).
    destruct (phase_body c t FB' fuel (w - 1) (ch + 1) ltac:(cbn in W; lia) ltac:(lia)) as (C & r & s & EC & LC & DC & ST & REST).
    assert (SG : signed [c] (c =? 45)).
    { unfold signed. destruct (Z.eqb_spec c 45) as [->|]; [auto|]. replace c with 43 by lia. auto. }
    exists (c :: C), r, s. rewrite zlen_cons. split; [cbn [app]; congruence|]. split; [lia|]. split; [cbn [dend gdelta]; now rewrite SC|].
    split; [now replace (w - (1 + zlen C)) with (w - 1 - zlen C) by lia|]. cbn [app] in REST.
    destruct REST as [(v' & fv & F & G & R)|(A & (ext & fv & F) & e & R & E)].
    + left. exists v', (c =? 45), fv. pose proof (proj1 G) as SGV. split; [exists [c], C; auto|].
      split; [rewrite SGV; apply (TX c v' fv _ C G); rewrite zlen_cons; lia|]. split; [now rewrite SGV|]. rewrite R. do 2 f_equal. lia.
    + right. split; [exact A|]. split; [|exists e; auto]. exists ext, (c =? 45), fv. exists [c], (C ++ ext). auto.
  - change v with (freshv w ch 0).
    destruct (phase_body 0 (c :: t) FB fuel w ch ltac:(cbn in W; lia) ltac:(cbn [length]; lia)) as (C & r & s & EC & LC & DC & ST & REST).
    assert (SG : signed [] false) by (left; auto).
    assert (DE : gdelta G0 c = gdelta G1 c) by (cbn [gdelta]; now rewrite SC).
    exists C, r, (match C with [] => G0 | _ => s end). split; [exact EC|]. split; [lia|].
    split. { destruct C as [|c' C]; [reflexivity|]. assert (c' = c) by (cbn [app] in EC; congruence). subst c'. cbn [dend] in *. now rewrite DE. }
    assert (S1 : C = [] -> s = G1) by (intros ->; cbn [dend] in DC; congruence).
    split. { destruct C as [|c' C]; [|exact ST]. rewrite (S1 eq_refl) in ST. destruct ST as [A|(c1 & t1 & E1 & DN)]; [left; exact A|].
      right. exists c1, t1. split; [exact E1|]. cbn [app] in EC. assert (c1 = c) by congruence. subst c1. now rewrite DE. }
    cbn [app] in REST. destruct REST as [(v' & fv & F & G & R)|(A & (ext & fv & F) & e & R & E)].
    + left. exists v', false, fv. pose proof (proj1 G) as SGV. split; [exists [], C; auto|]. split; [now rewrite SGV|]. split; [now rewrite SGV|]. exact R.
    + right. split; [destruct C; [reflexivity|exact A]|]. split; [|exists e; auto]. exists ext, false, fv. exists [], (C ++ ext). auto.
Qed.
