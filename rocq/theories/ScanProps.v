(** C48: the scanf family reads, converts and stores what the standard says. *)
From Verif Require Import Base BaseLemmas CtypeModel StrtolSpec StrtolProof FloatSpec NumSpec StrtofSpec StrtofModel StrtofProof3
  ScanModel ScanSpec ScanProof ScanProof2 ScanProof3 ScanProof4 ScanProof5 ScanProof6.

Ltac Zify.zify_post_hook ::= idtac.

(** Every format of the directives of ScanSpec (see there for %% and %n), every input of up to 2^30
    characters.  The value returned is the documented one, except that EOF is returned where an input item
    that was cut short by the end of the input is the first one. *)
Theorem C48_scan_partial l inp args : Forall legal l -> percent_ok false l -> Forall byte inp -> zlen inp <= 2 ^ 30 -> needs l <= zlen args ->
  exists ret rest out, doscan (format l ++ [0]) inp args = Some (ret, rest, out) /\
    (count_ok false l \/ rest <> [] -> exists n st, scans 112 l inp 0 args n out st rest /\
      (ret = returned n st \/ (n = 0 /\ st = Mismatch /\ rest = [] /\ ret = -1))).
Proof.
  intros LG PO FB LI ND. destruct (doscan_ok l inp args LG PO FB LI ND) as (ret & rest & out & R & _ & G).
  exists ret, rest, out. split; [exact R|]. exact G.
Qed.

(** Whatever %n: no character is lost or made up, no store is made outside of what was asked for, nothing
    goes wrong. *)
Theorem C48_safe l inp args : Forall legal l -> percent_ok false l -> Forall byte inp -> zlen inp <= 2 ^ 30 -> needs l <= zlen args ->
  exists ret rest out pre, doscan (format l ++ [0]) inp args = Some (ret, rest, out) /\ inp = pre ++ rest.
Proof.
  intros LG PO FB LI ND. destruct (doscan_ok l inp args LG PO FB LI ND) as (ret & rest & out & R & (pre & P) & _). eauto 6.
Qed.

(** ** The specification determines the result *)
Lemma app_len_eq (a b c d : list Z) : a ++ b = c ++ d -> zlen a = zlen c -> a = c /\ b = d.
Proof.
  revert c. induction a as [|x a IH]; intros [|y c] E L; cbn [app] in E.
  - auto.
  - rewrite zlen_cons in L. pose proof (zlen_nonneg c). change (zlen (@nil Z)) with 0 in L. lia.
  - rewrite zlen_cons in L. pose proof (zlen_nonneg a). change (zlen (@nil Z)) with 0 in L. lia.
  - rewrite !zlen_cons in L. injection E as -> E. destruct (IH c E ltac:(lia)) as (-> & ->). auto.
Qed.
Lemma item_unique k n inp a r a' r' : input_item k n inp a r -> input_item k n inp a' r' -> a = a' /\ r = r'.
Proof.
  intros (E & F & C & M) (E' & F' & C' & M'). pose proof (M a' r' E' F' C'). pose proof (M' a r E F C).
  apply app_len_eq; [congruence|lia].
Qed.
Lemma skips_unique inp a r a' r' : skips inp a r -> skips inp a' r' -> a = a' /\ r = r'.
Proof.
  intros (E & F & N) (E' & F' & N'). subst inp. revert a' F' E'. induction a as [|x a IH]; intros [|y a'] F' E'; cbn [app] in *.
  - auto.
  - exfalso. apply N. rewrite E'. exact (Forall_inv F').
  - exfalso. apply N'. rewrite <- E'. exact (Forall_inv F).
  - injection E' as -> E'. destruct (IH (Forall_inv_tail F) a' (Forall_inv_tail F') E') as (-> & ->). auto.
Qed.
Lemma leading_unique k inp a r a' r' : leading k inp a r -> leading k inp a' r' -> a = a' /\ r = r'.
Proof. destruct k; cbn [leading]; try apply skips_unique; intros (-> & <-) (-> & <-); auto. Qed.
Lemma width_unique w n n' : has_width w n -> has_width w n' -> n = n'.
Proof.
  destruct n as [n|], n' as [n'|]; cbn [has_width]; auto.
  - intros (_ & V) (_ & V'). apply value_fun in V. apply value_fun in V'. congruence.
  - intros (N & _) E. congruence.
  - intros E (N & _). congruence.
Qed.
Theorem C48_unique exact l inp k args n out st rest n' out' st' rest' :
  scans exact l inp k args n out st rest -> scans exact l inp k args n' out' st' rest' -> n = n' /\ st = st' /\ rest = rest'.
Proof.
  intros H. revert n' out' st' rest'.
  induction H; intros n' out' st' rest1 H'; inversion H'; subst; auto; try congruence;
    repeat match goal with
    | A : skips ?i _ _, B : skips ?i _ _ |- _ => destruct (skips_unique _ _ _ _ _ A B) as (? & ?); subst; clear B
    | A : leading ?k ?i _ _, B : leading ?k ?i _ _ |- _ => destruct (leading_unique _ _ _ _ _ _ A B) as (? & ?); subst; clear B
    | A : has_width ?i _, B : has_width ?i _ |- _ => pose proof (width_unique _ _ _ A B); subst; clear B
    | A : input_item ?k ?n ?i _ _, B : input_item ?k ?n ?i _ _ |- _ => destruct (item_unique _ _ _ _ _ _ _ A B) as (? & ?); subst; clear B
    end; try congruence; try contradiction; auto.
  all: match goal with IH : forall _ _ _ _, _ -> _, B : scans _ _ _ _ _ _ _ _ _ |- _ => destruct (IH _ _ _ _ B) as (? & ? & ?); subst; auto end.
Qed.

(** The value of a number is determined by its text. *)
Theorem C48_value_unique base l v v' : int_bases base -> int_seq base l v -> int_seq base l v' -> v = v'.
Proof.
  intros HB (sg & neg & pfx & b & ds & m & E & SG & NE & F & V & EV & X) (sg' & neg' & pfx' & b' & ds' & m' & E' & SG' & NE' & F' & V' & EV' & X').
  subst l.
  assert (SD : forall p d bb, d <> [] -> Forall (is_digit bb) d ->
     ((exists x, (x = 120 \/ x = 88) /\ p = [48; x] /\ (base = 0 \/ base = 16) /\ bb = 16) \/ (p = [] /\ ((base <> 0 /\ bb = base) \/
                   (base = 0 /\ starts_with (fun c => c = 48) d /\ bb = 8) \/
                   (base = 0 /\ ~ starts_with (fun c => c = 48) d /\ bb = 10)))) ->
     exists c t, p ++ d = c :: t /\ c <> 43 /\ c <> 45).
  { intros p d bb ND FD [(x & _ & -> & _)|(-> & _)]; [exists 48, (x :: d); cbn; auto with zarith|]. destruct d as [|c t]; [congruence|].
    exists c, t. split; [reflexivity|]. pose proof (Forall_inv FD) as D. apply digitb_spec in D. unfold digitb, dval in D.
    split; intros ->; discriminate D. }
  destruct (SD pfx ds b NE F X) as (c & t & EC & C1 & C2). destruct (SD pfx' ds' b' NE' F' X') as (c' & t' & EC' & C1' & C2').
  assert (Q : neg = neg' /\ pfx ++ ds = pfx' ++ ds').
  { rewrite EC, EC' in *. destruct SG as [(-> & ->)|[(-> & ->)|(-> & ->)]], SG' as [(-> & ->)|[(-> & ->)|(-> & ->)]]; cbn [app] in E';
      split; congruence. }
  destruct Q as (<- & Q). clear E' EC EC'.
  assert (NX : forall x d bb, bb <= 16 -> (x = 120 \/ x = 88) -> Forall (is_digit bb) (48 :: x :: d) -> False).
  { intros x d bb B Hx FD. pose proof (Forall_inv (Forall_inv_tail FD)) as D. apply digitb_spec in D. unfold digitb, dval in D.
    destruct Hx as [-> | ->]; cbn in D; lia. }
  assert (BB : b <= 16 /\ b' <= 16) by (unfold int_bases in HB; destruct X as [(x & _ & _ & _ & ->)|(_ & [(_ & ->)|[(_ & _ & ->)|(_ & _ & ->)]])],
    X' as [(x' & _ & _ & _ & ->)|(_ & [(_ & ->)|[(_ & _ & ->)|(_ & _ & ->)]])]; lia).
  assert (S : ds = ds' /\ b = b').
  { destruct X as [(x & Hx & -> & Hb & ->)|(-> & X)], X' as [(x' & Hx' & -> & Hb' & ->)|(-> & X')]; cbn [app] in Q.
    - split; congruence.
    - exfalso. subst ds'. now apply (NX x ds b').
    - exfalso. subst ds. now apply (NX x' ds' b).
    - subst ds'. split; [reflexivity|]. intuition congruence. }
  destruct S as (<- & <-). apply value_fun in V. apply value_fun in V'. rewrite EV, EV', <- V, <- V'. reflexivity.
Qed.

(** ** Where the library departs from the standard *)
(** sscanf("-", "%d", &i): an incomplete number is a matching failure (0), but EOF is returned. *)
Definition f_d : list item := [Conv (Directive true [] SNone KD)].
Lemma legal_d : Forall legal f_d.
Proof. repeat constructor; cbn; auto. discriminate. Qed.
Theorem C48_eof_refuted : ~ forall l inp args ret rest out n out' st rest', Forall legal l -> Forall byte inp -> needs l <= zlen args ->
  doscan (format l ++ [0]) inp args = Some (ret, rest, out) -> scans 112 l inp 0 args n out' st rest' -> ret = returned n st.
Proof.
  intros H.
  destruct (C48_scan_partial f_d [45] [100]) as (ret & rest & out & R & G);
    [exact legal_d|exact I|repeat constructor; lia|cbn; lia|cbn; lia|].
  destruct G as (n & st & S & _); [left; exact I|].
  specialize (H f_d [45] [100] ret rest out n out st rest legal_d ltac:(repeat constructor; lia) ltac:(cbn; lia) R S).
  assert (R' : doscan (format f_d ++ [0]) [45] [100] = Some (-1, [], [])) by (vm_compute; reflexivity).
  rewrite R in R'. injection R' as -> -> ->.
  assert (NL : forall ws, ~ leading KD [45] ws []).
  { intros ws (E & F & _). rewrite app_nil_r in E. subst ws. apply Forall_inv in F. unfold is_space in F. lia. }
  inversion S; subst; cbn [knd] in *; try (eapply NL; eassumption).
  - discriminate H.
  - match goal with A : scans _ [] _ _ _ _ _ _ _ |- _ => inversion A; subst; cbn in *; discriminate end.
Qed.

(** sscanf("ab", "%3c", p): the same. *)
Definition f_c : list item := [Conv (Directive true [51] SNone KC)].
Theorem C48_eof_char_refuted : ~ forall l inp args ret rest out n out' st rest', Forall legal l -> Forall byte inp -> needs l <= zlen args ->
  doscan (format l ++ [0]) inp args = Some (ret, rest, out) -> scans 112 l inp 0 args n out' st rest' -> ret = returned n st.
Proof.
  intros H. assert (LC : Forall legal f_c).
  { apply Forall_cons; [|constructor]. split; [|split; [exact I|reflexivity]]. right. split; [repeat constructor; apply digitb_spec; reflexivity|]. exists 3. split; [|lia].
    apply (value_exists 10 [51]). repeat constructor. now apply digitb_spec. }
  destruct (C48_scan_partial f_c [97; 98] [100]) as (ret & rest & out & R & G);
    [exact LC|exact I|repeat constructor; lia|cbn; lia|cbn; lia|].
  destruct G as (n & st & S & _); [left; exact I|].
  specialize (H f_c [97; 98] [100] ret rest out n out st rest LC ltac:(repeat constructor; lia) ltac:(cbn; lia) R S).
  assert (R' : doscan (format f_c ++ [0]) [97; 98] [100] = Some (-1, [], [PutChars 100 [97; 98]])) by (vm_compute; reflexivity).
  rewrite R in R'. injection R' as -> -> ->.
  inversion S; subst; cbn [knd leading] in *; try (match goal with A : _ /\ _ = [] |- _ => destruct A; discriminate end);
    try discriminate H; match goal with A : scans _ [] _ _ _ _ _ _ _ |- _ => inversion A; subst; cbn in *; discriminate end.
Qed.

(** sscanf(" %", "%%"): white space must be skipped. *)
Theorem C48_percent_refuted : exists ret rest out, doscan (format [Percent] ++ [0]) [32; 37] [] = Some (ret, rest, out) /\
  rest = [32; 37] /\ scans 112 [Percent] [32; 37] 0 [] 0 [] Done [].
Proof.
  eexists _, _, _. split; [vm_compute; reflexivity|]. split; [reflexivity|].
  apply (sc_percent 112 [] [32; 37] [32] [37]); [|repeat constructor].
  split; [reflexivity|]. split; [repeat constructor|]. cbn. unfold is_space. lia.
Qed.

(** sscanf("", " %n", &i) stores 1 where no character was read. *)
Theorem C48_count_refuted : exists ret rest out, doscan (format [White 32; Count SNone] ++ [0]) [] [100] = Some (ret, rest, out) /\
  out = [PutInt 100 4 1] /\ scans 112 [White 32; Count SNone] [] 0 [100] 0 [PutInt 100 4 0] Done [].
Proof.
  eexists _, _, _. split; [vm_compute; reflexivity|]. split; [reflexivity|].
  apply (sc_white 112 32 _ [] [] []); [split; [reflexivity|split; [constructor|cbn; auto]]|]. apply (sc_count 112 SNone [] [] 0). constructor.
Qed.

(** ** Examples *)
(** sscanf(" -12abc 0x1F.5e1 xyz", "%d%2s%*c%i %f%n", ...) *)
Definition ex_l : list item :=
  [Conv (Directive true [] SNone KD); Conv (Directive true [50] SNone KS); Conv (Directive false [] SNone KC);
   Conv (Directive true [] SH KI); White 32; Conv (Directive true [] SNone (KF 102)); Conv (Directive true [] SNone (KSet true [93; 122]))].
Definition ex_inp : list Z := [32;45;49;50;97;98;99;32;48;120;49;70;46;53;101;49;32;120;121;122].
Example C48_case : doscan (format ex_l ++ [0]) ex_inp [1; 2; 3; 4; 5] =
  Some (5, [122], [PutInt 1 4 (2 ^ 32 - 12); PutChars 2 [97; 98; 0]; PutInt 3 2 31; PutInt 4 4 1084227584; PutChars 5 [32; 120; 121; 0]]).
Proof. vm_compute. reflexivity. Qed.
Lemma ex_legal : Forall legal ex_l.
Proof.
  repeat apply Forall_cons; try apply Forall_nil; cbn; unfold width_ok; auto 10.
  - repeat split; auto; discriminate.
  - split; [|auto]. right. split; [repeat constructor; now apply digitb_spec|]. exists 2. split; [|lia].
    apply (value_exists 10 [50]). repeat constructor. now apply digitb_spec.
  - repeat split; auto; discriminate.
  - unfold is_space. auto.
  - split; [auto|]. split; [|reflexivity]. repeat split; try discriminate; repeat constructor; lia.
Qed.
Example C48_hyps : Forall legal ex_l /\ percent_ok false ex_l /\ count_ok false ex_l /\ Forall byte ex_inp /\ zlen ex_inp <= 2 ^ 30 /\ needs ex_l <= zlen [1; 2; 3; 4; 5] /\
  exists st, scans 112 ex_l ex_inp 0 [1; 2; 3; 4; 5] 5
   [PutInt 1 4 (2 ^ 32 - 12); PutChars 2 [97; 98; 0]; PutInt 3 2 31; PutInt 4 4 1084227584; PutChars 5 [32; 120; 121; 0]] st [122].
Proof.
  split; [exact ex_legal|]. split; [cbn; tauto|]. split; [cbn; tauto|]. assert (FB : Forall byte ex_inp) by (repeat constructor; lia).
  split; [exact FB|]. split; [cbn; lia|]. split; [cbn; lia|].
  destruct (C48_scan_partial ex_l ex_inp [1; 2; 3; 4; 5] ex_legal ltac:(cbn; tauto) FB ltac:(cbn; lia) ltac:(cbn; lia)) as (ret & rest & out & R & G).
  rewrite C48_case in R. injection R as <- <- <-. destruct G as (n & st & S & T); [left; cbn; tauto|].
  exists st. assert (n = 5) as ->; [|exact S]. destruct T as [T|(_ & _ & Q & _)]; [|discriminate Q]. unfold returned in T. destruct st; try lia. destruct (n =? 0); lia.
Qed.

Print Assumptions C48_scan_partial.
Print Assumptions C48_safe.
Print Assumptions C48_unique.
Print Assumptions C48_value_unique.
Print Assumptions C48_eof_refuted.
Print Assumptions C48_eof_char_refuted.
Print Assumptions C48_percent_refuted.
Print Assumptions C48_count_refuted.
