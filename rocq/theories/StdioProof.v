(** Buffered streams behave as files with a position (C36, C37, C38): proofs. *)
From Verif Require Import Base BaseLemmas LexModel LexProof IdentProof StdioModel StdioSpec.

Definition bytes (l : list Z) : Prop := Forall (fun b => 0 <= b < 256) l.

Record Inv (s : st) : Prop := mkInv {
  i_buf : match buf s with
    | None => ptr s = 0 /\ cnt s = 0
    | Some b => zlen b = bufsz s /\ 0 < bufsz s /\ 0 <= ptr s /\ 0 <= cnt s /\ ptr s + cnt s <= bufsz s /\ bytes b
    end;
  i_pos : 0 <= pos s;
  i_data : bytes (data s);
  i_mode : rd s = true -> wr s = false;
  i_idle : rd s = false -> wr s = false -> rwok s = true /\ ptr s = 0 /\ cnt s = 0;
  i_wr : wr s = true -> ptr s = 0 /\ cnt s = 0 \/ ptr s + cnt s = bufsz s;
  i_rd : rd s = true -> ptr s + cnt s <= pos s;
  i_win : rd s = true -> ungot s = false -> match buf s with None => True | Some b =>
    0 < ptr s + cnt s -> pos s <= zlen (data s) /\ firstn (Z.to_nat (ptr s + cnt s)) b = firstn (Z.to_nat (ptr s + cnt s)) (skipn (Z.to_nat (pos s - (ptr s + cnt s))) (data s)) end;
  i_eof : eof s = true -> rd s = true /\ cnt s = 0 /\ zlen (data s) <= pos s;
  i_app : app s = true -> rwok s = false /\ rd s = false;
  i_rw : rwok s = false -> rd s = true \/ wr s = true
}.

(** ** lists *)
Lemma zlen_firstn {A} (l : list A) n : 0 <= n -> n <= zlen l -> zlen (firstn (Z.to_nat n) l) = n.
Proof. unfold zlen. rewrite firstn_length. lia. Qed.
Lemma zlen_skipn {A} (l : list A) n : 0 <= n -> n <= zlen l -> zlen (skipn (Z.to_nat n) l) = zlen l - n.
Proof. unfold zlen. rewrite skipn_length. lia. Qed.
Lemma skipn_all' {A} (l : list A) n : zlen l <= n -> skipn (Z.to_nat n) l = [].
Proof. intros. apply skipn_all2. unfold zlen in *. lia. Qed.
Lemma skipn_skipn {A} a b (l : list A) : skipn a (skipn b l) = skipn (a + b) l.
Proof. revert l; induction b as [|b IH]; intros l; [rewrite Nat.add_0_r; reflexivity|]. rewrite <- plus_n_Sm. destruct l; [rewrite !skipn_nil; reflexivity|]. cbn [skipn]. apply IH. Qed.
Lemma skipn_add {A} (l : list A) a b : 0 <= a -> 0 <= b -> skipn (Z.to_nat a) (skipn (Z.to_nat b) l) = skipn (Z.to_nat (a + b)) l.
Proof. intros. rewrite skipn_skipn. f_equal. lia. Qed.
Lemma firstn_zlen0 {A} (a b : list A) : firstn (Z.to_nat (zlen a)) (a ++ b) = a.
Proof. unfold zlen. rewrite Nat2Z.id, firstn_app, Nat.sub_diag, firstn_all. cbn. apply app_nil_r. Qed.
Lemma skipn_zlen0 {A} (a b : list A) : skipn (Z.to_nat (zlen a)) (a ++ b) = b.
Proof. unfold zlen. rewrite Nat2Z.id, skipn_app, Nat.sub_diag, skipn_all. reflexivity. Qed.
Lemma cut {A} (l : list A) n : 0 <= n -> n <= zlen l -> exists a b, l = a ++ b /\ zlen a = n.
Proof. intros. exists (firstn (Z.to_nat n) l), (skipn (Z.to_nat n) l). rewrite firstn_skipn. split; [auto|]. apply zlen_firstn; auto. Qed.
Lemma bytes_firstn n l : bytes l -> bytes (firstn n l).
Proof. intros H. apply Forall_forall. intros x I. unfold bytes in H. rewrite Forall_forall in H. apply H. rewrite <- (firstn_skipn n l). apply in_or_app. auto. Qed.
Lemma bytes_skipn n l : bytes l -> bytes (skipn n l).
Proof. intros H. apply Forall_forall. intros x I. unfold bytes in H. rewrite Forall_forall in H. apply H. rewrite <- (firstn_skipn n l). apply in_or_app. auto. Qed.
Lemma bytes_app a b : bytes (a ++ b) <-> bytes a /\ bytes b.
Proof. apply Forall_app. Qed.
Lemma bytes_repeat n : bytes (repeat 0 n).
Proof. apply Forall_forall. intros x I. apply repeat_spec in I. lia. Qed.

(** ** overlay *)
Lemma overlay_nil d a : overlay d a [] = d.
Proof. reflexivity. Qed.
Lemma overlay_eq d a l : l <> [] -> overlay d a l = firstn (Z.to_nat a) d ++ repeat 0 (Z.to_nat a - length d) ++ l ++ skipn (Z.to_nat a + length l) d.
Proof. destruct l; [contradiction|reflexivity]. Qed.
Lemma overlay_app d a l1 l2 : 0 <= a -> overlay (overlay d a l1) (a + zlen l1) l2 = overlay d a (l1 ++ l2).
Proof.
  intros A. destruct l1 as [|x l1]; [rewrite zlen_nil, Z.add_0_r; reflexivity|]. destruct l2 as [|y l2]; [rewrite app_nil_r; reflexivity|].
  set (L1 := x :: l1). set (L2 := y :: l2). assert (N1 : L1 <> []) by discriminate. assert (N2 : L2 <> []) by discriminate. clearbody L1 L2.
  rewrite (overlay_eq _ _ L2 N2), (overlay_eq _ _ L1 N1), (overlay_eq _ _ (L1 ++ L2)) by (destruct L1; [contradiction|discriminate]).
  set (P := firstn (Z.to_nat a) d ++ repeat 0 (Z.to_nat a - length d)). set (T := skipn (Z.to_nat a + length L1) d).
  assert (LP : length P = Z.to_nat a) by (unfold P; rewrite app_length, firstn_length, repeat_length; lia).
  replace (Z.to_nat (a + zlen L1)) with (length (P ++ L1)) by (rewrite app_length, LP; unfold zlen; lia).
  rewrite !app_assoc. fold P. rewrite <- (app_assoc P L1 T), (app_assoc P L1 T).
  rewrite firstn_app, firstn_all, Nat.sub_diag. cbn [firstn]. rewrite app_nil_r.
  replace (length (P ++ L1) - length ((P ++ L1) ++ T))%nat with 0%nat by (rewrite (app_length (P ++ L1) T); lia). cbn [repeat]. rewrite app_nil_r.
  rewrite skipn_app. rewrite (skipn_all2 (P ++ L1)) by lia. rewrite <- !app_assoc. do 3 f_equal.
  replace (length (P ++ L1) + length L2 - length (P ++ L1))%nat with (length L2) by lia.
  rewrite app_nil_l. unfold T. rewrite skipn_skipn. f_equal. rewrite (app_length L1 L2). lia.
Qed.
Lemma overlay_bytes d a l : bytes d -> bytes l -> bytes (overlay d a l).
Proof.
  intros D L. destruct l as [|x l]; [auto|]. rewrite overlay_eq by discriminate. rewrite !bytes_app.
  repeat split; auto using bytes_firstn, bytes_skipn, bytes_repeat.
Qed.
Lemma overlay_end d l : overlay d (zlen d) l = d ++ l.
Proof.
  destruct l as [|x l]; [rewrite app_nil_r; reflexivity|]. rewrite overlay_eq by discriminate. unfold zlen. rewrite Nat2Z.id, firstn_all, Nat.sub_diag. cbn [repeat]. rewrite app_nil_l.
  f_equal. rewrite (skipn_all2 d) by lia. apply app_nil_r.
Qed.

(** ** reading *)
Ltac proj := cbn [rd wr rwok bin app ungot eof err nbf lbf buf ptr cnt bufsz data pos rsch wsch sent mem
  setRd setWr setUngot setEof setErr_ setNbf setLbf setBuf setPtr setCnt setBufsz setData setPos setRsch setWsch setSent] in *.

(** what stays the same *)
Definition same (s s' : st) : Prop := bin s' = bin s /\ rwok s' = rwok s /\ app s' = app s.
Lemma same_refl s : same s s. Proof. repeat split. Qed.
Lemma same_trans a b c : same a b -> same b c -> same a c.
Proof. unfold same. intuition congruence. Qed.
(** the system calls still to come are a suffix *)
Definition later (s s' : st) : Prop := (exists a, rsch s = a ++ rsch s') /\ wsch s' = wsch s.

Lemma rest_idle s : cnt s = 0 -> wr s = false -> rest (meaning s) = skipn (Z.to_nat (pos s)) (data s).
Proof. intros C W. unfold meaning, rest, buffered. rewrite W, C. change (Z.to_nat 0) with 0%nat. destruct (buf s); reflexivity. Qed.
(** the meaning of a state that is not writing *)
Lemma meaning_rd s : wr s = false -> app s = false ->
  meaning s = mkStream (data s) (if rd s then pos s - cnt s else pos s) (buffered s ++ skipn (Z.to_nat (pos s)) (data s)) (sent s).
Proof. intros W A. unfold meaning, pending. rewrite W, A, app_nil_r, overlay_nil. change (zlen (@nil Z)) with 0. rewrite Z.add_0_r. reflexivity. Qed.

Definition rready (s : st) : Prop := Inv s /\ wr s = false.
Lemma rready_app s : rready s -> app s = false.
Proof.
  intros [I0 W]. destruct (app s) eqn:A; [|auto]. destruct (i_app s I0 A) as [R D]. destruct (i_rw s I0 R); congruence.
Qed.

Definition gotten (s s' : st) (c : Z) : Prop :=
  0 <= c < 256 /\ exists t, rest (meaning s) = c :: t /\ meaning s' = taken 1 (meaning s) /\ 0 < ptr s' /\ rd s' = true.
Definition ended (s s' : st) (c : Z) : Prop :=
  c = EOF /\ meaning s' = meaning s /\ (rest (meaning s) = [] /\ eof s' = true /\ err s' = err s \/ readFailed s s').

Lemma fillbuf_ok s : rready s -> cnt s = 0 -> exists c s', fillbuf s = Ok (c, s') /\ rready s' /\ same s s' /\
  (exists a, rsch s = a ++ rsch s') /\ (gotten s s' c /\ err s' = err s /\ data s' = data s /\ pos s < pos s' <= zlen (data s) /\ 0 <= cnt s' < pos s' - pos s \/ ended s s' c /\ cnt s' = 0).
Proof.
  intros [I0 W] C. pose proof (rready_app s (conj I0 W)) as A. unfold fillbuf. rewrite W.
  destruct (eof s) eqn:E.
  { exists EOF, s. split; [reflexivity|]. split; [split; auto|]. split; [apply same_refl|]. split; [exists []; reflexivity|]. right. split; [|auto]. split; [auto|]. split; [auto|]. left.
    destruct (i_eof s I0 E) as (_ & _ & L). split; [rewrite rest_idle by auto; apply skipn_all'; lia|]. auto. }
  set (s1 := match buf (setRd true s) with Some _ => _ | None => _ end).
  assert (S1 : exists b, buf s1 = Some b /\ zlen b = bufsz s1 /\ 0 < bufsz s1 /\ bytes b /\ data s1 = data s /\ pos s1 = pos s /\ rsch s1 = rsch s /\ wsch s1 = wsch s /\ sent s1 = sent s /\
    rd s1 = true /\ wr s1 = false /\ rwok s1 = rwok s /\ bin s1 = bin s /\ app s1 = false /\ eof s1 = false /\ err s1 = err s).
  { unfold s1. pose proof (i_buf s I0) as B. proj. destruct (buf s) as [b|] eqn:EB; proj.
    - exists b. rewrite EB. destruct B as (B1 & B2 & _ & _ & _ & B3). repeat (split; [auto|]). auto.
    - destruct (negb (nbf s) && mem s); proj; eexists; (split; [reflexivity|]); (split; [reflexivity|]); (split; [unfold BUFSIZ; lia|]);
        (split; [first [apply bytes_repeat|repeat constructor; lia]|]); repeat (split; [auto|]); auto. }
  clearbody s1. destruct S1 as (b & B1 & B2 & B3 & B4 & D1 & D2 & D3 & D4 & D5 & F1 & F2 & F3 & F4 & F5 & F6 & F7).
  set (s2 := setPtr 0 (setUngot false s1)).
  assert (G1 : ptr s2 = 0) by reflexivity. assert (G2 : ungot s2 = false) by reflexivity.
  change (buf s2 = Some b) in B1. change (zlen b = bufsz s2) in B2. change (0 < bufsz s2) in B3. change (data s2 = data s) in D1. change (pos s2 = pos s) in D2.
  change (rsch s2 = rsch s) in D3. change (wsch s2 = wsch s) in D4. change (sent s2 = sent s) in D5. change (rd s2 = true) in F1. change (wr s2 = false) in F2.
  change (rwok s2 = rwok s) in F3. change (bin s2 = bin s) in F4. change (app s2 = false) in F5. change (eof s2 = false) in F6. change (err s2 = err s) in F7.
  clearbody s2. clear s1.
  pose proof (i_pos s I0) as P0. pose proof (i_data s I0) as DB. unfold sysRead. proj.
  set (k := hd (bufsz s2) (rsch s2)). assert (RS : exists a, rsch s = a ++ tl (rsch s2)).
  { rewrite <- D3. destruct (rsch s2) as [|x r]; [exists []; reflexivity|exists [x]; reflexivity]. }
  assert (AT : (if rd s then pos s - cnt s else pos s) = pos s) by (rewrite C; destruct (rd s); lia).
  assert (M0 : meaning s = mkStream (data s) (pos s) (skipn (Z.to_nat (pos s)) (data s)) (sent s)).
  { rewrite (meaning_rd s W A), AT. f_equal. unfold buffered. rewrite C. change (Z.to_nat 0) with 0%nat. destruct (buf s); reflexivity. }
  destruct (k <? 0) eqn:K.
  { (* the call fails *)
    change (-1 <=? 0) with true. change (-1 =? 0) with false. cbv iota. eexists _, _. split; [reflexivity|]. split; [|split; [|split; [|right; split; [|reflexivity]]]].
    - split; [|exact F2]. constructor; proj; try congruence; rewrite ?B1; auto; try lia; try congruence.
      all: try solve [repeat split; auto; lia|intros; lia|left; congruence].
    - unfold same; proj. repeat split; congruence.
    - exact RS.
    - split; [auto|]. split.
      + rewrite meaning_rd by (proj; auto). rewrite M0. unfold buffered; proj. rewrite B1, D1, D2, D5, F1. cbn. f_equal; lia.
      + right. split; [reflexivity|]. proj. rewrite <- D3. unfold k in K. destruct (rsch s2) as [|x r]; [cbn in K; lia|]. exists [], x. cbn in *. split; [auto|lia]. }
  set (m := Z.min (bufsz s2) (Z.min (Z.max 1 k) (Z.max 0 (zlen (data s2) - pos s2)))).
  assert (Hm : 0 <= m <= bufsz s2 /\ (0 < m -> pos s + m <= zlen (data s)) /\ (m = 0 -> zlen (data s) <= pos s)) by (unfold m; rewrite D1, D2; lia).
  clearbody m k. destruct Hm as (Hm1 & Hm2 & Hm3). rewrite D1, D2.
  destruct (m <=? 0) eqn:LM.
  { assert (m = 0) by lia. subst m. change (0 =? 0) with true. cbv iota. rewrite Z.add_0_r in *. eexists _, _. split; [reflexivity|]. split; [|split; [|split; [|right; split; [|reflexivity]]]].
    - split; [|exact F2]. constructor; proj; try congruence; rewrite ?B1; auto; try lia; try congruence.
      all: try solve [repeat split; auto; lia|intros; lia|left; congruence|rewrite D1; repeat split; auto; lia].
    - unfold same; proj. repeat split; congruence.
    - exact RS.
    - split; [auto|]. split.
      + rewrite meaning_rd by (proj; auto). rewrite M0. unfold buffered; proj. rewrite B1, D1, D5, F1. cbn. f_equal; lia.
      + left. rewrite M0. cbn [rest]. split; [apply skipn_all'; lia|]. split; [reflexivity|]. proj. exact F7. }
  proj. rewrite B1. cbn [inb rbind]. replace (zlen b <? m) with false by lia.
  destruct (cut (data s) (pos s)) as (pre & post & ED & LP); [lia|lia|].
  assert (EP : skipn (Z.to_nat (pos s)) (data s) = post) by (rewrite ED, <- LP; apply skipn_zlen0). rewrite EP.
  assert (LPO : zlen post = zlen (data s) - pos s) by (rewrite ED, zlen_app; lia).
  destruct (cut post m) as (x & y & EX & LX); [lia|lia|]. rewrite EX, <- LX, firstn_zlen0, LX.
  destruct x as [|c x]; [rewrite zlen_nil in LX; lia|]. cbn [List.app]. change (zget (c :: ?l) 0) with (Some c). cbn [inb rbind].
  assert (HB : bytes (data s)) by exact DB. rewrite ED, EX in HB. rewrite !bytes_app in HB. destruct HB as (HB1 & HB2 & HB3). inversion HB2 as [|? ? HC HX].
  rewrite zlen_cons in LX.
  set (nb := c :: x ++ skipn (Z.to_nat m) b).
  assert (LNB : zlen nb = bufsz s2) by (unfold nb; rewrite zlen_cons, zlen_app, zlen_skipn; lia).
  assert (SM : skipn (Z.to_nat (pos s + m)) (data s) = y).
  { replace (pos s + m) with (zlen (pre ++ c :: x)) by (rewrite zlen_app, zlen_cons; lia). rewrite ED, EX, app_assoc. apply skipn_zlen0. }
  eexists _, _. split; [reflexivity|]. split; [|split; [|split; [exact RS|left; split; [|split; [exact F7|split; [exact D1|split; [proj; lia|proj; lia]]]]]]].
  - split; [|proj; exact F2]. constructor; proj; auto; try congruence; try lia; fold nb.
    + split; [auto|]. split; [auto|]. split; [lia|]. split; [lia|]. split; [lia|]. constructor; [auto|]. apply bytes_app. split; [exact HX|apply bytes_skipn; auto].
    + intros _ _ _. rewrite D1. split; [lia|]. replace (1 + (m - 1)) with m by lia. replace (pos s + m - m) with (pos s) by lia. rewrite EP, EX.
      replace m with (zlen (c :: x)) by (rewrite zlen_cons; lia). rewrite firstn_zlen0. unfold nb. rewrite app_comm_cons, firstn_zlen0. reflexivity.
  - unfold same; proj. repeat split; congruence.
  - split; [auto|]. exists (x ++ y). rewrite M0. cbn [rest]. rewrite EP, EX. split; [reflexivity|]. split; [|proj; split; [lia|auto]].
    rewrite meaning_rd by (proj; auto). unfold taken, buffered; proj. rewrite F1, D1, D5. fold nb. cbn [content position rest log]. rewrite SM.
    change (Z.to_nat 1) with 1%nat. unfold nb. cbn [skipn]. f_equal; [lia|]. replace (m - 1) with (zlen x) by lia. rewrite firstn_zlen0. reflexivity.
Qed.

Lemma taken_0 i : taken 0 i = i.
Proof. destruct i. unfold taken. cbn. f_equal. lia. Qed.
Lemma taken_taken i a b : 0 <= a -> 0 <= b -> taken b (taken a i) = taken (a + b) i.
Proof. intros. unfold taken. cbn [content position rest log]. rewrite skipn_add by auto. f_equal; [lia|f_equal; lia]. Qed.

(** the bytes [r] were read *)
Definition steps (s s' : st) (r : list Z) : Prop :=
  rready s' /\ same s s' /\ (exists a, rsch s = a ++ rsch s') /\ (exists t, rest (meaning s) = r ++ t) /\ meaning s' = taken (zlen r) (meaning s).
Lemma steps_rest s s' r : steps s s' r -> rest (meaning s) = r ++ rest (meaning s').
Proof. intros (_ & _ & _ & (t & E) & M). rewrite M. unfold taken. cbn [rest]. rewrite E, skipn_zlen0. reflexivity. Qed.
Lemma steps_refl s : rready s -> steps s s [].
Proof. intros R. split; [auto|]. split; [apply same_refl|]. split; [exists []; reflexivity|]. split; [exists (rest (meaning s)); reflexivity|]. change (zlen (@nil Z)) with 0. rewrite taken_0. reflexivity. Qed.
Lemma steps_trans s s' s'' a b : steps s s' a -> steps s' s'' b -> steps s s'' (a ++ b).
Proof.
  intros H1 H2. pose proof (steps_rest _ _ _ H1) as R1. destruct H1 as (_ & S1 & (a1 & A1) & _ & M1), H2 as (R2 & S2 & (a2 & A2) & (t & T2) & M2).
  split; [auto|]. split; [eapply same_trans; eauto|]. split; [exists (a1 ++ a2); rewrite <- app_assoc, <- A2; auto|].
  split; [exists t; rewrite R1, T2, app_assoc; reflexivity|]. rewrite M2, M1, taken_taken, zlen_app by apply zlen_nonneg. reflexivity.
Qed.
Lemma readFailed_later s s' s'' : (exists a, rsch s = a ++ rsch s') -> readFailed s' s'' -> readFailed s s''.
Proof. intros (a & E) (F & b & k & E2 & K). split; [auto|]. exists (a ++ b), k. rewrite <- app_assoc, <- E2. auto. Qed.
(** nothing more could be read *)
Definition stops (s s' : st) : Prop := rest (meaning s') = [] /\ eof s' = true /\ err s' = err s \/ readFailed s s'.
Lemma stops_later s s' s'' r : steps s s' r -> err s' = err s -> stops s' s'' -> stops s s''.
Proof.
  intros (_ & _ & A & _) E [H|H]; [left; intuition congruence|right; eapply readFailed_later; eauto].
Qed.

Lemma fill_steps s : rready s -> cnt s = 0 -> exists c s', fillbuf s = Ok (c, s') /\
  (steps s s' [c] /\ err s' = err s /\ 0 <= c < 256 /\ 0 < ptr s' \/ c = EOF /\ steps s s' [] /\ stops s s' /\ cnt s' = 0).
Proof.
  intros R C. destruct (fillbuf_ok s R C) as (c & s' & E & R' & SA & A & H). exists c, s'. split; [auto|].
  destruct H as [((HC & t & T1 & T2 & T3 & T4) & F & _)|((EC & M & H) & C')].
  - left. split; [|split; [auto|split; auto]]. split; [auto|]. split; [auto|]. split; [auto|]. split; [exists t; auto|exact T2].
  - right. split; [auto|]. split; [|split; [|auto]].
    + split; [auto|]. split; [auto|]. split; [auto|]. split; [exists (rest (meaning s)); reflexivity|]. change (zlen (@nil Z)) with 0. rewrite taken_0. auto.
    + unfold stops. rewrite M. auto.
Qed.

Lemma takeN_ok s n : rready s -> 0 <= n <= cnt s -> exists l s', takeN n s = Ok (l, s') /\ steps s s' l /\ zlen l = n /\ err s' = err s /\ cnt s' = cnt s - n /\ (0 < n -> 0 < ptr s') /\ bytes l.
Proof.
  intros R HN. pose proof (rready_app s R) as A. unfold takeN. destruct (n =? 0) eqn:N0.
  { exists [], s. split; [auto|]. split; [apply steps_refl; auto|]. change (zlen (@nil Z)) with 0. repeat split; try lia. constructor. }
  destruct R as [I0 W]. pose proof (i_buf s I0) as B. destruct (buf s) as [b|] eqn:EB; [|lia]. destruct B as (B1 & B2 & B3 & B4 & B5 & B6). cbn [inb rbind].
  assert (RD : rd s = true). { destruct (rd s) eqn:E; [auto|]. destruct (i_idle s I0 E W). lia. }
  replace ((ptr s <? 0) || (zlen b <? ptr s + n)) with false by lia. eexists _, _. split; [reflexivity|].
  destruct (cut b (ptr s)) as (x & y & EX & LX); [lia|lia|].
  assert (LY : zlen y = bufsz s - ptr s) by (subst b; rewrite zlen_app in B1; lia).
  destruct (cut y n) as (l & z & EY & LL); [lia|lia|].
  assert (SY : skipn (Z.to_nat (ptr s)) b = y) by (rewrite EX, <- LX; apply skipn_zlen0).
  assert (SZ : skipn (Z.to_nat (ptr s + n)) b = z).
  { rewrite EX, EY, app_assoc. replace (ptr s + n) with (zlen (x ++ l)) by (rewrite zlen_app; lia). apply skipn_zlen0. }
  assert (FL : firstn (Z.to_nat n) y = l) by (rewrite EY, <- LL; apply firstn_zlen0).
  assert (FY : firstn (Z.to_nat (cnt s)) y = l ++ firstn (Z.to_nat (cnt s - n)) z).
  { rewrite EY. rewrite firstn_app. unfold zlen in LL. rewrite firstn_all2 by lia. f_equal. f_equal. lia. }
  rewrite SY, FL. split; [|proj; repeat split; auto; try lia].
  2:{ subst b y. rewrite !bytes_app in B6. tauto. }
  split; [|split; [|split; [|split]]].
  - split; [|auto]. constructor; proj; rewrite ?EB; auto; try lia; try congruence.
    + repeat split; auto; lia.
    + apply (i_pos s I0).
    + apply (i_data s I0).
    + intros _. pose proof (i_rd s I0 RD). lia.
    + intros _ U. pose proof (i_win s I0 RD U) as H. rewrite EB in H. replace (ptr s + n + (cnt s - n)) with (ptr s + cnt s) by lia. auto.
    + intros E. destruct (i_eof s I0 E). lia.
  - repeat split.
  - exists []. reflexivity.
  - exists (firstn (Z.to_nat (cnt s - n)) z ++ skipn (Z.to_nat (pos s)) (data s)). rewrite (meaning_rd s W A). cbn [rest]. unfold buffered. rewrite EB, SY, FY, app_assoc. reflexivity.
  - rewrite meaning_rd by auto. rewrite (meaning_rd s W A). unfold taken. cbn [content position rest log]. unfold buffered. proj. rewrite EB, SY, FY, SZ, LL, RD.
    f_equal; [lia|]. rewrite <- app_assoc, <- LL, skipn_zlen0. reflexivity.
Qed.

Lemma zget_skipn1 (b : list Z) p : 0 <= p -> zget b p = hd_error (skipn (Z.to_nat p) b).
Proof.
  intros P. unfold zget. destruct (p <? 0) eqn:E; [lia|]. clear. revert b. induction (Z.to_nat p) as [|n IH]; intros [|x b]; cbn; auto.
Qed.
Lemma take1_takeN s c s' : takeN 1 s = Ok ([c], s') -> take1 s = Ok (c, s').
Proof.
  unfold takeN, take1. change (1 =? 0) with false. cbv iota. destruct (buf s) as [b|]; [|discriminate]. cbn [inb rbind].
  destruct ((ptr s <? 0) || (zlen b <? ptr s + 1)) eqn:E; [discriminate|]. intros H. injection H as H1 H2.
  rewrite zget_skipn1 by lia. change (Z.to_nat 1) with 1%nat in H1. destruct (skipn (Z.to_nat (ptr s)) b) as [|x r]; [discriminate|]. injection H1 as ->. cbn [hd_error inb rbind]. rewrite H2. reflexivity.
Qed.
Lemma take1_ok s : rready s -> 0 < cnt s -> exists c s', take1 s = Ok (c, s') /\ steps s s' [c] /\ err s' = err s /\ 0 <= c < 256 /\ 0 < ptr s' /\ cnt s' = cnt s - 1.
Proof.
  intros R C. destruct (takeN_ok s 1 R ltac:(lia)) as (l & s' & E & ST & L & F & C' & P & B).
  destruct l as [|c [|d l]]; [discriminate| |rewrite !zlen_cons in L; pose proof (zlen_nonneg l); lia].
  exists c, s'. split; [apply take1_takeN; auto|]. inversion B. split; [auto|]. split; [auto|]. split; [auto|]. split; lia.
Qed.

Lemma fgetc1_ok s : rready s -> exists c s', fgetc1 s = Ok (c, s') /\
  (steps s s' [c] /\ err s' = err s /\ 0 <= c < 256 /\ 0 < ptr s' \/ c = EOF /\ steps s s' [] /\ stops s s').
Proof.
  intros R. unfold fgetc1. destruct (cnt s =? 0) eqn:C; cbn [negb].
  - destruct (fill_steps s R ltac:(lia)) as (c & s' & E & [H|(H1 & H2 & H3 & _)]); exists c, s'; (split; [auto|]); [left|right]; auto.
  - destruct (take1_ok s R) as (c & s' & E & H1 & H2 & H3 & H4 & _). { pose proof (i_buf s (proj1 R)). destruct (buf s); lia. }
    exists c, s'. split; [auto|]. left. auto.
Qed.

Definition left_ (s : st) : nat := length (rest (meaning s)).
Lemma left_ahead s : (left_ s <= ahead s \/ wr s = true)%nat.
Proof.
  destruct (wr s) eqn:W; [auto|left]. unfold left_, meaning, ahead. rewrite W. cbn [rest]. rewrite app_length, skipn_length.
  unfold buffered. destruct (buf s); [rewrite firstn_length|cbn]; lia.
Qed.
Lemma left_steps s s' r : steps s s' r -> left_ s = (length r + left_ s')%nat.
Proof. intros H. unfold left_. rewrite (steps_rest _ _ _ H), app_length. reflexivity. Qed.

Definition isCr (r : list Z) : Prop := Forall (fun c => c = 13) r.
Lemma fgetcText_ok n : forall s, rready s -> (left_ s < n)%nat -> exists c s' r, fgetcText n s = Ok (c, s') /\ isCr r /\
  (steps s s' (r ++ [c]) /\ err s' = err s /\ 0 <= c < 256 /\ c <> 13 /\ 0 < ptr s' \/ c = EOF /\ steps s s' r /\ stops s s').
Proof.
  induction n as [|n IH]; intros s R L; [lia|]. cbn [fgetcText]. destruct (fgetc1_ok s R) as (c & s1 & E & H). rewrite E. cbn [rbind].
  destruct H as [(H1 & H2 & H3 & H4)|(H1 & H2 & H3)].
  - destruct (c =? 13) eqn:C; cbn [negb].
    + pose proof (left_steps _ _ _ H1) as L1. cbn [length] in L1. destruct (IH s1) as (c' & s' & r & E' & CR & H); [apply H1|lia|].
      exists c', s', (c :: r). split; [auto|]. split; [constructor; [lia|auto]|].
      destruct H as [(G1 & G2 & G3)|(G1 & G2 & G3)].
      * left. split; [apply (steps_trans s s1 s' [c] (r ++ [c'])); auto|]. split; [congruence|auto].
      * right. split; [auto|]. split; [apply (steps_trans s s1 s' [c] r); auto|]. eapply stops_later; eauto.
    + exists c, s1, []. split; [auto|]. split; [constructor|]. left. split; [auto|]. split; [auto|]. split; [auto|]. split; [lia|auto].
  - subst c. change (negb (EOF =? 13)) with true. cbv iota. exists EOF, s1, []. split; [auto|]. split; [constructor|]. right. auto.
Qed.
Lemma filter_cr r : isCr r -> filter (fun c => negb (c =? 13)) r = [].
Proof. induction 1 as [|x r E _ IH]; [auto|]. subst x. cbn. auto. Qed.

Theorem fgetc_ok crlf s : rready s -> exists c s' r, fgetc crlf s = Ok (c, s') /\ steps s s' r /\
  (0 <= c < 256 /\ fromText (text crlf s) r = [c] /\ err s' = err s /\ 0 < ptr s' \/ c = EOF /\ fromText (text crlf s) r = [] /\ stops s s').
Proof.
  intros R. unfold fgetc. destruct (text crlf s) eqn:T; unfold fromText.
  - destruct (fgetcText_ok (S (ahead s)) s R) as (c & s' & r & E & CR & H). { destruct (left_ahead s) as [|H]; [lia|]. destruct R. congruence. }
    destruct H as [(H1 & H2 & H3 & H4 & H5)|(H1 & H2 & H3)].
    + exists c, s', (r ++ [c]). split; [auto|]. split; [auto|]. left. split; [auto|]. split; [|auto]. rewrite filter_app, filter_cr by auto. cbn. destruct (c =? 13) eqn:E2; [lia|reflexivity].
    + exists c, s', r. split; [auto|]. split; [auto|]. right. rewrite filter_cr by auto. auto.
  - destruct (fgetc1_ok s R) as (c & s' & E & [(H1 & H2 & H3 & H4)|(H1 & H2 & H3)]).
    + exists c, s', [c]. repeat (split; [auto|]). left. auto.
    + exists c, s', []. repeat (split; [auto|]). right. auto.
Qed.

(** ** fread *)
Definition part (t : bool) (s s' : st) (size size' : Z) (p p' : list Z) (stop : Prop) : Prop :=
  exists r, steps s s' r /\ p' = p ++ fromText t r /\ size' = size - zlen (fromText t r) /\ 0 <= size' /\ (size' = 0 /\ err s' = err s \/ 0 < size' /\ stop).
Lemma takeText_ok n : forall s size p, rready s -> (left_ s < n)%nat -> 0 <= size -> exists size' p' s', takeText n size p s = Ok (size', p', s') /\
  part true s s' size size' p p' (cnt s' = 0) /\ err s' = err s /\ size - size' <= cnt s - cnt s' /\ (0 < cnt s -> 0 < size -> (left_ s' < left_ s)%nat).
Proof.
  induction n as [|n IH]; intros s size p R L SZ; [lia|]. cbn [takeText].
  destruct ((cnt s =? 0) || (size =? 0)) eqn:E.
  { exists size, p, s. split; [auto|]. split; [|split; [auto|split; lia]]. exists []. split; [apply steps_refl; auto|]. cbn [fromText filter]. rewrite app_nil_r, zlen_nil. repeat split; try lia.
    destruct (size =? 0) eqn:E2; [left; split; [lia|auto]|right; split; lia]. }
  destruct (take1_ok s R) as (c & s1 & E1 & H1 & H2 & H3 & H4 & H5). { pose proof (i_buf s (proj1 R)). destruct (buf s); lia. }
  rewrite E1. cbn [rbind]. pose proof (left_steps _ _ _ H1) as L1. cbn [length] in L1.
  assert (X : forall size1 p1, size1 = size - zlen (fromText true [c]) -> p1 = p ++ fromText true [c] -> 0 <= size1 -> exists size' p' s', takeText n size1 p1 s1 = Ok (size', p', s') /\
    part true s s' size size' p p' (cnt s' = 0) /\ err s' = err s /\ size - size' <= cnt s - cnt s' /\ (0 < cnt s -> 0 < size -> (left_ s' < left_ s)%nat)).
  { intros size1 p1 ES EP S0. destruct (IH s1 size1 p1) as (size' & p' & s' & E' & (r & G1 & G2 & G3 & G4 & G5) & G6 & G8 & _); [apply H1|lia|lia|].
    exists size', p', s'. split; [auto|]. pose proof (left_steps _ _ _ G1). split; [|split; [congruence|split; [|lia]]].
    2:{ assert (zlen (fromText true [c]) <= 1) by (unfold fromText; cbn [filter]; destruct (negb (c =? 13)); rewrite ?zlen_cons; change (zlen (@nil Z)) with 0; lia). lia. }
    exists (c :: r). split; [apply (steps_trans s s1 s' [c] r); auto|].
    change (c :: r) with ([c] ++ r). unfold fromText in *. rewrite filter_app, zlen_app, app_assoc, <- EP. split; [auto|]. split; [lia|]. split; [auto|]. destruct G5 as [[G5 G7]|G5]; [left; split; [auto|congruence]|right; auto]. }
  destruct (c =? 13) eqn:C; cbn [negb]; apply X; unfold fromText; cbn [filter]; rewrite ?C; cbn [negb]; rewrite ?zlen_cons; change (zlen (@nil Z)) with 0; rewrite ?app_nil_r; auto; lia.
Qed.

Lemma freadBin_ok n : forall s size p, rready s -> (left_ s < n)%nat -> 0 <= size -> exists size' p' s', freadBin n size p s = Ok (size', p', s') /\
  part false s s' size size' p p' (stops s s').
Proof.
  induction n as [|n IH]; intros s size p R L SZ; [lia|]. cbn [freadBin].
  destruct (size =? 0) eqn:S0.
  { exists size, p, s. split; [auto|]. exists []. split; [apply steps_refl; auto|]. cbn [fromText]. rewrite app_nil_r, zlen_nil. repeat split; try lia. left. split; [lia|auto]. }
  assert (CN : 0 <= cnt s). { pose proof (i_buf s (proj1 R)). destruct (buf s); lia. }
  destruct (cnt s <? size) eqn:CS; cbn [rbind].
  - destruct (takeN_ok s (cnt s) R ltac:(lia)) as (l & s1 & E1 & H1 & H2 & H3 & H4 & _ & _). rewrite E1. cbn [rbind].
    destruct (fill_steps s1) as (c & s2 & E2 & H); [apply H1|lia|]. rewrite E2. cbn [rbind].
    destruct H as [(G1 & G2 & G3 & G4)|(G1 & G2 & G3 & _)].
    2:{ subst c. change (EOF =? EOF) with true. cbn [rbind]. eexists _, _, _. split; [reflexivity|]. exists (l ++ []). split; [eapply steps_trans; eauto|]. cbn [fromText]. rewrite app_nil_r.
      repeat split; try lia. right. split; [lia|]. eapply stops_later; eauto. }
    replace (c =? EOF) with false by (unfold EOF; lia). cbn [rbind]. pose proof (steps_trans _ _ _ _ _ H1 G1) as ST. pose proof (left_steps _ _ _ ST) as L1. rewrite app_length in L1. cbn [length] in L1.
    destruct (size - cnt s - 1 <=? cnt s2) eqn:SC.
    + destruct (takeN_ok s2 (size - cnt s - 1)) as (l2 & s3 & E3 & K1 & K2 & K3 & _); [apply G1|lia|]. rewrite E3. cbn [rbind]. eexists _, _, _. split; [reflexivity|]. exists ((l ++ [c]) ++ l2).
      split; [eapply steps_trans; eauto|]. cbn [fromText]. rewrite <- !app_assoc. split; [auto|]. split; [zl|]. split; [lia|]. left. split; [lia|congruence].
    + destruct (IH s2 (size - cnt s - 1) ((p ++ l) ++ [c])) as (size' & p' & s' & E' & (r & K1 & K2 & K3 & K4 & K5)); [apply G1|lia|lia|]. exists size', p', s'. split; [auto|]. exists ((l ++ [c]) ++ r).
      split; [eapply steps_trans; eauto|]. cbn [fromText] in *. rewrite <- !app_assoc in *. split; [auto|]. split; [zl|]. split; [auto|]. destruct K5 as [[K5 K6]|[K6 K5]]; [left; split; [auto|congruence]|right; split; [auto|]].
      eapply stops_later; eauto; congruence.
  - replace (size <=? cnt s) with true by lia. destruct (takeN_ok s size R ltac:(lia)) as (l & s1 & E1 & H1 & H2 & H3 & _). rewrite E1. cbn [rbind]. eexists _, _, _. split; [reflexivity|]. exists l. split; [auto|].
    cbn [fromText]. repeat split; try lia. left. split; [lia|auto].
Qed.

Lemma left_S s : rready s -> (left_ s < S (ahead s))%nat.
Proof. intros R. destruct (left_ahead s) as [|H]; [lia|]. destruct R. congruence. Qed.
Lemma part_trans t s s1 s' a b c p q r P Q : part t s s1 a b p q P -> err s1 = err s -> part t s1 s' b c q r Q -> (Q -> stops s1 s') -> part t s s' a c p r (stops s s').
Proof.
  intros (x & X1 & X2 & X3 & X4 & X5) E (y & Y1 & Y2 & Y3 & Y4 & Y5) HQ. exists (x ++ y). split; [eapply steps_trans; eauto|].
  replace (fromText t (x ++ y)) with (fromText t x ++ fromText t y) by (destruct t; [symmetry; apply filter_app|reflexivity]).
  rewrite app_assoc, zlen_app, <- X2. split; [auto|]. split; [lia|]. split; [auto|]. destruct Y5 as [[Y5 Y6]|[Y6 Y5]]; [left; split; [auto|congruence]|right; split; [auto|]]. eapply stops_later; eauto.
Qed.
Lemma freadText_ok n : forall s size p, rready s -> ((left_ s + 1 < n)%nat \/ size = 0 /\ (0 < n)%nat) -> 0 <= size -> exists size' p' s', freadText n size p s = Ok (size', p', s') /\
  part true s s' size size' p p' (stops s s').
Proof.
  induction n as [|n IH]; intros s size p R L SZ; [lia|]. cbn [freadText].
  destruct (size =? 0) eqn:S0.
  { exists size, p, s. split; [auto|]. exists []. split; [apply steps_refl; auto|]. cbn [fromText filter]. rewrite app_nil_r, zlen_nil. repeat split; try lia. left. split; [lia|auto]. }
  assert (CN : 0 <= cnt s). { pose proof (i_buf s (proj1 R)). destruct (buf s); lia. }
  destruct (cnt s <? size) eqn:CS; cbn [rbind].
  - destruct (takeText_ok (S (ahead s)) s size p R (left_S s R) SZ) as (z1 & p1 & s1 & E1 & P1 & F1 & D1 & _). rewrite E1. cbn [rbind].
    pose proof P1 as (r1 & H1 & H2 & H3 & H4 & H5).
    assert (CN1 : 0 <= cnt s1). { destruct H1 as ((I1 & _) & _). pose proof (i_buf s1 I1). destruct (buf s1); lia. }
    assert (C1 : cnt s1 = 0) by (destruct H5 as [[H5 _]|H5]; lia).
    destruct (fill_steps s1) as (c & s2 & E2 & H); [apply H1|lia|]. rewrite E2. cbn [rbind].
    destruct H as [(G1 & G2 & G3 & G4)|(G1 & G2 & G3 & _)].
    2:{ subst c. change (EOF =? EOF) with true. cbn [rbind]. eexists _, _, _. split; [reflexivity|]. apply (part_trans true s s1 s2 size z1 z1 p p1 p1 _ (stops s1 s2) P1 F1); [|auto].
      exists []. split; [auto|]. cbn [fromText filter]. rewrite app_nil_r, zlen_nil. split; [auto|]. split; [lia|]. split; [lia|]. right. split; [|auto]. destruct H5 as [[H5 _]|H5]; lia. }
    replace (c =? EOF) with false by (unfold EOF; lia).
    assert (X : forall z2 p2, z2 = z1 - zlen (fromText true [c]) -> p2 = p1 ++ fromText true [c] -> 0 <= z2 -> exists size' p' s',
      (let! (size0, p0, s0) := (if z2 <=? cnt s2 then takeText (S (ahead s2)) z2 p2 s2 else Ok (z2, p2, s2)) in freadText n size0 p0 s0) = Ok (size', p', s') /\ part true s s' size size' p p' (stops s s')).
    { intros z2 p2 Z2 P2 S2. pose proof (left_steps _ _ _ H1). pose proof (left_steps _ _ _ G1) as L2. cbn [length] in L2. assert (R2 : rready s2) by apply G1.
      assert (P12 : part true s1 s2 z1 z2 p1 p2 (z2 > 0)). { exists [c]. repeat (split; [auto|]). destruct (z2 =? 0) eqn:Q; [left; split; [lia|congruence]|right; split; lia]. }
      assert (Y : exists z3 p3 s3, (if z2 <=? cnt s2 then takeText (S (ahead s2)) z2 p2 s2 else Ok (z2, p2, s2)) = Ok (z3, p3, s3) /\ part true s2 s3 z2 z3 p2 p3 True /\ err s3 = err s2 /\ 0 <= z3).
      { destruct (z2 <=? cnt s2) eqn:Q.
        - destruct (takeText_ok (S (ahead s2)) s2 z2 p2 R2 (left_S s2 R2) S2) as (z3 & p3 & s3 & E3 & (r3 & K1 & K2 & K3 & K4 & K5) & F3 & _). exists z3, p3, s3. split; [auto|]. split; [|auto]. exists r3. split; [auto|]. split; [auto|]. split; [auto|]. split; [auto|]. destruct K5 as [K5|[K5 _]]; [left; auto|right; auto].
        - exists z2, p2, s2. split; [auto|]. split; [|auto]. exists []. split; [apply steps_refl; auto|]. cbn [fromText filter]. rewrite app_nil_r, zlen_nil. split; [auto|]. split; [lia|]. split; [lia|]. destruct (z2 =? 0) eqn:Q2; [left; split; [lia|auto]|right; split; [lia|exact Logic.I]]. }
      destruct Y as (z3 & p3 & s3 & E3 & P3 & F3 & S3). rewrite E3. cbn [rbind]. pose proof P3 as (r3 & K1 & _). pose proof (left_steps _ _ _ K1).
      destruct (IH s3 z3 p3) as (size' & p' & s' & E' & P'); [apply K1|lia|lia|]. exists size', p', s'. split; [auto|].
      assert (Q1 : part true s2 s' z2 size' p2 p' (stops s2 s')) by (eapply part_trans; eauto).
      assert (Q2 : part true s1 s' z1 size' p1 p' (stops s1 s')) by (eapply part_trans; eauto).
      eapply part_trans; eauto. }
    destruct (c =? 13) eqn:C; cbn [negb rbind]; apply X; unfold fromText; cbn [filter]; rewrite ?C; cbn [negb]; rewrite ?zlen_cons; change (zlen (@nil Z)) with 0; rewrite ?app_nil_r; auto; try lia.
  - replace (size <=? cnt s) with true by lia. destruct (takeText_ok (S (ahead s)) s size p R (left_S s R) SZ) as (z3 & p3 & s3 & E3 & P3 & F3 & _ & LL). rewrite E3. cbn [rbind].
    pose proof P3 as (r3 & K1 & _ & _ & K4 & K5). destruct (IH s3 z3 p3) as (size' & p' & s' & E' & P'); [apply K1| |lia|].
    { specialize (LL ltac:(lia) ltac:(lia)). lia. }
    exists size', p', s'. split; [auto|]. eapply part_trans; eauto.
Qed.

Theorem fread_ok crlf esize ecount s : rready s -> 0 < esize -> 0 < ecount -> esize * ecount < 2 ^ 31 -> exists n p s' r, fread crlf esize ecount s = Ok (n, p, s') /\
  steps s s' r /\ p = fromText (text crlf s) r /\ n = zlen p / esize /\ zlen p <= esize * ecount /\ (n = ecount /\ zlen p = esize * ecount /\ err s' = err s \/ n < ecount /\ stops s s').
Proof.
  intros R HE HC HM. assert (P0 : 0 < esize * ecount) by nia. assert (LE : esize <= esize * ecount) by nia. unfold fread. rewrite u32_small by lia. replace (esize * ecount =? 0) with false by lia.
  assert (X : exists z p s', (if text crlf s then freadText else freadBin) (S (S (ahead s))) (esize * ecount) [] s = Ok (z, p, s') /\ part (text crlf s) s s' (esize * ecount) z [] p (stops s s')).
  { pose proof (left_S s R). destruct (text crlf s); [apply freadText_ok|apply freadBin_ok]; auto; lia. }
  destruct X as (z & p & s' & E & r & H1 & H2 & H3 & H4 & H5). rewrite E. cbn [rbind]. cbn [List.app] in H2. subst p. pose proof (zlen_nonneg (fromText (text crlf s) r)).
  rewrite (u32_small (z + esize - 1)) by lia.
  assert (Q : ecount - (z + esize - 1) / esize = zlen (fromText (text crlf s) r) / esize).
  { replace (zlen (fromText (text crlf s) r)) with (esize * ecount - z) by lia. rewrite (Z.mul_comm esize ecount).
    apply Z.div_unique with (r := (ecount * esize - z) - esize * (ecount - (z + esize - 1) / esize)); [|ring]. left.
    pose proof (Z.div_mod (z + esize - 1) esize ltac:(lia)). pose proof (Z.mod_pos_bound (z + esize - 1) esize ltac:(lia)). nia. }
  assert (B : 0 <= zlen (fromText (text crlf s) r) / esize <= ecount).
  { split; [apply Z.div_pos; lia|]. apply Z.div_le_upper_bound; lia. }
  rewrite Q, u32_small by (assert (ecount <= esize * ecount) by nia; lia).
  eexists _, _, _, r. split; [reflexivity|]. split; [auto|]. split; [auto|]. split; [auto|]. split; [lia|].
  destruct (z =? 0) eqn:Z0.
  - left. split; [|split; [lia|]]. 2:{ destruct H5 as [[_ H5]|[H5 _]]; [auto|lia]. } replace (zlen (fromText (text crlf s) r)) with (ecount * esize) by lia. apply Z.div_mul. lia.
  - right. split; [|destruct H5 as [[H5 _]|[_ H5]]; [lia|auto]]. apply Z.div_lt_upper_bound; lia.
Qed.

(** ** ungetc *)
Lemma lset_mid {A} (x y : list A) z v : lset (x ++ z :: y) (length x) v = x ++ v :: y.
Proof. induction x as [|a x IH]; cbn; [auto|]. rewrite IH. reflexivity. Qed.
Lemma zset_eq (b : list Z) p v : 0 <= p < zlen b -> exists x y z, b = x ++ z :: y /\ zlen x = p /\ zget b p = Some z /\ zset b p v = Some (x ++ v :: y).
Proof.
  intros P. destruct (cut b p) as (x & y & E & L); [lia|lia|]. destruct y as [|z y]; [subst b; rewrite app_nil_r in P; lia|]. exists x, y, z. split; [auto|]. split; [auto|].
  split.
  - rewrite zget_skipn1 by lia. rewrite E, <- L, skipn_zlen0. reflexivity.
  - rewrite zset_Some by auto. rewrite E. replace (Z.to_nat p) with (length x) by (unfold zlen in L; lia). rewrite lset_mid. reflexivity.
Qed.
Lemma firstn_S_cons {A} n (x : A) l : 0 <= n -> firstn (Z.to_nat (n + 1)) (x :: l) = x :: firstn (Z.to_nat n) l.
Proof. intros. replace (Z.to_nat (n + 1)) with (S (Z.to_nat n)) by lia. reflexivity. Qed.

Theorem ungetc_ok c s : rready s -> exists r s', ungetc c s = Ok (r, s') /\ rready s' /\ same s s' /\ rsch s' = rsch s /\ err s' = err s /\
  (r = EOF /\ s' = s /\ (c = EOF \/ ptr s = 0) \/ r = u8 c /\ c <> EOF /\ 0 < ptr s /\ meaning s' = pushed (u8 c) (meaning s) /\ eof s' = false).
Proof.
  intros R. pose proof (rready_app s R) as A. unfold ungetc. destruct (c =? EOF) eqn:C.
  { exists EOF, s. split; [auto|]. split; [auto|]. split; [apply same_refl|]. split; [auto|]. split; [auto|]. left. repeat split; auto. left. lia. }
  destruct (ptr s =? 0) eqn:P.
  { exists EOF, s. split; [auto|]. split; [auto|]. split; [apply same_refl|]. split; [auto|]. split; [auto|]. left. repeat split; auto. right. lia. }
  destruct R as [I0 W]. pose proof (i_buf s I0) as B. destruct (buf s) as [b|] eqn:EB; [|lia]. destruct B as (B1 & B2 & B3 & B4 & B5 & B6). proj. rewrite EB. cbn [inb rbind].
  assert (RD : rd s = true). { destruct (rd s) eqn:E; [auto|]. destruct (i_idle s I0 E W). lia. }
  destruct (zset_eq b (ptr s - 1) (u8 c)) as (x & y & z & E1 & E2 & E3 & E4); [lia|]. rewrite E3. cbn [inb rbind].
  assert (U : 0 <= u8 c < 256) by (unfold u8; apply Z.mod_pos_bound; lia).
  pose proof (i_rd s I0 RD) as IR.
  set (s1 := setCnt (cnt s + 1) (setPtr (ptr s - 1) s)).
  set (s2 := if negb (z =? u8 c) then setUngot true (setBuf (Some (x ++ u8 c :: y)) s1) else s1).
  assert (ES : (let! s0 := (if negb (z =? u8 c) then let! b0 := inb (zset b (ptr s - 1) (u8 c)) in Ok (setUngot true (setBuf (Some b0) s1)) else Ok s1) in Ok (u8 c, setEof false s0)) = Ok (u8 c, setEof false s2)).
  { rewrite E4. unfold s2. destruct (negb (z =? u8 c)); reflexivity. }
  rewrite ES. clear ES.
  assert (H : buf s2 = Some (x ++ u8 c :: y)). { unfold s2. destruct (z =? u8 c) eqn:Z0; cbn [negb]; [|reflexivity]. unfold s1. proj. rewrite EB, E1. replace z with (u8 c) by lia. reflexivity. }
  assert (G : rd s2 = true /\ wr s2 = false /\ app s2 = false /\ ptr s2 = ptr s - 1 /\ cnt s2 = cnt s + 1 /\ bufsz s2 = bufsz s /\ data s2 = data s /\ pos s2 = pos s /\ sent s2 = sent s /\ same s s2 /\ rsch s2 = rsch s /\ err s2 = err s /\
     (ungot s2 = false -> ungot s = false /\ x ++ u8 c :: y = b)).
  { unfold s2, same. destruct (z =? u8 c) eqn:Z0; cbn [negb]; unfold s1; proj; repeat split; auto; try discriminate. rewrite E1. f_equal. f_equal. lia. }
  clearbody s2 s1. destruct G as (G1 & G2 & G3 & G4 & G5 & G6 & G7 & G8 & G9 & G10 & G11 & G12 & G13).
  assert (LB : zlen (x ++ u8 c :: y) = zlen b) by (rewrite E1, !zlen_app, !zlen_cons; lia).
  assert (BB : bytes (x ++ u8 c :: y)). { rewrite E1 in B6. rewrite !bytes_app in *. destruct B6 as [B6 B7]. inversion B7. split; [auto|constructor; auto]. }
  eexists _, _. split; [reflexivity|]. split; [|split; [|split; [auto|split; [auto|right]]]].
  - split; [|exact G2]. constructor; proj; rewrite ?H, ?G1, ?G2, ?G3, ?G4, ?G5, ?G6, ?G7, ?G8; auto; try congruence; try lia.
    + repeat split; auto; lia.
    + apply (i_data s I0).
    + intros _ U0. destruct (G13 U0) as [U1 U2]. pose proof (i_win s I0 RD U1) as IW. rewrite EB in IW. rewrite U2. replace (ptr s - 1 + (cnt s + 1)) with (ptr s + cnt s) by lia. exact IW.
  - exact G10.
  - split; [auto|]. split; [unfold EOF in *; lia|]. split; [lia|]. split; [|reflexivity]. rewrite meaning_rd by (proj; auto). rewrite (meaning_rd s W A). unfold pushed, buffered. proj. cbn [content position rest log].
    rewrite H, EB, G1, RD, G4, G5, G7, G8, G9. f_equal; [lia|]. rewrite <- E2, skipn_zlen0. rewrite firstn_S_cons by lia. cbn [List.app]. f_equal. f_equal. f_equal.
    rewrite E1. replace (ptr s) with (zlen (x ++ [z])) by (rewrite zlen_app, zlen_cons; change (zlen (@nil Z)) with 0; lia). change (z :: y) with ([z] ++ y). rewrite app_assoc, skipn_zlen0. reflexivity.
Qed.

(** ** writing *)
Definition wready (s : st) : Prop := Inv s /\ rd s = false.
Definition base (s : st) : Z := if app s then zlen (data s) else pos s.
Lemma overlay_len d l : zlen (overlay d (zlen d) l) = zlen d + zlen l.
Proof. rewrite overlay_end, zlen_app. reflexivity. Qed.
Lemma base_nonneg s : Inv s -> 0 <= base s.
Proof. intros I0. unfold base. destruct (app s); [apply zlen_nonneg|apply (i_pos s I0)]. Qed.
Lemma meaning_wr s : wready s -> meaning s = let c := overlay (data s) (base s) (pending s) in let p := base s + zlen (pending s) in mkStream c p (skipn (Z.to_nat p) c) (sent s ++ pending s).
Proof.
  intros [I0 R]. unfold meaning, base. rewrite R. destruct (app s) eqn:A.
  - rewrite overlay_len. assert (W : wr s = true). { destruct (i_app s I0 A) as [Q _]. destruct (i_rw s I0 Q); [congruence|auto]. } rewrite W. reflexivity.
  - destruct (wr s) eqn:W; [reflexivity|]. destruct (i_idle s I0 R W) as (_ & P & C). unfold buffered, pending. rewrite W, C. change (Z.to_nat 0) with 0%nat. cbn [firstn]. change (zlen (@nil Z)) with 0. rewrite overlay_nil, Z.add_0_r.
    destruct (buf s); reflexivity.
Qed.
Lemma meaning_put s s' l : wready s -> wready s' -> app s' = app s -> overlay (data s') (base s') (pending s') = overlay (data s) (base s) (pending s ++ l) ->
  base s' + zlen (pending s') = base s + zlen (pending s) + zlen l -> sent s' ++ pending s' = sent s ++ pending s ++ l -> meaning s' = written (app s) l (meaning s).
Proof.
  intros W W' A H1 H2 H3. rewrite (meaning_wr s W), (meaning_wr s' W'). cbv zeta. unfold written. cbn [content position rest log]. rewrite H1, H2, H3, app_assoc.
  assert (E : (if app s then zlen (overlay (data s) (base s) (pending s)) else base s + zlen (pending s)) = base s + zlen (pending s)).
  { unfold base. destruct (app s); [rewrite overlay_len|]; reflexivity. }
  rewrite E, overlay_app by (apply base_nonneg, W). reflexivity.
Qed.
Lemma written_nil s : wready s -> written (app s) [] (meaning s) = meaning s.
Proof. intros W. symmetry. apply meaning_put; auto; rewrite ?app_nil_r; auto. change (zlen (@nil Z)) with 0. lia. Qed.
Lemma written_app a x y i : a = true \/ 0 <= position i -> written a y (written a x i) = written a (x ++ y) i.
Proof.
  intros H. unfold written. cbn [content position rest log]. destruct a.
  - rewrite !overlay_end, <- app_assoc, <- (app_assoc (log i)), !zlen_app, Z.add_assoc. reflexivity.
  - destruct H as [H|H]; [discriminate|]. rewrite overlay_app, zlen_app, <- (app_assoc (log i)), Z.add_assoc by auto. reflexivity.
Qed.
Lemma position_nonneg s : wready s -> 0 <= position (meaning s).
Proof. intros W. rewrite (meaning_wr s W). cbn [position]. pose proof (base_nonneg s (proj1 W)). pose proof (zlen_nonneg (pending s)). lia. Qed.

(** the write calls made *)
Definition wrote (s s' : st) : Prop := exists a, wsch s = a ++ wsch s'.
Lemma wrote_refl s : wrote s s. Proof. exists []. reflexivity. Qed.
Lemma wrote_trans a b c : wrote a b -> wrote b c -> wrote a c.
Proof. intros (x & X) (y & Y). exists (x ++ y). rewrite <- app_assoc, <- Y. auto. Qed.

Definition puts (s s' : st) (l : list Z) : Prop := meaning s' = written (app s) l (meaning s) /\ err s' = err s.
Definition wfail (s s' : st) : Prop := buf s' <> None /\ writeFailed s s'.
Definition keeps (s s' : st) : Prop := wready s' /\ same s s' /\ wrote s s' /\ nbf s' = nbf s /\ (lbf s = false -> lbf s' = false) /\ (buf s <> None -> bufsz s' = bufsz s /\ buf s' <> None) /\ (err s = true -> err s' = true).
Lemma keeps_refl s : wready s -> keeps s s.
Proof. intros W. unfold keeps. split; [auto|]. split; [apply same_refl|]. split; [apply wrote_refl|]. auto. Qed.
Lemma puts_trans s s1 s2 x y : wready s -> keeps s s1 -> puts s s1 x -> puts s1 s2 y -> puts s s2 (x ++ y).
Proof.
  intros W K [M1 E1] [M2 E2]. split; [|congruence]. destruct K as (_ & (_ & _ & A) & _). rewrite M2, M1, A. apply written_app. right. apply position_nonneg. auto.
Qed.
Lemma puts_nil s s1 s2 x : wready s -> keeps s s1 -> puts s s1 x -> puts s1 s2 [] -> puts s s2 x.
Proof. intros. rewrite <- (app_nil_r x). eapply puts_trans; eauto. Qed.

(** one call of write *)
Lemma sysWrite_ok s bs : Inv s -> bs <> [] -> bytes bs -> exists w d p se ws, sysWrite bs s = (w, setSent se (setPos p (setData d (setWsch ws s)))) /\ 0 <= p /\ bytes d /\ (exists a, wsch s = a ++ ws) /\
  (w = zlen bs /\ d = overlay (data s) (base s) bs /\ (if app s then zlen d else p) = base s + zlen bs /\ se = sent s ++ bs \/
   w < zlen bs /\ exists a k, wsch s = a ++ k :: ws /\ k < zlen bs).
Proof.
  intros I0 NE BB. unfold sysWrite. set (k := hd (zlen bs) (wsch s)). proj. fold (base s).
  assert (RS : exists a, wsch s = a ++ tl (wsch s)). { destruct (wsch s) as [|x r]; [exists []; reflexivity|exists [x]; reflexivity]. }
  assert (KS : k < zlen bs -> exists a k, wsch s = a ++ k :: tl (wsch s) /\ k < zlen bs).
  { unfold k. destruct (wsch s) as [|x r]; cbn [hd tl]; [lia|]. intros. exists [], x. auto. }
  clearbody k. pose proof (base_nonneg s I0) as BN. destruct (k <? 0) eqn:K.
  - exists (-1), (data s), (pos s), (sent s), (tl (wsch s)). split; [destruct s; reflexivity|]. split; [apply (i_pos s I0)|]. split; [apply (i_data s I0)|]. split; [auto|].
    right. pose proof (zlen_nonneg bs). split; [lia|]. apply KS. lia.
  - set (l := firstn (Z.to_nat k) bs). assert (BL : bytes l) by (apply bytes_firstn; auto). eexists _, _, _, _, _. split; [reflexivity|]. split; [pose proof (zlen_nonneg l); lia|]. split; [apply overlay_bytes; [apply (i_data s I0)|auto]|]. split; [auto|].
    destruct (k <? zlen bs) eqn:KL.
    + right. split; [|apply KS; lia]. unfold l. rewrite zlen_firstn; lia.
    + left. assert (EL : l = bs) by (unfold l; apply firstn_all2; unfold zlen in KL; lia). rewrite EL. repeat split; auto.
      unfold base. destruct (app s); [rewrite overlay_len; reflexivity|reflexivity].
Qed.

Definition filed (d : list Z) (p : Z) (se ws : list Z) (s : st) : st := setSent se (setPos p (setData d (setWsch ws s))).
Lemma filed_same s : filed (data s) (pos s) (sent s) (wsch s) s = s.
Proof. destruct s. reflexivity. Qed.
Lemma inv_noeof s : wready s -> eof s = false.
Proof. intros [I0 R]. destruct (eof s) eqn:E; [|auto]. destruct (i_eof s I0 E). congruence. Qed.
Lemma inv_filed s d p se ws : wready s -> 0 <= p -> bytes d -> wready (filed d p se ws s).
Proof.
  intros W P D. pose proof (inv_noeof s W) as NE. destruct W as [I0 R]. split; [|exact R]. unfold filed. constructor; proj; auto; try congruence.
  - apply (i_buf s I0).
  - apply (i_idle s I0).
  - apply (i_wr s I0).
  - apply (i_app s I0).
  - apply (i_rw s I0).
Qed.
Lemma inv_err s e : wready s -> wready (setErr_ e s).
Proof. intros [I0 R]. split; [|exact R]. destruct I0. constructor; proj; auto. Qed.
Lemma inv_clear s : wready s -> wready (setCnt 0 (setPtr 0 s)).
Proof.
  intros W. pose proof (inv_noeof s W) as NE. destruct W as [I0 R]. split; [|exact R]. pose proof (i_buf s I0) as B. constructor; proj; auto; try congruence; try apply I0.
  - destruct (buf s); [|auto]. repeat split; try apply B; lia.
  - intros _ W. destruct (i_idle s I0 R W). auto.
Qed.
Lemma inv_unwr s : wready s -> rwok s = true -> ptr s = 0 -> cnt s = 0 -> wready (setWr false s).
Proof.
  intros W RW P C. pose proof (inv_noeof s W) as NE. destruct W as [I0 R]. split; [|exact R]. constructor; proj; auto; try congruence; try apply I0.
Qed.
Lemma firstn_pos {A} (l : list A) n : 0 < n -> n <= zlen l -> firstn (Z.to_nat n) l <> [].
Proof. intros P L E. pose proof (zlen_firstn l n ltac:(lia) L) as Q. rewrite E in Q. change (zlen (@nil A)) with 0 in Q. lia. Qed.

(** writing out the first [n] bytes of the buffer, which are the pending ones *)
Lemma write_out s b n : wready s -> wr s = true -> buf s = Some b -> ptr s = n -> n <> 0 -> exists w d p se ws, sysWrite (firstn (Z.to_nat n) b) s = (w, filed d p se ws s) /\ 0 <= p /\ bytes d /\ (exists a, wsch s = a ++ ws) /\
  (w = n /\ d = overlay (data s) (base s) (pending s) /\ (if app s then zlen d else p) = base s + zlen (pending s) /\ se = sent s ++ pending s \/
   ((w <=? 0) || negb (w =? n) = true) /\ exists a k, wsch s = a ++ k :: ws /\ k < bufsz s).
Proof.
  intros [I0 R] W E P N. pose proof (i_buf s I0) as B. rewrite E in B. destruct B as (B1 & B2 & B3 & B4 & B5 & B6).
  assert (EP : firstn (Z.to_nat n) b = pending s) by (unfold pending; rewrite W, E, P; reflexivity).
  assert (LP : zlen (pending s) = n) by (rewrite <- EP; apply zlen_firstn; lia).
  destruct (sysWrite_ok s (firstn (Z.to_nat n) b)) as (w & d & p & se & ws & H1 & H2 & H3 & H4 & H5); auto.
  { apply firstn_pos; lia. }
  { apply bytes_firstn; auto. }
  exists w, d, p, se, ws. split; [auto|]. split; [auto|]. split; [auto|]. split; [auto|]. rewrite EP, LP in H5. destruct H5 as [(K1 & K2 & K3 & K4)|(K1 & a & k & K2 & K3)].
  - left. rewrite LP. auto.
  - right. split; [lia|]. exists a, k. split; [auto|lia].
Qed.
Lemma base_filed s d p se ws : base (filed d p se ws s) = if app s then zlen d else p.
Proof. reflexivity. Qed.

Lemma fflush_ok s : Inv s -> exists r s', fflush s = Ok (r, s') /\ Inv s' /\ rd s' = rd s /\ same s s' /\ wrote s s' /\ nbf s' = nbf s /\ lbf s' = lbf s /\ bufsz s' = bufsz s /\ buf s' = buf s /\ rsch s' = rsch s /\ eof s' = eof s /\ ungot s' = ungot s /\
  (r = 0 /\ meaning s' = meaning s /\ pending s' = [] /\ err s' = err s /\ (rwok s = true -> wr s' = false) /\ (wr s = false -> s' = s) /\ (wr s = true -> ptr s' = 0 /\ cnt s' = 0) \/ r = EOF /\ wfail s s').
Proof.
  intros I0. unfold fflush. destruct (wr s) eqn:W.
  2:{ exists 0, s. do 12 (split; [auto using same_refl, wrote_refl|]). left. unfold pending. rewrite W. repeat split; auto; try discriminate. }
  assert (RD : rd s = false) by (destruct (rd s) eqn:E; [rewrite (i_mode s I0 E) in W; discriminate|auto]). assert (WS : wready s) by (split; auto).
  set (X := if negb (ptr s =? 0) then _ else _).
  assert (HX : exists bad d p se ws, X = Ok (bad, filed d p se ws s) /\ 0 <= p /\ bytes d /\ (exists a, wsch s = a ++ ws) /\
    (bad = false /\ d = overlay (data s) (base s) (pending s) /\ (if app s then zlen d else p) = base s + zlen (pending s) /\ se = sent s ++ pending s \/
     bad = true /\ buf s <> None /\ exists a k, wsch s = a ++ k :: ws /\ k < bufsz s)).
  { unfold X. destruct (ptr s =? 0) eqn:P; cbn [negb].
    - exists false, (data s), (pos s), (sent s), (wsch s). rewrite filed_same. split; [auto|]. split; [apply (i_pos s I0)|]. split; [apply (i_data s I0)|]. split; [exists []; reflexivity|]. left.
      assert (EP : pending s = []). { unfold pending. rewrite W. replace (ptr s) with 0 by lia. destruct (buf s); reflexivity. }
      rewrite EP, overlay_nil, app_nil_r. change (zlen (@nil Z)) with 0. rewrite Z.add_0_r. repeat split.
    - pose proof (i_buf s I0) as B. destruct (buf s) as [b|] eqn:E; [|lia]. cbn [inb rbind]. destruct (i_wr s I0 W) as [Q|Q]; [lia|]. replace (bufsz s - cnt s) with (ptr s) by lia.
      destruct (write_out s b (ptr s) WS W E eq_refl ltac:(lia)) as (w & d & p & se & ws & H1 & H2 & H3 & H4 & H5). rewrite H1. eexists _, d, p, se, ws. split; [reflexivity|]. do 3 (split; [auto|]).
      destruct H5 as [(K1 & K2)|(K1 & K2)]; [left|right; split; [auto|split; [discriminate|auto]]]. split; [|auto]. lia. }
  clearbody X. destruct HX as (bad & d & p & se & ws & -> & H2 & H3 & H4 & H5). cbn [rbind].
  pose proof (inv_filed s d p se ws WS H2 H3) as WF.
  destruct H5 as [(-> & K2 & K3 & K4)|(-> & NB & a & k & K2 & K3)].
  2:{ exists EOF, (setErr_ true (filed d p se ws s)). split; [auto|]. split; [apply inv_err; auto|]. split; [reflexivity|]. split; [repeat split|]. split; [exact H4|]. do 7 (split; [reflexivity|]). right. split; [auto|]. split; [exact NB|]. split; [reflexivity|].
    exists a, k, []. split; [exact K2|exact K3]. }
  set (s2 := setCnt 0 (setPtr 0 (filed d p se ws s))).
  set (s3 := if rwok s2 then setWr false s2 else s2).
  assert (W2 : wready s2) by (apply inv_clear; auto).
  assert (W3 : wready s3) by (unfold s3; destruct (rwok s2) eqn:E; [apply inv_unwr; auto|auto]).
  exists 0, s3. split; [auto|].
  assert (G : rd s3 = rd s /\ same s s3 /\ wsch s3 = ws /\ nbf s3 = nbf s /\ lbf s3 = lbf s /\ bufsz s3 = bufsz s /\ buf s3 = buf s /\ rsch s3 = rsch s /\ eof s3 = eof s /\ ungot s3 = ungot s /\ err s3 = err s /\ (rwok s = true -> wr s3 = false) /\ ptr s3 = 0 /\ cnt s3 = 0 /\ data s3 = d /\ base s3 = (if app s then zlen d else p) /\ sent s3 = se /\ app s3 = app s).
  { unfold s3, s2, filed. proj. destruct (rwok s); unfold same, base; proj; repeat split; discriminate. }
  destruct G as (G1 & G2 & G3 & G4 & G5 & G6 & G7 & G8 & G9 & G10 & G11 & G12 & G13 & G14 & G15 & G16 & G17 & G18).
  assert (EP : pending s3 = []) by (unfold pending; rewrite G13; destruct (wr s3), (buf s3); reflexivity).
  split; [apply W3|]. split; [auto|]. split; [auto|]. split; [unfold wrote; rewrite G3; auto|]. do 7 (split; [auto|]). left. split; [auto|]. split; [|split; [auto|split; [auto|split; [auto|split; [congruence|auto]]]]].
  transitivity (written (app s) [] (meaning s)); [|apply written_nil; auto]. apply meaning_put; auto; rewrite EP, ?app_nil_r, ?overlay_nil, ?G15, ?G16, ?G17; auto. change (zlen (@nil Z)) with 0. lia.
Qed.

Lemma firstn_mid (x y : list Z) c : firstn (Z.to_nat (zlen x + 1)) (x ++ c :: y) = x ++ [c].
Proof. change (c :: y) with ([c] ++ y). rewrite app_assoc. replace (zlen x + 1) with (zlen (x ++ [c])) by (rewrite zlen_app, zlen_cons; reflexivity). apply firstn_zlen0. Qed.
Lemma u8_range c : 0 <= u8 c < 256.
Proof. unfold u8. apply Z.mod_pos_bound. lia. Qed.
Lemma wr_of_cnt s : wready s -> 0 < cnt s -> wr s = true.
Proof. intros [I0 R] C. destruct (wr s) eqn:W; [auto|]. destruct (i_idle s I0 R W). lia. Qed.

Lemma putN_ok s l : wready s -> zlen l <= cnt s -> bytes l -> exists s', putN l s = Ok s' /\ keeps s s' /\ puts s s' l /\ cnt s' = cnt s - zlen l /\ wsch s' = wsch s /\ lbf s' = lbf s /\ bufsz s' = bufsz s.
Proof.
  intros WS C BL. unfold putN. destruct l as [|c l].
  { exists s. split; [auto|]. split; [apply keeps_refl; auto|]. split; [split; [rewrite written_nil; auto|auto]|]. change (zlen (@nil Z)) with 0. split; [lia|auto]. }
  set (L := c :: l) in *. assert (LP : 0 < zlen L) by (unfold L; rewrite zlen_cons; pose proof (zlen_nonneg l); lia). clearbody L. clear c l.
  assert (W : wr s = true) by (apply wr_of_cnt; auto; lia). pose proof WS as [I0 R]. pose proof (i_buf s I0) as B. destruct (buf s) as [b|] eqn:E; [|lia]. destruct B as (B1 & B2 & B3 & B4 & B5 & B6). cbn [inb rbind].
  replace ((ptr s <? 0) || (zlen b <? ptr s + zlen L)) with false by lia. destruct (i_wr s I0 W) as [Q|Q]; [lia|].
  eexists. split; [reflexivity|].
  set (nb := firstn (Z.to_nat (ptr s)) b ++ L ++ skipn (Z.to_nat (ptr s + zlen L)) b).
  assert (LN : zlen nb = zlen b) by (unfold nb; rewrite !zlen_app, zlen_firstn, zlen_skipn; lia).
  assert (BN : bytes nb) by (unfold nb; rewrite !bytes_app; auto using bytes_firstn, bytes_skipn).
  assert (W' : wready (setPtr (ptr s + zlen L) (setCnt (cnt s - zlen L) (setBuf (Some nb) s)))).
  { pose proof (inv_noeof s WS) as NE. split; [|exact R]. constructor; proj; auto; try congruence; try apply I0; try lia. repeat split; auto; lia. }
  split; [|split; [|proj; auto]].
  - unfold keeps. split; [exact W'|]. split; [repeat split|]. split; [exists []; reflexivity|]. proj. split; [auto|]. split; [auto|]. split; [intros _; split; [reflexivity|discriminate]|auto].
  - split; [|reflexivity]. apply meaning_put; auto; unfold base, pending; proj; rewrite W, E.
    all: assert (EN : firstn (Z.to_nat (ptr s + zlen L)) nb = firstn (Z.to_nat (ptr s)) b ++ L)
      by (unfold nb; rewrite app_assoc; replace (ptr s + zlen L) with (zlen (firstn (Z.to_nat (ptr s)) b ++ L)) at 1 by (rewrite zlen_app, zlen_firstn; lia); apply firstn_zlen0).
    + rewrite EN. reflexivity.
    + rewrite EN, zlen_app. lia.
    + rewrite EN. reflexivity.
Qed.
Lemma put1_putN c s : wready s -> 0 < cnt s -> put1 c s = putN [u8 c] s.
Proof.
  intros [I0 R] C. unfold put1, putN. pose proof (i_buf s I0) as B. destruct (buf s) as [b|]; [|reflexivity]. cbn [inb rbind]. destruct B as (B1 & B2 & B3 & B4 & B5 & B6).
  destruct (zset_eq b (ptr s) (u8 c)) as (x & y & z & E1 & E2 & E3 & E4); [lia|]. rewrite E4. cbn [inb rbind]. change (zlen [u8 c]) with 1.
  replace ((ptr s <? 0) || (zlen b <? ptr s + 1)) with false by lia. rewrite E1 at 1. rewrite <- E2 at 3. rewrite firstn_zlen0.
  replace (skipn (Z.to_nat (ptr s + 1)) b) with y; [reflexivity|]. rewrite E1. change (z :: y) with ([z] ++ y). rewrite app_assoc. rewrite <- E2. replace (zlen x + 1) with (zlen (x ++ [z])) by (rewrite zlen_app, zlen_cons; reflexivity). rewrite skipn_zlen0. reflexivity.
Qed.
Lemma bytes_1 c : bytes [u8 c].
Proof. constructor; [apply u8_range|constructor]. Qed.
Lemma put1_ok c s : wready s -> 0 < cnt s -> exists s', put1 c s = Ok s' /\ keeps s s' /\ puts s s' [u8 c] /\ cnt s' = cnt s - 1 /\ wsch s' = wsch s /\ lbf s' = lbf s /\ bufsz s' = bufsz s.
Proof. intros W C. rewrite put1_putN by auto. apply putN_ok; [auto| |apply bytes_1]. change (zlen [u8 c]) with 1. lia. Qed.

Lemma flushbuf_ok c s : wready s -> cnt s = 0 -> exists r s', flushbuf c s = Ok (r, s') /\ keeps s s' /\ (r = u8 c /\ puts s s' [u8 c] \/ r = EOF /\ wfail s s').
Proof.
  intros WS C. pose proof (inv_noeof s WS) as NE. pose proof WS as [I0 R]. unfold flushbuf. rewrite R.
  set (s1 := match buf (setWr true s) with Some _ => _ | None => _ end).
  assert (S1 : exists b, buf s1 = Some b /\ zlen b = bufsz s1 /\ 0 < bufsz s1 /\ bytes b /\ data s1 = data s /\ pos s1 = pos s /\ wsch s1 = wsch s /\ sent s1 = sent s /\
    rd s1 = false /\ wr s1 = true /\ same s s1 /\ err s1 = err s /\ nbf s1 = nbf s /\ (lbf s = false -> lbf s1 = false) /\ (buf s <> None -> bufsz s1 = bufsz s) /\ eof s1 = false /\ pending s1 = pending s /\ 0 <= ptr s1 <= bufsz s1 /\ (ptr s1 <> 0 -> ptr s1 = bufsz s1 /\ cnt s1 = 0)).
  { unfold s1. pose proof (i_buf s I0) as B. proj. unfold same, pending. destruct (buf s) as [b|] eqn:EB; proj.
    - exists b. rewrite EB. destruct B as (B1 & B2 & B3 & _ & B4 & B5). do 16 (split; [auto|]). split; [destruct (wr s) eqn:W; [reflexivity|]; destruct (i_idle s I0 R W) as (_ & -> & _); reflexivity|]. split; [lia|].
      intros P. destruct (wr s) eqn:W; [|destruct (i_idle s I0 R W); lia]. destruct (i_wr s I0 W); lia.
    - destruct (negb (nbf s) && mem s); proj; eexists; (split; [reflexivity|]); (split; [reflexivity|]); (split; [unfold BUFSIZ; lia|]);
        (split; [first [apply bytes_repeat|repeat constructor; lia]|]); do 10 (split; [auto|]); (split; [congruence|]); (split; [auto|]); (split; [destruct (wr s); reflexivity|]); (split; [unfold BUFSIZ; lia|lia]). }
  clearbody s1. destruct S1 as (b & B1 & B2 & B3 & B4 & D1 & D2 & D3 & D4 & F1 & F2 & F3 & F4 & F5 & F6 & F7 & F8 & F9 & P1 & P2).
  assert (W1 : wready s1 \/ ptr s1 = 0).
  { destruct (ptr s1 =? 0) eqn:Q; [right; lia|left]. split; [|auto]. destruct (P2 ltac:(lia)) as [P3 P4]. destruct F3 as (F3 & F10 & F11).
    constructor; rewrite ?B1, ?P3, ?P4; auto; try congruence; try lia.
    - repeat split; auto; lia.
    - rewrite D2. apply I0.
    - rewrite D1. apply I0.
    - rewrite F11. intros A. destruct (i_app s I0 A). split; congruence. }
  rewrite B1. cbn [inb rbind].
  set (X := if negb (ptr s1 =? 0) then _ else _).
  assert (HX : exists bad d p se ws, X = (bad, filed d p se ws s1) /\ 0 <= p /\ bytes d /\ (exists a, wsch s = a ++ ws) /\
    (bad = false /\ d = overlay (data s) (base s) (pending s) /\ (if app s then zlen d else p) = base s + zlen (pending s) /\ se = sent s ++ pending s \/
     bad = true /\ (exists a k, wsch s = a ++ k :: ws /\ k < bufsz s1) /\ ptr s1 <> 0)).
  { assert (BS : base s1 = base s) by (unfold base; destruct F3 as (_ & _ & ->); rewrite D1, D2; reflexivity).
    unfold X. destruct (ptr s1 =? 0) eqn:P; cbn [negb].
    - exists false, (data s1), (pos s1), (sent s1), (wsch s1). rewrite filed_same, D1, D2, D3, D4. split; [auto|]. split; [apply (i_pos s I0)|]. split; [apply (i_data s I0)|]. split; [exists []; reflexivity|]. left.
      assert (EP : pending s = []). { rewrite <- F9. unfold pending. rewrite F2, B1. replace (ptr s1) with 0 by lia. reflexivity. }
      rewrite EP, overlay_nil, app_nil_r. change (zlen (@nil Z)) with 0. rewrite Z.add_0_r. repeat split.
    - destruct W1 as [W1|]; [|lia]. destruct (P2 ltac:(lia)) as [P3 P4]. 
      destruct (write_out s1 b (ptr s1) W1 F2 B1 eq_refl ltac:(lia)) as (w & d & p & se & ws & H1 & H2 & H3 & H4 & H5). rewrite P3 in H1. rewrite H1. rewrite D3 in *. eexists _, d, p, se, ws. split; [reflexivity|]. do 3 (split; [auto|]).
      rewrite F9, D4, BS, D1 in H5. destruct F3 as (_ & _ & F3). rewrite F3 in H5. rewrite P3 in H5.
      change (bufsz (filed d p se ws s1)) with (bufsz s1). destruct H5 as [(K1 & K2)|(K1 & K2)]; [left|right; repeat split; auto; lia]. split; [|auto]. lia. }
  clearbody X. destruct HX as (bad & d & p & se & ws & -> & H2 & H3 & H4 & H5).
  destruct H5 as [(-> & K2 & K3 & K4)|(-> & (a & k & K2 & K3) & K4)].
  2:{ destruct W1 as [W1|]; [|lia]. eexists _, _. split; [reflexivity|]. split.
    - unfold keeps. split; [apply inv_err, inv_filed; auto|]. split; [exact F3|]. split; [exact H4|]. split; [exact F5|]. split; [exact F6|]. split; [intros NB; split; [exact (F7 NB)|unfold filed; proj; rewrite B1; discriminate]|reflexivity].
    - right. split; [auto|]. split; [unfold filed; proj; rewrite B1; discriminate|]. split; [reflexivity|]. exists a, k, []. split; [exact K2|exact K3]. }
  destruct (zset_eq b 0 (u8 c)) as (x & y & z & E1 & E2 & E3 & E4); [lia|]. rewrite E4. cbn [inb rbind].
  destruct x; [|rewrite zlen_cons in E2; pose proof (zlen_nonneg x); lia]. cbn [List.app] in *.
  eexists _, _. split; [reflexivity|].
  assert (WF : wready (setPtr 1 (setCnt (bufsz (filed d p se ws s1) - 1) (setBuf (Some (u8 c :: y)) (filed d p se ws s1))))).
  { destruct F3 as (F3 & F10 & F11). split; [|exact F1]. unfold filed. constructor; proj; auto; try congruence; try lia.
    - subst b. rewrite zlen_cons in *. inversion B4. repeat split; try lia. constructor; [apply u8_range|auto].
    - rewrite F11. intros A. destruct (i_app s I0 A). split; congruence. }
  split.
  - unfold keeps. split; [exact WF|]. split; [exact F3|]. split; [exact H4|]. split; [exact F5|]. split; [exact F6|]. split; [intros NB; split; [exact (F7 NB)|unfold filed; proj; discriminate]|intros; unfold filed; proj; congruence].
  - left. split; [auto|]. split; [|exact F4]. destruct F3 as (F3 & F10 & F11).
    match type of WF with wready ?x => set (s' := x) in * end.
    assert (EB : base s' = base s + zlen (pending s)). { rewrite <- K3. unfold s', base, filed. proj. rewrite F11. reflexivity. }
    assert (EP : pending s' = [u8 c]). { unfold s', pending, filed. proj. rewrite F2. reflexivity. }
    apply meaning_put; auto; rewrite ?EB, ?EP.
    + change (data s') with d. rewrite K2. apply overlay_app, base_nonneg; auto.
    + reflexivity.
    + change (sent s') with se. rewrite K4, <- app_assoc. reflexivity.
Qed.


Lemma keeps_trans a b c : keeps a b -> keeps b c -> keeps a c.
Proof.
  intros (A1 & A2 & A3 & A4 & A5 & A6 & A7) (B1 & B2 & B3 & B4 & B5 & B6 & B7). split; [auto|]. split; [eapply same_trans; eauto|]. split; [eapply wrote_trans; eauto|]. split; [congruence|]. split; [auto|]. split; [|auto].
  intros NB. destruct (A6 NB) as [Q1 Q2]. destruct (B6 Q2). split; [congruence|auto].
Qed.
Lemma wf_later a b c : keeps a b -> wfail b c -> wfail a c.
Proof. intros (_ & _ & (x & X) & _) (NB & E & y & k & z & Y & K). split; [auto|]. split; [auto|]. exists (x ++ y), k, z. rewrite <- app_assoc, <- Y. auto. Qed.
Lemma wf_before a b c : wfail a b -> keeps b c -> wfail a c.
Proof.
  intros (NB & E & y & k & z & Y & K) (_ & _ & (x & X) & _ & _ & B & EE). destruct (B NB) as [B1 B2]. split; [auto|]. split; [auto|]. exists y, k, (z ++ x). rewrite <- app_assoc, <- X. split; [auto|]. lia.
Qed.
Ltac wf_ := match goal with
  | K : keeps ?a ?b, F : wfail ?b ?c |- wfail ?a ?c => exact (wf_later a b c K F)
  | F : wfail ?a ?b, K : keeps ?b ?c |- wfail ?a ?c => exact (wf_before a b c F K) end.
Ltac ks_ := match goal with K : keeps ?a ?b, F : keeps ?b ?c |- keeps ?a ?c => exact (keeps_trans a b c K F) end.
Ltac pt_ := match goal with K : keeps ?a ?b, P : puts ?a ?b ?x, Q : puts ?b ?c ?y |- puts ?a ?c (?x ++ ?y) => exact (puts_trans a b c x y ltac:(assumption) K P Q) end.
Lemma fflush_w s : wready s -> exists r s', fflush s = Ok (r, s') /\ keeps s s' /\ lbf s' = lbf s /\ (r = 0 /\ puts s s' [] /\ pending s' = [] \/ r = EOF /\ wfail s s').
Proof.
  intros W. destruct (fflush_ok s (proj1 W)) as (r & s' & E & I' & H1 & H2 & H3 & H4 & H5 & H6 & H7 & H8 & H9 & H10 & H). exists r, s'. split; [auto|].
  assert (ER : err s = true -> err s' = true). { destruct H as [(_ & _ & _ & -> & _)|(_ & _ & -> & _)]; auto. }
  split; [|split; [auto|]].
  - split; [split; [auto|]; destruct W; congruence|]. split; [auto|]. split; [auto|]. split; [auto|]. split; [congruence|]. split; [|auto]. intros NB. split; [auto|congruence].
  - destruct H as [(G1 & G2 & G3 & G4 & _)|(G1 & G2)]; [left|right; auto]. split; [auto|]. split; [|auto]. split; [|auto]. rewrite written_nil; auto.
Qed.

(** what reaches the file at once *)
Definition prompt (s : st) (c : Z) : Prop := nbf s = true \/ lbf s = true /\ c = 10 -> pending s = [].
Lemma fputc1_ok c s : wready s -> exists r s', fputc1 c s = Ok (r, s') /\ keeps s s' /\ (r = u8 c /\ puts s s' [u8 c] /\ prompt s' c \/ r = EOF /\ wfail s s').
Proof.
  intros W. unfold fputc1.
  assert (X : exists r s', (if negb (cnt s =? 0) then let! s0 := put1 c s in Ok (u8 c, s0) else flushbuf c s) = Ok (r, s') /\ keeps s s' /\ (r = u8 c /\ puts s s' [u8 c] \/ r = EOF /\ wfail s s')).
  { destruct (cnt s =? 0) eqn:C; cbn [negb].
    - apply flushbuf_ok; auto. lia.
    - destruct (put1_ok c s W) as (s1 & E & K & P & _). { pose proof (i_buf s (proj1 W)). destruct (buf s); lia. } rewrite E. cbn [rbind]. eexists _, _. split; [reflexivity|]. auto. }
  destruct X as (r & s1 & -> & K & H). cbn [rbind]. pose proof (u8_range c). destruct H as [(-> & P)|(-> & F)].
  2:{ change (EOF =? EOF) with true. cbv iota. exists EOF, s1. auto. }
  replace (u8 c =? EOF) with false by (unfold EOF; lia).
  destruct (nbf s1 || lbf s1 && (c =? 10)) eqn:Q.
  - destruct (fflush_w s1 (proj1 K)) as (e & s2 & E & K2 & L2 & H2). rewrite E. cbn [rbind]. pose proof (keeps_trans _ _ _ K K2). destruct H2 as [(-> & P2 & E2)|(-> & F2)].
    + change (negb (0 =? 0)) with false. cbv iota. exists (u8 c), s2. split; [auto|]. split; [auto|]. left. split; [auto|]. split; [exact (puts_nil s s1 s2 _ W K P P2)|]. unfold prompt. auto.
    + change (negb (EOF =? 0)) with true. cbv iota. exists EOF, s2. split; [auto|]. split; [auto|]. right. split; [auto|]. wf_.
  - exists (u8 c), s1. split; [auto|]. split; [auto|]. left. split; [auto|]. split; [auto|]. unfold prompt. intros [N|[N N2]]; rewrite N in Q; [|rewrite N2 in Q]; destruct (nbf s1); discriminate.
Qed.
Lemma text_keeps crlf s s' : keeps s s' -> text crlf s' = text crlf s.
Proof. intros (_ & (E & _) & _). unfold text. rewrite E. reflexivity. Qed.

Theorem fputc_ok crlf c s : wready s -> 0 <= c < 256 -> exists r s', fputc crlf c s = Ok (r, s') /\ keeps s s' /\
  (r = c /\ puts s s' (toText (text crlf s) [c]) /\ prompt s' c \/ wfail s s' /\ (text crlf s = false -> r = EOF)).
Proof.
  intros W C. assert (U : u8 c = c) by (unfold u8; apply Z.mod_small; lia). unfold fputc. destruct ((c =? 10) && text crlf s) eqn:Q.
  - destruct (fputc1_ok 13 s W) as (r1 & s1 & E1 & K1 & H1). rewrite E1. cbn [rbind]. destruct (fputc1_ok c s1 (proj1 K1)) as (r & s' & E & K & H). exists r, s'. split; [auto|]. split; [ks_|].
    apply andb_prop in Q as [Q T]. rewrite T. assert (c = 10) by lia. subst c.
    destruct H1 as [(R1 & P1 & _)|(R1 & F1)]; [|right; split; [wf_|discriminate]].
    destruct H as [(R2 & P2 & P3)|(R2 & F2)]; [left|right; split; [wf_|discriminate]]. rewrite U in *. split; [auto|]. split; [|auto]. exact (puts_trans s s1 s' [13] [10] W K1 P1 P2).
  - destruct (fputc1_ok c s W) as (r & s' & E & K & H). exists r, s'. split; [auto|]. split; [auto|]. rewrite U in H. destruct H as [(R2 & P2 & P3)|(R2 & F2)]; [left|right; auto]. split; [auto|]. split; [|auto].
    replace (toText (text crlf s) [c]) with [c]; [auto|]. unfold toText. destruct (text crlf s); [|auto]. cbn. destruct (c =? 10); [discriminate|auto].
Qed.
Lemma toText_app t x y : toText t (x ++ y) = toText t x ++ toText t y.
Proof. unfold toText. destruct t; [apply flat_map_app|auto]. Qed.

Lemma fwriteChars_ok crlf p : forall s, wready s -> bytes p -> exists n s', fwriteChars crlf p s = Ok (n, s') /\ keeps s s' /\ 0 <= n <= zlen p /\
  (n = 0 /\ puts s s' (toText (text crlf s) p) \/ wfail s s' /\ (text crlf s = false -> 0 < n)).
Proof.
  induction p as [|c p IH]; intros s W B; cbn [fwriteChars].
  - exists 0, s. split; [auto|]. split; [apply keeps_refl; auto|]. change (zlen (@nil Z)) with 0. split; [lia|]. left. split; [auto|]. replace (toText (text crlf s) []) with (@nil Z) by (unfold toText; destruct (text crlf s); reflexivity). split; [rewrite written_nil; auto|auto].
  - inversion_clear B as [|? ? B1 B2]. destruct (fputc_ok crlf c s W B1) as (r & s1 & E & K & H). rewrite E. cbn [rbind]. rewrite zlen_cons. pose proof (zlen_nonneg p).
    destruct (r =? EOF) eqn:RE.
    + exists (1 + zlen p), s1. split; [auto|]. split; [auto|]. split; [lia|]. destruct H as [(R1 & _)|(F & _)]; [unfold EOF in *; lia|]. right. split; [auto|lia].
    + destruct (IH s1 (proj1 K) B2) as (n & s' & E' & K' & HN & H'). rewrite (text_keeps crlf _ _ K) in H'. exists n, s'. split; [auto|]. split; [ks_|]. split; [lia|].
      destruct H as [(R1 & P1 & _)|(F & T)].
      * destruct H' as [(N0 & P2)|(F & T)]; [left|right; split; [wf_|auto]]. split; [auto|]. change (c :: p) with ([c] ++ p). rewrite toText_app. pt_.
      * right. split; [wf_|]. intros Q. specialize (T Q). lia.
Qed.

Lemma putc1_ok c s : wready s -> exists r s', putc1 c s = Ok (r, s') /\ keeps s s' /\ (r = u8 c /\ puts s s' [u8 c] \/ r = EOF /\ wfail s s').
Proof.
  intros W. unfold putc1. destruct (cnt s =? 0) eqn:C; cbn [negb].
  - apply flushbuf_ok; auto. lia.
  - destruct (put1_ok c s W) as (s1 & E & K & P & _). { pose proof (i_buf s (proj1 W)). destruct (buf s); lia. } rewrite E. cbn [rbind]. eexists _, _. split; [reflexivity|]. auto.
Qed.
Lemma fwriteText_ok p : forall s, wready s -> bytes p -> exists n s', fwriteText p s = Ok (n, s') /\ keeps s s' /\ 0 <= n <= zlen p /\ (n = 0 /\ puts s s' (toText true p) \/ wfail s s' /\ 0 < n).
Proof.
  induction p as [|c p IH]; intros s W B; cbn [fwriteText].
  - exists 0, s. split; [auto|]. split; [apply keeps_refl; auto|]. change (zlen (@nil Z)) with 0. split; [lia|]. left. split; [auto|]. split; [cbn; rewrite written_nil; auto|auto].
  - inversion_clear B as [|? ? B1 B2]. pose proof (zlen_nonneg p). rewrite zlen_cons.
    assert (U : u8 c = c) by (unfold u8; apply Z.mod_small; lia).
    assert (X : exists r s1, (if c =? 10 then putc1 13 s else Ok (0, s)) = Ok (r, s1) /\ keeps s s1 /\ (r <> EOF /\ puts s s1 (if c =? 10 then [13] else []) \/ r = EOF /\ wfail s s1)).
    { destruct (c =? 10).
      - destruct (putc1_ok 13 s W) as (r & s1 & E & K & [(R1 & P)|(R1 & F)]); exists r, s1; (split; [auto|]); (split; [auto|]); [left|right; auto]. split; [subst r; vm_compute; discriminate|auto].
      - exists 0, s. split; [auto|]. split; [apply keeps_refl; auto|]. left. split; [discriminate|]. split; [rewrite written_nil; auto|auto]. }
    destruct X as (r & s1 & -> & K1 & H1). cbn [rbind]. destruct H1 as [(R1 & P1)|(-> & F1)].
    2:{ change (EOF =? EOF) with true. cbv iota. exists (1 + zlen p), s1. split; [auto|]. split; [auto|]. split; [lia|]. right. split; [auto|lia]. }
    replace (r =? EOF) with false by lia. destruct (putc1_ok c s1 (proj1 K1)) as (r2 & s2 & E2 & K2 & H2). rewrite E2. cbn [rbind]. pose proof (keeps_trans _ _ _ K1 K2) as K12. rewrite U in H2.
    destruct H2 as [(-> & P2)|(-> & F2)].
    2:{ change (EOF =? EOF) with true. cbv iota. exists (1 + zlen p), s2. split; [auto|]. split; [auto|]. split; [lia|]. right. split; [wf_|lia]. }
    replace (c =? EOF) with false by (unfold EOF; lia). destruct (IH s2 (proj1 K2) B2) as (n & s' & E & K & HN & H3). exists n, s'. split; [auto|]. split; [ks_|]. split; [lia|].
    pose proof (puts_trans _ _ _ _ _ W K1 P1 P2) as P12.
    destruct H3 as [(N0 & P3)|(F3 & N0)]; [left|right; split; [wf_|auto]]. split; [auto|].
    replace (toText true (c :: p)) with (((if c =? 10 then [13] else []) ++ [c]) ++ toText true p). { pt_. }
    cbn. destruct (c =? 10) eqn:Q; cbn; [|reflexivity]. replace c with 10 by lia. reflexivity.
Qed.

Lemma fwriteBin_ok n : forall p s, (length p < n)%nat -> wready s -> bytes p -> exists m s', fwriteBin n p s = Ok (m, s') /\ keeps s s' /\ 0 <= m <= zlen p /\ (m = 0 /\ puts s s' p \/ wfail s s' /\ 0 < m).
Proof.
  induction n as [|n IH]; intros p s L W B; [lia|]. cbn [fwriteBin]. destruct p as [|c0 p0].
  { exists 0, s. split; [auto|]. split; [apply keeps_refl; auto|]. change (zlen (@nil Z)) with 0. split; [lia|]. left. split; [auto|]. split; [rewrite written_nil; auto|auto]. }
  set (p := c0 :: p0) in *. assert (LP : 0 < zlen p) by (unfold p; rewrite zlen_cons; pose proof (zlen_nonneg p0); lia). clearbody p. clear c0 p0.
  assert (CN : 0 <= cnt s). { pose proof (i_buf s (proj1 W)). destruct (buf s); lia. }
  destruct (cnt s <? zlen p) eqn:Q; cbn [rbind].
  - destruct (cut p (cnt s)) as (x & y & E & LX); [lia|lia|]. assert (EF : firstn (Z.to_nat (cnt s)) p = x) by (rewrite E, <- LX; apply firstn_zlen0). assert (ES : skipn (Z.to_nat (cnt s)) p = y) by (rewrite E, <- LX; apply skipn_zlen0).
    rewrite EF, ES. rewrite E in B. apply bytes_app in B as [BX BY]. destruct (putN_ok s x W ltac:(lia) BX) as (s1 & E1 & K1 & P1 & C1 & _). rewrite E1. cbn [rbind].
    destruct y as [|c y]; [rewrite E, app_nil_r in Q; lia|]. cbn [hd_error inb rbind tl]. destruct (flushbuf_ok c s1 (proj1 K1) ltac:(lia)) as (r & s2 & E2 & K2 & H). rewrite E2. cbn [rbind].
    inversion_clear BY as [|? ? HC BY']. assert (U : u8 c = c) by (unfold u8; apply Z.mod_small; lia). rewrite U in H. pose proof (keeps_trans _ _ _ K1 K2) as K12. pose proof (zlen_nonneg y).
    assert (LY : zlen p = cnt s + (1 + zlen y)) by (rewrite E, zlen_app, zlen_cons; lia).
    destruct H as [(-> & P2)|(-> & F2)].
    2:{ change (EOF =? EOF) with true. cbn [rbind]. eexists _, s2. split; [reflexivity|]. split; [auto|]. rewrite zlen_cons. split; [lia|]. right. split; [wf_|lia]. }
    replace (c =? EOF) with false by (unfold EOF; lia). cbn [rbind]. pose proof (puts_trans _ _ _ _ _ W K1 P1 P2) as P12.
    replace p with ((x ++ [c]) ++ y) by (rewrite E, <- app_assoc; reflexivity).
    destruct (zlen y <=? cnt s2) eqn:Q2.
    + destruct (putN_ok s2 y (proj1 K2) ltac:(lia) BY') as (s3 & E3 & K3 & P3 & _). rewrite E3. cbn [rbind]. exists 0, s3. split; [auto|]. split; [ks_|]. pose proof (zlen_nonneg ((x ++ [c]) ++ y)). split; [lia|]. left. split; [auto|]. pt_.
    + destruct (IH y s2) as (m & s' & E' & K' & HM & H'); [unfold zlen in *; rewrite E in L; rewrite app_length in L; cbn [length] in L; lia|apply K2|auto|]. exists m, s'. split; [auto|]. split; [ks_|].
      split; [rewrite zlen_app; pose proof (zlen_nonneg (x ++ [c])); lia|]. destruct H' as [(M0 & P3)|(F3 & M0)]; [left|right; split; [wf_|auto]]. split; [auto|]. pt_.
  - replace (zlen p <=? cnt s) with true by lia. destruct (putN_ok s p W ltac:(lia) B) as (s1 & E1 & K1 & P1 & _). rewrite E1. cbn [rbind]. exists 0, s1. split; [auto|]. split; [auto|]. split; [lia|]. left. auto.
Qed.

Theorem fwrite_ok crlf mem_ esize ecount s : wready s -> bytes mem_ -> 0 < esize -> 0 < ecount -> esize * ecount < 2 ^ 31 -> zlen mem_ = esize * ecount -> exists n s', fwrite crlf mem_ esize ecount s = Ok (n, s') /\
  keeps s s' /\ 0 <= n <= ecount /\ (n = ecount /\ puts s s' (toText (text crlf s) mem_) \/ wfail s s' /\ (text crlf s = false -> n < ecount)).
Proof.
  intros W B HE HC HM HL. assert (P0 : 0 < esize * ecount) by nia. assert (LE : esize <= esize * ecount) by nia. assert (LC : ecount <= esize * ecount) by nia. unfold fwrite. rewrite u32_small by lia. replace (esize * ecount =? 0) with false by lia.
  rewrite <- HL. replace (firstn (Z.to_nat (zlen mem_)) mem_) with mem_ by (unfold zlen; rewrite Nat2Z.id, firstn_all; reflexivity). rewrite Z.ltb_irrefl.
  assert (X : exists m s', (if nbf s || lbf s then fwriteChars crlf mem_ s else if text crlf s then fwriteText mem_ s else fwriteBin (S (length mem_)) mem_ s) = Ok (m, s') /\ keeps s s' /\ 0 <= m <= zlen mem_ /\
    (m = 0 /\ puts s s' (toText (text crlf s) mem_) \/ wfail s s' /\ (text crlf s = false -> 0 < m))).
  { destruct (nbf s || lbf s); [apply fwriteChars_ok; auto|]. destruct (text crlf s) eqn:T.
    - destruct (fwriteText_ok mem_ s W B) as (m & s' & E & K & HN & H). exists m, s'. do 3 (split; [auto|]). destruct H as [H|[H H2]]; auto.
    - destruct (fwriteBin_ok (S (length mem_)) mem_ s ltac:(lia) W B) as (m & s' & E & K & HN & H). exists m, s'. do 3 (split; [auto|]). destruct H as [H|[H H2]]; auto. }
  destruct X as (m & s' & -> & K & HN & H). cbn [rbind]. rewrite (u32_small (m + esize - 1)) by lia.
  assert (Q : 0 <= (m + esize - 1) / esize <= ecount).
  { split; [apply Z.div_pos; lia|]. apply Z.lt_succ_r. apply Z.div_lt_upper_bound; [lia|]. nia. }
  rewrite u32_small by lia. eexists _, s'. split; [reflexivity|]. split; [auto|]. split; [lia|]. destruct H as [(M0 & P)|(F & T)].
  - left. split; [|auto]. subst m. rewrite Z.div_small by lia. lia.
  - right. split; [auto|]. intros T0. specialize (T T0). assert (1 <= (m + esize - 1) / esize) by (apply Z.div_le_lower_bound; lia). lia.
Qed.

(** ** positions *)
Lemma window s b : rready s -> rd s = true -> ungot s = false -> buf s = Some b -> buffered s ++ skipn (Z.to_nat (pos s)) (data s) = skipn (Z.to_nat (pos s - cnt s)) (data s).
Proof.
  intros [I0 W] R U E. pose proof (i_win s I0 R U) as H. pose proof (i_buf s I0) as B. rewrite E in H, B. destruct B as (B1 & B2 & B3 & B4 & B5 & B6). pose proof (i_rd s I0 R) as IR. unfold buffered. rewrite E.
  destruct (cnt s =? 0) eqn:C.
  { replace (cnt s) with 0 by lia. rewrite Z.sub_0_r. reflexivity. }
  destruct (H ltac:(lia)) as [H1 H2]. apply (f_equal (skipn (Z.to_nat (ptr s)))) in H2. rewrite !skipn_firstn_comm in H2. replace (Z.to_nat (ptr s + cnt s) - Z.to_nat (ptr s))%nat with (Z.to_nat (cnt s)) in H2 by lia.
  rewrite H2, skipn_add by lia. replace (ptr s + (pos s - (ptr s + cnt s))) with (pos s - cnt s) by lia.
  replace (skipn (Z.to_nat (pos s)) (data s)) with (skipn (Z.to_nat (cnt s)) (skipn (Z.to_nat (pos s - cnt s)) (data s))) by (rewrite skipn_add by lia; f_equal; lia). apply firstn_skipn.
Qed.
Lemma inv_seteof s : Inv s -> Inv (setEof false s) /\ meaning (setEof false s) = meaning s.
Proof. intros I0. split; [|reflexivity]. destruct I0. constructor; proj; auto. discriminate. Qed.

Lemma seek_fast s d : Inv s -> rd s = true -> ungot s = false -> rwok s = false -> eof s = false -> buf s <> None -> 0 <= ptr s + d -> 0 <= cnt s - d ->
  let s' := setCnt (cnt s - d) (setPtr (ptr s + d) s) in Inv s' /\ meaning s' = moved (position (meaning s) + d) (meaning s).
Proof.
  intros I0 R U RW EO NB H1 H2 s'. pose proof (i_mode s I0 R) as W. destruct (buf s) as [b|] eqn:E; [|contradiction]. pose proof (i_buf s I0) as B. rewrite E in B. destruct B as (B1 & B2 & B3 & B4 & B5 & B6).
  pose proof (i_rd s I0 R) as IR. assert (A : app s = false) by (apply rready_app; split; auto).
  assert (I' : Inv s').
  { unfold s'. constructor; proj; rewrite ?E; auto; try congruence; try apply I0; try lia.
    - repeat split; auto; lia.
    - intros _ U0. pose proof (i_win s I0 R U) as H. rewrite E in H. replace (ptr s + d + (cnt s - d)) with (ptr s + cnt s) by lia. exact H. }
  split; [auto|]. assert (R' : rready s') by (split; auto). rewrite (meaning_rd s' W A), (meaning_rd s W A). unfold moved. cbn [content position rest log].
  rewrite (window s' b R' R U E). unfold s'; proj. rewrite R. f_equal; [lia|]. f_equal. f_equal. lia.
Qed.

Lemma sysSeek_cases off wh s : 0 <= pos s -> exists t, sysSeek off wh s = (-1, s) \/ sysSeek off wh s = (t, setPos t s) /\ 0 <= t < 2 ^ 31 /\ t = (if wh =? SEEK_SET then 0 else if wh =? SEEK_CUR then pos s else zlen (data s)) + off.
Proof.
  intros P. unfold sysSeek. set (t := _ + off). exists t. destruct ((t <? 0) || (2 ^ 31 <=? t)) eqn:E; [auto|right]. split; [auto|]. split; [lia|reflexivity].
Qed.
Lemma ftell_ok s : Inv s -> app s = false -> ftell s = (if pos s <? 2 ^ 31 then position (meaning s) else -1, s).
Proof.
  intros I0 A. unfold ftell, sysSeek. change (SEEK_CUR =? SEEK_SET) with false. change (SEEK_CUR =? SEEK_CUR) with true. cbv iota. rewrite Z.add_0_r. pose proof (i_pos s I0).
  replace ((pos s <? 0) || (2 ^ 31 <=? pos s)) with (negb (pos s <? 2 ^ 31)) by lia. destruct (pos s <? 2 ^ 31) eqn:P; cbn [negb]; [|reflexivity].
  replace (setPos (pos s) s) with s by (destruct s; reflexivity). replace (pos s =? -1) with false by lia. unfold meaning. rewrite A. cbn [position]. destruct (rd s) eqn:R; [reflexivity|]. unfold pending.
  destruct (wr s) eqn:W; cbn [andb].
  - pose proof (i_buf s I0) as B. destruct (buf s) as [b|] eqn:E.
    + rewrite zlen_firstn by lia. destruct (ptr s =? 0) eqn:P0; cbn [negb]; [|reflexivity]. replace (ptr s) with 0 by lia. rewrite Z.add_0_r. reflexivity.
    + destruct B as [-> _]. cbn. rewrite Z.add_0_r. reflexivity.
  - change (zlen (@nil Z)) with 0. rewrite Z.add_0_r. reflexivity.
Qed.

Lemma seekSlow_ok offset whence s : Inv s -> app s = false -> eof s = false -> exists r s', seekSlow offset whence s = Ok (r, s') /\ Inv s' /\ same s s' /\ (rwok s = true -> r = 0 -> rd s' = false /\ wr s' = false) /\ (rwok s = false -> rd s' = rd s) /\
  (r = 0 /\ err s' = err s /\ meaning s' = moved (offset + (if whence =? SEEK_SET then 0 else if whence =? SEEK_CUR then position (meaning s) + (if rd s then cnt s else 0) else zlen (content (meaning s)))) (meaning s) \/
   r = -1 /\ (writeFailed s s' \/ True)).
Proof.
  intros I0 A EO. unfold seekSlow. destruct (fflush_ok s I0) as (e & s1 & E & I1 & H1 & H2 & H3 & H4 & H5 & H6 & H7 & H8 & H9 & H10 & H). rewrite E. cbn [rbind].
  destruct H as [(-> & M & EP & ER & RW & WN & WC)|(-> & F)].
  2:{ change (negb (EOF =? 0)) with true. cbv iota. exists (-1), s1. split; [auto|]. split; [auto|]. split; [auto|]. split; [intros; lia|]. split; [auto|]. right. split; [auto|]. left. apply F. }
  change (negb (0 =? 0)) with false. cbv iota. destruct H2 as (S1 & S2 & S3).
  set (s2 := if rwok s1 then setWr false (setRd false s1) else s1). set (s3 := setCnt 0 (setPtr 0 (setUngot false s2))).
  assert (G : app s3 = false /\ data s3 = data s1 /\ pos s3 = pos s1 /\ sent s3 = sent s1 /\ buf s3 = buf s1 /\ bufsz s3 = bufsz s1 /\ err s3 = err s1 /\ ungot s3 = false /\ ptr s3 = 0 /\ cnt s3 = 0 /\ eof s3 = false /\ rwok s3 = rwok s /\ bin s3 = bin s /\
     rd s3 = (if rwok s then false else rd s) /\ wr s3 = (if rwok s then false else wr s1)).
  { unfold s3, s2. rewrite S2. destruct (rwok s); proj; rewrite ?H9, ?S1, ?S2, ?S3, ?A, ?EO, ?H1; repeat split; auto. }
  clearbody s3 s2. destruct G as (G1 & G2 & G3 & G4 & G5 & G6 & G7 & G8 & G9 & G10 & G11 & G12 & G13 & G14 & G15). rewrite G1.
  assert (IP : forall t, 0 <= t -> Inv (setPos t s3)).
  { intros t T. pose proof (i_buf s1 I1) as B. constructor; proj; rewrite ?G2, ?G5, ?G6, ?G8, ?G9, ?G10, ?G11, ?G12, ?G14, ?G15; auto; try congruence; try lia.
    - destruct (buf s1); [|auto]. repeat split; try apply B; lia.
    - apply (i_data s1 I1).
    - destruct (rwok s); [discriminate|]. intros R. rewrite <- H1 in R. apply (i_mode s1 I1 R).
    - destruct (rwok s) eqn:Q; [auto|]. intros R W. rewrite <- H1 in R. destruct (i_idle s1 I1 R W). congruence.
    - intros _ _. destruct (buf s1); [lia|auto].
    - intros Q. rewrite Q. rewrite <- S2 in Q. destruct (i_rw s1 I1 Q); [left; congruence|right; auto]. }
  assert (SE : same s s3) by (unfold same; repeat split; congruence).
  assert (MV : forall t, 0 <= t -> meaning (setPos t s3) = moved t (meaning s)).
  { intros t T. rewrite <- M. assert (EC : content (meaning s1) = data s1) by (unfold meaning; rewrite EP; reflexivity). assert (EL : log (meaning s1) = sent s1) by (unfold meaning; rewrite EP; cbn [log]; apply app_nil_r).
    unfold moved. rewrite EC, EL. assert (P3 : pending (setPos t s3) = []) by (unfold pending; proj; rewrite G9; destruct (wr s3), (buf s3); reflexivity).
    unfold meaning. rewrite P3. unfold buffered; proj. rewrite G1, G2, G4, G10, overlay_nil, app_nil_r. change (zlen (@nil Z)) with 0. change (Z.to_nat 0) with 0%nat. cbn [firstn].
    replace (if rd s3 then t - 0 else t + 0) with t by (destruct (rd s3); lia). f_equal. destruct (wr s3); [reflexivity|]. destruct (buf s3); reflexivity. }
  assert (MT : forall wh, (if wh =? SEEK_SET then 0 else if wh =? SEEK_CUR then pos s3 else zlen (data s3)) = (if wh =? SEEK_SET then 0 else if wh =? SEEK_CUR then position (meaning s) + (if rd s then cnt s else 0) else zlen (content (meaning s)))).
  { intros wh. destruct (wh =? SEEK_SET); [reflexivity|]. assert (A1 : app s1 = false) by congruence. destruct (wh =? SEEK_CUR).
    - rewrite G3, <- M. unfold meaning. rewrite EP, A1. cbn [position]. rewrite H1. destruct (rd s) eqn:R; [|change (zlen (@nil Z)) with 0; lia]. rewrite (WN (i_mode s I0 R)). lia.
    - rewrite G2, <- M. unfold meaning. rewrite EP. reflexivity. }
  destruct (sysSeek_cases offset whence s3) as (t & [Q|(Q & T1 & T2)]). { rewrite G3. apply I1. }
  - rewrite Q. change (-1 =? -1) with true. cbv iota. exists (-1), s3. split; [auto|]. split; [|split; [auto|split; [lia|split; [intros RW0; rewrite G14, RW0; auto|right; auto]]]].
    replace s3 with (setPos (pos s3) s3) by (destruct s3; reflexivity). apply IP. rewrite G3. apply I1.
  - rewrite Q. replace (t =? -1) with false by lia. exists 0, (setPos t s3). split; [auto|]. split; [apply IP; lia|]. split; [exact SE|]. split; [intros RW0 _; proj; rewrite G14, G15, RW0; auto|]. split; [intros RW0; proj; rewrite G14, RW0; auto|].
    left. split; [auto|]. split; [proj; congruence|]. rewrite MV by lia. f_equal. rewrite <- MT. lia.
Qed.

Theorem fseek_ok offset whence s : Inv s -> app s = false -> whence = SEEK_SET \/ whence = SEEK_CUR \/ whence = SEEK_END -> exists r s', fseek offset whence s = Ok (r, s') /\ Inv s' /\ same s s' /\ (rwok s = true -> r = 0 -> rd s' = false /\ wr s' = false) /\ (rwok s = false -> rd s' = rd s) /\
  (r = 0 /\ err s' = err s /\ (meaning s' = moved (target offset whence (meaning s)) (meaning s) \/
     whence = SEEK_CUR /\ rd s = true /\ cnt s <> 0 /\ (rwok s = true \/ ungot s = true \/ offset < - ptr s \/ cnt s < offset) /\ meaning s' = moved (target offset whence (meaning s) + cnt s) (meaning s)) \/ r = -1).
Proof.
  intros I0 A HW. unfold fseek. destruct (inv_seteof s I0) as [I1 M1].
  set (s1 := setEof false s) in *.
  assert (SL : (rd s = true -> whence = SEEK_CUR -> cnt s = 0 \/ (rwok s = true \/ ungot s = true \/ offset < - ptr s \/ cnt s < offset)) -> exists r s', seekSlow offset whence s1 = Ok (r, s') /\ Inv s' /\ same s s' /\ (rwok s = true -> r = 0 -> rd s' = false /\ wr s' = false) /\ (rwok s = false -> rd s' = rd s) /\
  (r = 0 /\ err s' = err s /\ (meaning s' = moved (target offset whence (meaning s)) (meaning s) \/
     whence = SEEK_CUR /\ rd s = true /\ cnt s <> 0 /\ (rwok s = true \/ ungot s = true \/ offset < - ptr s \/ cnt s < offset) /\ meaning s' = moved (target offset whence (meaning s) + cnt s) (meaning s)) \/ r = -1)).
  { intros Q. destruct (seekSlow_ok offset whence s1 I1 A eq_refl) as (r & s' & E & I' & SA & H1 & H2 & H3). exists r, s'. split; [auto|]. split; [auto|]. split; [exact SA|]. split; [exact H1|]. split; [exact H2|].
    destruct H3 as [(R0 & ER & M)|(R0 & _)]; [left|right; auto]. split; [auto|]. split; [exact ER|]. rewrite M1 in M. change (rd s1) with (rd s) in M. change (cnt s1) with (cnt s) in M. unfold target.
    destruct (whence =? SEEK_SET); [left; exact M|]. destruct (whence =? SEEK_CUR) eqn:WC; [|left; exact M].
    destruct (rd s) eqn:R; [|left; rewrite Z.add_0_r in M; exact M]. destruct (cnt s =? 0) eqn:C.
    - left. replace (cnt s) with 0 in M by lia. rewrite Z.add_0_r in M. exact M.
    - right. split; [lia|]. split; [auto|]. split; [lia|]. split; [destruct (Q eq_refl ltac:(lia)); [lia|auto]|]. rewrite M. f_equal. lia. }
  destruct (negb (rwok s1) && rd s1 && negb (ungot s1) && negb (whence =? SEEK_END) && match buf s1 with Some _ => true | None => false end) eqn:C.
  2:{ apply SL. intros R WC. subst whence. change (rwok s1) with (rwok s) in C. change (rd s1) with (rd s) in C. change (ungot s1) with (ungot s) in C. change (buf s1) with (buf s) in C. rewrite R in C.
    destruct (rwok s); [auto|]. destruct (ungot s); [auto|]. destruct (buf s) eqn:EB; [discriminate|]. pose proof (i_buf s I0) as B. rewrite EB in B. left. apply B. }
  apply andb_prop in C as [C C5]. apply andb_prop in C as [C C4]. apply andb_prop in C as [C C3]. apply andb_prop in C as [C1 C2].
  apply Bool.negb_true_iff in C1, C3, C4.
  assert (NB : buf s1 <> None) by (destruct (buf s1); [discriminate|discriminate C5]).
  assert (FA : forall d, 0 <= ptr s + d -> 0 <= cnt s - d -> target offset whence (meaning s) = position (meaning s) + d -> exists r s', Ok (0, setCnt (cnt s1 - d) (setPtr (ptr s1 + d) s1)) = Ok (r, s') /\ Inv s' /\ same s s' /\ (rwok s = true -> r = 0 -> rd s' = false /\ wr s' = false) /\ (rwok s = false -> rd s' = rd s) /\
  (r = 0 /\ err s' = err s /\ (meaning s' = moved (target offset whence (meaning s)) (meaning s) \/
     whence = SEEK_CUR /\ rd s = true /\ cnt s <> 0 /\ (rwok s = true \/ ungot s = true \/ offset < - ptr s \/ cnt s < offset) /\ meaning s' = moved (target offset whence (meaning s) + cnt s) (meaning s)) \/ r = -1)).
  { intros d D1 D2 T. destruct (seek_fast s1 d I1 C2 C3 C1 eq_refl NB D1 D2) as [I' M]. eexists _, _. split; [reflexivity|]. split; [exact I'|]. split; [repeat split|]. split; [change (rwok s1) with (rwok s) in C1; congruence|]. split; [reflexivity|].
    left. split; [auto|]. split; [reflexivity|]. left. rewrite M, M1, T. reflexivity. }
  pose proof (i_buf s I0) as B. change (buf s1) with (buf s) in NB. destruct (buf s) as [b|] eqn:EB; [|contradiction]. 
  change (cnt s1) with (cnt s) in *. change (ptr s1) with (ptr s) in *.
  destruct (whence =? SEEK_CUR) eqn:WC.
  - destruct ((0 <=? offset) && (offset <=? cnt s) || (offset <? 0) && (0 - ptr s <=? offset)) eqn:F.
    + apply FA; [lia|lia|]. unfold target. replace (whence =? SEEK_SET) with false by (unfold SEEK_SET, SEEK_CUR in *; lia). rewrite WC. lia.
    + apply SL. intros _ _. lia.
  - rewrite (ftell_ok s1 I1 A), M1. change (pos s1) with (pos s).
    set (p := if pos s <? 2 ^ 31 then position (meaning s) else -1). destruct (p =? -1) eqn:P.
    { exists (-1), s1. split; [auto|]. split; [auto|]. split; [repeat split|]. split; [intros; lia|]. split; [auto|]. right. auto. }
    assert (EP : p = position (meaning s)) by (unfold p in *; destruct (pos s <? 2 ^ 31); [auto|lia]). rewrite EP.
    destruct ((position (meaning s) <=? offset) && (offset - position (meaning s) <=? cnt s1) || (0 <=? offset) && (offset <? position (meaning s)) && (position (meaning s) - offset <=? ptr s1)) eqn:F.
    + change (cnt s1) with (cnt s) in *. change (ptr s1) with (ptr s) in *. apply FA; [lia|lia|]. unfold target. replace (whence =? SEEK_SET) with true by (unfold SEEK_SET, SEEK_CUR, SEEK_END in *; lia). lia.
    + apply SL. intros _ Q. lia.
Qed.

(** ** new streams *)
Lemma fopen_inv mode binary file rs ws m : 0 <= mode <= 3 -> bytes file -> Inv (fopen mode binary file rs ws m).
Proof.
  intros M B. unfold fopen. constructor; proj; auto; try lia; try discriminate.
Qed.
Lemma setvbuf_ok given md size s : Inv s -> 0 <= size -> exists r s', setvbuf given md size s = (r, s') /\ Inv s' /\ meaning s' = meaning s /\ rd s' = rd s /\ wr s' = wr s /\ same s s' /\ err s' = err s /\ rsch s' = rsch s /\ wsch s' = wsch s /\ eof s' = eof s.
Proof.
  intros I0 SZ. assert (NC : exists s', s' = s /\ Inv s' /\ meaning s' = meaning s /\ rd s' = rd s /\ wr s' = wr s /\ same s s' /\ err s' = err s /\ rsch s' = rsch s /\ wsch s' = wsch s /\ eof s' = eof s). { exists s. split; [auto|]. split; [auto|]. repeat split. }
  unfold setvbuf. pose proof (i_buf s I0) as B. destruct (buf s) as [b|] eqn:EB.
  { destruct NC as (s' & -> & H). eexists _, s. split; [reflexivity|exact H]. }
  destruct (negb ((md =? 1) || (md =? 2) || (md =? 4))). { destruct NC as (s' & -> & H). eexists _, s. split; [reflexivity|exact H]. }
  destruct (md =? 2).
  { eexists _, _. split; [reflexivity|]. split; [|repeat split]. destruct I0. constructor; proj; auto. }
  destruct ((size =? 0) || (2147483647 <=? size)) eqn:ES. { destruct NC as (s' & -> & H). eexists _, s. split; [reflexivity|exact H]. }
  destruct (negb given && negb (mem s)). { destruct NC as (s' & -> & H). eexists _, s. split; [reflexivity|exact H]. }
  eexists _, _. split; [reflexivity|]. destruct B as [P C]. split.
  - destruct I0. constructor; proj; auto; try lia.
    + unfold zlen. rewrite repeat_length. repeat split; try lia. apply bytes_repeat.
    + intros A1 A2. destruct (i_idle0 A1 A2) as (? & ? & ?). auto.
  - split; [|repeat split]. unfold meaning, pending, buffered; proj. rewrite EB, C. change (Z.to_nat 0) with 0%nat. destruct (wr s); reflexivity.
Qed.

(** ** histories *)
Lemma reachable_inv crlf s : reachable crlf s -> Inv s.
Proof.
  induction 1 as [mode binary file rs ws m M B|given md size s _ IH SZ|o x s s' _ IH [AR AL] E].
  - apply fopen_inv; auto.
  - destruct (setvbuf_ok given md size s IH SZ) as (r & s' & E & I' & _). rewrite E. auto.
  - destruct o; cbn [call allowed args] in *.
    + destruct (fgetc_ok crlf s (conj IH AL)) as (c & s1 & r & E1 & ((I1 & _) & _) & _). rewrite E1 in E. cbn [rbind] in E. injection E as _ <-. auto.
    + destruct AR as (A1 & A2 & A3). destruct (fread_ok crlf esize ecount s (conj IH AL) A1 A2 A3) as (n & p & s1 & r & E1 & ((I1 & _) & _) & _). rewrite E1 in E. cbn [rbind] in E. injection E as _ <-. auto.
    + destruct (ungetc_ok c s (conj IH AL)) as (r & s1 & E1 & (I1 & _) & _). rewrite E1 in E. cbn [rbind] in E. injection E as _ <-. auto.
    + destruct (fputc_ok crlf c s (conj IH AL) AR) as (r & s1 & E1 & ((I1 & _) & _) & _). rewrite E1 in E. cbn [rbind] in E. injection E as _ <-. auto.
    + destruct AR as ((A1 & A2 & A3) & A4 & A5). destruct (fwrite_ok crlf m esize ecount s (conj IH AL) A5 A1 A2 A3 A4) as (r & s1 & E1 & ((I1 & _) & _) & _). rewrite E1 in E. cbn [rbind] in E. injection E as _ <-. auto.
    + destruct (fflush_ok s IH) as (r & s1 & E1 & I1 & _). rewrite E1 in E. cbn [rbind] in E. injection E as _ <-. auto.
    + destruct (fseek_ok offset whence s IH AL AR) as (r & s1 & E1 & I1 & _). rewrite E1 in E. cbn [rbind] in E. injection E as _ <-. auto.
Qed.
Lemma fromText_app t x y : fromText t (x ++ y) = fromText t x ++ fromText t y.
Proof. unfold fromText. destruct t; [apply filter_app|auto]. Qed.
Lemma text_same crlf s s' : same s s' -> text crlf s' = text crlf s.
Proof. intros (E & _). unfold text. rewrite E. reflexivity. Qed.
Definition healthy (s : st) : Prop := Forall (fun k => 0 <= k) (rsch s).
Lemma healthy_ok s s' : healthy s -> ~ readFailed s s'.
Proof. intros H (_ & a & k & E & K). unfold healthy in H. rewrite E in H. apply Forall_app in H as [_ H]. inversion H. lia. Qed.
Lemma healthy_later s s' : healthy s -> (exists a, rsch s = a ++ rsch s') -> healthy s'.
Proof. intros H (a & E). unfold healthy in *. rewrite E in H. apply Forall_app in H. tauto. Qed.

Lemma read_history crlf os : forall s, rready s -> healthy s -> Forall (fun o => isRead o /\ args o /\ (text crlf s = true -> o <> Unget 13 /\ forall c, o = Unget c -> u8 c <> 13)) os ->
  exists xs s', calls crlf os s = Ok (xs, s') /\ rready s' /\ healthy s' /\ err s' = err s /\ deliverAll os xs (fromText (text crlf s) (rest (meaning s))) (fromText (text crlf s) (rest (meaning s'))).
Proof.
  induction os as [|o os IH]; intros s R H A; cbn [calls].
  { exists [], s. do 4 (split; [auto|]). constructor. }
  pose proof (Forall_inv A) as (A1 & A2 & A3). pose proof (Forall_inv_tail A) as A4. set (t := text crlf s) in *.
  assert (X : exists x s1, call crlf o s = Ok (x, s1) /\ rready s1 /\ healthy s1 /\ err s1 = err s /\ same s s1 /\ delivers o x (fromText t (rest (meaning s))) (fromText t (rest (meaning s1)))).
  { destruct o; try contradiction; cbn [call args] in *.
    - destruct (fgetc_ok crlf s R) as (c & s1 & r & E & ST & HC). rewrite E. cbn [rbind]. exists (Num c), s1. split; [auto|]. pose proof (steps_rest _ _ _ ST) as RS. destruct ST as (R1 & SA & LA & _ & M).
      split; [auto|]. split; [eapply healthy_later; eauto|]. fold t in HC. rewrite RS, fromText_app. cbn [delivers]. destruct HC as [(C1 & C2 & C3 & _)|(C1 & C2 & [(C3 & _ & C4)|C3])]; [| |exfalso; eapply healthy_ok; eauto].
      + split; [auto|]. split; [auto|]. left. rewrite C2. auto.
      + split; [auto|]. split; [auto|]. right. rewrite C2, C3. unfold fromText. destruct t; auto.
    - destruct A2 as (B1 & B2 & B3). destruct (fread_ok crlf esize ecount s R B1 B2 B3) as (n & p & s1 & r & E & ST & P1 & P2 & P3 & HC). rewrite E. cbn [rbind]. exists (Block n p), s1. split; [auto|]. pose proof (steps_rest _ _ _ ST) as RS. destruct ST as (R1 & SA & LA & _ & M).
      split; [auto|]. split; [eapply healthy_later; eauto|]. fold t in P1. rewrite RS, fromText_app, <- P1. cbn [delivers]. pose proof (zlen_nonneg p). destruct HC as [(C1 & C2 & C3)|(C1 & [(C3 & _ & C4)|C3])]; [| |exfalso; eapply healthy_ok; eauto].
      + split; [auto|]. split; [auto|]. rewrite <- C2, firstn_zlen0, skipn_zlen0. auto.
      + split; [auto|]. split; [auto|]. rewrite C3. replace (fromText t []) with (@nil Z) by (unfold fromText; destruct t; reflexivity). rewrite app_nil_r. rewrite firstn_all2, skipn_all2 by (unfold zlen in *; lia). auto.
    - destruct (ungetc_ok c s R) as (r & s1 & E & R1 & SA & RSC & ER & HC). rewrite E. cbn [rbind]. exists (Num r), s1. split; [auto|]. split; [auto|]. split; [unfold healthy; rewrite RSC; auto|]. split; [auto|]. split; [auto|]. cbn [delivers].
      destruct HC as [(C1 & C2 & _)|(C1 & C2 & C3 & C4 & _)]; [right; split; [auto|congruence]|left]. split; [auto|]. rewrite C4. cbn [pushed rest]. unfold fromText. destruct t eqn:T; [|auto]. cbn [filter]. destruct (A3 eq_refl) as [_ Q]. specialize (Q c eq_refl). replace (u8 c =? 13) with false by lia. reflexivity. }
  destruct X as (x & s1 & -> & R1 & H1 & E1 & SA & D1). cbn [rbind]. pose proof (text_same crlf _ _ SA) as T1. fold t in T1.
  destruct (IH s1 R1 H1) as (xs & s' & E & R' & H' & E' & D'). { rewrite T1. auto. }
  rewrite E. cbn [rbind]. rewrite T1 in D'. exists (x :: xs), s'. split; [auto|]. split; [auto|]. split; [auto|]. split; [congruence|]. econstructor; eauto.
Qed.

Lemma write_history crlf os : forall s, wready s -> Forall (fun o => isWrite o /\ args o) os ->
  exists xs s', calls crlf os s = Ok (xs, s') /\ keeps s s' /\
  (Forall2 done os xs /\ puts s s' (toText (text crlf s) (concat (map payload os))) \/ wfail s s' /\ (text crlf s = false -> ~ Forall2 done os xs)).
Proof.
  induction os as [|o os IH]; intros s W A; cbn [calls].
  { exists [], s. split; [auto|]. split; [apply keeps_refl; auto|]. left. split; [constructor|]. cbn. replace (toText (text crlf s) []) with (@nil Z) by (unfold toText; destruct (text crlf s); reflexivity). split; [rewrite written_nil; auto|auto]. }
  pose proof (Forall_inv A) as (A1 & A2). pose proof (Forall_inv_tail A) as A3. set (t := text crlf s) in *.
  assert (X : exists x s1, call crlf o s = Ok (x, s1) /\ keeps s s1 /\ (done o x /\ puts s s1 (toText t (payload o)) \/ wfail s s1 /\ (t = false -> ~ done o x))).
  { destruct o; try contradiction; cbn [call args] in *.
    - destruct (fputc_ok crlf c s W A2) as (r & s1 & E & K & HC). rewrite E. cbn [rbind]. exists (Num r), s1. split; [auto|]. split; [auto|]. cbn [done payload]. destruct HC as [(C1 & C2 & _)|(C1 & C2)]; [left; auto|right]. split; [auto|]. intros T. rewrite (C2 T). unfold EOF. lia.
    - destruct A2 as ((B1 & B2 & B3) & B4 & B5). destruct (fwrite_ok crlf m esize ecount s W B5 B1 B2 B3 B4) as (r & s1 & E & K & HN & HC). rewrite E. cbn [rbind]. exists (Num r), s1. split; [auto|]. split; [auto|]. cbn [done payload].
      destruct HC as [(C1 & C2)|(C1 & C2)]; [left; auto|right]. split; [auto|]. intros T. specialize (C2 T). lia.
    - destruct (fflush_w s W) as (r & s1 & E & K & _ & HC). rewrite E. cbn [rbind]. exists (Num r), s1. split; [auto|]. split; [auto|]. cbn [done payload]. replace (toText t []) with (@nil Z) by (unfold toText; destruct t; reflexivity).
      destruct HC as [(C1 & C2 & _)|(C1 & C2)]; [left; auto|right]. split; [auto|]. intros _. rewrite C1. unfold EOF. lia. }
  destruct X as (x & s1 & -> & K1 & HX). cbn [rbind]. destruct (IH s1 (proj1 K1) A3) as (xs & s' & E & K & HC). rewrite E. cbn [rbind]. exists (x :: xs), s'. split; [auto|]. split; [ks_|].
  rewrite (text_keeps crlf _ _ K1) in HC. fold t in HC. cbn [map concat]. destruct HX as [(D1 & P1)|(F1 & D1)].
  - destruct HC as [(D2 & P2)|(F2 & D2)].
    + left. split; [constructor; auto|]. rewrite toText_app. pt_.
    + right. split; [wf_|]. intros T Q. inversion Q. apply D2; auto.
  - right. split; [wf_|]. intros T Q. inversion Q. apply D1; auto.
Qed.
