(** C36, C37, C38: buffered streams. *)
From Verif Require Import Base BaseLemmas LexModel LexProof StdioModel StdioSpec StdioProof.

(** ** C36: reading *)
(** Every call of fgetc, fread and ungetc, on any stream any history of calls has led to: fgetc and fread take bytes from
    the front of what is to come and nothing else changes; they stop short only at the end of the file or when the system
    reports an error. *)
Theorem C36_calls crlf s : reachable crlf s -> wr s = false ->
  (exists c s' r t, fgetc crlf s = Ok (c, s') /\ rest (meaning s) = r ++ t /\ meaning s' = taken (zlen r) (meaning s) /\ wr s' = false /\
     (0 <= c < 256 /\ fromText (text crlf s) r = [c] /\ err s' = err s \/
      c = EOF /\ fromText (text crlf s) r = [] /\ (t = [] /\ eof s' = true /\ err s' = err s \/ readFailed s s'))) /\
  (forall esize ecount, objectOk esize ecount -> exists n p s' r t, fread crlf esize ecount s = Ok (n, p, s') /\ rest (meaning s) = r ++ t /\ meaning s' = taken (zlen r) (meaning s) /\ wr s' = false /\
     p = fromText (text crlf s) r /\ n = zlen p / esize /\ zlen p <= esize * ecount /\
     (zlen p = esize * ecount /\ n = ecount /\ err s' = err s \/ n < ecount /\ (t = [] /\ eof s' = true /\ err s' = err s \/ readFailed s s'))) /\
  (forall c, exists r s', ungetc c s = Ok (r, s') /\ wr s' = false /\ err s' = err s /\ (r = EOF /\ s' = s \/ r = u8 c /\ eof s' = false /\ meaning s' = pushed (u8 c) (meaning s))).
Proof.
  intros RE W. pose proof (reachable_inv crlf s RE) as I0. assert (R : rready s) by (split; auto). split; [|split].
  - destruct (fgetc_ok crlf s R) as (c & s' & r & E & ST & H). exists c, s', r, (rest (meaning s')). split; [auto|]. split; [apply steps_rest; auto|]. destruct ST as ((_ & W') & _ & _ & _ & M). split; [auto|]. split; [auto|].
    destruct H as [(H1 & H2 & H3 & _)|(H1 & H2 & H3)]; [left|right]; auto.
  - intros esize ecount (B1 & B2 & B3). destruct (fread_ok crlf esize ecount s R B1 B2 B3) as (n & p & s' & r & E & ST & P1 & P2 & P3 & H). exists n, p, s', r, (rest (meaning s')).
    split; [auto|]. split; [apply steps_rest; auto|]. destruct ST as ((_ & W') & _ & _ & _ & M). do 5 (split; [auto|]). destruct H as [(H1 & H2 & H3)|(H1 & H2)]; [left|right]; auto.
  - intros c. destruct (ungetc_ok c s R) as (r & s' & E & (_ & W') & _ & _ & ER & H). exists r, s'. do 3 (split; [auto|]). destruct H as [(H1 & H2 & _)|(H1 & _ & _ & H2 & H3)]; [left|right]; auto.
Qed.
Print Assumptions C36_calls.

(** Any mixture of them: the outputs are those of a list of characters, whatever the sizes of buffers and reads.  In text
    mode '\r' is not a character of the stream (and cannot be pushed back: see below). *)
Theorem C36_history crlf s os : reachable crlf s -> wr s = false -> Forall (fun k => 0 <= k) (rsch s) ->
  Forall (fun o => isRead o /\ args o /\ (text crlf s = true -> forall c, o = Unget c -> u8 c <> 13)) os ->
  exists xs s', calls crlf os s = Ok (xs, s') /\ err s' = err s /\
    deliverAll os xs (fromText (text crlf s) (rest (meaning s))) (fromText (text crlf s) (rest (meaning s'))).
Proof.
  intros RE W H A. destruct (read_history crlf os s) as (xs & s' & E & _ & _ & ER & D); auto.
  - split; [eapply reachable_inv; eauto|auto].
  - eapply Forall_impl; [|exact A]. cbv beta. intros o (A1 & A2 & A3). split; [auto|]. split; [auto|]. intros T. split; [|auto]. intros ->. apply (A3 T 13 eq_refl). reflexivity.
  - exists xs, s'. auto.
Qed.
Print Assumptions C36_history.

(** A stream just opened for reading, with any buffer, delivers the file. *)
Theorem C36_file crlf binary file rs ws m given md size os : Forall (fun b => 0 <= b < 256) file -> 0 <= size -> Forall (fun k => 0 <= k) rs ->
  let s := snd (setvbuf given md size (fopen 0 binary file rs ws m)) in
  let t := crlf && negb binary in
  Forall (fun o => isRead o /\ args o /\ (t = true -> forall c, o = Unget c -> u8 c <> 13)) os ->
  exists xs s' l, calls crlf os s = Ok (xs, s') /\ deliverAll os xs (fromText t file) l.
Proof.
  intros B SZ H s t A. assert (R0 : reachable crlf (fopen 0 binary file rs ws m)) by (apply reach_open; [lia|auto]).
  pose proof (reachable_inv _ _ R0) as I0. destruct (setvbuf_ok given md size _ I0 SZ) as (r & s1 & E & _ & M & _ & W & (BI & _) & _ & RS & _).
  assert (ES : s = s1) by (unfold s; rewrite E; reflexivity). assert (T : text crlf s = t) by (rewrite ES; unfold text; rewrite BI; reflexivity).
  destruct (C36_history crlf s os) as (xs & s' & E2 & _ & D).
  - apply reach_setvbuf; auto.
  - rewrite ES, W. reflexivity.
  - rewrite ES, RS. exact H.
  - rewrite T. exact A.
  - exists xs, s', (fromText (text crlf s) (rest (meaning s'))). split; [auto|]. rewrite T in *. replace file with (rest (meaning s)); [auto|]. rewrite ES, M. reflexivity.
Qed.
Print Assumptions C36_file.

(** One character can be pushed back after a successful fgetc. *)
Theorem C36_unget crlf s c s1 d : reachable crlf s -> wr s = false -> fgetc crlf s = Ok (c, s1) -> c <> EOF -> d <> EOF ->
  exists s2, ungetc d s1 = Ok (u8 d, s2) /\ meaning s2 = pushed (u8 d) (meaning s1) /\ (d = c -> text crlf s = false -> meaning s2 = meaning s).
Proof.
  intros RE W E NC ND. assert (R : rready s) by (split; [eapply reachable_inv; eauto|auto]). destruct (fgetc_ok crlf s R) as (c' & s1' & r & E' & ST & H). rewrite E in E'. injection E' as <- <-.
  destruct H as [(H1 & H2 & H3 & H4)|(H1 & _)]; [|contradiction]. destruct (ungetc_ok d s1 (proj1 ST)) as (r' & s2 & E2 & _ & _ & _ & _ & H). destruct H as [(_ & _ & [Q|Q])|(Q1 & _ & _ & Q2 & _)]; [contradiction|lia|].
  exists s2. subst r'. split; [auto|]. split; [auto|]. intros -> T. rewrite Q2. rewrite T in H2. cbn [fromText] in H2. subst r. pose proof (steps_rest _ _ _ ST) as RS. destruct ST as (_ & _ & _ & _ & M). rewrite M in *.
  replace (u8 c) with c by (unfold u8; symmetry; apply Z.mod_small; lia). unfold pushed, taken in *. cbn [content position rest log] in *. change (zlen [c]) with 1 in *. cbn [List.app] in RS.
  destruct (meaning s) as [a b e f]. cbn [content position rest log] in *. f_equal; [lia|]. symmetry. exact RS.
Qed.
Print Assumptions C36_unget.

(** The push-back is refused at the end of the file (as the standard allows only for a second character) ... *)
Definition exR : st := fopen 0 true [65] [] [] true.
Theorem C36_unget_refuted : exists crlf s s1 c, reachable crlf s /\ wr s = false /\ fgetc crlf s = Ok (EOF, s1) /\ c <> EOF /\ ungetc c s1 = Ok (EOF, s1).
Proof.
  assert (H : exists s0, fgetc false exR = Ok (65, s0) /\ exists s1, fgetc false s0 = Ok (EOF, s1) /\ ungetc 66 s1 = Ok (EOF, s1) /\ wr s0 = false).
  { eexists. split; [vm_compute; reflexivity|]. eexists. split; [vm_compute; reflexivity|]. split; vm_compute; reflexivity. }
  destruct H as (s0 & E0 & s1 & E1 & E2 & W). exists false, s0, s1, 66. split; [|split; [auto|split; [auto|split; [discriminate|auto]]]].
  apply (reach_call false Getc (Num 65) exR); [apply reach_open; [lia|repeat constructor; lia]|split; [exact Logic.I|reflexivity]|cbn [call]; rewrite E0; reflexivity].
Qed.
Print Assumptions C36_unget_refuted.
(** ... and on a text stream with "\r\n" line ends a pushed back '\r' never comes out again. *)
Theorem C36_unget_text_refuted : exists s s1 s2 s3, reachable true s /\ fgetc true s = Ok (65, s1) /\ ungetc 13 s1 = Ok (13, s2) /\ fgetc true s2 = Ok (66, s3).
Proof.
  exists (fopen 0 false [65; 66] [] [] true). do 3 eexists. split; [apply reach_open; [lia|repeat constructor; lia]|]. split; [vm_compute; reflexivity|]. split; vm_compute; reflexivity.
Qed.
Print Assumptions C36_unget_text_refuted.

(** Example: three-byte buffer, reads returning 1, 2, ... bytes *)
Definition exIn : st := snd (setvbuf true 1 3 (fopen 0 true [72; 101; 108; 108; 111; 13; 10; 33] [1; 2; 1] [] true)).
Example C36_example : exists s', calls false [Getc; Read 2 2; Unget 88; Getc; Read 3 1; Getc; Getc; Getc] exIn
  = Ok ([Num 72; Block 2 [101; 108; 108; 111]; Num 88; Num 88; Block 1 [13; 10; 33]; Num EOF; Num EOF; Num EOF], s').
Proof. eexists. vm_compute. reflexivity. Qed.
Example C36_example_text : exists s', calls true [Read 1 100; Getc] (fopen 0 false [72; 13; 10; 33] [1; 2; 1] [] true) = Ok ([Block 3 [72; 10; 33]; Num EOF], s').
Proof. eexists. vm_compute. reflexivity. Qed.
(** the hypotheses of C36_file hold for the first example *)
Example C36_example_hyp : exists xs s' l, calls false [Getc; Read 2 2; Unget 88; Getc] exIn = Ok (xs, s') /\ deliverAll [Getc; Read 2 2; Unget 88; Getc] xs [72; 101; 108; 108; 111; 13; 10; 33] l.
Proof.
  apply (C36_file false true [72; 101; 108; 108; 111; 13; 10; 33] [1; 2; 1] [] true true 1 3); [repeat constructor; lia|lia|repeat constructor; lia|].
  repeat constructor; cbn; try lia; try discriminate.
Qed.

(** ** C37: writing *)
(** Every call of fputc, fwrite and fflush: either exactly the bytes asked for are added to what was written, or a write
    call accepted less than it was given; then the error flag is set, and (except for '\n' on a text stream with "\r\n") the
    call reports it. *)
Theorem C37_calls crlf s : reachable crlf s -> rd s = false ->
  (forall c, 0 <= c < 256 -> exists r s', fputc crlf c s = Ok (r, s') /\ rd s' = false /\
     (r = c /\ err s' = err s /\ meaning s' = written (app s) (toText (text crlf s) [c]) (meaning s) /\ (nbf s' = true \/ lbf s' = true /\ c = 10 -> pending s' = []) \/
      writeFailed s s' /\ (text crlf s = false -> r = EOF))) /\
  (forall m esize ecount, objectOk esize ecount -> zlen m = esize * ecount -> Forall (fun b => 0 <= b < 256) m -> exists n s', fwrite crlf m esize ecount s = Ok (n, s') /\ rd s' = false /\
     (n = ecount /\ err s' = err s /\ meaning s' = written (app s) (toText (text crlf s) m) (meaning s) \/
      writeFailed s s' /\ 0 <= n /\ (text crlf s = false -> n < ecount))) /\
  (exists r s', fflush s = Ok (r, s') /\ rd s' = false /\ (r = 0 /\ err s' = err s /\ meaning s' = meaning s /\ pending s' = [] \/ r = EOF /\ writeFailed s s')).
Proof.
  intros RE R. assert (W : wready s) by (split; [eapply reachable_inv; eauto|auto]). split; [|split].
  - intros c C. destruct (fputc_ok crlf c s W C) as (r & s' & E & K & H). exists r, s'. split; [auto|]. split; [apply K|]. destruct H as [(H1 & (H2 & H3) & H4)|((_ & H1) & H2)]; [left|right]; auto.
  - intros m esize ecount (B1 & B2 & B3) L B. destruct (fwrite_ok crlf m esize ecount s W B B1 B2 B3 L) as (n & s' & E & K & HN & H). exists n, s'. split; [auto|]. split; [apply K|]. destruct H as [(H1 & H2 & H3)|((_ & H1) & H2)]; [left|right]; auto. split; [auto|]. split; [lia|auto].
  - destruct (fflush_w s W) as (r & s' & E & K & _ & H). exists r, s'. split; [auto|]. split; [apply K|]. destruct H as [(H1 & (H2 & H3) & H4)|(H1 & _ & H2)]; [left|right; auto]. rewrite written_nil in H2 by auto. auto.
Qed.
Print Assumptions C37_calls.

(** Once nothing is pending, the file is as if everything written were in it, and the system got every byte once, in order. *)
Theorem C37_flushed s : pending s = [] -> data s = content (meaning s) /\ sent s = log (meaning s).
Proof. intros P. unfold meaning. rewrite P. cbn [content log]. rewrite overlay_nil, app_nil_r. auto. Qed.
Print Assumptions C37_flushed.

(** Any mixture of them. *)
Theorem C37_history crlf s os : reachable crlf s -> rd s = false -> Forall (fun o => isWrite o /\ args o) os ->
  exists xs s', calls crlf os s = Ok (xs, s') /\
    (Forall2 done os xs /\ err s' = err s /\ meaning s' = written (app s) (toText (text crlf s) (concat (map payload os))) (meaning s) \/
     writeFailed s s' /\ (text crlf s = false -> ~ Forall2 done os xs)).
Proof.
  intros RE R A. destruct (write_history crlf os s) as (xs & s' & E & _ & H); auto. { split; [eapply reachable_inv; eauto|auto]. }
  exists xs, s'. split; [auto|]. destruct H as [(H1 & H2 & H3)|((_ & H1) & H2)]; [left|right]; auto.
Qed.
Print Assumptions C37_history.

Lemma calls_app crlf a : forall b s, calls crlf (a ++ b) s = let! (x, s1) := calls crlf a s in let! (y, s2) := calls crlf b s1 in Ok (x ++ y, s2).
Proof.
  induction a as [|o a IH]; intros b s; cbn [calls List.app].
  - cbn [rbind]. destruct (calls crlf b s) as [[y s2]| |]; reflexivity.
  - destruct (call crlf o s) as [[x s1]| |]; cbn [rbind]; try reflexivity. rewrite IH. destruct (calls crlf a s1) as [[y s2]| |]; cbn [rbind]; try reflexivity. destruct (calls crlf b s2) as [[z s3]| |]; reflexivity.
Qed.
Lemma Forall2_snoc {A B} (P : A -> B -> Prop) a x : forall b y, Forall2 P (a ++ [x]) (b ++ [y]) -> Forall2 P a b /\ P x y.
Proof.
  induction a as [|u a IH]; intros [|v b] y H; cbn [List.app] in H.
  - inversion H. split; [constructor|auto].
  - inversion H as [|? ? ? ? _ H2]. inversion H2. destruct b; discriminate.
  - inversion H as [|? ? ? ? _ H2]. inversion H2. destruct a; discriminate.
  - inversion H as [|? ? ? ? H1 H2]. destruct (IH b y H2). split; [constructor|]; auto.
Qed.
(** A stream just opened for output (mode 1: "w", 2: "a", 3: "r+" or "w+"), with any buffer: when fflush (or fclose, which
    calls it first) and all calls before it report success, the system has been given exactly the bytes written, in order,
    once, and they are in the file. *)
Theorem C37_file crlf mode binary file rs ws m given md size os : 1 <= mode <= 3 -> Forall (fun b => 0 <= b < 256) file -> 0 <= size ->
  let s := snd (setvbuf given md size (fopen mode binary file rs ws m)) in
  let bytes := toText (crlf && negb binary) (concat (map payload os)) in
  Forall (fun o => isWrite o /\ args o) os ->
  exists xs s', calls crlf (os ++ [Flush]) s = Ok (xs, s') /\
    (Forall2 done (os ++ [Flush]) xs /\ err s' = false /\ sent s' = bytes /\ data s' = (if mode =? 2 then file ++ bytes else overlay file 0 bytes) \/
     writeFailed s s' /\ (crlf && negb binary = false -> ~ Forall2 done (os ++ [Flush]) xs)).
Proof.
  intros HM B SZ s bs A. assert (R0 : reachable crlf (fopen mode binary file rs ws m)) by (apply reach_open; [lia|auto]).
  pose proof (reachable_inv _ _ R0) as I0. destruct (setvbuf_ok given md size _ I0 SZ) as (r & s1 & E & I1 & M & RD & W & (BI & RW & AP) & ER & RS & WS & _).
  assert (ES : s = s1) by (unfold s; rewrite E; reflexivity). assert (T : text crlf s = crlf && negb binary) by (rewrite ES; unfold text; rewrite BI; reflexivity).
  assert (W1 : wready s). { rewrite ES. split; [auto|]. rewrite RD. cbn. lia. }
  destruct (write_history crlf os s W1 A) as (xs & s2 & E2 & K2 & H). destruct (fflush_w s2 (proj1 K2)) as (e & s' & E3 & K3 & _ & H3).
  exists (xs ++ [Num e]), s'. split. { rewrite calls_app, E2. cbn [rbind calls call]. rewrite E3. reflexivity. }
  rewrite T in H. destruct H as [(D & P)|(F & D)].
  2:{ right. split; [apply (wf_before _ _ _ F K3)|]. intros Q X. apply (D Q). apply Forall2_snoc in X. apply X. }
  destruct H3 as [(-> & P3 & EP)|(-> & F3)].
  - left. split; [apply Forall2_app; [auto|repeat constructor]|].
    pose proof (puts_nil _ _ _ _ W1 K2 P P3) as [PM PE]. fold bs in PM. split; [rewrite PE, ES, ER; reflexivity|].
    destruct (C37_flushed s' EP) as [DD SS]. rewrite DD, SS, PM. unfold written. cbn [content log]. rewrite ES, M, AP.
    assert (M0 : meaning (fopen mode binary file rs ws m) = mkStream file (if mode =? 2 then zlen file else 0) (if (mode =? 1) || (mode =? 2) then skipn (Z.to_nat (if mode =? 2 then zlen file else 0)) file else file) []).
    { unfold meaning, pending, buffered, fopen; proj. destruct ((mode =? 1) || (mode =? 2)); cbn [List.app]; rewrite ?overlay_nil; destruct (mode =? 2); destruct (mode =? 0); reflexivity. }
    rewrite M0. cbn [content log List.app]. split; [reflexivity|]. unfold fopen; proj. cbn [position]. destruct (mode =? 2); [apply overlay_end|reflexivity].
  - right. split; [apply (wf_later _ _ _ K2 F3)|]. intros _ X. apply Forall2_snoc in X as [_ X]. discriminate X.
Qed.
Print Assumptions C37_file.

(** When every write call takes what it is given, no call fails. *)
Theorem C37_success crlf s os : reachable crlf s -> rd s = false -> wsch s = [] -> Forall (fun o => isWrite o /\ args o) os ->
  exists xs s', calls crlf os s = Ok (xs, s') /\ Forall2 done os xs /\ meaning s' = written (app s) (toText (text crlf s) (concat (map payload os))) (meaning s).
Proof.
  intros RE R WS A. destruct (C37_history crlf s os RE R A) as (xs & s' & E & [(H1 & _ & H2)|((_ & a & k & b & Q & _) & _)]).
  - exists xs, s'. auto.
  - rewrite WS in Q. destruct a; discriminate.
Qed.
Print Assumptions C37_success.

(** With "\r\n" line ends, putting '\n' reports success although the '\r' was lost (here: the buffer of one byte could not be
    written out before it); only the error flag tells. *)
Definition exText : st := snd (setvbuf true 1 1 (fopen 1 false [] [] [1; -1] true)).
Theorem C37_crlf_refuted : exists s s' s2, reachable true s /\ rd s = false /\ fputc true 10 s = Ok (10, s') /\ err s' = true /\ fflush s' = Ok (0, s2) /\ log (meaning s2) = log (meaning s) ++ [10].
Proof.
  assert (H : exists a, call true (Putc 65) exText = Ok (Num 65, a) /\ rd a = false /\ exists s, call true (Putc 66) a = Ok (Num 66, s) /\ exists s' s2, rd s = false /\ fputc true 10 s = Ok (10, s') /\ err s' = true /\ fflush s' = Ok (0, s2) /\ log (meaning s2) = log (meaning s) ++ [10]).
  { eexists. split; [vm_compute; reflexivity|]. split; [vm_compute; reflexivity|]. eexists. split; [vm_compute; reflexivity|]. do 2 eexists. split; [vm_compute; reflexivity|]. split; [vm_compute; reflexivity|]. split; [vm_compute; reflexivity|]. split; vm_compute; reflexivity. }
  destruct H as (a & E1 & RA & s & E2 & s' & s2 & H). exists s, s', s2. split; [|auto].
  assert (R0 : reachable true exText) by (apply reach_setvbuf; [apply reach_open; [lia|constructor]|lia]).
  eapply reach_call; [eapply reach_call; [exact R0| |exact E1]| |exact E2].
  - split; [cbn; lia|reflexivity].
  - split; [cbn; lia|exact RA].
Qed.
Print Assumptions C37_crlf_refuted.

Definition exOut : st := snd (setvbuf true 1 4 (fopen 2 true [1; 2] [] [100; 2] true)).
Example C37_example : exists s', calls false [Putc 65; Write [66; 67; 68; 69; 70] 5 1; Flush] exOut = Ok ([Num 65; Num 1; Num 0], s') /\ data s' = [1; 2; 65; 66; 67; 68; 69; 70] /\ sent s' = [65; 66; 67; 68; 69; 70].
Proof. eexists. split; [vm_compute; reflexivity|]. split; vm_compute; reflexivity. Qed.
(** the same with a disk that is full after four bytes *)
Example C37_example_full : exists s', calls false [Putc 65; Write [66; 67; 68; 69; 70] 5 1; Flush] (snd (setvbuf true 1 4 (fopen 2 true [1; 2] [] [4; -1] true))) = Ok ([Num 65; Num 1; Num (-1)], s') /\ err s' = true.
Proof. eexists. split; vm_compute; reflexivity. Qed.
Example C37_example_hyp : Forall (fun o => isWrite o /\ args o) [Putc 65; Write [66; 67; 68; 69; 70] 5 1; Flush] /\ reachable false exOut /\ rd exOut = false.
Proof. split; [repeat constructor; cbn; lia|]. split; [apply reach_setvbuf; [apply reach_open; [lia|repeat constructor; lia]|lia]|reflexivity]. Qed.

(** ** C38: positions *)
(** ftell tells the position (streams not in append mode, files below 2 GiB). *)
Theorem C38_ftell crlf s : reachable crlf s -> app s = false -> pos s < 2 ^ 31 -> ftell s = (position (meaning s), s).
Proof. intros RE A P. rewrite (ftell_ok s (reachable_inv _ _ RE) A). replace (pos s <? 2 ^ 31) with true by lia. reflexivity. Qed.
Print Assumptions C38_ftell.

(** A successful fseek relative to the start or the end of the file goes there: position and bytes to come are those of the
    file as written so far. *)
Theorem C38_seek crlf s offset whence r s' : reachable crlf s -> app s = false -> whence = SEEK_SET \/ whence = SEEK_END -> fseek offset whence s = Ok (r, s') ->
  r = 0 /\ err s' = err s /\ meaning s' = moved (target offset whence (meaning s)) (meaning s) \/ r = -1.
Proof.
  intros RE A HW E. destruct (fseek_ok offset whence s (reachable_inv _ _ RE) A ltac:(tauto)) as (r' & s1 & E' & _ & _ & _ & _ & H). rewrite E in E'. injection E' as <- <-.
  destruct H as [(H1 & H2 & [H3|(H3 & _)])|H]; [left; auto| |right; auto]. exfalso. unfold SEEK_SET, SEEK_CUR, SEEK_END in *. lia.
Qed.
Print Assumptions C38_seek.

(** Relative to the current position: likewise, unless characters read ahead are in the buffer and the target is not in it
    (or a character was pushed back, or the stream is also for output); then the code goes too far by their number. *)
Theorem C38_seek_cur_partial crlf s offset r s' : reachable crlf s -> app s = false -> fseek offset SEEK_CUR s = Ok (r, s') ->
  rd s = false \/ cnt s = 0 \/ rwok s = false /\ ungot s = false /\ - ptr s <= offset <= cnt s ->
  r = 0 /\ err s' = err s /\ meaning s' = moved (position (meaning s) + offset) (meaning s) \/ r = -1.
Proof.
  intros RE A E C. destruct (fseek_ok offset SEEK_CUR s (reachable_inv _ _ RE) A ltac:(tauto)) as (r' & s1 & E' & _ & _ & _ & _ & H). rewrite E in E'. injection E' as <- <-.
  destruct H as [(H1 & H2 & [H3|(_ & H3 & H4 & H5 & _)])|H]; [left| |right; auto].
  - split; [auto|]. split; [auto|]. rewrite H3. f_equal. unfold target. cbn. lia.
  - exfalso. destruct C as [C|[C|(C1 & C2 & C3)]]; [congruence|lia|]. destruct H5 as [H5|[H5|H5]]; [congruence|congruence|lia].
Qed.
Print Assumptions C38_seek_cur_partial.

(** The remaining case is wrong: from position 1 of a file of 3000 bytes, fseek(f, 2000, SEEK_CUR) goes to 3024. *)
Definition ex3000 : st := fopen 0 true (repeat 7 (Z.to_nat 3000)) [] [] true.
Theorem C38_seek_cur_refuted : exists s s', reachable false s /\ position (meaning s) = 1 /\ fseek 2000 SEEK_CUR s = Ok (0, s') /\ position (meaning s') = 3024.
Proof.
  assert (H : exists s, fgetc false ex3000 = Ok (7, s) /\ exists s', position (meaning s) = 1 /\ fseek 2000 SEEK_CUR s = Ok (0, s') /\ position (meaning s') = 3024).
  { eexists. split; [vm_compute; reflexivity|]. eexists. split; [vm_compute; reflexivity|]. split; vm_compute; reflexivity. }
  destruct H as (s & E & s' & H). exists s, s'. split; [|auto]. apply (reach_call false Getc (Num 7) ex3000).
  - apply reach_open; [lia|]. apply Forall_forall. intros x I. apply repeat_spec in I. lia.
  - split; [exact Logic.I|reflexivity].
  - cbn [call]. rewrite E. reflexivity.
Qed.
Print Assumptions C38_seek_cur_refuted.

(** After going to [t], the next byte read is the byte of the file at [t]. *)
Theorem C38_next_byte crlf s s' t : reachable crlf s' -> meaning s' = moved t (meaning s) -> 0 <= t -> wr s' = false -> text crlf s' = false ->
  exists c s2, fgetc crlf s' = Ok (c, s2) /\
    (zget (content (meaning s)) t = Some c /\ position (meaning s2) = t + 1 \/ c = EOF /\ (zlen (content (meaning s)) <= t /\ eof s2 = true \/ readFailed s' s2)).
Proof.
  intros RE M T W TX. destruct (C36_calls crlf s' RE W) as ((c & s2 & r & u & E & RS & MS & _ & H) & _). exists c, s2. split; [auto|]. rewrite TX in H. cbn [fromText] in H. rewrite M in RS, MS. cbn [moved rest] in RS.
  destruct H as [(H1 & H2 & _)|(H1 & H2 & H3)].
  - left. subst r. rewrite zget_skipn1 by auto. rewrite RS. split; [reflexivity|]. rewrite MS. reflexivity.
  - right. split; [auto|]. destruct H3 as [(H3 & H4 & _)|H3]; [left|auto]. split; [|auto]. subst r u. cbn [List.app] in RS. pose proof (f_equal (@zlen Z) RS) as L. change (zlen (@nil Z)) with 0 in L.
    destruct (Z.leb_spec (zlen (content (meaning s))) t) as [|Q]; [auto|]. rewrite zlen_skipn in L by lia. lia.
Qed.
Print Assumptions C38_next_byte.

(** Example: write, go back, read *)
Example C38_example : exists s', calls false [Write [65; 66; 67; 68] 1 4; Seek 1 SEEK_SET; Getc; Seek (-1) SEEK_END; Getc; Seek 0 SEEK_SET; Putc 90; Seek 0 SEEK_SET; Getc; Getc] (fopen 3 true [] [] [] true)
  = Ok ([Num 4; Num 0; Num 66; Num 0; Num 68; Num 0; Num 90; Num 0; Num 90; Num 66], s').
Proof. eexists. vm_compute. reflexivity. Qed.

(** The two together: after a successful fseek on a readable stream, fgetc returns the byte of the file at the place asked
    for, or EOF if the file ends before it. *)
Theorem C38_seek_read crlf s offset whence s' : reachable crlf s -> app s = false -> rd s = true \/ rwok s = true -> text crlf s = false ->
  whence = SEEK_SET \/ whence = SEEK_END -> fseek offset whence s = Ok (0, s') ->
  let t := target offset whence (meaning s) in
  exists c s2, fgetc crlf s' = Ok (c, s2) /\
    (zget (content (meaning s)) t = Some c /\ position (meaning s2) = t + 1 \/ c = EOF /\ (zlen (content (meaning s)) <= t /\ eof s2 = true \/ readFailed s' s2)).
Proof.
  intros RE A RD TX HW E t. pose proof (reachable_inv _ _ RE) as I0.
  assert (RE' : reachable crlf s'). { apply (reach_call crlf (Seek offset whence) (Num 0) s); auto; [|cbn [call]; rewrite E; reflexivity]. split; [cbn; tauto|exact A]. }
  destruct (C38_seek crlf s offset whence 0 s' RE A HW E) as [(_ & _ & M)|]; [|lia]. fold t in M.
  destruct (fseek_ok offset whence s I0 A ltac:(tauto)) as (r' & s1 & E' & I' & SA & H1 & H2 & _). rewrite E in E'. injection E' as <- <-.
  assert (W : wr s' = false). { destruct (rwok s) eqn:RW; [apply H1; auto|]. destruct RD as [RD|]; [|discriminate]. apply (i_mode s' I'). rewrite H2; auto. }
  apply C38_next_byte; auto.
  - replace t with (position (meaning s')) by (rewrite M; reflexivity). assert (A' : app s' = false) by (destruct SA as (_ & _ & SA); congruence). rewrite (meaning_rd s' W A'). cbn [position].
    pose proof (i_pos s' I'). destruct (rd s') eqn:R; [|auto]. pose proof (i_rd s' I' R). pose proof (i_buf s' I'). destruct (buf s'); lia.
  - rewrite (text_same crlf _ _ SA). auto.
Qed.
Print Assumptions C38_seek_read.
