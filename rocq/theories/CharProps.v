(** C17: characters and escapes in character constants and string literals. *)
From Verif Require Import Base BaseLemmas LexSpec LexModel LexProof CharSpec CharModel CharProof.
From Coq Require Import String.
Close Scope string_scope.

(** One character.  What is taken from the text is a character in the sense of C with C's value,
    or a backslash before a character that needs none; text is rejected only if it starts with
    no character that fits, or with an octal escape above 255 in a wide constant. *)
Theorem C17_escape : forall wide wsz l, (wide = true -> wsz = 2 \/ wsz = 4) ->
  match getCharValue true wide wsz l with
  | Ok (v, rest) => exists e, l = e ++ rest /\
      (cchar wide (if wide then wsz else 1) rest e v \/
       (e = [92; v] /\ v <> 120 /\ ~ octdigit v /\ ~ In v (map fst simple)))
  | Err => forall e rest v, l = e ++ rest -> cchar wide (if wide then wsz else 1) rest e v -> wide = true /\ 256 <= v /\ nth_error e 1 <> Some 120
  | Oob => False
  end.
Proof.
  intros wide wsz l OKW. pose proof (gcv_noob wide wsz l) as NO. destruct (getCharValue true wide wsz l) as [[v rest]| |] eqn:G; [| |congruence].
  - destruct (gcv_sound _ _ _ _ _ OKW G) as (e & E & A). exists e. split; [exact E|]. destruct A as [e v A _|]; [left; exact A|right; auto].
  - intros e rest v -> CC. destruct (Z.ltb_spec v 256) as [V|V].
    + rewrite (gcv_complete wide wsz e v rest OKW) in G; [discriminate G|]. apply ac_c; [exact CC|auto].
    + assert (ND : ~ (forall d, nth_error e 1 = Some d -> octdigit d -> v < 256)).
      { intros H. rewrite (gcv_complete wide wsz e v rest OKW) in G; [discriminate G|]. apply ac_c; assumption. }
      split; [|split; [exact V|]].
      * destruct wide; [reflexivity|exfalso]. apply ND. intros d D OD. destruct CC as [c|k v IN|ds L F N X|ds NE F N X]; [discriminate D| |cbn in X; lia|cbn in X; lia].
        cbn in IN. repeat (destruct IN as [IN|IN]; [injection IN as <- <-; lia|]). destruct IN.
      * intros N1. apply ND. intros d D. rewrite N1 in D. injection D as <-. unfold octdigit. lia.
Qed.
(** Every escape that C has is taken whole, with its value, whatever follows it. *)
Theorem C17_value : forall wide wsz e rest v, (wide = true -> wsz = 2 \/ wsz = 4) ->
  cchar wide (if wide then wsz else 1) rest e v -> (wide = true -> v < 256 \/ nth_error e 1 = Some 120) ->
  getCharValue true wide wsz (e ++ rest) = Ok (v, rest).
Proof.
  intros wide wsz e rest v OKW CC R. apply gcv_complete; [exact OKW|]. apply ac_c; [exact CC|]. intros d D OD. destruct wide.
  - destruct (R eq_refl) as [V|N1]; [exact V|]. rewrite N1 in D. injection D as <-. unfold octdigit in OD. lia.
  - destruct CC as [c|k v IN|ds L F N X|ds NE F N X]; [discriminate D| |cbn in X; lia|cbn in X; lia].
    cbn in IN. repeat (destruct IN as [IN|IN]; [injection IN as <- <-; lia|]). destruct IN.
Qed.
(** the two exceptions occur *)
Theorem C17_wide_octal_refuted : exists e rest v, cchar true 4 rest e v /\ getCharValue true true 4 (e ++ rest) = Err.
Proof.
  exists (str "\400"), (str "'"), 256. split; [|vm_compute; reflexivity].
  apply (cc_octal true 4 (str "'") [52; 48; 48]); [cbv; split; discriminate| |intros X; cbv in X; discriminate X|cbv; reflexivity].
  repeat (apply Forall_cons; [cbv; split; discriminate|]). constructor.
Qed.
Example C17_ex_hex : cchar false 1 (str "g") (str "\x00000041") 65 /\ getCharValue true false 2 (str "\x00000041g") = Ok (65, str "g") /\
  getCharValue true false 2 (str "\x141g") = Err /\ getCharValue true false 2 (str "\0101") = Ok (8, str "1") /\ getCharValue true false 2 (str "\400") = Err.
Proof.
  split; [|repeat split].
  apply (cc_hex false 1 (str "g") (repeat 48 6 ++ [52; 49])); [discriminate| | |cbv; reflexivity].
  { repeat (apply Forall_cons; [cbv; left; split; discriminate|]). constructor. }
  cbv. intros [[_ X]|[[_ X]|[_ X]]]; apply X; reflexivity.
Qed.

(** String literals: accepted exactly if the text up to the closing quote is a sequence of
    characters; what is printed defines their bytes, lowest first, in order; the size is theirs. *)
Theorem C17_string : forall wide wsz l, (wide = true -> wsz = 2 \/ wsz = 4) ->
  let size := if wide then wsz else 1 in
  match stringLit wide wsz l with
  | Ok (text, len, sz, rest) => exists vs, literal (accepted wide size) 34 l vs rest /\
      defines text = Some (flat_map (bytes (Z.to_nat size)) vs) /\ len = zlen vs /\ sz = size * zlen vs /\ sz <= MAXU
  | Err => forall vs rest, literal (accepted wide size) 34 l vs rest -> MAXU < size * zlen vs
  | Oob => False
  end.
Proof.
  intros wide wsz l OKW size. change size with (csize wide wsz). assert (SZ : 1 <= csize wide wsz <= 4) by (unfold csize; destruct wide; [destruct (OKW eq_refl)|]; lia).
  unfold stringLit. pose proof (getString_inv wide wsz OKW (S (List.length l)) false 0 0 l _ ltac:(lia) eq_refl) as INV.
  destruct (getString (S (List.length l)) wide wsz false 0 0 l) as [[[[text len] sz] rest]| |] eqn:G; [| |exact INV].
  - destruct INV as (vs & r & LI). pose proof (getString_ok wide wsz OKW l vs r LI (S (List.length l)) false 0 0 ltac:(lia) ltac:(lia)) as H. rewrite G in H. exists vs.
    assert (ZV : 0 <= zlen vs) by (unfold zlen; lia). assert (MZ : 0 <= MAXU) by discriminate.
    assert (SM : csize wide wsz * zlen vs <= MAXU) by (destruct (0 + csize wide wsz * zlen vs <=? MAXU) eqn:M; [lia|]; destruct (zlen vs =? 0) eqn:Z0; [nia|discriminate H]).
    assert (X : (text, len, sz, rest) = (outs (Z.to_nat (csize wide wsz)) false 0 vs, 0 + zlen vs, 0 + csize wide wsz * zlen vs, r)).
    { destruct (0 + csize wide wsz * zlen vs <=? MAXU); [injection H; congruence|]. destruct (zlen vs =? 0); [injection H; congruence|discriminate H]. }
    injection X as -> -> -> ->. split; [exact LI|]. split; [apply outs_defines; lia|]. split; [reflexivity|]. split; [reflexivity|exact SM].
  - intros vs r LI. pose proof (getString_ok wide wsz OKW l vs r LI (S (List.length l)) false 0 0 ltac:(lia) ltac:(lia)) as H. rewrite G in H.
    destruct (0 + csize wide wsz * zlen vs <=? MAXU) eqn:M; [discriminate H|lia].
Qed.
(** Adjacent literals are one array, of all their characters and a terminating zero. *)
Theorem C17_adjacent : forall maxu wide wsz ls os n, (wide = true -> wsz = 2 \/ wsz = 4) -> 0 <= maxu < 2 ^ 32 ->
  let size := if wide then wsz else 1 in
  arrayLit maxu wide wsz ls = Ok (os, n) ->
  exists vss, Forall2 (fun l vs => exists rest, literal (accepted wide size) 34 l vs rest) ls vss /\
    Forall2 (fun o vs => defines o = Some (flat_map (bytes (Z.to_nat size)) vs)) os vss /\ n = zlen (List.concat vss) + 1.
Proof.
  intros maxu wide wsz ls os n OKW MU size. change size with (csize wide wsz). assert (SZ : 1 <= csize wide wsz <= 4) by (unfold csize; destruct wide; [destruct (OKW eq_refl)|]; lia).
  unfold arrayLit. fold (csize wide wsz).
  assert (G : forall ls sz os sz', 0 <= sz < 2 ^ 32 -> adjacent maxu wide wsz sz ls = Ok (os, sz') ->
    exists vss, Forall2 (fun l vs => exists rest, literal (accepted wide (csize wide wsz)) 34 l vs rest) ls vss /\
      Forall2 (fun o vs => defines o = Some (flat_map (bytes (Z.to_nat (csize wide wsz))) vs)) os vss /\ sz' = sz + csize wide wsz * zlen (List.concat vss)).
  { clear ls os. induction ls as [|l ls IH]; intros sz os sz' S0 E; cbn [adjacent] in E.
    - injection E as <- <-. exists []. split; [constructor|]. split; [constructor|]. change (zlen (List.concat [])) with 0. lia.
    - pose proof (C17_string wide wsz l OKW) as CS. cbv zeta in CS. fold (csize wide wsz) in CS. destruct (stringLit wide wsz l) as [[[[o len] s] r]| |]; [|discriminate E|discriminate E].
      cbn [rbind] in E. destruct CS as (vs & LI & D & _ & -> & SM). destruct ((u32 (sz + csize wide wsz * zlen vs) <? sz) || (maxu <=? u32 (sz + csize wide wsz * zlen vs))) eqn:OV; [discriminate E|].
      destruct (adjacent maxu wide wsz (u32 (sz + csize wide wsz * zlen vs)) ls) as [[os' s']| |] eqn:EA; [|discriminate E|discriminate E]. cbn [rbind] in E. injection E as <- <-.
      assert (0 <= u32 (sz + csize wide wsz * zlen vs) < 2 ^ 32) by (unfold u32, wrap; apply Z.mod_pos_bound; lia).
      destruct (IH _ _ _ H EA) as (vss & F1 & F2 & ->). exists (vs :: vss). split; [constructor; [eauto|assumption]|]. split; [constructor; assumption|].
      cbn [List.concat]. rewrite zlen_app. clear -OV SM S0 SZ. assert (0 <= csize wide wsz * zlen vs) by (unfold zlen; nia). unfold u32, wrap, MAXU in *.
      set (a := csize wide wsz * zlen vs) in *. replace (csize wide wsz * (zlen vs + zlen (List.concat vss))) with (a + csize wide wsz * zlen (List.concat vss)) by (unfold a; lia).
      change (2 ^ 32) with 4294967296 in *. lia. }
  destruct (adjacent maxu wide wsz (csize wide wsz) ls) as [[os' sz]| |] eqn:EA; intros E; [|discriminate E|discriminate E]. cbn [rbind] in E. injection E as <- <-.
  destruct (G ls (csize wide wsz) os' sz ltac:(change (2 ^ 32) with 4294967296; lia) EA) as (vss & F1 & F2 & ->). exists vss. split; [exact F1|]. split; [exact F2|].
  replace (csize wide wsz + csize wide wsz * zlen (List.concat vss)) with ((zlen (List.concat vss) + 1) * csize wide wsz) by lia. apply Z.div_mul. lia.
Qed.
Example C17_ex_string : stringLit false 2 (str "a\n\x22z"" + 1") = Ok (str "	db	""a"",10,34,""z""" ++ [10], 4, 4, str " + 1") /\
  arrayLit 65535 true 2 [str "a\u"""; str "\x1234"""] = Ok ([str "	db	""a"",0,""u"",0" ++ [10]; str "	db	""4"",18" ++ [10]], 4).
Proof. split; vm_compute; reflexivity. Qed.

(** Character constants: accepted exactly if they are one character, or up to the size of int
    when not wide; the value is the character's, as the character type's sign has it. *)
Theorem C17_constant : forall cs ws wide W wsz l, (wide = true -> wsz = 2 \/ wsz = 4) -> W = 2 \/ W = 4 -> Forall (fun c => 0 <= c < 256) l ->
  let size := if wide then wsz else 1 in
  let most := if wide then 1 else W in
  match charConst cs ws wide W wsz l with
  | Ok (i, rest) => exists vs, literal (accepted wide size) 39 l vs rest /\ 1 <= zlen vs <= most /\ i = constant wide cs ws W wsz vs
  | Err => forall vs rest, literal (accepted wide size) 39 l vs rest -> ~ 1 <= zlen vs <= most
  | Oob => False
  end.
Proof.
  intros cs ws wide W wsz l OKW HW BL size most. change size with (csize wide wsz).
  assert (OKC : forall vs rest, literal (accepted wide (csize wide wsz)) 39 l vs rest -> vs <> [] ->
    charConst cs ws wide W wsz l = if zlen vs <=? most then Ok (constant wide cs ws W wsz vs, rest) else Err).
  { intros vs rest LI NE. unfold charConst. fold most. rewrite (literal_q wide wsz l vs rest LI).
    assert (ZP : 1 <= zlen vs) by (destruct vs; [contradiction|unfold zlen; cbn [List.length]; lia]). replace (zlen vs =? 0) with false by lia.
    rewrite (chars_ok wide wsz OKW l vs rest LI (S (List.length l)) most 0 0 NE BL ltac:(lia)) by (unfold most; destruct wide; [auto with zarith|split; [lia|]; split; [lia|]; change (256 ^ 0) with 1; lia]).
    rewrite Z.add_0_l. destruct (zlen vs <=? most) eqn:LM; [|reflexivity]. cbn [rbind]. change (39 =? 39) with true. cbn [negb]. cbv iota zeta.
    pose proof (literal_vals wide wsz 39 l vs rest OKW LI BL) as VR. destruct wide.
    - unfold most in LM. destruct vs as [|v [|v2 vs]]; [contradiction| |unfold zlen in LM; cbn [List.length] in LM; lia].
      apply Forall_inv in VR. unfold csize in VR. unfold constant, join. cbn [fold_left]. change (0 * 256 + v) with v. f_equal. f_equal.
      unfold s32, swrap. destruct (OKW eq_refl) as [-> | ->].
      + change (256 ^ 2) with 65536 in VR. change (2 =? 2) with true. change (8 * 2) with 16. change (2 ^ 16) with 65536. change (2 ^ (16 - 1)) with 32768. change (2 ^ 32) with 4294967296. change (2 ^ (32 - 1)) with 2147483648.
        rewrite !(Z.mod_small v) by lia. cbv zeta. replace (v <? 2147483648) with true by lia. destruct ws; cbn [andb].
        * destruct (v <? 32768) eqn:C; [replace (32768 <=? v) with false by lia; rewrite Z.mod_small by lia; replace (v <? 2147483648) with true by lia; lia|].
          replace (32768 <=? v) with true by lia. replace ((v - 65536) mod 4294967296) with (v - 65536 + 4294967296) by lia. replace (v - 65536 + 4294967296 <? 2147483648) with false by lia. lia.
        * rewrite Z.mod_small by lia. replace (v <? 2147483648) with true by lia. lia.
      + change (4 =? 2) with false. change (8 * 4) with 32. change (256 ^ 4) with 4294967296 in VR. change (2 ^ 32) with 4294967296. change (2 ^ (32 - 1)) with 2147483648.
        rewrite andb_false_r. cbn [andb]. rewrite !(Z.mod_small v) by lia. cbv zeta. destruct ws; [|rewrite Z.mod_small by lia; lia].
        destruct (v <? 2147483648) eqn:C; [rewrite Z.mod_small by lia; rewrite C; lia|].
        replace ((v - 4294967296) mod 4294967296) with v by lia. rewrite C. lia.
    - unfold most in LM. unfold csize in VR. change (256 ^ 1) with 256 in VR. destruct vs as [|v [|v2 vs]]; [contradiction| |].
      + apply Forall_inv in VR. change (zlen [v] =? 1) with true. cbv iota. unfold constant, join. cbn [fold_left]. change (0 * 256 + v) with v. f_equal. f_equal.
        unfold s32, s8, swrap. change (2 ^ 8) with 256. change (2 ^ (8 - 1)) with 128. change (2 ^ 32) with 4294967296. change (2 ^ (32 - 1)) with 2147483648. rewrite !(Z.mod_small v) by lia. cbv zeta.
        replace (v <? 2147483648) with true by lia. destruct cs; cbn [andb]; [|lia]. destruct (v <? 128) eqn:C; [replace (128 <=? v) with false by lia|replace (128 <=? v) with true by lia]; lia.
      + replace (zlen (v :: v2 :: vs) =? 1) with false by (unfold zlen; cbn [List.length]; lia). set (us := v :: v2 :: vs) in *.
        replace (constant false cs ws W wsz us) with (swrap (8 * W) (join 0 us)) by reflexivity.
        pose proof (join_bound us VR 0 0 ltac:(lia) ltac:(change (256 ^ 0) with 1; lia)) as JB. rewrite Z.add_0_l in JB. f_equal. f_equal.
        assert (JW : 0 <= join 0 us < 256 ^ W) by (assert (256 ^ zlen us <= 256 ^ W) by (apply Z.pow_le_mono_r; lia); lia).
        generalize dependent (join 0 us). clear -HW. intros j _ JW. unfold s32, swrap. destruct HW as [-> | ->].
        * change (256 ^ 2) with 65536 in JW. change (2 =? 2) with true. change (8 * 2) with 16. change (2 ^ 16) with 65536. change (2 ^ (16 - 1)) with 32768. change (2 ^ 32) with 4294967296. change (2 ^ (32 - 1)) with 2147483648.
          rewrite !(Z.mod_small j) by lia. cbv zeta. replace (j <? 2147483648) with true by lia. cbn [andb]. destruct (j <? 32768) eqn:C; [replace (32768 <=? j) with false by lia|replace (32768 <=? j) with true by lia]; lia.
        * change (4 =? 2) with false. cbn [andb]. change (8 * 4) with 32. lia. }
  assert (QC : charConst cs ws wide W wsz l <> Oob /\ forall i rest, charConst cs ws wide W wsz l = Ok (i, rest) -> exists vs, literal (accepted wide (csize wide wsz)) 39 l vs rest /\ vs <> []).
  { unfold charConst. fold most. destruct (quoteOrNl l) eqn:Q; [split; [discriminate|intros ? ? X; discriminate X]|].
    pose proof (chars_inv wide wsz OKW (S (List.length l)) most 0 0 l _ ltac:(lia) Q eq_refl) as INV.
    destruct (chars (S (List.length l)) wide wsz most 0 0 l) as [[[v cnt] l']| |]; [|split; [discriminate|intros ? ? X; discriminate X]|destruct INV]. cbn [rbind].
    destruct l' as [|q r]; [split; [discriminate|intros ? ? X; discriminate X]|]. destruct (Z.eqb_spec q 39) as [-> |]; cbn [negb]; [|split; [discriminate|intros ? ? X; discriminate X]].
    cbv zeta. split; [destruct wide; [discriminate|destruct (cnt =? 1); discriminate]|]. intros i rest X. assert (rest = r) as -> by (destruct wide; [injection X; congruence|destruct (cnt =? 1); injection X; congruence]).
    apply INV. reflexivity. }
  destruct QC as [QO QC]. destruct (charConst cs ws wide W wsz l) as [[i rest]| |] eqn:E; [| |congruence].
  - destruct (QC i rest eq_refl) as (vs & LI & NE). specialize (OKC vs rest LI NE). destruct (zlen vs <=? most) eqn:LM; [|discriminate OKC]. injection OKC as ->. exists vs. split; [exact LI|].
    split; [|reflexivity]. destruct vs; [contradiction|]. unfold zlen in *. cbn [List.length] in *. lia.
  - intros vs rest LI [L1 L2]. assert (NE : vs <> []) by (intros ->; change (zlen (@nil Z)) with 0 in L1; lia). specialize (OKC vs rest LI NE). replace (zlen vs <=? most) with true in OKC by lia. discriminate OKC.
Qed.
Example C17_ex_constant : charConst true false false 4 2 (str "\xFF';") = Ok (-1, str ";") /\ charConst false false false 4 2 (str "\377';") = Ok (255, str ";") /\
  charConst true false false 2 2 (str "ab'") = Ok (24930, []) /\ charConst true false false 2 2 (str "abc'") = Err /\ charConst true true true 4 2 (str "\xFFFE'") = Ok (-2, []).
Proof. repeat split; vm_compute; reflexivity. Qed.

Print Assumptions C17_escape.
Print Assumptions C17_value.
Print Assumptions C17_wide_octal_refuted.
Print Assumptions C17_string.
Print Assumptions C17_adjacent.
Print Assumptions C17_constant.
