(** C11: local variables and compiler temporaries do not overlap and lie in the frame.
    C12: parameters are where the caller put the arguments. *)
From Verif Require Import Base BaseLemmas FrameSpec FrameModel FrameProof DeclSpec CallSpec CallModel CallProof.

(** C11: for every function body, the compiler either gives every variable and every temporary an
    offset such that each lies inside the frame the prologue reserves, is aligned to the word, and is
    disjoint from everything live with it (the variables of enclosing blocks declared earlier, the
    temporaries of the same expression); the frame is exactly as large as the most demanding moment
    needs; or the function is refused, which happens only when it needs more than the limit. *)
Theorem C11_frame W L (l : list (item Z)) :
  (W = 2 /\ L = 32767) \/ (W = 4 /\ (L = 32767 \/ L = 2147483647)) ->
  okitem (IBlock l) ->
  match parseFunction W L l with
  | Some (frame, os) =>
      (exists live, sounds W frame [] os live) /\ map (imap snd) os = l /\ frame = needs W l /\ frame <= L
  | None => L < needs W l
  end.
Proof.
  intros H OK. assert (HW : W = 2 \/ W = 4) by lia.
  assert (HL : 0 < L < 2 ^ (8 * W - 1)).
  { destruct H as [[-> ->]|[-> [-> | ->]]]; split; reflexivity. }
  pose proof (function_ok W HW L HL l OK) as F. destruct (parseFunction W L l) as [[frame os]|]; [|exact F].
  destruct F as (A & B & C & D). split; [exact D|]. split; [exact C|]. split; [exact A|exact B].
Qed.

(** C12: when the callee is compiled ([addFxnParamSymbols] assigns the offsets [os]) and the call is
    compiled ([cleanup] gives the number of bytes removed afterwards), then when the body starts, each
    byte of each parameter equals the argument's; the implicit pointer for a returned structure is the
    word the callee expects; memory at or above the caller's stack pointer, and below the area used, is
    unchanged; and the bytes removed restore the caller's stack pointer. *)
Theorem C12_parameters W L ra s ret args sizes os lo n :
  W = 2 \/ W = 4 -> 0 < L < 2 ^ 31 ->
  (forall a, 0 <= mem s a < 256) -> 0 <= ra < 2 ^ (8 * W) -> 0 <= bp s < 2 ^ (8 * W) ->
  Forall2 (fits W) args sizes -> Forall (fun z => z < 2 ^ 32) sizes ->
  Forall (fun a => match a with
                   | AWord _ => True
                   | AStruct src sz => sz < 2 ^ (8 * W) /\ 0 <= src < 2 ^ (8 * W) /\ (src + sz <= lo \/ sp s <= src)
                   end) args ->
  zlen args < 2 ^ 28 ->
  let r := match ret with Some _ => true | None => false end in
  addFxnParamSymbols W L r sizes = Some os ->
  cleanup W L r args = Some n ->
  lo <= sp s - n - 4 * W ->
  let s' := callSeq W ra s ret args in
  (forall k a o size i, nth_error args k = Some a -> nth_error os k = Some o -> nth_error sizes k = Some size -> 0 <= i < size ->
     mem s' (bp s' + o + i) = argbyte (mem s) a i) /\
  (forall p i, ret = Some p -> 0 <= i < W -> mem s' (bp s' + 2 * W + i) = p / 2 ^ (8 * i) mod 256) /\
  (forall i, 0 <= i < W -> mem s' (bp s' + W + i) = ra / 2 ^ (8 * i) mod 256) /\
  (forall x, sp s <= x \/ x < lo -> mem s' x = mem s x) /\
  bp s' + 2 * W + n = sp s.
Proof.
  intros HW HL O RA BP FT SZ OA AL r HO HC LO. apply (call_ok W HW L HL ra s ret args sizes os lo n O RA BP FT SZ); [|exact HO|exact HC|exact LO|exact AL].
  clear -OA FT HW. revert OA. induction FT as [|a z args sizes F FT IH]; intros OA; [constructor|].
  apply Forall_cons_iff in OA. destruct OA as [A OA]. constructor; [|apply IH; exact OA].
  destruct a as [v|src sz]; [exact I|]. cbn [fits] in F. cbn [okarg]. split; [lia|]. exact (proj2 A).
Qed.
(** The hypotheses are met: a function with nested blocks, temporaries and a [for] loop; *)
Definition body0 : list (item Z) :=
  [IVar 4 []; IVar 10 [7]; IBlock [IVar 1 []; IExpr [12; 3]]; IFor [(4, []); (2, [])] [[4]; []] (IBlock [IVar 5 []]); IExpr []].
Example C11_ex : okitem (IBlock body0) /\
  parseFunction 4 2147483647 body0 =
  Some (36, [IVar (-4, 4) []; IVar (-16, 10) [(-24, 7)]; IBlock [IVar (-20, 1) []; IExpr [(-32, 12); (-36, 3)]];
             IFor [((-20, 4), []); ((-24, 2), [])] [[(-28, 4)]; []] (IBlock [IVar (-32, 5) []]); IExpr []]) /\
  parseFunction 2 32767 [IVar 32000 []; IBlock [IVar 768 []]] = None.
Proof. split; [repeat constructor; cbn; unfold oksize; lia|]. split; vm_compute; reflexivity. Qed.
(** a call [f(word, struct of 5 bytes, word)] returning a structure. *)
Definition mem0 (a : Z) : Z := a mod 256.
Definition st0 : mach := Mach mem0 5000 5100.
Definition args0 : list arg := [AWord (-2); AStruct 7000 5; AWord 77].
Example C12_ex :
  addFxnParamSymbols 4 2147483647 true [4; 5; 1] = Some [12; 16; 24] /\
  cleanup 4 2147483647 true args0 = Some 20 /\ Forall2 (fits 4) args0 [4; 5; 1] /\
  let s' := callSeq 4 1234 st0 (Some 5050) args0 in
  bp s' = 4972 /\ map (fun i => mem s' (4972 + i)) (map Z.of_nat (seq 0 28)) =
  [236; 19; 0; 0; 210; 4; 0; 0; 186; 19; 0; 0; 254; 255; 255; 255; 88; 89; 90; 91; 92; 0; 0; 0; 77; 0; 0; 0].
Proof.
  split; [vm_compute; reflexivity|]. split; [vm_compute; reflexivity|]. split; [repeat constructor; cbn; lia|].
  split; vm_compute; reflexivity.
Qed.
Print Assumptions C11_frame.
Print Assumptions C12_parameters.
