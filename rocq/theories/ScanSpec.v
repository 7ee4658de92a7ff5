(** What the C standard says scanf does (7.21.6.2), for the directives of doscan.c.  Left out: what
    the library does not know (ranges in %[ are implementation-defined, %lc and %ls, hexadecimal
    floating point numbers, the forms %a, %ll and NAN(...)). *)
From Verif Require Import Base StrtolSpec FloatSpec NumSpec StrtofSpec ScanModel.

(** ** The format *)
Inductive size := SNone | SHH | SH | SL | SLD | SJ | SZ | ST.
Inductive kind := KD | KI | KU | KO | KX | KUX | KP | KF (letter : Z) | KC | KS | KSet (neg : bool) (set : list Z).
Record directive := Directive { assigns : bool; width : list Z; siz : size; knd : kind }.
Inductive item := White (c : Z) | Lit (c : Z) | Percent | Count (s : size) | Conv (d : directive).

Definition size_text (s : size) : list Z :=
  match s with SNone => [] | SHH => [104; 104] | SH => [104] | SL => [108] | SLD => [76] | SJ => [106] | SZ => [122] | ST => [116] end.
Definition kind_text (k : kind) : list Z :=
  match k with
  | KD => [100] | KI => [105] | KU => [117] | KO => [111] | KX => [120] | KUX => [88] | KP => [112]
  | KF c => [c] | KC => [99] | KS => [115]
  | KSet neg set => [91] ++ (if neg then [94] else []) ++ set ++ [93]
  end.
Definition text (i : item) : list Z :=
  match i with
  | White c => [c]
  | Lit c => [c]
  | Percent => [37; 37]
  | Count s => [37] ++ size_text s ++ [110]
  | Conv d => [37] ++ (if assigns d then [] else [42]) ++ width d ++ size_text (siz d) ++ kind_text (knd d)
  end.
Fixpoint format (l : list item) : list Z := match l with [] => [] | i :: l => text i ++ format l end.

Definition width_ok (w : list Z) : Prop := w = [] \/ Forall (is_digit 10) w /\ exists n, value 10 w n /\ 0 < n < 2 ^ 31.
Definition kind_ok (k : kind) : Prop :=
  match k with
  | KF c => In c [101; 102; 103; 69; 70; 71]
  | KSet neg set => Forall (fun c => 0 < c < 256) set /\ set <> [] /\ Forall (fun c => c <> 93) (tl set) /\ (neg = false -> hd 0 set <> 94)
  | _ => True
  end.
Definition size_ok (k : kind) (s : size) : Prop :=
  match k with KC | KS | KSet _ _ | KP => s = SNone | KF _ => s = SNone \/ s = SL \/ s = SLD | _ => s <> SLD end.
Definition legal (i : item) : Prop :=
  match i with
  | White c => is_space c
  | Lit c => 0 < c < 256 /\ ~ is_space c /\ c <> 37
  | Percent => True
  | Count s => s <> SLD
  | Conv d => width_ok (width d) /\ kind_ok (knd d) /\ size_ok (knd d) (siz d)
  end.

(** ** Matching sequences *)
Definition signed (sg : list Z) (neg : bool) : Prop :=
  (sg = [] /\ neg = false) \/ (sg = [43] /\ neg = false) \/ (sg = [45] /\ neg = true).
(** A number as strtol expects it with this base, and its value. *)
Definition int_seq (base : Z) (l : list Z) (v : Z) : Prop :=
  exists sg neg pfx b ds m, l = sg ++ pfx ++ ds /\ signed sg neg /\ ds <> [] /\ Forall (is_digit b) ds /\ value b ds m /\
    v = (if neg then - m else m) /\
    ((exists x, (x = 120 \/ x = 88) /\ pfx = [48; x] /\ (base = 0 \/ base = 16) /\ b = 16) \/
     (pfx = [] /\ ((base <> 0 /\ b = base) \/
                   (base = 0 /\ starts_with (fun c => c = 48) ds /\ b = 8) \/
                   (base = 0 /\ ~ starts_with (fun c => c = 48) ds /\ b = 10)))).
(** A number as strtod expects it. *)
Definition float_seq (l : list Z) (neg : bool) (v : fval) : Prop :=
  exists sg body, l = sg ++ body /\ signed sg neg /\ fform body v.

Definition int_base (k : kind) : option Z :=
  match k with KD | KU => Some 10 | KI => Some 0 | KO => Some 8 | KX | KUX | KP => Some 16 | _ => None end.

(** [n] is the field width, if there is one. *)
Definition matching (k : kind) (n : option Z) (l : list Z) : Prop :=
  match k with
  | KC => zlen l = match n with Some n => n | None => 1 end
  | KS => l <> [] /\ Forall (fun c => ~ is_space c) l
  | KSet neg set => l <> [] /\ Forall (fun c => if neg then ~ In c set else In c set) l
  | KF _ => exists neg v, float_seq l neg v
  | _ => exists base v, int_base k = Some base /\ int_seq base l v
  end.

(** "The longest sequence of input characters which does not exceed any specified field width and which
    is, or is a prefix of, a matching input sequence." *)
Definition could_match (k : kind) (n : option Z) (l : list Z) : Prop := exists ext, matching k n (l ++ ext).
Definition fits (n : option Z) (l : list Z) : Prop := match n with Some n => zlen l <= n | None => True end.
Definition input_item (k : kind) (n : option Z) (inp l rest : list Z) : Prop :=
  inp = l ++ rest /\ fits n l /\ could_match k n l /\
  forall l' rest', inp = l' ++ rest' -> fits n l' -> could_match k n l' -> zlen l' <= zlen l.

(** ** What is stored *)
Definition bytes (s : size) : Z := match s with SHH => 1 | SH => 2 | _ => 4 end.
(** Numbers of more than [exact] significant digits need not be converted accurately. *)
Definition stored (exact : Z) (k : kind) (s : size) (l : list Z) (p : Z) (st : store) : Prop :=
  match k with
  | KC => st = PutChars p l
  | KS | KSet _ _ => st = PutChars p (l ++ [0])
  | KF _ => exists neg v b, float_seq l neg v /\ st = PutInt p 4 b /\
      (match v with FNum ds _ => sig_digits ds <= exact | _ => True end -> exists erange, converted neg v b erange)
  | _ => exists base v, int_base k = Some base /\ int_seq base l v /\ st = PutInt p (bytes s) (v mod 2 ^ (8 * bytes s))
  end.

(** ** Running a format *)
Definition skips (inp ws rest : list Z) : Prop := inp = ws ++ rest /\ Forall is_space ws /\ ~ starts_with is_space rest.
(** White space is skipped before every conversion but %c and %[. *)
Definition leading (k : kind) (inp ws rest : list Z) : Prop :=
  match k with KC | KSet _ _ => ws = [] /\ inp = rest | _ => skips inp ws rest end.
Definition has_width (w : list Z) (n : option Z) : Prop :=
  match n with None => w = [] | Some n => w <> [] /\ value 10 w n end.

Inductive status := Done | Mismatch | Ended.  (* all directives executed, matching failure, input failure *)

(** [scans exact l inp k args n out st rest]: executing the directives [l] on the input [inp], of which
    [k] characters came before, with the pointers [args], makes [n] assignments and the stores [out], ends
    with [st] and leaves [rest] of the input. *)
Inductive scans (exact : Z) : list item -> list Z -> Z -> list Z -> Z -> list store -> status -> list Z -> Prop :=
| sc_nil inp k args : scans exact [] inp k args 0 [] Done inp
| sc_white c l inp ws inp' k args n out st rest : skips inp ws inp' ->
    scans exact l inp' (k + zlen ws) args n out st rest -> scans exact (White c :: l) inp k args n out st rest
| sc_lit c l inp k args n out st rest :
    scans exact l inp (k + 1) args n out st rest -> scans exact (Lit c :: l) (c :: inp) k args n out st rest
| sc_lit_no c c' l inp k args : c' <> c -> scans exact (Lit c :: l) (c' :: inp) k args 0 [] Mismatch (c' :: inp)
| sc_lit_end c l k args : scans exact (Lit c :: l) [] k args 0 [] Ended []
| sc_percent l inp ws inp' k args n out st rest : skips inp ws inp' ->
    scans exact (Lit 37 :: l) inp' (k + zlen ws) args n out st rest -> scans exact (Percent :: l) inp k args n out st rest
| sc_count s l inp k p args n out st rest :
    scans exact l inp k args n out st rest ->
    scans exact (Count s :: l) inp k (p :: args) n (PutInt p (bytes s) (k mod 2 ^ (8 * bytes s)) :: out) st rest
| sc_conv_end d l inp ws k args : leading (knd d) inp ws [] -> scans exact (Conv d :: l) inp k args 0 [] Ended []
| sc_conv_no d n l inp ws inp' it rest k args out : leading (knd d) inp ws inp' -> inp' <> [] ->
    has_width (width d) n -> input_item (knd d) n inp' it rest -> ~ matching (knd d) n it ->
    (* the characters of an incomplete %c may have been stored *)
    out = [] \/ (knd d = KC /\ assigns d = true /\ exists p args', args = p :: args' /\ out = [PutChars p it]) ->
    scans exact (Conv d :: l) inp k args 0 out Mismatch rest
| sc_conv_skip d w l inp ws inp' it rest k args n out st rest' : assigns d = false ->
    leading (knd d) inp ws inp' -> inp' <> [] ->
    has_width (width d) w -> input_item (knd d) w inp' it rest -> matching (knd d) w it ->
    scans exact l rest (k + zlen ws + zlen it) args n out st rest' ->
    scans exact (Conv d :: l) inp k args n out st rest'
| sc_conv d w l inp ws inp' it rest k p args s n out st rest' : assigns d = true ->
    leading (knd d) inp ws inp' -> inp' <> [] ->
    has_width (width d) w -> input_item (knd d) w inp' it rest -> matching (knd d) w it ->
    stored exact (knd d) (siz d) it p s ->
    scans exact l rest (k + zlen ws + zlen it) args n out st rest' ->
    scans exact (Conv d :: l) inp k (p :: args) (n + 1) (s :: out) st rest'.

(** The library's documentation (doscan.c:12-14): the number of assignments, or EOF if an input failure
    occurs before the first assignment. *)
Definition returned (n : Z) (st : status) : Z := match st with Ended => if n =? 0 then -1 else n | _ => n end.

(** How many pointers a format uses. *)
Fixpoint needs (l : list item) : Z :=
  match l with
  | [] => 0
  | Count _ :: l => 1 + needs l
  | Conv d :: l => (if assigns d then 1 else 0) + needs l
  | _ :: l => needs l
  end.

(** ** Formats for which the library does what the standard says *)
(** %% only after white space (it does not skip white space itself). *)
Fixpoint percent_ok (after : bool) (l : list item) : Prop :=
  match l with
  | [] => True
  | White _ :: l => percent_ok true l
  | Percent :: l => after = true /\ percent_ok false l
  | _ :: l => percent_ok false l
  end.
(** No %n after white space (which counts the end of the input as a character). *)
Fixpoint count_ok (seen : bool) (l : list item) : Prop :=
  match l with
  | [] => True
  | White _ :: l => count_ok true l
  | Count _ :: l => seen = false /\ count_ok seen l
  | _ :: l => count_ok seen l
  end.
