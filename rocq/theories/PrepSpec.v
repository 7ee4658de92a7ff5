(** What the preprocessor must do with macros, conditional groups and #pragma pack. *)
From Verif Require Import Base LexSpec NumSpec.
From Coq Require Import String.

Definition name := list Z.
(** Macros in the order of definition, with their expansions. *)
Definition table := list (name * list Z).
Definition sameb (a b : name) : bool := if list_eq_dec Z.eq_dec a b then true else false.
Fixpoint lookup (m : table) (n : name) : option (list Z) :=
  match m with [] => None | (k, e) :: m => if sameb k n then Some e else lookup m n end.
(** bytes the compiler has for macros, and uses for one *)
Definition room : Z := 5120.
Definition size (m : table) : Z := fold_right (fun p t => zlen (fst p) + zlen (snd p) + 3 + t) 0 m.
(** [trim]: without trailing blanks *)
Fixpoint trim (e : list Z) : list Z :=
  match e with
  | [] => []
  | c :: t => match trim t with [] => if (c =? 32) || (c =? 9) then [] else [c] | t' => c :: t' end
  end.

Inductive packop := PPush (n : option Z) | PPop | PSet (n : Z) | PReset.
Inductive dir := DNull | DDefine (n : name) (e : list Z) | DUndef (n : name) | DPack (o : packop).
Inductive groups :=
| GNil
| GText (t : list Z) (k : groups)
| GDir (d : dir) (k : groups)
| GIf (neg : bool) (n : name) (thn : groups) (k : groups)                   (* neg: #ifndef *)
| GIfElse (neg : bool) (n : name) (thn els : groups) (k : groups).

(** ** meaning; [None]: the source is refused *)
Record pp := PP { pmac : table; pval : Z; pvals : list Z }.
Definition pow2 (n : Z) : bool := (n =? 1) || (n =? 2) || (n =? 4).
Section Meaning.
Variable W : Z.                        (* bytes in a word *)
Definition valid (n : Z) : bool := pow2 n && (n <=? W).
Definition packing (o : packop) (v : Z) (vs : list Z) : option (Z * list Z) :=
  match o with
  | PPush None => if 16 <=? zlen vs then None else Some (v, v :: vs)
  | PPush (Some n) => if (16 <=? zlen vs) || negb (valid n) then None else Some (n, v :: vs)
  | PPop => match vs with [] => None | v :: vs => Some (v, vs) end
  | PSet n => if valid n then Some (n, vs) else None
  | PReset => Some (W, vs)
  end.
Definition apply (d : dir) (s : pp) : option pp :=
  match d with
  | DNull => Some s
  | DDefine n e =>
      if match lookup (pmac s) n with Some _ => true | None => false end then None else
      if (127 <? zlen e) || (room <? size (pmac s) + zlen n + 3 + zlen e) then None else
      Some (PP (pmac s ++ [(n, trim e)]) (pval s) (pvals s))
  | DUndef n => Some (PP (filter (fun p => negb (sameb (fst p) n)) (pmac s)) (pval s) (pvals s))
  | DPack o => let? (v, vs) := packing o (pval s) (pvals s) in Some (PP (pmac s) v vs)
  end.
Definition defined (s : pp) (n : name) : bool := match lookup (pmac s) n with Some _ => true | None => false end.
(** [depth]: conditional groups around; at most 8 are allowed.  [live]: their conditions are all
    true.  The texts that are compiled. *)
Fixpoint meaning (depth : Z) (live : bool) (s : pp) (g : groups) : option (pp * list (list Z)) :=
  match g with
  | GNil => Some (s, [])
  | GText t k => let? (s, out) := meaning depth live s k in Some (s, if live then t :: out else out)
  | GDir d k => let? s := (if live then apply d s else Some s) in meaning depth live s k
  | GIf neg n thn k =>
      if 8 <=? depth then None else
      let c := xorb neg (defined s n) in
      let? (s, o1) := meaning (depth + 1) (live && c) s thn in
      let? (s, o2) := meaning depth live s k in Some (s, o1 ++ o2)
  | GIfElse neg n thn els k =>
      if 8 <=? depth then None else
      let c := xorb neg (defined s n) in
      let? (s, o1) := meaning (depth + 1) (live && c) s thn in
      let? (s, o2) := meaning (depth + 1) (live && negb c) s els in
      let? (s, o3) := meaning depth live s k in Some (s, o1 ++ o2 ++ o3)
  end.
End Meaning.

(** ** spelling *)
Section Spelling.
Variable W : Z.
Definition okname (n : name) : Prop := isname n /\ zlen n <= 63.
(** the text of a macro: each stretch of white space within it counts as one space *)
Inductive body : list Z -> list Z -> Prop :=
| b_nil : body [] []
| b_char c t e : body t e -> ~ (exists d t', t = d :: t' /\ (blankstart t /\ d <> 12 /\ d <> 11)) -> body (c :: t) (c :: e)
| b_space c w b t e : blanks w b -> (exists d w', w = d :: w' /\ d <> 12 /\ d <> 11) -> (b = true -> t = []) -> ~ blankstart t ->
    body t e -> body (c :: w ++ t) (c :: 32 :: e).
(** an integer constant of type int *)
Inductive number : list Z -> Z -> Prop :=
| number_intro b sf radix v u l : int_body b radix v -> int_suffix_text sf u l -> int_type (8 * W) radix v u l = Some false ->
    number (b ++ sf) v.
Inductive argument : packop -> list Z -> Prop :=
| a_push : argument (PPush None) (str "push")
| a_pushn w1 w2 t n : blanks w1 false -> blanks w2 false -> number t n -> argument (PPush (Some n)) (str "push" ++ w1 ++ [44] ++ w2 ++ t)
| a_pop : argument PPop (str "pop")
| a_set t n : number t n -> argument (PSet n) t
| a_reset : argument PReset [].
(** the text after the [#]; every [w] is white space *)
Inductive spells_dir : dir -> list Z -> Prop :=
| sd_null w b : blanks w b -> spells_dir DNull w
| sd_define w1 w2 n w3 b3 t e : blanks w1 false -> blanks w2 false -> w2 <> [] -> okname n -> blanks w3 b3 -> (b3 = true -> t = []) ->
    (w3 = [] -> nostart (fun c => namechar c \/ c = 40) t) -> ~ blankstart t -> body t e ->
    spells_dir (DDefine n e) (w1 ++ str "define" ++ w2 ++ n ++ w3 ++ t)
| sd_undef w1 w2 n w3 b3 : blanks w1 false -> blanks w2 false -> w2 <> [] -> okname n -> blanks w3 b3 ->
    spells_dir (DUndef n) (w1 ++ str "undef" ++ w2 ++ n ++ w3)
| sd_pack w1 w2 w3 w4 a w5 w6 b6 o : blanks w1 false -> blanks w2 false -> w2 <> [] -> blanks w3 false -> blanks w4 false ->
    argument o a -> blanks w5 false -> blanks w6 b6 ->
    spells_dir (DPack o) (w1 ++ str "pragma" ++ w2 ++ str "pack" ++ w3 ++ [40] ++ w4 ++ a ++ w5 ++ [41] ++ w6).
Definition spells_if (neg : bool) (n : name) (l : list Z) : Prop :=
  exists w1 w2 w3 b3, blanks w1 false /\ blanks w2 false /\ w2 <> [] /\ okname n /\ blanks w3 b3 /\
    l = w1 ++ str (if neg then "ifndef" else "ifdef") ++ w2 ++ n ++ w3.
Definition spells_word (s : string) (l : list Z) : Prop :=
  exists w1 w2 b2, blanks w1 false /\ blanks w2 b2 /\ l = w1 ++ str s ++ w2.

Inductive kind := KText (t : list Z) | KDir (d : dir) | KIf (neg : bool) (n : name) | KElse | KEndif.
(** the lines of nested groups *)
Fixpoint kinds (g : groups) : list kind :=
  match g with
  | GNil => []
  | GText t k => KText t :: kinds k
  | GDir d k => KDir d :: kinds k
  | GIf neg n a k => KIf neg n :: kinds a ++ KEndif :: kinds k
  | GIfElse neg n a b k => KIf neg n :: kinds a ++ KElse :: kinds b ++ KEndif :: kinds k
  end.
Definition spells (k : kind) (is_directive : bool) (l : list Z) : Prop :=
  match k with
  | KText t => is_directive = false /\ l = t
  | KDir d => is_directive = true /\ spells_dir d l
  | KIf neg n => is_directive = true /\ spells_if neg n l
  | KElse => is_directive = true /\ spells_word "else" l
  | KEndif => is_directive = true /\ spells_word "endif" l
  end.
End Spelling.
