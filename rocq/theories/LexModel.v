(** Model of the compiler's built-in preprocessor: v0100/smlrc.c.  A source line is the list of its
    characters (0..255); the end of the list stands for the end of the line. *)
From Verif Require Import Base NumModel LexSpec.
From Coq Require Import String.

(** [Err]: the compilation ends with an error message; [Oob]: an array is accessed out of bounds *)
Inductive res (A : Type) := Ok (a : A) | Err | Oob.
Arguments Ok {A}. Arguments Err {A}. Arguments Oob {A}.
Definition rbind {A B} (r : res A) (f : A -> res B) : res B :=
  match r with Ok a => f a | Err => Err | Oob => Oob end.
Notation "'let!' x ':=' o 'in' k" := (rbind o (fun x => k))
  (at level 200, x pattern, o at level 100, k at level 200, right associativity).
Definition inb {A} (o : option A) : res A := match o with Some a => Ok a | None => Oob end.
Definition eqs (a b : list Z) : bool := if list_eq_dec Z.eq_dec a b then true else false.

(** smlrc.c 1207-1278 SkipSpace(0); [c]: in a comment *)
Fixpoint skipSp (c : bool) (l : list Z) : res (list Z) :=
  match l with
  | [] => if c then Err else Ok []
  | x :: t =>
      if c then
        if (x =? 42) then match t with y :: t' => if y =? 47 then skipSp false t' else skipSp true t | [] => Err end
        else skipSp true t
      else if (x =? 32) || (x =? 9) || (x =? 12) || (x =? 11) then skipSp false t
      else if x =? 47 then
        match t with
        | y :: t' => if y =? 47 then Ok [] else if y =? 42 then skipSp true t' else Ok l
        | [] => Ok l
        end
      else Ok l
  end.

(** smlrc.c 1306-1335 GetIdent (the name and the rest); MAX_IDENT_LEN is 63 *)
Definition isalpha (c : Z) : bool := ((65 <=? c) && (c <=? 90)) || ((97 <=? c) && (c <=? 122)).
Definition isdigit (c : Z) : bool := (48 <=? c) && (c <=? 57).
Fixpoint identTail (l : list Z) : list Z * list Z :=
  match l with
  | c :: t => if (c =? 95) || isalpha c || isdigit c then let '(n, r) := identTail t in (c :: n, r) else ([], l)
  | [] => ([], [])
  end.
Definition getIdent (l : list Z) : res (list Z * list Z) :=
  match l with
  | c :: t =>
      if negb (c =? 95) && negb (isalpha c) then Err else
      let '(n, r) := identTail t in
      if 63 <? zlen (c :: n) then Err else Ok (c :: n, r)
  | [] => Err
  end.

(** ** the macro table: smlrc.c 554-558; MacroTable is the list, MAX_MACRO_TABLE_LEN its length *)
Definition MAXM : Z := 5120.
Record macros := Macros { tbl : list Z; mlen : Z }.

(** strcmp(MacroTable + i, name) == 0 *)
Fixpoint streq (t : list Z) (i : Z) (name : list Z) : res bool :=
  match name with
  | [] => let! c := inb (zget t i) in Ok (c =? 0)
  | n :: name => let! c := inb (zget t i) in if c =? n then streq t (i + 1) name else Ok false
  end.
(** smlrc.c 721-736 FindMacro; the loop of 738-763 is the same, [scan] gives the entry's index *)
Fixpoint scan (fuel : nat) (m : macros) (i : Z) (name : list Z) : res (option Z) :=
  match fuel with
  | O => Oob
  | S fuel =>
      if i <? mlen m then
        let! e := streq (tbl m) (i + 1) name in
        if e : bool then Ok (Some i) else
        let! l := inb (zget (tbl m) i) in
        let i := i + 1 + l in
        let! l := inb (zget (tbl m) i) in
        scan fuel m (i + 1 + l) name
      else Ok None
  end.
Definition scan0 (m : macros) (name : list Z) : res (option Z) := scan (S (Z.to_nat (mlen m))) m 0 name.
Definition findMacro (m : macros) (name : list Z) : res Z :=
  let! r := scan0 m name in
  match r with
  | Some i => let! l := inb (zget (tbl m) i) in Ok (i + 1 + l)
  | None => Ok (-1)
  end.
(** memmove within the table *)
Definition move (t : list Z) (dst src n : Z) : res (list Z) :=
  if (0 <=? dst) && (0 <=? src) && (0 <=? n) && (dst + n <=? zlen t) && (src + n <=? zlen t) then
    Ok (firstn (Z.to_nat dst) t ++ firstn (Z.to_nat n) (skipn (Z.to_nat src) t) ++ skipn (Z.to_nat (dst + n)) t)
  else Oob.
Definition undefineMacro (m : macros) (name : list Z) : res macros :=
  let! r := scan0 m name in
  match r with
  | Some i =>
      let! l := inb (zget (tbl m) i) in
      let len := 1 + l in
      let! l := inb (zget (tbl m) (i + len)) in
      let len := len + 1 + l in
      let! t := move (tbl m) i (i + len) (mlen m - i - len) in
      Ok (Macros t (mlen m - len))
  | None => Ok m
  end.
(** strcpy, with the terminating 0 *)
Fixpoint copyStr (t : list Z) (i : Z) (s : list Z) : res (list Z) :=
  match s with
  | [] => inb (zset t i 0)
  | c :: s => let! t := inb (zset t i c) in copyStr t (i + 1) s
  end.
(** smlrc.c 765-781 AddMacroIdent *)
Definition addMacroIdent (m : macros) (name : list Z) : res macros :=
  let l := zlen name in
  if 127 <=? l then Err else
  if MAXM - mlen m <? l + 3 then Err else
  let! t := inb (zset (tbl m) (mlen m) (l + 1)) in
  let! t := copyStr t (mlen m + 1) name in
  let n := mlen m + 1 + (l + 1) in
  let! t := inb (zset t n 0) in
  Ok (Macros t n).
(** smlrc.c 783-805 AddMacroExpansionChar: a character, and the end *)
Definition addMacroExpansionChar (m : macros) (e : Z) : res macros :=
  let! x := inb (zget (tbl m) (mlen m)) in
  if MAXM <=? mlen m + 1 + x then Err else
  if 127 <=? x then Err else
  let! t := inb (zset (tbl m) (mlen m + 1 + x) e) in
  let! t := inb (zset t (mlen m) (x + 1)) in
  Ok (Macros t (mlen m)).
Fixpoint trimLoop (fuel : nat) (m : macros) : res macros :=
  match fuel with
  | O => Oob
  | S fuel =>
      let! x := inb (zget (tbl m) (mlen m)) in
      if x =? 0 then Ok m else
      let! c := inb (zget (tbl m) (mlen m + x)) in
      if (c =? 32) || (c =? 9) || (c =? 0) then
        let! t := inb (zset (tbl m) (mlen m) (x - 1)) in trimLoop fuel (Macros t (mlen m))
      else Ok m
  end.
Definition endMacroExpansion (m : macros) : res macros :=
  let! m := trimLoop 129 m in
  let! x := inb (zget (tbl m) (mlen m)) in
  Ok (Macros (tbl m) (mlen m + 1 + x)).
(** smlrc.c 807-815 DefineMacro *)
Fixpoint addChars (m : macros) (e : list Z) : res macros :=
  match e with [] => Ok m | c :: e => let! m := addMacroExpansionChar m c in addChars m e end.
Definition defineMacro (m : macros) (name e : list Z) : res macros :=
  let! m := addMacroIdent m name in
  let! m := addChars m e in
  endMacroExpansion m.
(** smlrc.c 2037-2045 GetToken: the characters inserted for a macro's name *)
Definition expansion (m : macros) (name : list Z) : res (option (list Z)) :=
  let! midx := findMacro m name in
  if 0 <=? midx then
    let! len := inb (zget (tbl m) midx) in
    if (0 <=? len) && (midx + 1 + len <=? zlen (tbl m)) then
      Ok (Some (firstn (Z.to_nat len) (skipn (Z.to_nat (midx + 1)) (tbl m))))
    else Oob
  else Ok None.

(** ** directives *)
(** smlrc.c 595-607: PrepDontSkipTokens (0 or 1), PrepStack, PrepSp; PragmaPackValue,
    PragmaPackValues, PragmaPackSp *)
Record state := State {
  mac : macros; live : Z; pstack : list (Z * Z); psp : Z;
  pack : Z; packs : list Z; packsp : Z }.
Definition PREP_STACK_SIZE : Z := 8.
Definition PPACK_STACK_SIZE : Z := 16.
Definition set_mac (s : state) (m : macros) : state :=
  State m (live s) (pstack s) (psp s) (pack s) (packs s) (packsp s).

(** smlrc.c 1506-1523 pushPrep, popPrep *)
Definition pushPrep (s : state) (noSkip : Z) : res state :=
  if PREP_STACK_SIZE <=? psp s then Err else
  let! st := inb (zset (pstack s) (psp s) (live s, noSkip)) in
  Ok (State (mac s) (Z.land (live s) noSkip) st (psp s + 1) (pack s) (packs s) (packsp s)).
Definition popPrep (s : state) : res (state * Z) :=
  if psp s <=? 0 then Err else
  let! (l, n) := inb (zget (pstack s) (psp s - 1)) in
  Ok (State (mac s) l (pstack s) (psp s - 1) (pack s) (packs s) (packsp s), n).

(** smlrc.c 2240-2251: the text of a macro; [fuel] bounds the characters left *)
Fixpoint accumulate (fuel : nat) (m : macros) (l : list Z) : res macros :=
  match l with
  | [] => endMacroExpansion m
  | c :: t =>
      match fuel with
      | O => Oob
      | S fuel =>
          let! m := addMacroExpansionChar m c in
          if match t with
             | d :: t' => (d =? 32) || (d =? 9) || ((d =? 47) && match t' with e :: _ => (e =? 47) || (e =? 42) | [] => false end)
             | [] => false
             end then
            let! t := skipSp false t in
            let! m := addMacroExpansionChar m 32 in accumulate fuel m t
          else accumulate fuel m t
      end
  end.
Definition eol (l : list Z) : bool := match l with [] => true | _ => false end.
Definition head (l : list Z) : Z := match l with c :: _ => c | [] => 0 end.
Definition not0 (b : bool) : Z := if b then 0 else 1.

(** smlrc.c 2131-2213: #pragma; [l]: the text after "pragma" *)
Definition getInt (sw : Z) (l : list Z) : res (Z * list Z) :=
  if negb (isdigit (head l)) then Err else
  match get_number true sw l with
  | Some (NTok TokNumInt v r) => Ok (v, r)
  | Some _ => Err
  | None => Oob
  end.
Definition set_pack (s : state) (v : Z) (vs : list Z) (sp : Z) : state :=
  State (mac s) (live s) (pstack s) (psp s) v vs sp.
Definition pragma (sw : Z) (s : state) (l : list Z) : res state :=
  if live s =? 0 then Ok s else
  let! l := skipSp false l in
  let! (n, l) := getIdent l in
  if negb (eqs n (str "pack")) then Err else
  let! l := skipSp false l in
  let l := if head l =? 40 then tl l else l in
  let! l := skipSp false l in
  let! (s, l, canHaveNumber, num) :=
    if head l =? 112 then
      let! (n, l) := getIdent l in
      let! (s, l, num) :=
        if eqs n (str "push") then
          let! l := skipSp false l in
          let! (l, num) :=
            if head l =? 44 then
              let! l := skipSp false (tl l) in
              let! (v, l) := getInt sw l in Ok (l, Some v)
            else Ok (l, None) in
          if PPACK_STACK_SIZE <=? packsp s then Err else
          let! vs := inb (zset (packs s) (packsp s) (pack s)) in
          Ok (set_pack s (pack s) vs (packsp s + 1), l, num)
        else if eqs n (str "pop") then
          if packsp s <=? 0 then Err else
          let! v := inb (zget (packs s) (packsp s - 1)) in
          Ok (set_pack s v (packs s) (packsp s - 1), l, None)
        else Err in
      let! l := skipSp false l in
      Ok (s, l, false, num)
    else Ok (s, l, true, None) in
  let! (l, num) :=
    if canHaveNumber && isdigit (head l) then
      let! (v, l) := getInt sw l in
      let! l := skipSp false l in Ok (l, Some v)
    else Ok (l, num) in
  let! s :=
    match num with
    | Some v => if (v <=? 0) || (sw <? v) || negb (Z.land v (v - 1) =? 0) then Err else Ok (set_pack s v (packs s) (packsp s))
    | None => Ok (if canHaveNumber : bool then set_pack s sw (packs s) (packsp s) else s)
    end in
  if negb (head l =? 41) then Err else
  let! l := skipSp false (tl l) in
  if negb (eol l) then Err else Ok s.

(** smlrc.c 2058-2375 GetToken: a directive; [l]: the text after the [#].  #line and #include
    are not modelled: [None]. *)
Definition directive (sw : Z) (s : state) (l : list Z) : option (res state) :=
  match skipSp false l with
  | Err => Some Err
  | Oob => Some Oob
  | Ok l =>
  if eol l then Some (Ok s) else
  if isdigit (head l) then None else
  match getIdent l with
  | Err => Some Err
  | Oob => Some Oob
  | Ok (dir, l) =>
  if eqs dir (str "line") then None else
  if eqs dir (str "pragma") then Some (pragma sw s l) else
  if eqs dir (str "define") then Some (
    let! l := skipSp false l in
    let! (name, l) := getIdent l in
    if live s =? 0 then let! _ := skipSp false l in Ok s else
    let! i := findMacro (mac s) name in
    if 0 <=? i then Err else
    if head l =? 40 then Err else
    let! m := addMacroIdent (mac s) name in
    let! l := skipSp false l in
    let! m := accumulate (List.length l) m l in
    Ok (set_mac s m)) else
  if eqs dir (str "undef") then Some (
    let! l := skipSp false l in
    let! (name, l) := getIdent l in
    let! s := if live s =? 0 then Ok s else let! m := undefineMacro (mac s) name in Ok (set_mac s m) in
    let! l := skipSp false l in
    if negb (eol l) then Err else Ok s) else
  if eqs dir (str "include") then None else
  if eqs dir (str "ifdef") || eqs dir (str "ifndef") then Some (
    let! l := skipSp false l in
    let! (name, l) := getIdent l in
    let! i := findMacro (mac s) name in
    let! l := skipSp false l in
    if negb (eol l) then Err else
    pushPrep s (if eqs dir (str "ifdef") then (if 0 <=? i then 1 else 0) else not0 (0 <=? i))) else
  if eqs dir (str "else") then Some (
    let! l := skipSp false l in
    if negb (eol l) then Err else
    let! (s, def) := popPrep s in
    if 2 <=? def then Err else pushPrep s (2 + not0 (negb (def =? 0)))) else
  if eqs dir (str "endif") then Some (
    let! l := skipSp false l in
    if negb (eol l) then Err else
    let! (s, _) := popPrep s in Ok s) else
  if live s =? 0 then Some (
    if eqs dir (str "if") then pushPrep s 0
    else if eqs dir (str "elif") then let! (s, _) := popPrep s in pushPrep s 0
    else Ok s)
  else Some Err
  end
  end.

(** A source text, line by line: a directive or other text.  Other text is passed to the compiler or
    skipped as a whole (smlrc.c 2004-2024): that tokens of skipped text must be well formed, and that
    comments and expansions may hide or contain line ends, is not modelled. *)
Inductive line := Dir (l : list Z) | Text (l : list Z).
Fixpoint process (sw : Z) (s : state) (ls : list line) : option (res (state * list (list Z))) :=
  match ls with
  | [] => Some (Ok (s, []))
  | Text t :: ls =>
      match process sw s ls with
      | Some (Ok (s', out)) => Some (Ok (s', if live s =? 0 then out else t :: out))
      | r => r
      end
  | Dir l :: ls =>
      match directive sw s l with
      | Some (Ok s) => process sw s ls
      | Some Err => Some Err
      | Some Oob => Some Oob
      | None => None
      end
  end.
(** the state at the start, smlrc.c 596-607, 10006 *)
Definition start (sw : Z) (m : macros) : state :=
  State m 1 (repeat (0, 0) 8) 0 sw (repeat 0 16) 0.
Definition noMacros : macros := Macros (repeat 0 (Z.to_nat MAXM)) 0.
(** smlrc.c 9905, 9968-9995 main: the macros defined on the command line and by the compiler *)
Fixpoint predefine (m : macros) (ds : list (list Z * list Z)) : res macros :=
  match ds with
  | [] => Ok m
  | (n, e) :: ds => let! m := defineMacro m n e in predefine m ds
  end.
