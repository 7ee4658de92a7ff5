(** Model of character constants and string literals: v0100/smlrc.c and v0100/cgx86.c.  The text
    is the list of the characters from the current one; the end of the list stands for the end
    of the file (CharQueue then holds 0). *)
From Verif Require Import Base LexSpec LexModel.
From Coq Require Import String.
Close Scope string_scope.

(** strchr("\n\r", c) != NULL: true for 0 as well *)
Definition isnl (c : Z) : bool := (c =? 10) || (c =? 13) || (c =? 0).

(** smlrc.c 1354-1361 digs and vals *)
Definition hexdig (c : Z) : option Z :=
  if (48 <=? c) && (c <=? 57) then Some (c - 48) else if (65 <=? c) && (c <=? 70) then Some (c - 65 + 10)
  else if (97 <=? c) && (c <=? 102) then Some (c - 97 + 10) else None.
(** 1367-1374: leading zeroes *)
Fixpoint zeroes (l : list Z) : list Z := match l with c :: t => if c =? 48 then zeroes t else l | [] => l end.
(** 1375-1389 *)
Fixpoint hexloop (live : bool) (lim cnt ch : Z) (l : list Z) : res (Z * Z * list Z) :=
  match l with
  | [] => Ok (ch, cnt, [])
  | c :: t =>
      match hexdig c with
      | Some d =>
          let ch := Z.lor (u32 (Z.shiftl ch 4)) d in
          if (lim <? cnt + 1) && live then Err else hexloop live lim (cnt + 1) ch t
      | None => Ok (ch, cnt, l)
      end
  end.
(** 1393-1403; [n] digits at most *)
Definition isoct (c : Z) : bool := (48 <=? c) && (c <=? 55).
Fixpoint octloop (n : nat) (ch : Z) (l : list Z) : Z * list Z :=
  match n, l with
  | S n, c :: t => if isoct c then octloop n (Z.lor (u32 (Z.shiftl ch 3)) (c - 48)) t else (ch, l)
  | _, _ => (ch, l)
  end.
(** 1423-1439, the label lself *)
Definition self (live wide : bool) (l : list Z) : res (Z * list Z) :=
  match l with
  | [] => Err
  | c :: t => if isnl c then Err else if wide && (127 <? c) && live then Err else Ok (c, t)
  end.
(** 1408-1418: the characters of the switch *)
Definition simpleEsc (c : Z) : option Z :=
  if c =? 97 then Some 7 else if c =? 98 then Some 8 else if c =? 102 then Some 12 else if c =? 110 then Some 10
  else if c =? 114 then Some 13 else if c =? 116 then Some 9 else if c =? 118 then Some 11 else None.
(** 1336-1440 GetCharValue; [live] is PrepDontSkipTokens, [wsz] SizeOfWideChar *)
Definition getCharValue (live wide : bool) (wsz : Z) (l : list Z) : res (Z * list Z) :=
  match l with
  | c :: p =>
      if c =? 92 then
      match p with
      | [] => Err
      | d :: q =>
          if isnl d then Err else
          if d =? 120 then
            match q with
            | [] => Err
            | x :: _ =>
                if isnl x then Err else
                let z := if x =? 48 then 1 else 0 in
                let! (ch, cnt, r) := hexloop live (if wide then wsz * 2 else 2) 0 0 (zeroes q) in
                if z + cnt =? 0 then Err else Ok (ch, r)
            end
          else if isoct d then
            let '(ch, r) := octloop 3 0 p in
            if negb (Z.shiftr ch 8 =? 0) then Err else Ok (ch, r)
          else match simpleEsc d with Some v => Ok (v, q) | None => self live wide p end
      end
      else self live wide l
  | [] => self live wide l
  end.

(** cgx86.c 3196-3238 GenDumpChar: the text printed and the new value of [quot]; [len] is
    TokenStringLen *)
Definition unum (n : Z) : list Z :=
  if n <? 10 then [48 + n] else if n <? 100 then [48 + n / 10; 48 + n mod 10] else [48 + n / 100; 48 + n / 10 mod 10; 48 + n mod 10].
Definition dumpChar (quot : bool) (len ch : Z) : bool * list Z :=
  if ch <? 0 then (false, (if quot then [34] else []) ++ (if len =? 0 then [] else [10]))
  else
    let start := if len =? 0 then [9; 100; 98; 9] else [] in
    let comma := if len =? 0 then [] else [44] in
    if (32 <=? ch) && (ch <=? 126) && negb (ch =? 34) then
      (true, start ++ (if quot then [] else comma ++ [34]) ++ [ch])
    else (false, start ++ (if quot then [34] else []) ++ comma ++ unum (u8 ch)).
(** smlrc.c 1481-1486: the [n] bytes of a character; [len] grows *)
Fixpoint dumpBytes (n : nat) (quot : bool) (len ch : Z) : bool * list Z :=
  match n with
  | O => (quot, [])
  | S n =>
      let '(q, o) := dumpChar quot len (u8 ch) in
      let '(q, o') := dumpBytes n q (len + 1) (Z.shiftr ch 8) in
      (q, o ++ o')
  end.
(** 1442-1503 GetString (terminator: the double quote, option: d) without the final SkipSpace, from the character after the
    opening quote: the bytes printed, TokenStringLen, TokenStringSize and the text that remains.
    [MAXU] is UINT_MAX. *)
Definition MAXU : Z := 2 ^ 32 - 1.
Fixpoint getString (fuel : nat) (wide : bool) (wsz : Z) (quot : bool) (len size : Z) (l : list Z) : res (list Z * Z * Z * list Z) :=
  match fuel with
  | O => Oob
  | S fuel =>
      let stop := match l with [] => true | c :: _ => (c =? 34) || isnl c end in
      if stop then
        match l with
        | c :: r => if c =? 34 then let '(_, o) := dumpChar quot len (-1) in Ok (o, len, size, r) else Err
        | [] => Err
        end
      else
        let! (ch, l) := getCharValue true wide wsz l in
        let chsz := if wide then wsz else 1 in
        let '(quot, o) := dumpBytes (Z.to_nat chsz) quot len ch in
        if MAXU - chsz <? size then Err else
        let! (o', len, size, r) := getString fuel wide wsz quot (len + 1) (size + chsz) l in
        Ok (o ++ o', len, size, r)
  end.
Definition stringLit (wide : bool) (wsz : Z) (l : list Z) := getString (S (List.length l)) wide wsz false 0 0 l.

(** smlrc.c 2702-2744: adjacent literals; each element is the text after an opening quote (the
    white space and the closing of one literal to the opening of the next are not modelled).
    [maxu] is truncUint(-1).  The result: what is printed for each, and the number of elements of
    the array *)
Fixpoint adjacent (maxu : Z) (wide : bool) (wsz sz : Z) (ls : list (list Z)) : res (list (list Z) * Z) :=
  match ls with
  | [] => Ok ([], sz)
  | l :: ls =>
      let! (o, _, size, _) := stringLit wide wsz l in
      if (u32 (sz + size) <? sz) || (maxu <=? u32 (sz + size)) then Err else
      let! (os, sz) := adjacent maxu wide wsz (u32 (sz + size)) ls in
      Ok (o :: os, sz)
  end.
Definition arrayLit (maxu : Z) (wide : bool) (wsz : Z) (ls : list (list Z)) : res (list (list Z) * Z) :=
  let chsz := if wide then wsz else 1 in
  let! (os, sz) := adjacent maxu wide wsz chsz ls in
  Ok (os, sz / chsz).

(** smlrc.c 1881-1930: a character constant, from the character after the opening quote.  [W] is
    SizeOfWord. *)
Definition quoteOrNl (l : list Z) : bool := match l with [] => true | c :: _ => (c =? 39) || isnl c end.
Fixpoint chars (fuel : nat) (wide : bool) (wsz maxc v cnt : Z) (l : list Z) : res (Z * Z * list Z) :=
  match fuel with
  | O => Oob
  | S fuel =>
      let! (c, l) := getCharValue true wide wsz l in
      let v := Z.lor (u32 (Z.shiftl v 8)) c in
      if maxc <? cnt + 1 then Err else
      if quoteOrNl l then Ok (v, cnt + 1, l) else chars fuel wide wsz maxc v (cnt + 1) l
  end.
Definition charConst (csigned wsigned wide : bool) (W wsz : Z) (l : list Z) : res (Z * list Z) :=
  let maxc := if wide then 1 else W in
  if quoteOrNl l then Err else
  let! (v, cnt, l) := chars (S (List.length l)) wide wsz maxc 0 0 l in
  match l with
  | q :: r =>
      if negb (q =? 39) then Err else
      let i := s32 v in
      if wide then Ok (i - (if wsigned && (wsz =? 2) && (32768 <=? i) then 65536 else 0), r)
      else if cnt =? 1 then Ok (i - (if csigned && (128 <=? i) then 256 else 0), r)
      else Ok (i - (if (W =? 2) && (32768 <=? i) then 65536 else 0), r)
  | [] => Err
  end.
