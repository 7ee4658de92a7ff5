(** Model of the formatted output behind printf: v0100/srclib/doprint.c (__doprint and its
    __fputc; the 32-bit models, int and pointers of 4 bytes), vsnprint.c and vsprintf.c.  The format
    is the list of its characters (0..255) before the terminating NUL.  The floating point
    conversions are delegated to an argument [pf] that gives the characters printff (lines 58-259)
    prints; FltPrintModel.v has the model of printff itself. *)
From Verif Require Import Base LexModel.

(** ** the stream
    [room]: characters fputc accepts before it returns EOF; [isstr]: f->flags & _IOSTRING;
    [outp]: characters accepted so far; [cnt0], [cnt1]: cnt[0] and cnt[1] != 0;
    [stores]: what %n has stored (address, size in bytes, value), in order *)
Record sink := Sink { room : Z; isstr : bool; outp : list Z; cnt0 : Z; cnt1 : bool; stores : list (Z * Z * Z) }.
Definition fresh (r : Z) (s : bool) : sink := Sink r s [] 0 false [].

(** doprint.c 9-18 __fputc *)
Definition put (c : Z) (k : sink) : sink :=
  if cnt1 k then k else
  if 0 <? room k then Sink (room k - 1) (isstr k) (outp k ++ [c]) (cnt0 k + 1) false (stores k) else
  if isstr k then Sink (room k) (isstr k) (outp k) (cnt0 k + 1) false (stores k)
  else Sink (room k) (isstr k) (outp k) (cnt0 k) true (stores k).
(** several characters, one call of __fputc for each; the loops
    [while (n > m) __fputc(c, f, cnt), n--] are [pad c (n - m)] *)
Fixpoint puts (l : list Z) (k : sink) : sink := match l with [] => k | c :: l => puts l (put c k) end.
Definition pad (c n : Z) : list Z := repeat c (Z.to_nat n).
(** doprint.c 380-389: cnt[0] is stored through a pointer to a type of [n] bytes *)
Definition store (p n : Z) (k : sink) : sink :=
  Sink (room k) (isstr k) (outp k) (cnt0 k) (cnt1 k) (stores k ++ [(p, n, swrap (8 * n) (cnt0 k))]).

(** ** the arguments: a machine word (int, unsigned, void pointer), the address of characters
    (NULL, or the characters that may be read there), a float, an address to store to.  Taking an
    argument that is not there or of another kind is undefined *)
Inductive arg := AInt (w : Z) | AStr (s : option (list Z)) | AFlt (w : Z) | AOut (p : Z).

(** ** the directive: the variables ljust, sign, alt, lzeroes, width, precision, lmodifier, c *)
Record dir := Dir { ljust : bool; sign : Z; alt : bool; lzeroes : bool; width : Z; precision : Z; lmodifier : Z; conv : Z }.

(** doprint.c 280-304: the flags; the list begins with the character c (an empty list: NUL) *)
Fixpoint flagLoop (l : list Z) (lj : bool) (sg : Z) (al lz : bool) : res (bool * Z * bool * bool * list Z) :=
  match l with
  | [] => Err
  | c :: t =>
      if c =? 45 then flagLoop t true sg al false
      else if c =? 43 then flagLoop t lj 43 al lz
      else if c =? 32 then flagLoop t lj (if sg =? 0 then 32 else sg) al lz
      else if c =? 35 then flagLoop t lj sg true lz
      else if c =? 48 then flagLoop t lj sg al (if lj then lz else true)
      else Ok (lj, sg, al, lz, l)
  end.
(** doprint.c 310-315 and 338-343: a decimal number; overflow of int is undefined *)
Fixpoint numLoop (acc : Z) (l : list Z) : res (Z * list Z) :=
  match l with
  | [] => Err
  | c :: t =>
      if isdigit c then
        if 2 ^ 31 <=? acc * 10 + (c - 48) then Oob else numLoop (acc * 10 + (c - 48)) t
      else Ok (acc, l)
  end.
Definition takeInt (args : list arg) : res (Z * list arg) :=
  match args with AInt w :: args => Ok (s32 w, args) | _ => Oob end.
(** [if ((c = *fmt++) == '\0') return -1] *)
Definition more (l : list Z) : res (list Z) := match l with [] => Err | _ => Ok l end.

(** doprint.c 306-328: width; at [l] is the character c *)
Definition parseWidth (l : list Z) (args : list arg) (lj lz : bool) : res (bool * bool * Z * list Z * list arg) :=
  match l with
  | [] => Err
  | c :: t =>
      if isdigit c then let! (w, l) := numLoop 0 l in Ok (lj, lz, w, l, args)
      else if c =? 42 then
        let! (w, args) := takeInt args in
        if w =? - 2 ^ 31 then Oob else
        let! t := more t in
        if w <? 0 then Ok (true, false, - w, t, args) else Ok (lj, lz, w, t, args)
      else Ok (lj, lz, -1, l, args)
  end.
(** doprint.c 330-351: precision *)
Definition parsePrec (l : list Z) (args : list arg) : res (Z * list Z * list arg) :=
  match l with
  | [] => Err
  | c :: t =>
      if c =? 46 then
        match t with
        | [] => Err
        | c :: t' =>
            if isdigit c then let! (p, l) := numLoop 0 t in Ok (p, l, args)
            else if c =? 42 then
              let! (p, args) := takeInt args in
              let! t' := more t' in Ok (p, t', args)
            else Ok (0, t, args)
        end
      else Ok (-1, l, args)
  end.
(** doprint.c 353-378: length modifier; 'H' (72) stands for hh *)
Definition parseMod (l : list Z) : res (Z * list Z) :=
  match l with
  | [] => Err
  | c :: t =>
      if c =? 104 then
        match t with
        | c' :: t' => if c' =? 104 then let! t' := more t' in Ok (72, t') else Ok (104, t)
        | [] => Err
        end
      else if (c =? 108) || (c =? 76) || (c =? 106) || (c =? 122) || (c =? 116) then let! t := more t in Ok (c, t)
      else Ok (0, l)
  end.
(** doprint.c 277-398: everything up to the conversion character (which is not checked here),
    'i' replaced by 'd' *)
Definition parse (l : list Z) (args : list arg) : res (dir * list Z * list arg) :=
  let! (lj, sg, al, lz, l) := flagLoop l false 0 false false in
  let! (lj, lz, w, l, args) := parseWidth l args lj lz in
  let! (p, l, args) := parsePrec l args in
  let! (m, l) := parseMod l in
  match l with
  | [] => Err
  | c :: t => Ok (Dir lj sg al lz w p m (if c =? 105 then 100 else c), t, args)
  end.

(** ** the conversions *)
(** strlen(s) of doprint.c 429 *)
Fixpoint upToNul (l : list Z) : res (list Z) :=
  match l with
  | [] => Oob
  | c :: t => if c =? 0 then Ok [] else let! s := upToNul t in Ok (c :: s)
  end.
(** doprint.c 433-438 *)
Fixpoint upToPrec (p : Z) (l : list Z) : res (list Z) :=
  if p <=? 0 then Ok [] else
  match l with
  | [] => Oob
  | c :: t => if c =? 0 then Ok [] else let! s := upToPrec (p - 1) t in Ok (c :: s)
  end.
Definition nullText : list Z := [40; 110; 117; 108; 108; 41; 0].   (* "(null)" *)

(** doprint.c 401-417 and 418-453 *)
Definition printChar (d : dir) (w : Z) : list Z :=
  (if ljust d then [] else pad 32 (width d - 1)) ++ [u8 w] ++ (if ljust d then pad 32 (width d - 1) else []).
Definition printStr (d : dir) (s : option (list Z)) : res (list Z) :=
  let mem := match s with Some m => m | None => nullText end in
  let! s := if precision d <? 0 then upToNul mem else upToPrec (precision d) mem in
  let len := zlen s in
  if 2 ^ 31 <=? len then Oob else
  Ok ((if ljust d then [] else pad 32 (width d - len)) ++ s ++ (if ljust d then pad 32 (width d - len) else [])).

(** doprint.c 508-513: digits, last first, into s[11] from its end; [acc]: what has been stored *)
Definition lowDigits : list Z := [48; 49; 50; 51; 52; 53; 54; 55; 56; 57; 97; 98; 99; 100; 101; 102].
Definition upDigits : list Z := [48; 49; 50; 51; 52; 53; 54; 55; 56; 57; 65; 66; 67; 68; 69; 70].
Fixpoint digitLoop (room : nat) (digits : list Z) (base tmp : Z) (acc : list Z) : res (list Z) :=
  match room with
  | O => Oob
  | S room =>
      let! c := inb (zget digits (tmp mod base)) in
      if tmp / base =? 0 then Ok (c :: acc) else digitLoop room digits base (tmp / base) (c :: acc)
  end.
(** doprint.c 464-569; [v]: the argument *)
Definition printInt (d : dir) (v : Z) : res (list Z) :=
  let c := conv d in
  let lz := if 0 <=? precision d then false else lzeroes d in
  let base := if c =? 111 then 8 else if (c =? 120) || (c =? 88) || (c =? 112) then 16 else 10 in
  let digits := if c =? 88 then upDigits else lowDigits in
  let hexpfx := if ((c =? 120) || (c =? 88)) && alt d && negb (v =? 0) then [48; c] else [] in
  let v1 := if c =? 100
            then u32 (if lmodifier d =? 72 then s8 v else if lmodifier d =? 104 then s16 v else v)
            else if lmodifier d =? 72 then u8 v else if lmodifier d =? 104 then u16 v else v in
  let neg := (c =? 100) && (s32 v1 <? 0) in
  let v2 := if neg then u32 (- v1) else v1 in
  let sg := if c =? 100 then if neg then 45 else sign d else 0 in
  let! ds := digitLoop 11 digits base v2 [] in
  let dcnt := if (0 <=? precision d) && (v2 =? 0) && (precision d =? 0) then 0 else zlen ds in
  let prec := if precision d <? 0 then 1 else precision d in
  let prec := if alt d && (c =? 111) && (((v2 =? 0) && (prec =? 0)) || (negb (v2 =? 0) && (prec <=? dcnt)))
              then dcnt + 1 else prec in
  let prec := if prec <? dcnt then dcnt else prec in
  let len := (if sg =? 0 then 0 else 1) + zlen hexpfx + prec in
  if 2 ^ 31 <=? len then Oob else
  Ok ((if ljust d || lz then [] else pad 32 (width d - len)) ++
      (if sg =? 0 then hexpfx else [sg]) ++
      (if negb (ljust d) && lz then pad 48 (width d - len) else []) ++
      pad 48 (prec - dcnt) ++ firstn (Z.to_nat dcnt) ds ++
      (if ljust d then pad 32 (width d - len) else [])).

Definition isFlt (c : Z) : bool :=
  (c =? 101) || (c =? 69) || (c =? 102) || (c =? 70) || (c =? 103) || (c =? 71).
Definition isInt (c : Z) : bool :=
  (c =? 100) || (c =? 111) || (c =? 117) || (c =? 120) || (c =? 88) || (c =? 112).

(** doprint.c 380-569: what the directive does to the stream.  [Err]: return -1 (line 395) *)
Definition exec (pf : dir -> Z -> res (list Z)) (d : dir) (args : list arg) (k : sink) : res (sink * list arg) :=
  let c := conv d in
  if c =? 110 then
    match args with
    | AOut p :: args => Ok (store p (if lmodifier d =? 72 then 1 else if lmodifier d =? 104 then 2 else 4) k, args)
    | _ => Oob
    end
  else if c =? 99 then
    match args with AInt w :: args => Ok (puts (printChar d w) k, args) | _ => Oob end
  else if c =? 115 then
    match args with AStr s :: args => let! l := printStr d s in Ok (puts l k, args) | _ => Oob end
  else if isFlt c then
    match args with AFlt w :: args => let! l := pf d w in Ok (puts l k, args) | _ => Oob end
  else if isInt c then
    match args with AInt w :: args => let! l := printInt d w in Ok (puts l k, args) | _ => Oob end
  else Err.

(** doprint.c 262-573; [Done r k]: returns r with the stream as k *)
Inductive outcome := Done (r : Z) (k : sink) | Undef.
Fixpoint printLoop (fuel : nat) (pf : dir -> Z -> res (list Z)) (fmt : list Z) (args : list arg) (k : sink) : outcome :=
  match fuel with
  | O => Undef
  | S fuel =>
      match fmt with
      | [] => Done (if cnt1 k then -1 else s32 (cnt0 k)) k
      | c :: t =>
          if negb (c =? 37) then printLoop fuel pf t args (put c k) else
          match t with
          | c' :: t' =>
              if c' =? 37 then printLoop fuel pf t' args (put c k) else
              match parse t args with
              | Ok (d, t, args) =>
                  match exec pf d args k with
                  | Ok (k, args) => printLoop fuel pf t args k
                  | Err => Done (-1) k
                  | Oob => Undef
                  end
              | Err => Done (-1) k
              | Oob => Undef
              end
          | [] => Done (-1) k
          end
      end
  end.
Definition doprint (pf : dir -> Z -> res (list Z)) (fmt : list Z) (args : list arg) (k : sink) : outcome :=
  printLoop (S (length fmt)) pf fmt args k.

(** the characters accepted and a NUL, in the caller's array *)
Definition deposit (buf s : list Z) : res (list Z) :=
  if zlen buf <? zlen s + 1 then Oob else Ok (s ++ 0 :: skipn (length s + 1) buf).
(** vsnprint.c 7-20; [buf]: the array at s *)
Definition vsnprintf pf (buf : list Z) (n : Z) (fmt : list Z) (args : list arg) : res (Z * list Z) :=
  match doprint pf fmt args (fresh (if n =? 0 then 0 else n - 1) true) with
  | Done r k => if n =? 0 then Ok (r, buf) else let! b := deposit buf (outp k) in Ok (r, b)
  | Undef => Oob
  end.
(** vsprintf.c 7-17 *)
Definition vsprintf pf (buf : list Z) (fmt : list Z) (args : list arg) : res (Z * list Z) :=
  match doprint pf fmt args (fresh (2 ^ 31 - 2) true) with
  | Done r k => let! b := deposit buf (outp k) in Ok (r, b)
  | Undef => Oob
  end.
