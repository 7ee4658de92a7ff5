(** Model of srclib/doscan.c (__SMALLER_C_32__ build): everything the scanf family does.
    The stream is the list of the characters (0..255) still to be read; C36 is about fgetc and ungetc
    (pushing back the character just read restores the stream).  Pointer arguments are numbers; what is
    stored through them is recorded in order.  [None]: reading past the end of the format, a missing
    argument, a fuel counter (shown not to run out), an int overflow in sf_finish.  Counters of characters read are not
    wrapped (the input is shorter than 2^31). *)
From Verif Require Import Base CtypeModel FpModel NumModel StrtofModel.

Definition EOF : Z := -1.

(** fgetc.c, ungetc.c on the abstract stream. *)
Definition fgetc (inp : list Z) : Z * list Z := match inp with c :: t => (c, t) | [] => (EOF, []) end.
Definition ungetc (c : Z) (inp : list Z) : list Z := if c =? EOF then inp else c :: inp.

(** A store of [size] bytes holding the number [v], or of characters. *)
Inductive store := PutInt (p size v : Z) | PutChars (p : Z) (cs : list Z).

(** isspace and so on as a test. *)
Definition test (f : Z -> option Z) (c : Z) : option bool := let? t := f c in Some (negb (t =? 0)).

(** doscan.c:26-30: the rest of a run of white space in the format. *)
Fixpoint fmt_space (fmt : list Z) : option (list Z) :=
  match fmt with
  | [] => None
  | c :: t => let? b := test isspace c in if b then fmt_space t else Some fmt
  end.

(** doscan.c:31-37: white space in the input.  (At the end of the input chcnt counts the EOF.) *)
Fixpoint in_space (inp : list Z) (chcnt : Z) : option (list Z * Z) :=
  match inp with
  | [] => Some ([], chcnt + 1)
  | c :: t => let? b := test isspace c in if b then in_space t (chcnt + 1) else Some (inp, chcnt + 1 - 1)
  end.

(** doscan.c:141-147: white space before a conversion. *)
Fixpoint skip_in (inp : list Z) (chcnt : Z) : option (list Z * Z) :=
  match inp with
  | [] => Some ([], chcnt)
  | c :: t => let? b := test isspace c in if b then skip_in t (chcnt + 1) else Some (inp, chcnt)
  end.

(** doscan.c:153-172: %c; what is left of the input and of the width, chcnt, the characters. *)
Fixpoint conv_c (inp : list Z) (width chcnt : Z) (acc : list Z) : list Z * Z * Z * list Z :=
  if width >? 0 then
    match inp with
    | [] => ([], width, chcnt, acc)
    | c2 :: t => conv_c t (width - 1) (chcnt + 1) (acc ++ [c2])
    end
  else (inp, width, chcnt, acc).

(** doscan.c:174-197: %s *)
Fixpoint conv_s (inp : list Z) (width chcnt : Z) (acc : list Z) : option (list Z * Z * list Z) :=
  if width >? 0 then
    match inp with
    | [] => Some ([], chcnt, acc)
    | c2 :: t =>
        let? b := test isspace c2 in
        if b then Some (inp, chcnt, acc) else conv_s t (width - 1) (chcnt + 1) (acc ++ [c2])
    end
  else Some (inp, chcnt, acc).

(** doscan.c:616-627: the set; its characters, and the rest of the format after the bracket.  [inl] is
    the end of the format. *)
Fixpoint get_set (fmt set : list Z) : option (unit + list Z * list Z) :=
  match fmt with
  | [] => None
  | c :: t =>
      if c =? 0 then Some (inl tt)
      else if (c =? 93) && negb (zlen set =? 0) then Some (inr (set, t))
      else get_set t (set ++ [c])
  end.

(** doscan.c:629-645: %[; [idx] is the number of characters in [acc]. *)
Fixpoint conv_set (set : list Z) (exclude : bool) (inp : list Z) (width chcnt : Z) (acc : list Z) (readone : bool)
  : list Z * Z * list Z * bool :=
  if width >? 0 then
    match inp with
    | [] => ([], chcnt, acc, readone)
    | c2 :: t =>
        let inset := existsb (Z.eqb c2) set in
        if Bool.eqb inset exclude then (inp, chcnt, acc, true)
        else conv_set set exclude t (width - 1) (chcnt + 1) (acc ++ [c2]) true
    end
  else (inp, chcnt, acc, readone).

(** How a conversion ends: [Fail e inp] is [return e && cnt == 0 ? EOF : cnt]. *)
Inductive conv (A : Type) := Fail (e : bool) (inp : list Z) | Got (a : A) (inp : list Z) (chcnt : Z).
Arguments Fail {A}. Arguments Got {A}.

(** *** Integers *)
Inductive istate := I_SIGN | I_0 | I_X | I_DIGIT.
Record ivars := IV { iw : Z; ich : Z; isign : Z; igot : bool; ibase : Z; iN : Z }.
Definition take_i (v : ivars) : ivars := IV (iw v - 1) (ich v + 1) (isign v) (igot v) (ibase v) (iN v).

(** doscan.c:500-503 and 237-240: the next character or EOF when the width is used up. *)
Definition next (width : Z) (inp : list Z) : Z * list Z * bool :=
  if width >? 0 then let '(c2, t) := fgetc inp in (c2, t, false) else (EOF, inp, true).

(** doscan.c:561-573: value of a digit of the base. *)
Definition scan_digit (c base : Z) : option (option Z) :=
  let? d := test isdigit c in
  let? a := test isalpha c in
  let v := if d then Some (c - 48) else if a then Some (Z.land c (-33) - 55) else None in
  Some (match v with Some d => if d >=? base then None else Some d | None => None end).

(** doscan.c:472-593: the loop; the result is n and the sign. *)
Fixpoint int_loop (fuel : nat) (state : istate) (inp : list Z) (v : ivars) : option (conv (Z * Z)) :=
  match fuel with
  | O => None
  | S fuel =>
      let '(c2, inp1, stop) := next (iw v) inp in
      let back := ungetc c2 inp1 in
      let go st inp v (stop : bool) := if stop then Some (Got (iN v, isign v) inp (ich v)) else int_loop fuel st inp v in
      match state with
      | I_SIGN =>
          if (c2 =? 45) || (c2 =? 43) then
            let v := take_i v in go I_0 inp1 (IV (iw v) (ich v) c2 (igot v) (ibase v) (iN v)) stop
          else if c2 <? 0 then Some (Fail (negb stop) back)
          else go I_0 back v stop
      | I_0 =>
          if c2 =? 48 then
            let v := take_i v in
            let v := IV (iw v) (ich v) (isign v) true (ibase v) (iN v) in
            go (if Z.lor (ibase v) 16 =? 16 then I_X else I_DIGIT) inp1 v stop
          else if c2 <? 0 then Some (Fail (negb stop) back)
          else go I_DIGIT back v stop
      | I_X =>
          let? u := toupper c2 in
          if u =? 88 then
            let v := take_i v in go I_DIGIT inp1 (IV (iw v) (ich v) (isign v) false 16 (iN v)) stop
          else
            let v := if ibase v =? 0 then IV (iw v) (ich v) (isign v) (igot v) 8 (iN v) else v in
            go I_DIGIT back v (stop || (c2 <? 0))
      | I_DIGIT =>
          let v := if ibase v =? 0 then IV (iw v) (ich v) (isign v) (igot v) 10 (iN v) else v in
          let? d := scan_digit c2 (ibase v) in
          match d with
          | Some d =>
              let v := take_i v in
              go I_DIGIT inp1 (IV (iw v) (ich v) (isign v) true (ibase v) (u32 (u32 (iN v * ibase v) + d))) stop
          | None =>
              if igot v then go I_DIGIT back v true
              else Some (Fail (negb (stop || (c2 >=? 0))) back)
          end
      end
  end.

(** *** Floating point *)
Inductive fstate := F_SIGN | F_INF_NAN | F_WORD | F_LEADING_0 | F_INT | F_FRCT_0 | F_FRCT | F_EXP_SIGN | F_EXP.
Record fvars := FV { fw : Z; fch : Z; fds : list Z; fmexp : Z; fsign : Z; fword : list Z; fwidx : Z;
                     fgotint : Z; fgotfrct : Z; fgotexp : Z; fesign : Z; feexp : Z }.
Definition take_f (v : fvars) : fvars :=
  FV (fw v - 1) (fch v + 1) (fds v) (fmexp v) (fsign v) (fword v) (fwidx v) (fgotint v) (fgotfrct v) (fgotexp v) (fesign v) (feexp v).
Definition set_num (v : fvars) (ds : list Z) (mexp gi gf : Z) : fvars :=
  FV (fw v) (fch v) ds mexp (fsign v) (fword v) (fwidx v) gi gf (fgotexp v) (fesign v) (feexp v).
Definition set_exp (v : fvars) (ge es ee : Z) : fvars :=
  FV (fw v) (fch v) (fds v) (fmexp v) (fsign v) (fword v) (fwidx v) (fgotint v) (fgotfrct v) ge es ee.
Definition set_word (v : fvars) (w : list Z) (i : Z) : fvars :=
  FV (fw v) (fch v) (fds v) (fmexp v) (fsign v) w i (fgotint v) (fgotfrct v) (fgotexp v) (fesign v) (feexp v).
Definition set_sign (v : fvars) (s : Z) : fvars :=
  FV (fw v) (fch v) (fds v) (fmexp v) s (fword v) (fwidx v) (fgotint v) (fgotfrct v) (fgotexp v) (fesign v) (feexp v).

Definition W_INF : list Z := [73; 78; 70; 73; 78; 73; 84; 89].
Definition W_NAN : list Z := [78; 65; 78].
Definition INT_CAP : Z := (2 ^ 32 - 1) / 2.

(** doscan.c:206-434: the loop. *)
Fixpoint float_loop (fuel : nat) (state : fstate) (inp : list Z) (v : fvars) : option (conv fvars) :=
  match fuel with
  | O => None
  | S fuel =>
      let '(c2, inp1, stop) := next (fw v) inp in
      let back := ungetc c2 inp1 in
      let go st inp v (stop : bool) := if stop then Some (Got v inp (fch v)) else float_loop fuel st inp v in
      let fail := Some (Fail (negb stop) back) in
      let fail_c := Some (Fail (negb (stop || (c2 >=? 0))) back) in
      let gots := Z.lor (fgotint v) (fgotfrct v) in
      let? u := toupper c2 in
      let? dig := test isdigit c2 in
      match state with
      | F_SIGN =>
          if (c2 =? 45) || (c2 =? 43) then go F_INF_NAN inp1 (set_sign (take_f v) c2) stop
          else if c2 <? 0 then fail else go F_INF_NAN back v stop
      | F_INF_NAN =>
          if u =? 73 then go F_WORD inp1 (set_word (take_f v) W_INF 1) stop
          else if u =? 78 then go F_WORD inp1 (set_word (take_f v) W_NAN 1) stop
          else if c2 <? 0 then fail else go F_LEADING_0 back v stop
      | F_WORD =>
          let? l := zget (fword v ++ [0]) (fwidx v) in
          if u =? l then
            let v := set_word (take_f v) (fword v) (fwidx v + 1) in
            let? l := zget (fword v ++ [0]) (fwidx v) in
            go F_WORD inp1 v (stop || (l =? 0))
          else if fwidx v =? 3 then go F_WORD back v true
          else Some (Fail false back)
      | F_LEADING_0 =>
          if c2 =? 48 then go F_LEADING_0 inp1 (let v := take_f v in set_num v (fds v) (fmexp v) 1 (fgotfrct v)) stop
          else if c2 <? 0 then if negb (fgotint v =? 0) then go F_INT back v true else fail
          else go F_INT back v stop
      | F_INT =>
          if dig then
            let v := take_f v in
            go F_INT inp1
              (if zlen (fds v) <? MAX_CONST_DIGITS then set_num v (fds v ++ [c2 - 48]) (fmexp v) 2 (fgotfrct v)
               else set_num v (fds v) (fmexp v + 1) 2 (fgotfrct v)) stop
          else if c2 =? 46 then go (if fgotint v =? 2 then F_FRCT else F_FRCT_0) inp1 (take_f v) stop
          else if (u =? 69) && negb (fgotint v =? 0) then
            go F_EXP_SIGN inp1 (let v := take_f v in set_exp v 1 (fesign v) (feexp v)) stop
          else if negb (fgotint v =? 0) then go F_INT back v true
          else fail_c
      | F_FRCT_0 =>
          if c2 =? 48 then go F_FRCT_0 inp1 (let v := take_f v in set_num v (fds v) (fmexp v - 1) (fgotint v) 1) stop
          else if c2 <? 0 then if negb (gots =? 0) then go F_FRCT back v true else fail
          else go F_FRCT back v stop
      | F_FRCT =>
          if dig then
            let v := take_f v in
            go F_FRCT inp1
              (set_num v (if zlen (fds v) <? MAX_CONST_DIGITS then fds v ++ [c2 - 48] else fds v) (fmexp v - 1) (fgotint v) 2) stop
          else if (u =? 69) && negb (gots =? 0) then
            go F_EXP_SIGN inp1 (let v := take_f v in set_exp v 1 (fesign v) (feexp v)) stop
          else if negb (gots =? 0) then go F_FRCT back v true
          else fail_c
      | F_EXP_SIGN =>
          if (c2 =? 45) || (c2 =? 43) then go F_EXP inp1 (let v := take_f v in set_exp v (fgotexp v) c2 (feexp v)) stop
          else if c2 <? 0 then fail else go F_EXP back v stop
      | F_EXP =>
          if dig then
            let d := c2 - 48 in
            let ex10 := u32 (feexp v * 10) in
            let v := take_f v in
            let ee := if negb (ex10 / 10 =? feexp v) || (u32 (ex10 + d) <? ex10) || (u32 (ex10 + d) >? INT_CAP) then INT_CAP
                      else u32 (ex10 + d) in
            go F_EXP inp1 (set_exp v 2 (fesign v) ee) stop
          else if fgotexp v =? 2 then go F_EXP back v true
          else fail_c
      end
  end.

(** doscan.c:436-462: the value (also when it is not assigned, without conversion). *)
Definition float_value (v : fvars) : option Z :=
  let? val :=
    match fword v with
    | w :: _ => Some (if w =? 78 then NAN else INFINITY)
    | [] => sf_finish (fds v) (fmexp v) (fesign v =? 45) (feexp v)
    end in
  Some (if fsign v =? 45 then fneg val else val).

(** *** The format *)
(** [*fmt++]; 0 makes __doscan return EOF in most places ([inl]). *)
Definition fmt_next (fmt : list Z) : option (unit + Z * list Z) :=
  match fmt with [] => None | c :: t => Some (if c =? 0 then inl tt else inr (c, t)) end.
Notation "'letf' x := m 'in' k" :=
  (match m with None => None | Some (inl _) => Some (inl tt) | Some (inr x) => k end) (at level 200, x pattern).

(** doscan.c:80-86: the digits of the width; int overflow is [None]. *)
Fixpoint get_width (fmt : list Z) (width : Z) : option (unit + Z * Z * list Z) :=
  match fmt with
  | [] => None
  | c :: t =>
      if c =? 0 then Some (inl tt) else
      let? d := test isdigit c in
      if d then let width := width * 10 + (c - 48) in let? _ := guard (width <? 2 ^ 31) in get_width t width
      else Some (inr (width, c, t))
  end.

Record spec := Spec { s_assign : bool; s_width : Z; s_lmod : Z; s_conv : Z }.

(** doscan.c:66-115: what follows the percent sign, up to the conversion letter. *)
Definition get_spec (fmt : list Z) : option (unit + spec * list Z) :=
  letf (c, fmt) := fmt_next fmt in
  letf (assign, c, fmt) := (if c =? 42 then letf (c, fmt) := fmt_next fmt in Some (inr (false, c, fmt)) else Some (inr (true, c, fmt))) in
  let? d := test isdigit c in
  letf (width, c, fmt) :=
    (if d then letf (width, c, fmt) := get_width (c :: fmt) 0 in (if width =? 0 then Some (inl tt) else Some (inr (width, c, fmt)))
     else Some (inr (-1, c, fmt))) in
  let? (lmod, fmt) :=
    (if c =? 104 then
       let? c' := at0 fmt in Some (if c' =? 104 then (72, tl fmt) else (104, fmt))
     else if (c =? 108) || (c =? 76) then Some (c, fmt)
     else if (c =? 106) || (c =? 122) || (c =? 116) then Some (c, fmt)
     else Some (0, fmt)) in
  letf (c, fmt) := (if lmod =? 0 then Some (inr (c, fmt)) else fmt_next fmt) in
  Some (inr (Spec assign width lmod c, fmt)).

Definition in_list (c : Z) (l : list Z) : bool := existsb (Z.eqb c) l.

(** doscan.c:128-139: the letter as it is used below; [None] is return EOF. *)
Definition conv_letter (c : Z) : option Z :=
  let c := if in_list c [102; 103; 69; 70; 71] then 101 else c in
  if c =? 88 then Some 120
  else if in_list c [100; 105; 111; 117; 120; 101; 99; 115; 112; 91] then Some c else None.

(** *** __doscan *)
Record sst := Sst { q_inp : list Z; q_ch : Z; q_cnt : Z; q_args : list Z; q_out : list store }.

Definition get_arg (args : list Z) : option (Z * list Z) := match args with p :: t => Some (p, t) | [] => None end.

(** Size of the object an integer is stored in: lmodifier 'H', 'h', other. *)
Definition int_size (lmod : Z) : Z := if lmod =? 72 then 1 else if lmod =? 104 then 2 else 4.

(** doscan.c:180-181, 229-230, 492-493, 629-630: no width *)
Definition all_width (width : Z) : Z := if width <? 0 then INT_CAP else width.

Definition done := (Z * list Z * list store)%type.
(** doscan.c:141-652: one conversion; [fmt] is what follows the letter (only %[ reads it). *)
Definition do_conv (sp : spec) (c : Z) (fmt : list Z) (s : sst) : option (done + sst * list Z) :=
  let assign := s_assign sp in
  let? (inp, ch) := (if (c =? 99) || (c =? 91) then Some (q_inp s, q_ch s) else skip_in (q_inp s) (q_ch s)) in
  let leave r := Some (inl r) in
  let fail (e : bool) inp out := leave ((if e && (q_cnt s =? 0) then EOF else q_cnt s), inp, out) in
  match inp with
  | [] => fail true [] (q_out s)
  | _ :: _ =>
      let cnt' := q_cnt s + (if assign then 1 else 0) in
      let n_fuel := (2 * length inp + 8)%nat in
      if c =? 99 then
        let? (p, args) := (if assign then get_arg (q_args s) else Some (0, q_args s)) in
        let '(inp', wleft, ch', cs) := conv_c inp (if s_width sp <? 0 then 1 else s_width sp) ch [] in
        let out := if assign then q_out s ++ [PutChars p cs] else q_out s in
        if wleft =? 0 then Some (inr (Sst inp' ch' cnt' args out, fmt))
        else fail true inp' out
      else if c =? 115 then
        let? (p, args) := (if assign then get_arg (q_args s) else Some (0, q_args s)) in
        let? (inp', ch', cs) := conv_s inp (all_width (s_width sp)) ch [] in
        Some (inr (Sst inp' ch' cnt' args (if assign then q_out s ++ [PutChars p (cs ++ [0])] else q_out s), fmt))
      else if c =? 101 then
        let? r := float_loop n_fuel F_SIGN inp (FV (all_width (s_width sp)) ch [] 0 0 [] 0 0 0 0 0 0) in
        match r with
        | Fail e inp' => fail e inp' (q_out s)
        | Got v inp' ch' =>
            if assign then
              let? val := float_value v in
              let? (p, args) := get_arg (q_args s) in
              Some (inr (Sst inp' ch' cnt' args (q_out s ++ [PutInt p 4 val]), fmt))
            else Some (inr (Sst inp' ch' cnt' (q_args s) (q_out s), fmt))
        end
      else if negb (c =? 91) then
        let base := if (c =? 120) || (c =? 112) then 16 else if c =? 111 then 8 else if negb (c =? 105) then 10 else 0 in
        let? r := int_loop n_fuel I_SIGN inp (IV (all_width (s_width sp)) ch 0 false base 0) in
        match r with
        | Fail e inp' => fail e inp' (q_out s)
        | Got (n, sign) inp' ch' =>
            if assign then
              let n := if sign =? 45 then u32 (- n) else n in
              let? (p, args) := get_arg (q_args s) in
              let sz := int_size (s_lmod sp) in
              Some (inr (Sst inp' ch' cnt' args (q_out s ++ [PutInt p sz (n mod 2 ^ (8 * sz))]), fmt))
            else Some (inr (Sst inp' ch' cnt' (q_args s) (q_out s), fmt))
        end
      else
        let? (p, args) := (if assign then get_arg (q_args s) else Some (0, q_args s)) in
        let? c' := at0 fmt in
        let exclude := c' =? 94 in
        let? r := get_set (if exclude then tl fmt else fmt) [] in
        match r with
        | inl _ => leave (EOF, inp, q_out s)
        | inr (set, fmt) =>
            let '(inp', ch', cs, readone) := conv_set set exclude inp (all_width (s_width sp)) ch [] false in
            if zlen cs =? 0 then fail (negb readone) inp' (q_out s)
            else Some (inr (Sst inp' ch' cnt' args (if assign then q_out s ++ [PutChars p (cs ++ [0])] else q_out s), fmt))
        end
  end.

(** doscan.c:16-657 __doscan.  The loop over literal characters (lmatchchars) is merged with the main
    loop: it tests the next character of the format in the same way. *)
Fixpoint scan (fuel : nat) (fmt : list Z) (s : sst) : option done :=
  match fuel with
  | O => None
  | S fuel =>
      let? c := at0 fmt in
      let fmt := tl fmt in
      if c =? 0 then Some (q_cnt s, q_inp s, q_out s) else
      let? sp := test isspace c in
      if sp then
        let? fmt := fmt_space fmt in
        let? (inp, ch) := in_space (q_inp s) (q_ch s) in
        scan fuel fmt (Sst inp ch (q_cnt s) (q_args s) (q_out s))
      else
        let? c1 := at0 fmt in
        if negb (c =? 37) || (c1 =? 37) then
          let fmt := if c =? 37 then tl fmt else fmt in
          let '(c2, inp) := fgetc (q_inp s) in
          if c2 =? c then scan fuel fmt (Sst inp (q_ch s + 1) (q_cnt s) (q_args s) (q_out s))
          else if negb (c2 =? EOF) then Some (q_cnt s, ungetc c2 inp, q_out s)
          else Some ((if q_cnt s =? 0 then EOF else q_cnt s), inp, q_out s)
        else
          let? g := get_spec fmt in
          match g with
          | inl _ => Some (EOF, q_inp s, q_out s)
          | inr (sp, fmt) =>
              if s_conv sp =? 110 then
                let? (p, args) := get_arg (q_args s) in
                let sz := int_size (s_lmod sp) in
                scan fuel fmt (Sst (q_inp s) (q_ch s) (q_cnt s) args (q_out s ++ [PutInt p sz (q_ch s mod 2 ^ (8 * sz))]))
              else
                match conv_letter (s_conv sp) with
                | None => Some (EOF, q_inp s, q_out s)
                | Some c =>
                    let? r := do_conv sp c fmt s in
                    match r with
                    | inl d => Some d
                    | inr (s, fmt) => scan fuel fmt s
                    end
                end
          end
  end.

(** The value returned, the input left and the stores. *)
Definition doscan (fmt inp args : list Z) : option done := scan (length fmt) fmt (Sst inp 0 0 args []).
