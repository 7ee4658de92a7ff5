(** Model of srclib/strftime.c, for int and size_t of [W] = 2 or 4 bytes.

    The destination is a function from offsets (from [s]) to characters.  [None] is undefined
    behaviour: signed overflow, or an access outside a local array or past the format's end. *)
From Coq Require Import String Ascii.
From Verif Require Import Base TimeModel.

Fixpoint chars (s : string) : list Z :=
  match s with EmptyString => [] | String a s => Z.of_nat (nat_of_ascii a) :: chars s end.

(** strftime.c:7-25. *)
Definition DayAbbr := map chars ["Sun"; "Mon"; "Tue"; "Wed"; "Thu"; "Fri"; "Sat"]%string.
Definition DayFull := map chars ["Sunday"; "Monday"; "Tuesday"; "Wednesday"; "Thursday"; "Friday"; "Saturday"]%string.
Definition MonthAbbr := map chars
  ["Jan"; "Feb"; "Mar"; "Apr"; "May"; "Jun"; "Jul"; "Aug"; "Sep"; "Oct"; "Nov"; "Dec"]%string.
Definition MonthFull := map chars
  ["January"; "February"; "March"; "April"; "May"; "June"; "July"; "August"; "September"; "October"; "November"; "December"]%string.

(** strftime.c:27-32, struct bufstate; [bmem] is the destination. *)
Record bst := mkb { bpos : Z; bmax : Z; bsize : Z; bmem : Z -> Z }.

Section Strftime.
Variable W : Z.

(** The result of a signed computation. *)
Definition ci (z : Z) : option Z :=
  if (- 2 ^ (8 * W - 1) <=? z) && (z <? 2 ^ (8 * W - 1)) then Some z else None.
(** time1.c:11-23, __isleap, for an unsigned of [W] bytes. *)
Definition sisleap (year : Z) : Z :=
  let year := wrap (8 * W) year in
  if negb (Z.land year 3 =? 0) then 0 else
  let year := year mod 400 in
  let year := wrap (8 * W) (year - 100) in
  if year =? 0 then 0 else
  let year := wrap (8 * W) (year - 100) in
  if year =? 0 then 0 else
  let year := wrap (8 * W) (year - 100) in
  if year =? 0 then 0 else 1.

(** strftime.c:34-38. *)
Definition putc (b : bst) (c : Z) : bst :=
  let sz := wrap (8 * W) (bsize b + 1) in
  if bsize b <? bmax b then
    mkb (bpos b + 1) (bmax b) sz (fun i => if i =? bpos b then wrap 8 c else bmem b i)
  else mkb (bpos b) (bmax b) sz (bmem b).
(** strftime.c:40-44. *)
Fixpoint puts (b : bst) (s : list Z) : bst :=
  match s with [] => b | c :: s => puts (putc b c) s end.
(** strftime.c:46-61.  [p] is the index into the array of 11 characters; the string built so far
    is [acc]. *)
Fixpoint putn_loop (fuel : nat) (n p : Z) (acc : list Z) (dcnt : Z) : option (list Z * Z) :=
  match fuel with
  | O => None
  | S fuel =>
      if p - 1 <? 0 then None else
      let acc := (48 + n mod 10) :: acc in
      if n / 10 =? 0 then Some (acc, dcnt + 1) else putn_loop fuel (n / 10) (p - 1) acc (dcnt + 1)
  end.
Fixpoint padn (k : nat) (padch : Z) (b : bst) : bst :=
  match k with O => b | S k => padn k padch (putc b padch) end.
Definition putn (b : bst) (n width padch : Z) : option bst :=
  let? (s, dcnt) := putn_loop 12 (wrap (8 * W) n) 10 [] 0 in
  Some (puts (padn (Z.to_nat (width - dcnt)) padch b) s).

(** [(x < 0 || x >= n) ? "?" : tab[x]] *)
Definition name (tab : list (list Z)) (x : Z) : option (list Z) :=
  if (x <? 0) || (x >=? zlen tab) then Some [63] else zget tab x.

(** strftime.c:128-188: the week-based year and the week counted from 0. *)
Definition isoweek (t : tm) : option (Z * Z) :=
  let? year := ci (tm_year t + 1900) in
  let? s := ci (6 + tm_wday t) in
  let? s := ci (s - Z.rem (tm_yday t) 7) in
  let jan1 := Z.rem s 7 in
  let? d := ci (tm_yday t - - jan1) in
  let week := Z.quot d 7 in
  let week := week - (if jan1 >=? 4 then 1 else 0) in
  if week <? 0 then
    let? year := ci (year - 1) in
    let weeks := if (jan1 =? 4) || ((jan1 =? 5) && negb (sisleap year =? 0)) then 53 else 52 in
    Some (year, week + weeks)
  else if week =? 52 then
    let first := Z.rem (7 - jan1) 7 in
    let weeks := if (first =? 4) || ((first =? 5) && negb (sisleap year =? 0)) then 53 else 52 in
    if weeks =? 52 then let? year := ci (year + 1) in Some (year, 0)
    else Some (year, week)
  else Some (year, week).

(** strftime.c:63-284, doformat.  [res] stays 1 throughout and is left out. *)
Fixpoint doformat (fuel : nat) (b : bst) (c : Z) (t : tm) : option bst :=
  match fuel with
  | O => None
  | S fuel =>
      (* the parts of a composite conversion: [inl] a character, [inr] a conversion *)
      let parts := fix parts (b : bst) (l : list (Z + Z)) : option bst :=
        match l with
        | [] => Some b
        | inl ch :: l => parts (putc b ch) l
        | inr cv :: l => let? b := doformat fuel b cv t in parts b l
        end in
      let str := fun o => let? s := o in Some (puts b s) in
      match c with
      | 97 (* a *) => str (name DayAbbr (tm_wday t))
      | 65 (* A *) => str (name DayFull (tm_wday t))
      | 104 | 98 (* h, b *) => str (name MonthAbbr (tm_mon t))
      | 66 (* B *) => str (name MonthFull (tm_mon t))
      | 99 (* c *) => parts b [inr 97; inl 32; inr 98; inl 32; inr 101; inl 32; inr 84; inl 32; inr 89]
      | 67 (* C *) => let? y := ci (tm_year t + 1900) in putn b (Z.quot y 100) 2 48
      | 100 (* d *) => putn b (tm_mday t) 2 48
      | 120 | 68 (* x, D *) => parts b [inr 109; inl 47; inr 100; inl 47; inr 121]
      | 101 (* e *) => putn b (tm_mday t) 2 32
      | 70 (* F *) => parts b [inr 89; inl 45; inr 109; inl 45; inr 100]
      | 103 (* g *) => let? (year, _) := isoweek t in putn b (Z.rem year 100) 2 48
      | 71 (* G *) => let? (year, _) := isoweek t in putn b year 0 48
      | 86 (* V *) => let? (_, week) := isoweek t in putn b (week + 1) 2 48
      | 72 (* H *) => putn b (tm_hour t) 2 48
      | 73 (* I *) => putn b (let h := Z.rem (tm_hour t) 12 in if h =? 0 then 12 else h) 2 48
      | 106 (* j *) => let? n := ci (tm_yday t + 1) in putn b n 3 48
      | 109 (* m *) => let? n := ci (tm_mon t + 1) in putn b n 2 48
      | 77 (* M *) => putn b (tm_min t) 2 48
      | 110 (* n *) => Some (putc b 10)
      | 112 (* p *) => Some (puts b (if tm_hour t >=? 12 then [80; 77] else [65; 77]))
      | 114 (* r *) => parts b [inr 73; inl 58; inr 77; inl 58; inr 83; inl 32; inr 112]
      | 82 (* R *) => parts b [inr 72; inl 58; inr 77]
      | 83 (* S *) => putn b (tm_sec t) 2 48
      | 116 (* t *) => Some (putc b 9)
      | 88 | 84 (* X, T *) => parts b [inr 72; inl 58; inr 77; inl 58; inr 83]
      | 117 (* u *) => putn b (if tm_wday t =? 0 then 7 else tm_wday t) 1 48
      | 85 (* U *) => let? n := ci (tm_yday t + 7) in let? n := ci (n - tm_wday t) in putn b (Z.quot n 7) 2 48
      | 119 (* w *) => putn b (tm_wday t) 1 48
      | 87 (* W *) =>
          let? n := ci (tm_yday t + 7) in
          let? n := ci (n - (if tm_wday t =? 0 then 6 else tm_wday t - 1)) in putn b (Z.quot n 7) 2 48
      | 121 (* y *) => let? y := ci (tm_year t + 1900) in putn b (Z.rem y 100) 2 48
      | 89 (* Y *) => let? y := ci (tm_year t + 1900) in putn b y 0 48
      | 122 | 90 (* z, Z *) => Some b
      | _ => Some (putc b c)
      end
  end.

(** strftime.c:286-312, helper: the result and the state.  [fmt] is what can be read from the
    format pointer on. *)
Fixpoint helper (fuel : nat) (b : bst) (fmt : list Z) (t : tm) : option (Z * bst) :=
  match fuel with
  | O => None
  | S fuel =>
      let? c := hd_error fmt in
      let fmt := tl fmt in
      if c =? 0 then Some (1, putc b 0) else
      let? lit := if negb (c =? 37) then Some true else let? d := hd_error fmt in Some (d =? 37) in
      if lit : bool then helper fuel (putc b c) (if c =? 37 then tl fmt else fmt) t else
      let? c := hd_error fmt in
      let fmt := tl fmt in
      if c =? 0 then Some (0, b) else
      let conv := fun c fmt => let? b := doformat 3 b c t in helper fuel b fmt t in
      if (c =? 69) || (c =? 79) then
        let? c := hd_error fmt in
        let fmt := tl fmt in
        if c =? 0 then Some (0, b) else conv c fmt
      else conv c fmt
  end.

(** strftime.c:314-326: the result and the destination.  [m] is the destination before. *)
Definition strftime (m : Z -> Z) (maxsize : Z) (fmt : list Z) (t : tm) : option (Z * (Z -> Z)) :=
  let? (ok, b) := helper (S (List.length fmt)) (mkb 0 maxsize 0 m) fmt t in
  if ok =? 0 then Some (0, bmem b)
  else Some (if bsize b <=? bmax b then wrap (8 * W) (bsize b - 1) else 0, bmem b).
End Strftime.
