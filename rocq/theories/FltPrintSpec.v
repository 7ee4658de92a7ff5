(** What the C standard says printf prints for binary32 arguments of %f, %e and %g (7.21.6.1).
    [w]: the bits of the argument without the sign bit; its value is scaled w / 2^150. *)
From Verif Require Import Base DoPrintModel DoPrintSpec CvtSpec.

(** [q] is the integer nearest to num / den, the even one of two *)
Definition rounds (num den q : Z) : Prop :=
  2 * Z.abs (num - q * den) < den \/ 2 * Z.abs (num - q * den) = den /\ Z.even q = true.
(** [q] is an integer nearest to num / den *)
Definition nearest (num den q : Z) : Prop := 2 * Z.abs (num - q * den) <= den.

(** [F] is the number [v] in [n] digits *)
Definition digits (n v : Z) (F : list Z) : Prop := decimal F /\ zlen F = n /\ number F = v.

(** ** %f: rounded to [p] decimals; [I] and [F] are the digits before and after the point *)
Definition fixedParts (R : Z -> Z -> Z -> Prop) (w p : Z) (I F : list Z) : Prop :=
  exists q, R (scaled w * 10 ^ p) (2 ^ 150) q /\ decimalOf (q / 10 ^ p) I /\ digits p (q mod 10 ^ p) F.

(** ** %e: rounded to one digit before the point and [p] after it, with exponent [E]; 0 is 0e+00 *)
(** the value is at least 10^X *)
Definition atLeast (w X : Z) : Prop := 2 ^ 150 * 10 ^ Z.max X 0 <= scaled w * 10 ^ Z.max (- X) 0.
Definition leading (w X : Z) : Prop := atLeast w X /\ ~ atLeast w (X + 1).
Definition expParts (R : Z -> Z -> Z -> Prop) (w p E : Z) (I F : list Z) : Prop :=
  zlen I = 1 /\ zlen F = p /\ decimal I /\ decimal F /\
  (scaled w = 0 /\ number (I ++ F) = 0 /\ E = 0 \/
   exists X q, leading w X /\
     R (scaled w * 10 ^ Z.max (p - X) 0) (2 ^ 150 * 10 ^ Z.max (X - p) 0) q /\
     (q < 10 ^ (p + 1) /\ E = X /\ number (I ++ F) = q \/
      q = 10 ^ (p + 1) /\ E = X + 1 /\ number (I ++ F) = 10 ^ p)).

(** ** the text *)
Definition body (I F : list Z) (hash : bool) : list Z :=
  I ++ (match F with [] => if hash then [46] else [] | _ => [46] end) ++ F.
(** at least two digits of exponent, more only if needed *)
Definition expText (upper : bool) (E : Z) (t : list Z) : Prop :=
  exists ds, decimal ds /\ number ds = Z.abs E /\ 2 <= zlen ds /\ (2 < zlen ds -> hd 48 ds <> 48) /\
    t = [if upper then 69 else 101; if E <? 0 then 45 else 43] ++ ds.
Fixpoint strip (F : list Z) : list Z :=    (* without trailing zeros *)
  match F with
  | [] => []
  | c :: F => match strip F with [] => if c =? 48 then [] else [c] | F' => c :: F' end
  end.
Definition fText R (w p : Z) (hash : bool) (t : list Z) : Prop := exists I F, fixedParts R w p I F /\ t = body I F hash.
Definition eText R (w p : Z) (hash upper : bool) (t : list Z) : Prop :=
  exists E I F e, expParts R w p E I F /\ expText upper E e /\ t = body I F hash ++ e.
(** %g: the style depends on the exponent %e would have *)
Definition gText R (w P : Z) (hash upper : bool) (t : list Z) : Prop :=
  exists E I F, expParts R w (P - 1) E I F /\
  let trailing F := if hash then F else strip F in
  if (-4 <=? E) && (E <? P)
  then exists I F, fixedParts R w (P - 1 - E) I F /\ t = body I (trailing F) hash
  else exists e, expText upper E e /\ t = body I (trailing F) hash ++ e.

Definition isUpper (c : cv) : bool := match c with CUE | CUF | CUG => true | _ => false end.
Definition thePrec (s : settings) : Z := match prec s with Some p => p | None => 6 end.
Definition gPrec (s : settings) : Z := if thePrec s =? 0 then 1 else thePrec s.
Definition finiteText R (s : settings) (w : Z) (t : list Z) : Prop :=
  match con s with
  | CF | CUF => fText R w (thePrec s) (hash s) t
  | CE | CUE => eText R w (thePrec s) (hash s) (isUpper (con s)) t
  | _ => gText R w (gPrec s) (hash s) (isUpper (con s)) t
  end.
Definition infText (upper : bool) : list Z := if upper then [73; 78; 70] else [105; 110; 102].
Definition nanText (upper : bool) : list Z := if upper then [78; 65; 78] else [110; 97; 110].
(** [w]: all the bits *)
Definition fltText R (s : settings) (w : Z) (out : list Z) : Prop :=
  let a := w mod 2 ^ 31 in
  let infinite := 255 * 2 ^ 23 in
  exists t,
    (if a =? infinite then t = infText (isUpper (con s))
     else if infinite <? a then t = nanText (isUpper (con s))
     else finiteText R s a t) /\
    out = padded s (infinite <=? a)
            (if 2 ^ 31 <=? w then [45] else if plus s then [43] else if space s then [32] else []) t.

(** ** what doprint.c gets wrong: %e (and %g in the style of %e) of a number exactly half way
    between two roundings, with more than [p] + 2 digits before the point; and precisions of %g
    so large that the arithmetic of int overflows *)
Definition halfway (num den : Z) : Prop := exists q, 2 * (num - q * den) = den.
Definition tieFree (w p : Z) : Prop :=
  forall X, leading w X -> p + 1 < X -> ~ halfway (scaled w) (2 ^ 150 * 10 ^ (X - p)).
Definition fair (s : settings) (w : Z) : Prop :=
  let a := w mod 2 ^ 31 in
  match con s with
  | CE | CUE => tieFree a (thePrec s)
  | CG | CUG => tieFree a (gPrec s - 1) /\ gPrec s + 4 < 2 ^ 31
  | _ => True
  end.
