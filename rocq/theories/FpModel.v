(** Model of fp.c's decimal to single precision conversion (d2f; srclib/cvtfd.c __cvtfd is the
    same text with a local buffer).  The buffer ConstBinDigits is the list of its [numBytes]
    bytes, least significant first; bytes of it beyond numBytes are never touched.  An access
    outside that part, a failed internal check or a loop that runs out of fuel is [None]. *)
From Verif Require Import Base.

Definition FP_MANT_BITS : Z := 23.   (* fp.c:22-32 *)
Definition FP_EXP_BITS : Z := 8.
Definition FP_MIN_EXP : Z := -46.
Definition FP_MAX_EXP : Z := 38.
Definition FP_BUF_SIZE : Z := 69.

(** fp.c:166-180 ChainMultiplyAdd. *)
Fixpoint chain_muladd_from (carry : Z) (chain : list Z) (multiplier : Z) : list Z :=
  match chain with
  | [] => []
  | b :: t =>
      let carry := u32 (carry + b * multiplier) in
      Z.land carry 255 :: chain_muladd_from (Z.shiftr carry 8) t multiplier
  end.
Definition chain_muladd (chain : list Z) (multiplier addend : Z) : list Z :=
  chain_muladd_from addend chain multiplier.

(** fp.c:182-200 ChainDivide: from the most significant byte down.  The second component is
    the variable [remainder] (before the final >> 8). *)
Fixpoint chain_div_from (chain : list Z) (divisor : Z) : list Z * Z :=
  match chain with
  | [] => ([], 0)
  | b :: t =>
      let '(t', remainder) := chain_div_from t divisor in
      let remainder := u32 (remainder + b) in
      (u8 (remainder / divisor) :: t', u32 (Z.shiftl (remainder mod divisor) 8))
  end.
Definition chain_div (chain : list Z) (divisor : Z) : list Z * Z :=
  let '(chain', remainder) := chain_div_from chain divisor in
  (chain', u8 (Z.shiftr remainder 8)).

(** Number of iterations none of the loops below reaches. *)
Definition fp_fuel : nat := Z.to_nat 2000.

(** The variables of d2f that change together: buffer, binExp, inexact, lastInexact,
    remainder. *)
Record fpst := Fp { fbuf : list Z; bexp : Z; inexact : bool; last_inexact : bool; fprem : Z }.

(** [ChainDivide(ConstBinDigits, numBytes, d, &remainder), lastInexact = inexact,
    inexact |= !!remainder] (fp.c:266-267, 292-293, 295-296). *)
Definition div_step (d : Z) (s : fpst) : fpst :=
  let '(buf, r) := chain_div (fbuf s) d in
  Fp buf (bexp s) (inexact s || negb (r =? 0)) (inexact s) r.
Definition add_bexp (k : Z) (s : fpst) : fpst :=
  Fp (fbuf s) (bexp s + k) (inexact s) (last_inexact s) (fprem s).
Definition mul_step (m a : Z) (s : fpst) : fpst :=
  Fp (chain_muladd (fbuf s) m a) (bexp s) (inexact s) (last_inexact s) (fprem s).

(** A counted loop [for (tmp = n; tmp > 0; tmp--) f]. *)
Fixpoint times (fuel : nat) (tmp : Z) (f : fpst -> fpst) (s : fpst) : option fpst :=
  if tmp <=? 0 then Some s else
  match fuel with O => None | S fuel => times fuel (tmp - 1) f (f s) end.

(** fp.c:253-254: [for (tmp = 0; tmp < cnt; tmp++) ChainMultiplyAdd(.., 10, digits[tmp]);] *)
Fixpoint load_digits (digits : list Z) (s : fpst) : fpst :=
  match digits with
  | [] => s
  | d :: t => load_digits t (mul_step 10 d s)
  end.

(** fp.c:272, 286: [for (tmp = numBytes - 1; tmp >= 0 && !ConstBinDigits[tmp]; tmp--);] *)
Fixpoint top_byte (n : nat) (buf : list Z) : option Z :=
  match n with
  | O => Some (-1)
  | S k =>
      let? b := zget buf (Z.of_nat k) in
      if b =? 0 then top_byte k buf else Some (Z.of_nat k)
  end.

(** fp.c:276, 290: [while (!(ConstBinDigits[tmp / 8] & (1 << tmp % 8))) tmp--;] *)
Fixpoint top_bit (fuel : nat) (tmp : Z) (buf : list Z) : option Z :=
  match fuel with
  | O => None
  | S fuel =>
      let? b := zget buf (tmp / 8) in
      if Z.land b (Z.shiftl 1 (tmp mod 8)) =? 0 then top_bit fuel (tmp - 1) buf else Some tmp
  end.

(** fp.c:272-279: the shift left. *)
Definition norm_left (s : fpst) : option fpst :=
  let? tmp := top_byte (length (fbuf s)) (fbuf s) in
  if tmp >=? 0 then
    let? tmp := top_bit 9 (tmp * 8 + 7) (fbuf s) in
    (* while (tmp < FP_MANT_BITS) ChainMultiplyAdd(.., 2, 0), binExp--, tmp++; *)
    times fp_fuel (FP_MANT_BITS - tmp) (fun s => add_bexp (-1) (mul_step 2 0 s)) s
  else Some s.

(** fp.c:294: the smallest exponent, [2 - (1 << (FP_EXP_BITS - 1)) - FP_MANT_BITS]. *)
Definition FP_LOW : Z := 2 - Z.shiftl 1 (FP_EXP_BITS - 1) - FP_MANT_BITS.

(** fp.c:285-297: one shift right; also returns [tmp]. *)
Definition norm_right (s : fpst) : option (fpst * Z) :=
  let s := Fp (fbuf s) (bexp s) (inexact s) (last_inexact s) 0 in
  let? tmp := top_byte (length (fbuf s)) (fbuf s) in
  if tmp >=? 0 then
    let? tmp := top_bit 9 (tmp * 8 + 7) (fbuf s) in
    (* while (tmp > FP_MANT_BITS) ..., binExp++, tmp--; *)
    let? s := times fp_fuel (tmp - FP_MANT_BITS) (fun s => add_bexp 1 (div_step 2 s)) s in
    (* while (binExp < FP_LOW) ..., binExp++; *)
    let? s := times fp_fuel (FP_LOW - bexp s) (fun s => add_bexp 1 (div_step 2 s)) s in
    Some (s, if tmp >? FP_MANT_BITS then FP_MANT_BITS else tmp)
  else Some (s, tmp).

(** fp.c:283-302: the do-while loop with rounding to nearest even. *)
Fixpoint round_loop (fuel : nat) (s : fpst) : option (fpst * Z) :=
  match fuel with
  | O => None
  | S fuel =>
      let? (s, tmp) := norm_right s in
      let? b0 := zget (fbuf s) 0 in
      let r := Z.land (fprem s) (Z.lor (Z.b2z (last_inexact s)) (Z.land b0 1)) in
      let s := Fp (fbuf s) (bexp s) (inexact s) (last_inexact s) r in
      if r =? 0 then Some (s, tmp) else round_loop fuel (mul_step 1 1 s)
  end.

(** fp.c:304-311: collect the mantissa. *)
Fixpoint collect (fuel : nat) (tmp res : Z) (buf : list Z) : option Z :=
  if tmp <? 0 then Some res else
  match fuel with
  | O => None
  | S fuel =>
      let? b := zget buf (tmp / 8) in
      collect fuel (tmp - 8) (Z.lor (u32 (Z.shiftl res 8)) b) buf
  end.

(** fp.c:313-319: put exponent and mantissa together. *)
Definition assemble (res binExp : Z) : Z :=
  let binExp := binExp + (Z.shiftl 1 (FP_EXP_BITS - 1) - 1 + FP_MANT_BITS) in
  let binExp := if Z.land res (Z.shiftl 1 FP_MANT_BITS) =? 0 then 0 else binExp in
  let res := Z.land res (u32 (Z.lnot (Z.shiftl 1 FP_MANT_BITS))) in
  let '(binExp, res) :=
    if binExp >=? Z.shiftl 1 FP_EXP_BITS - 1 then (Z.shiftl 1 FP_EXP_BITS - 1, 0)
    else (binExp, res) in
  Z.lor res (u32 (Z.shiftl binExp FP_MANT_BITS)).

(** fp.c:233-245: the number of bits the conversion works with. *)
Definition num_bin_digits (numDecDigits denDecDigits eexp : Z) : Z :=
  let t1 := (numDecDigits * 10 + 2) / 3 in
  let t2 := if eexp >=? 0 then FP_MANT_BITS + 1
            else (denDecDigits * 10 + 2) / 3 + FP_MANT_BITS + 1 + 1 in
  if t1 >=? t2 then t1 else t2.

(** fp.c:202-322 d2f. [cnt] is the length of the list of digits. *)
Definition d2f (digits : list Z) (eexp : Z) : option Z :=
  let cnt := zlen digits in
  let? d0 := zget digits 0 in
  if (cnt =? 1) && (d0 =? 0) then Some 0 else
  if eexp <? FP_MIN_EXP - (cnt - 1) then Some 0 else
  if eexp >? FP_MAX_EXP - (cnt - 1) then Some 2139095040 (* 0x7F800000 *) else
  let numDecDigits := cnt + (if eexp >=? 0 then eexp else 0) in
  let denDecDigits := 1 + (if eexp <? 0 then - eexp else 0) in
  let numBinDigits := num_bin_digits numDecDigits denDecDigits eexp in
  let numBytes := (numBinDigits + 7) / 8 in
  let? _ := guard (numBytes <=? FP_BUF_SIZE) in
  let s := Fp (repeat 0 (Z.to_nat numBytes)) 0 false false 0 in
  let s := load_digits digits s in
  let? s := times fp_fuel eexp (mul_step 10 0) s in
  let? s :=
    if eexp <? 0 then
      let binExp := - (numBinDigits - (numDecDigits * 10 + 2) / 3) in
      let s := add_bexp binExp s in
      let? s := times fp_fuel (- binExp) (mul_step 2 0) s in
      times fp_fuel (- eexp) (div_step 10) s
    else Some s in
  let? s := norm_left s in
  let? (s, tmp) := round_loop fp_fuel s in
  let? res := collect fp_fuel tmp 0 (fbuf s) in
  Some (assemble res (bexp s)).
