(** The helper routines that the compiler adds to a program: what they must do, and the instructions
    that only they use. *)
From Verif Require Import Base X86 CgModel ExprSpec MachSpec FnSpec.

Section HelpSpec.
Variable W : Z.

(** ** C *)

(** The meaning of a structure assignment, as a call with the size and the addresses of the source
    and of the destination: both are objects, the same one or disjoint ones (C99 6.5.16.1p3);
    the destination gets the bytes of the source, nothing else changes, the value is the
    destination's address. *)
Definition copy_means (vs : list Z) (m : mem) (v : Z) (m' : mem) : Prop :=
  exists n src dst, vs = [n; src; dst] /\ 0 <= n < 2 ^ (8 * W) /\ 0 <= src < 2 ^ (8 * W) /\ 0 <= dst < 2 ^ (8 * W) /\
    (forall i, 0 <= i < n -> m (src + i) <> None /\ m (dst + i) <> None) /\
    (src = dst \/ src + n <= dst \/ dst + n <= src) /\ v = dst /\
    forall a, m' a = if (dst <=? a) && (a <? dst + n) then m (src + (a - dst)) else m a.

(** Size of a structure argument on the stack: whole words. *)
Definition padded (n : Z) : Z := (n + W - 1) / W * W.

(** ** The machine *)

Inductive hreg := Hax | Hbx | Hcx | Hdx | Hsi | Hdi | Hsp | Hbp.
(** mov r, [b+d]; mov r, r2; lea r, [b+d]; lea r, [b+i+d]; add r, k; and r, k; sub r, r2;
    cld; std; rep movsb; push k; push r; pop r; ret; and what prologues and epilogues have. *)
Inductive hins :=
| HmovM (r b : hreg) (d : Z) | HmovR (r r2 : hreg) | Hlea (r b : hreg) (d : Z) | Hlea2 (r b i : hreg) (d : Z)
| HaddK (r : hreg) (k : Z) | HandK (r : hreg) (k : Z) | HsubR (r r2 : hreg)
| Hcld | Hstd | Hrepmovsb | HpushK (k : Z) | HpushR (r : hreg) | HpopR (r : hreg) | Hret | HF (i : finstr).

(** The machine of X86.v with two more registers and the direction flag (set: downwards). *)
Record hst := mkh { hs : st; hsi : Z; hdi : Z; hdf : bool }.

Definition hget (r : hreg) (h : hst) : Z :=
  match r with
  | Hax => ea (hs h) | Hbx => eb (hs h) | Hcx => ec (hs h) | Hdx => ed (hs h)
  | Hsi => hsi h | Hdi => hdi h | Hsp => esp (hs h) | Hbp => ebp (hs h)
  end.
Definition with_st (s : st) (h : hst) : hst := mkh s (hsi h) (hdi h) (hdf h).
Definition hset (r : hreg) (v : Z) (h : hst) : hst :=
  match r with
  | Hax => with_st (set_ea v (hs h)) h | Hbx => with_st (set_eb v (hs h)) h
  | Hcx => with_st (set_ec v (hs h)) h | Hdx => with_st (set_ed v (hs h)) h
  | Hsi => mkh (hs h) v (hdi h) (hdf h) | Hdi => mkh (hs h) (hsi h) v (hdf h)
  | Hsp => with_st (set_esp v (hs h)) h | Hbp => with_st (set_ebp v (hs h)) h
  end.
Definition pushw (v : Z) (h : hst) : hst :=
  let s := hs h in let p := uw W (esp s - W) in with_st (set_esp p (set_M (stn W (Z.to_nat W) (M s) p v) s)) h.

(** movsb, [n] times: one byte from [si] to [di], both move by [d]. *)
Fixpoint movs (n : nat) (d : Z) (f : Z -> Z) (si di : Z) : (Z -> Z) * Z * Z :=
  match n with
  | O => (f, si, di)
  | S n => movs n d (upd f di (f si mod 256)) (uw W (si + d)) (uw W (di + d))
  end.

(** Run instructions in sequence: the new state, and the address that ret goes to if it was reached. *)
Fixpoint hexecs (addr : Z -> Z) (l : list hins) (h : hst) : option (option Z * hst) :=
  match l with
  | [] => Some (None, h)
  | HmovM r b d :: l => hexecs addr l (hset r (ldn W (Z.to_nat W) (M (hs h)) (uw W (hget b h + d))) h)
  | HmovR r r2 :: l => hexecs addr l (hset r (hget r2 h) h)
  | Hlea r b d :: l => hexecs addr l (hset r (uw W (hget b h + d)) h)
  | Hlea2 r b i d :: l => hexecs addr l (hset r (uw W (hget b h + hget i h + d)) h)
  | HaddK r k :: l => hexecs addr l (hset r (uw W (hget r h + k)) h)
  | HandK r k :: l => hexecs addr l (hset r (Z.land (hget r h) (uw W k)) h)
  | HsubR r r2 :: l => hexecs addr l (hset r (uw W (hget r h - hget r2 h)) h)
  | Hcld :: l => hexecs addr l (mkh (hs h) (hsi h) (hdi h) false)
  | Hstd :: l => hexecs addr l (mkh (hs h) (hsi h) (hdi h) true)
  | Hrepmovsb :: l =>
      let '(f, si, di) := movs (Z.to_nat (ec (hs h))) (if hdf h then -1 else 1) (M (hs h)) (hsi h) (hdi h) in
      hexecs addr l (mkh (set_ec 0 (set_M f (hs h))) si di (hdf h))
  | HpushK k :: l => hexecs addr l (pushw (uw W k) h)
  | HpushR r :: l => hexecs addr l (pushw (hget r h) h)
  | HpopR r :: l =>
      let v := ldn W (Z.to_nat W) (M (hs h)) (esp (hs h)) in
      hexecs addr l (hset r v (with_st (set_esp (uw W (esp (hs h) + W)) (hs h)) h))
  | Hret :: _ => Some (Some (ldn W (Z.to_nat W) (M (hs h)) (esp (hs h))), with_st (set_esp (uw W (esp (hs h) + W)) (hs h)) h)
  | HF i :: l =>
      let? (r, s) := fexecs W addr [i] (hs h) in
      match r with Some a => Some (Some a, with_st s h) | None => hexecs addr l (with_st s h) end
  end.
(** A call from [h] of the routine comes back to the return address [ra] in [h']. *)
Definition hruns (addr : Z -> Z) (code : list hins) (ra : Z) (h h' : hst) : Prop :=
  hexecs addr code (with_st (push_ra W ra (hs h)) h) = Some (Some ra, h').

(** Runs with the list of addresses read through [ebx]. *)
Definition touched (prog : list instr) (x : nat * st) : list Z :=
  match nth_error prog (fst x) with Some (I2 _ _ (MRB _)) => [eb (snd x)] | _ => [] end.
Inductive truns (addr : Z -> Z) (callee : Z -> st -> option st) (prog : list instr) : nat * st -> list Z -> nat * st -> Prop :=
| tr_nil x : truns addr callee prog x [] x
| tr_cons x y z l : mstep W addr callee prog x = Some y -> truns addr callee prog y l z -> truns addr callee prog x (touched prog x ++ l) z.
End HelpSpec.

(** The page of an address, on Windows. *)
Definition page (a : Z) : Z := a / 4096 * 4096.
