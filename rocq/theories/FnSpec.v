(** Calls of functions compiled for x86: what a call means in C, and the instructions that only
    prologues, epilogues and calls use. *)
From Verif Require Import Base X86 CgModel ExprSpec MachSpec StmtSpec StmtPre StmtModel.

Section FnSpec.
Variable W : Z.

(** ** C *)

(** Byte [k] of the words [ps], little end first. *)
Definition pbyte (ps : list Z) (k : Z) : Z := nth (Z.to_nat (k / W)) ps 0 / 256 ^ (k mod W) mod 256.
(** Addresses of a function's own objects, in terms of its frame pointer: locals below it,
    parameters above the saved frame pointer and the return address. *)
Definition own (fp minofs : Z) (ps : list Z) (a : Z) : bool :=
  (fp + minofs <=? a) && (a <? fp) || (fp + 2 * W <=? a) && (a <? fp + 2 * W + W * zlen ps).
(** Memory when the body starts: parameters have their values, locals have some contents [g]. *)
Definition enter_mem (fp minofs : Z) (ps : list Z) (g : Z -> Z) (m : mem) : mem :=
  fun a => if own fp minofs ps a then Some (if a <? fp then g a mod 256 else pbyte ps (a - (fp + 2 * W))) else m a.
(** Memory after the function: its objects are gone. *)
Definition leave_mem (fp minofs : Z) (ps : list Z) (m : mem) : mem :=
  fun a => if own fp minofs ps a then None else m a.
(** Memory that belongs to the callers while the function runs: everything above the arguments,
    the saved frame pointer and the return address. *)
Definition caller_mem (fp top : Z) (prot : Z -> Prop) (ps : list Z) (a : Z) : Prop :=
  prot a \/ fp <= a < fp + 2 * W \/ fp + 2 * W + W * zlen ps <= a < top.

(** Calls of other functions from this one are as in MachSpec, wherever the frame is. *)
Definition calls_ok (lo : Z) (callee : Z -> st -> option st) (ext : Z -> list Z -> mem -> option (Z * mem)) (room : Z) : Prop :=
  forall bp top (prot : Z -> Prop), 0 <= bp < 2 ^ (8 * W) -> top < 2 ^ (8 * W) -> (forall a, prot a -> ~ (lo <= a < top)) ->
    callee_ok W bp lo top prot callee ext room.

(** The source says that the call returns [v] and leaves memory [m']: wherever the frame is
    and whatever the locals contain at first, no execution has undefined behaviour, all of them end,
    with this result. *)
Definition call_means (addr : Z -> Z) (ext : Z -> list Z -> mem -> option (Z * mem)) (minofs : Z) (main : bool) (body : stmt)
    (vs : list Z) (m : mem) (v : Z) (m' : mem) : Prop :=
  forall fp g, 0 <= fp + minofs -> fp + 2 * W + W * zlen vs < 2 ^ (8 * W) ->
    (forall a, fp + minofs <= a < fp + 2 * W + W * zlen vs -> m a = None) ->
    let x := Run body KStop (enter_mem fp minofs vs g m) in
    safe_run W addr fp ext body main x /\
    (exists B, forall k y, ssteps W addr fp ext body main k x y -> (k <= B)%nat) /\
    forall k r m1, ssteps W addr fp ext body main k x (Ret r m1) ->
      r = Some v /\ forall a, leave_mem fp minofs vs m1 a = m' a.

(** ** The machine *)

(** Instructions of prologues and epilogues: those of X86.v, mov ebp, esp; leave; ret. *)
Inductive finstr := FI (i : instr) | FmovBpSp | Fleave | Fret.

Definition set_ebp v s := mkst (ea s) (eb s) (ec s) (ed s) (esp s) v (M s) (fl s).
(** What the call instruction does: the return address is pushed. *)
Definition push_ra (ra : Z) (s : st) : st :=
  let p := uw W (esp s - W) in set_esp p (set_M (stn W (Z.to_nat W) (M s) p ra) s).
(** Run such instructions in sequence: the new state, and the address that ret goes to if it was
    reached. *)
Fixpoint fexecs (addr : Z -> Z) (l : list finstr) (s : st) : option (option Z * st) :=
  match l with
  | [] => Some (None, s)
  | FI i :: l => let? s := exec W addr i s in fexecs addr l s
  | FmovBpSp :: l => fexecs addr l (set_ebp (esp s) s)
  | Fleave :: l =>
      let p := ebp s in
      fexecs addr l (set_esp (uw W (p + W)) (set_ebp (ldn W (Z.to_nat W) (M s) p) s))
  | Fret :: _ => Some (Some (ldn W (Z.to_nat W) (M s) (esp s)), set_esp (uw W (esp s + W)) s)
  end.
(** A call from [s] of the function with this prologue, code and epilogue comes back in [s']. *)
Definition fruns (addr : Z -> Z) (callee : Z -> st -> option st) (pro : list finstr) (code : list instr) (epi : list finstr)
    (ra : Z) (s s' : st) : Prop :=
  exists s1 s2, fexecs addr pro (push_ra ra s) = Some (None, s1) /\
    mstar W addr callee code (0%nat, s1) (length code, s2) /\ fexecs addr epi s2 = Some (Some ra, s').
End FnSpec.
