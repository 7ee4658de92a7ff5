(** What a call of a function means: its parameters and locals are new objects. *)
From Verif Require Import Base X86 CgModel ExprSpec StmtSpec StmtModel MipsModel MipsSpec MipsStmtPre.

(** Byte [k] of the words [ps], little end first. *)
Definition pbyte (ps : list Z) (k : Z) : Z := nth (Z.to_nat (k / 4)) ps 0 / 2 ^ (8 * (k mod 4)) mod 256.
(** Addresses of a function's own objects, in terms of its frame pointer: locals below it,
    parameters from 8 bytes above it. *)
Definition own (fp minofs : Z) (ps : list Z) (a : Z) : bool :=
  (fp + minofs <=? a) && (a <? fp) || (fp + 8 <=? a) && (a <? fp + 8 + 4 * zlen ps).
(** Memory when the body starts: parameters have their values, locals have some contents [g]. *)
Definition enter_mem (fp minofs : Z) (ps : list Z) (g : Z -> Z) (m : mem) : mem :=
  fun a => if own fp minofs ps a then Some (if a <? fp then g a mod 256 else pbyte ps (a - (fp + 8))) else m a.
(** Memory after the function: its objects are gone. *)
Definition leave_mem (fp minofs : Z) (ps : list Z) (m : mem) : mem :=
  fun a => if own fp minofs ps a then None else m a.

(** The parameters that a function with [cmin] declared parameters can access: none if the
    declaration has none, else all arguments (with "...", through the addresses of the named ones). *)
Definition params (cmin : Z) (vs : list Z) : list Z := if cmin =? 0 then [] else vs.

(** Memory that belongs to the callers while the function runs: everything above the parameters,
    and the two words where $30 and $31 are saved. *)
Definition caller_mem (fp top : Z) (prot : Z -> Prop) (ps : list Z) (a : Z) : Prop :=
  prot a \/ fp <= a < fp + 8 \/ fp + 8 + 4 * zlen ps <= a < top.

(** Calls of other functions from this one are as in MipsSpec, wherever the frame is. *)
Definition calls_ok (lo : Z) (ext : Z -> list Z -> mem -> option (Z * mem)) (callee : Z -> mst -> option mst) (room : Z) : Prop :=
  forall bp top (prot : Z -> Prop), top < 2 ^ 32 -> (forall a, prot a -> ~ (lo <= a < top)) -> callee_ok bp lo top prot ext callee room.

(** The source says that the call returns [v] and leaves memory [m']: wherever the frame is
    and whatever the locals contain at first, no execution has undefined behaviour, all of them end,
    with this result. *)
Definition call_means (addr : Z -> Z) (ext : Z -> list Z -> mem -> option (Z * mem)) (cmin minofs : Z) (main : bool) (body : stmt)
    (vs : list Z) (m : mem) (v : Z) (m' : mem) : Prop :=
  forall fp g, fp mod 4 = 0 -> 0 <= fp + minofs -> fp + 8 + argbytes vs < 2 ^ 32 ->
    (forall a, fp + minofs <= a < fp + 8 + argbytes vs -> m a = None) ->
    let x := Run body KStop (enter_mem fp minofs (params cmin vs) g m) in
    msafe_run addr fp ext body main x /\
    (exists B, forall k y, ssteps 4 addr fp ext body main k x y -> (k <= B)%nat) /\
    forall k r m1, ssteps 4 addr fp ext body main k x (Ret r m1) ->
      r = Some v /\ forall a, leave_mem fp minofs (params cmin vs) m1 a = m' a.
