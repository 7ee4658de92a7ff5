(** Model of argument passing and parameter placement: v0100/smlrc.c, cgx86.c.  Memory is a map
    from addresses to bytes; addresses do not wrap around. *)
From Verif Require Import Base CallSpec.

Section C.
Variable W : Z.                       (* SizeOfWord *)
Variable L : Z.                       (* GenMaxLocalsSize() *)

(** smlrc.c 8615-8735 AddFxnParamSymbols: the offset of each parameter from the frame pointer;
    [None] is errorVarSize.  [ret]: the function returns a structure. *)
Fixpoint paramOffsets (paramOfs : Z) (sizes : list Z) : option (list Z) :=
  match sizes with
  | [] => Some []
  | sz :: sizes =>
      if u32 (sz + W - 1) <? sz then None else
      let sz := Z.land (u32 (sz + W - 1)) (u32 (Z.lnot (W - 1))) in
      if u32 (paramOfs + sz) <? paramOfs then None else
      let next := u32 (paramOfs + sz) in
      if L <? next then None else
      let? os := paramOffsets next sizes in Some (paramOfs :: os)
  end.
Definition addFxnParamSymbols (ret : bool) (sizes : list Z) : option (list Z) :=
  paramOffsets (2 * W + if ret then W else 0) sizes.

(** smlrc.c 5060-5078, 5113-5118 exprval, function call: the number of bytes the caller removes
    after the call (structSize: words of structures beyond the first of each) *)
Fixpoint structBytes (acc : Z) (args : list arg) : option Z :=
  match args with
  | [] => Some acc
  | AWord _ :: args => structBytes acc args
  | AStruct _ sz :: args =>
      if L <? sz then None else
      let sz := Z.land (u32 (sz + W - 1)) (u32 (Z.lnot (W - 1))) in
      if u32 (acc + sz) <? acc then None else
      let acc := u32 (acc + sz - W) in
      if L <? acc then None else structBytes acc args
  end.
Definition cleanup (ret : bool) (args : list arg) : option Z :=
  let? s := structBytes 0 args in
  Some (u32 ((zlen args + (if ret then 1 else 0) + s / W) * W)).

(** ** the machine *)
Record mach := Mach { mem : Z -> Z; sp : Z; bp : Z }.
Definition upd (m : Z -> Z) (a v : Z) : Z -> Z := fun x => if x =? a then v else m x.
Fixpoint storeN (n : nat) (m : Z -> Z) (a v : Z) : Z -> Z :=
  match n with O => m | S n => storeN n (upd m a (v mod 256)) (a + 1) (v / 256) end.
Definition store (m : Z -> Z) (a v : Z) := storeN (Z.to_nat W) m a v.
Fixpoint loadN (n : nat) (m : Z -> Z) (a : Z) : Z :=
  match n with O => 0 | S n => m a + 256 * loadN n m (a + 1) end.
Definition load (m : Z -> Z) (a : Z) := loadN (Z.to_nat W) m a.
Definition push (s : mach) (v : Z) : mach := Mach (store (mem s) (sp s - W) v) (sp s - W) (bp s).
(** [rep movsb] upwards and downwards *)
Fixpoint copyUp (n : nat) (m : Z -> Z) (d s : Z) : Z -> Z :=
  match n with O => m | S n => copyUp n (upd m d (m s)) (d + 1) (s + 1) end.
Fixpoint copyDown (n : nat) (m : Z -> Z) (d s : Z) : Z -> Z :=
  match n with O => m | S n => copyDown n (upd m d (m s)) (d - 1) (s - 1) end.

(** cgx86.c 3352-3386 (16 bits) and 3436-3463 (32 bits, flat): the function that pushes a structure,
    from its call ([ra]: return address) to its return; gives the accumulator *)
Definition structPush (s : mach) (ra : Z) : mach * Z :=
  let s := push s ra in                           (* call *)
  let s := push s (bp s) in                       (* prologue *)
  let s := Mach (mem s) (sp s) (sp s) in
  let dx := load (mem s) (bp s + W) in
  let si := load (mem s) (bp s + 2 * W) in
  let cx := load (mem s) (bp s + 3 * W) in
  let s := Mach (mem s) (sp s) (load (mem s) (bp s)) in
  if W =? 2 then
    let ax := (cx + 1) / 2 * 2 in
    let s := Mach (mem s) (sp s + 4 * 2 - ax) (bp s) in
    let s := Mach (copyUp (Z.to_nat cx) (mem s) (sp s) si) (sp s) (bp s) in
    let ax := load (mem s) (sp s) in
    let s := Mach (mem s) (sp s + W) (bp s) in    (* pop ax *)
    let s := push s ax in
    let s := push s 0 in
    let s := push s dx in
    (Mach (mem s) (sp s + W) (bp s), ax)          (* ret *)
  else
    let ax := (cx + 3) / 4 * 4 - 4 * 4 in
    let s := Mach (mem s) (sp s - ax) (bp s) in
    let s := Mach (copyDown (Z.to_nat cx) (mem s) (sp s + cx - 1) (si + cx - 1)) (sp s) (bp s) in
    let ax := load (mem s) (sp s) in
    let s := push s 0 in
    let s := push s dx in
    (Mach (mem s) (sp s + W) (bp s), ax).

(** smlrc.c 5031-5060 (a structure argument becomes a call of that function with the address and the
    size), cgx86.c 2046-2089 GenExpr1: the argument is pushed *)
Definition pushArg (ra : Z) (s : mach) (a : arg) : mach :=
  match a with
  | AWord v => push s v
  | AStruct src sz =>
      let s := push s sz in
      let s := push s src in
      let '(s, ax) := structPush s ra in
      push (Mach (mem s) (sp s + 2 * W) (bp s)) ax
  end.
(** smlrc.c 2822-2870 exprUnary, 4942-5105 exprval: the last argument first; the address of a returned
    structure is passed as an additional first argument.  Then the call and the prologue of the
    function called (cgx86.c 889-902): the frame pointer there. *)
Fixpoint pushArgs (ra : Z) (s : mach) (args : list arg) : mach :=
  match args with [] => s | a :: args => pushArg ra (pushArgs ra s args) a end.
Definition callSeq (ra : Z) (s : mach) (ret : option Z) (args : list arg) : mach :=
  let s := pushArgs ra s (match ret with Some p => AWord p :: args | None => args end) in
  let s := push s ra in
  let s := push s (bp s) in
  Mach (mem s) (sp s) (sp s).
End C.
