(** Model of whole functions compiled for MIPS: cgmips.c GenFxnProlog, GenWriteFrameSize,
    GenFxnEpilog around the function body of MipsStmtModel (smlrc.c:8352-8445).

    The prologue's frame instructions are written twice: provisionally by GenFxnProlog, and again in
    place by GenUpdateFrameSize when the body is complete; the model has the final text, which
    depends on the lowest local offset [minofs] (CurFxnMinLocalOfs) and on whether the body makes
    calls.  The last instruction, "j $31", is not part of the list: the function is left at its end,
    for the address in $31.  Parameters and results are words (structures are passed and returned
    through helper functions that are not modelled). *)
From Verif Require Import Base X86 CgModel ExprSpec CgTree StmtSpec StmtModel MipsModel MipsSpec MipsStmtModel.

(** cgmips.c:532, 573, 1696: GenLeaf is cleared when the closing token of a call is processed, which
    is where jal and jalr are generated. *)
Definition is_call (i : mins) : bool := match i with Mjal _ | Mjalr _ => true | _ => false end.
Definition is_leaf (code : list mins) : bool := negb (existsb is_call code).

(** cgmips.c:534-542, GenWriteFrameSize.  A leaf's "sw $31" is commented out. *)
Definition gen_frame (minofs : Z) (leaf : bool) : list mins :=
  let size := 8 - minofs in
  [Malu Msubu 29 29 (OC size); Mstore 4 30 (AInd (size - 8) 29); Malu Maddu 30 29 (OC (size - 8))] ++
  (if leaf then [] else [Mstore 4 31 (AInd 4 30)]).

(** cgmips.c:555-571: the first parameters go to the words that the caller reserves for them;
    [cmin] and [cmax] are CurFxnParamCntMin and CurFxnParamCntMax (smlrc.c:3443-3508, GetFxnInfo; a function with
    "..." has cmax 32767). *)
Definition gen_params (cmin cmax : Z) : list mins :=
  if negb (cmin =? 0) && negb (cmax =? 0) then
    map (fun i => Mstore 4 (4 + Z.of_nat i) (AInd (4 * Z.of_nat i) 29)) (seq 0 (Z.to_nat (Z.min cmax 4)))
  else [].

(** cgmips.c:590-609, GenFxnEpilog. *)
Definition gen_epilog (minofs : Z) (leaf : bool) : list mins :=
  (if leaf then [] else [Mload 4 31 (AInd 4 30)]) ++
  [Mload 4 30 (AInd 0 30); Malu Maddu 29 29 (OC (8 - minofs))].

(** smlrc.c:8389-8445. *)
Definition gen_fxn (cmin cmax minofs : Z) (main : bool) (n : Z) (body : stmt) : option (list mins * Z) :=
  let? (code, n') := comp_body main n body in
  let leaf := is_leaf code in
  Some (gen_params cmin cmax ++ gen_frame minofs leaf ++ code ++ gen_epilog minofs leaf, n').
