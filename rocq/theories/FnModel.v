(** Model of whole functions compiled for x86: cgx86.c GenFxnProlog, GenWriteFrameSize, GenFxnEpilog
    around the function body of StmtModel (smlrc.c:8352-8445).

    The frame size is written provisionally by GenFxnProlog and again in place by GenUpdateFrameSize
    when the body is complete; the model has the final text ([minofs] is CurFxnMinLocalOfs).
    Not modelled here: the stack probe for Windows (cgx86.c:849-871; the routine is in HelpModel.v), the
    huge and unreal memory models, interrupt functions, structure parameters and results. *)
From Verif Require Import Base X86 CgModel ExprSpec StmtSpec StmtModel FnSpec.

(** cgx86.c:846-881, GenWriteFrameSize: with size 0 the instruction is commented out. *)
Definition gen_frame (minofs : Z) : list finstr :=
  let size := - minofs in if size =? 0 then [] else [FI (I2 Isub RSP (XC size))].
(** cgx86.c:888-904, GenFxnProlog. *)
Definition gen_prolog (minofs : Z) : list finstr := [FI (I1 Ipush RBP); FmovBpSp] ++ gen_frame minofs.
(** cgx86.c:916-921, GenFxnEpilog. *)
Definition gen_epilog : list finstr := [Fleave; Fret].
(** smlrc.c:8389-8445: prologue, body, epilogue. *)
Definition gen_fxn (W minofs : Z) (main : bool) (n : Z) (body : stmt) : option (list finstr * list instr * list finstr * Z) :=
  let? (code, n') := comp_body W main n body in
  Some (gen_prolog minofs, code, gen_epilog, n').
