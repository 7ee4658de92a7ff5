(** Model of the helper routines that cgmips.c adds at the end of a program: GenFin.  The final
    j $31 is not part of the lists: a routine returns when it gets to the end of its list. *)
From Verif Require Import Base X86 ExprSpec MipsModel.

(** cgmips.c:2219-2236: structure copy; [lbl] is the label of the loop. *)
Definition struct_copy (lbl : Z) : list mins :=
  [Mmove 2 6; Mmove 3 6;
   Mlab lbl;
   Mload 1 6 (AInd 0 5); Malu Maddu 5 5 (OC 1); Malu Maddu 4 4 (OC (-1)); Mstore 1 6 (AInd 0 3); Malu Maddu 3 3 (OC 1);
   Mbr false 4 0 lbl].
(** cgmips.c:2252-2278: structure push. *)
Definition struct_push (lbl : Z) : list mins :=
  [Mmove 6 5; Malu Maddu 6 6 (OC 3); Mli 3 (-4); Malu Mand 6 6 (OR 3); Malu Msubu 29 29 (OR 6); Malu Maddu 3 29 (OC 16); Mmove 2 3;
   Mlab lbl;
   Mload 1 6 (AInd 0 4); Malu Maddu 4 4 (OC 1); Malu Maddu 5 5 (OC (-1)); Mstore 1 6 (AInd 0 3); Malu Maddu 3 3 (OC 1);
   Mbr false 5 0 lbl;
   Mload 4 2 (AInd 0 2); Malu Maddu 29 29 (OC 4)].
(** cgmips.c:1695-1731, 580-589 and 1010-1030: what the caller does after the call with two arguments: the 16 bytes
    for the arguments are released and the result, in $2, is pushed. *)
Definition after_push : list mins := gen_grow (-16) ++ gen3c Msubu rSP rSP 4 ++ [Mstore 4 2 (AInd 0 rSP)].
