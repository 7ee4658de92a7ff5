(** Model of the helper routines that cgx86.c adds at the end of a program: GenFin.  Only those for
    the flat 32-bit and the 16-bit memory models; not for huge and unreal mode. *)
From Verif Require Import Base X86 CgModel ExprSpec StmtSpec StmtModel FnSpec FnModel HelpSpec.

(** cgx86.c:3264-3342: structure copy, 16-bit (3270-3275) and 32-bit (3333-3338). *)
Definition struct_copy (W : Z) : list hins :=
  map HF (gen_prolog 0) ++
  (if W =? 2 then
     [HmovM Hdi Hbp 8; HmovM Hsi Hbp 6; HmovM Hcx Hbp 4; Hcld; Hrepmovsb; HmovM Hax Hbp 8]
   else
     [HmovM Hdi Hbp 16; HmovM Hsi Hbp 12; HmovM Hcx Hbp 8; Hcld; Hrepmovsb; HmovM Hax Hbp 16]) ++
  map HF gen_epilog.

(** cgx86.c:3352-3460: structure push, 16-bit (3358-3377) and 32-bit (3440-3459). *)
Definition struct_push (W : Z) : list hins :=
  map HF (gen_prolog 0) ++
  (if W =? 2 then
     [HmovM Hdx Hbp 2; HmovM Hsi Hbp 4; HmovM Hcx Hbp 6; HmovM Hbp Hbp 0;
      HmovR Hax Hcx; HaddK Hax 1; HandK Hax (-2); HaddK Hsp (4 * 2); HsubR Hsp Hax;
      HmovR Hdi Hsp; Hcld; Hrepmovsb;
      HpopR Hax; HpushR Hax; HpushK 0; HpushR Hdx; Hret]
   else
     [HmovM Hdx Hbp 4; HmovM Hsi Hbp 8; HmovM Hcx Hbp 12; HmovM Hbp Hbp 0;
      Hlea Hax Hcx 3; HandK Hax (-4); HaddK Hax (- (4 * 4)); HsubR Hsp Hax;
      Hlea2 Hsi Hsi Hcx (-1); Hlea2 Hdi Hsp Hcx (-1); Hstd; Hrepmovsb; Hcld;
      HmovM Hax Hsp 0; HpushK 0; HpushR Hdx; Hret]).

(** cgx86.c:3478-3489: the stack probe for Windows; [lbl] is the label of the loop.  The first
    instruction, lea ebx, [esp+4], is apart because X86.v does not have it; so is the final ret. *)
Definition chkstk_entry : list hins := [Hlea Hbx Hsp 4].
Definition chkstk_loop (lbl : Z) : list instr :=
  [I2 Imov RC RB; I2 Isub RC RA; I2 Iand RB (XC (-4096)); I2 Iand RC (XC (-4096));
   Lab lbl;
   I2 Isub RB (XC 4096); I2 Imov RAB (MRB MI); I2 Icmp RB RC; I1 (Ijcc CNe) (XNum lbl)].
(** cgx86.c:851-868, GenWriteFrameSize: frames of this size are probed. *)
Definition probed (size : Z) : bool := 4096 <=? size.
