(** Model of srclib/longjmp.c: setjmp and longjmp, for the 16-bit and the flat 32-bit memory models
    (not huge and unreal mode), with the prologue and the epilogue that the compiler gives them. *)
From Verif Require Import Base X86 CgModel FnSpec FnModel HelpSpec JmpSpec.

(** longjmp.c:18-37 (16-bit) and 170-189 (32-bit). *)
Definition setjmp_code (W : Z) : list jins :=
  map JH (map HF (gen_prolog 0)) ++
  (if W =? 2 then
     [JH (HmovM Hbx Hbp 4); JH (HmovM Hax Hbp 2); Jst Hbx 0 Hax; Jpushf; JpopM Hbx 2;
      JH (HmovM Hax Hbp 0); Jst Hbx 4 Hax; JH (Hlea Hax Hbp (2 * 2)); Jst Hbx 6 Hax; Jxor Hax]
   else
     [JH (HmovM Hbx Hbp 8); JH (HmovM Hax Hbp 4); Jst Hbx 0 Hax; Jpushf; JpopM Hbx 4;
      JH (HmovM Hax Hbp 0); Jst Hbx 8 Hax; JH (Hlea Hax Hbp (4 * 2)); Jst Hbx 12 Hax; Jxor Hax]) ++
  map JH (map HF gen_epilog).

(** longjmp.c:39-62 (16-bit) and 191-214 (32-bit). *)
Definition longjmp_code (W : Z) : list jins :=
  map JH (map HF (gen_prolog 0)) ++
  (if W =? 2 then
     [JH (HmovM Hax Hbp 6); Jor Hax; Jsetz_bl; Jor_al_bl; JH (HmovM Hbx Hbp 4);
      JH (HmovM Hsp Hbx 6); JH (HmovM Hbp Hbx 4); JpushM Hbx 2; Jpushcs; JpushM Hbx 0; Jiret]
   else
     [JH (HmovM Hax Hbp 12); Jor Hax; Jsetz_bl; Jor_al_bl; JH (HmovM Hbx Hbp 8);
      JH (HmovM Hsp Hbx 12); JH (HmovM Hbp Hbx 8); JpushM Hbx 4; Jpushcs; JpushM Hbx 0; Jiret]) ++
  map JH (map HF gen_epilog).
