(** Model of srclib/ctype.c and the is*/to* functions (srclib/isalpha.c etc.). *)
From Verif Require Import Base.

(** srclib/ctype.c:5-16 (file lines), __chartype__[1 + 256]; entries past the initialisers are 0. *)
Definition chartype : list Z :=
  [ 0x00;
    0x01;0x01;0x01;0x01;0x01;0x01;0x01;0x01; 0x01;0x03;0x03;0x03;0x03;0x03;0x01;0x01;
    0x01;0x01;0x01;0x01;0x01;0x01;0x01;0x01; 0x01;0x01;0x01;0x01;0x01;0x01;0x01;0x01;
    0x02;0x04;0x04;0x04;0x04;0x04;0x04;0x04; 0x04;0x04;0x04;0x04;0x04;0x04;0x04;0x04;
    0x08;0x08;0x08;0x08;0x08;0x08;0x08;0x08; 0x08;0x08;0x04;0x04;0x04;0x04;0x04;0x04;
    0x04;0x50;0x50;0x50;0x50;0x50;0x50;0x10; 0x10;0x10;0x10;0x10;0x10;0x10;0x10;0x10;
    0x10;0x10;0x10;0x10;0x10;0x10;0x10;0x10; 0x10;0x10;0x10;0x04;0x04;0x04;0x04;0x04;
    0x04;0x60;0x60;0x60;0x60;0x60;0x60;0x20; 0x20;0x20;0x20;0x20;0x20;0x20;0x20;0x20;
    0x20;0x20;0x20;0x20;0x20;0x20;0x20;0x20; 0x20;0x20;0x20;0x04;0x04;0x04;0x04;0x01 ]
  ++ repeat 0 128.

(** Common body of srclib/is*.c: [return __chartype__[c + 1] & mask;] *)
Definition ctest (mask c : Z) : option Z := option_map (fun t => Z.land t mask) (zget chartype (c + 1)).

(** srclib/isalnum.c:7-10 … isxdigit.c:7-10; one line each. *)
Definition isalnum := ctest 0x38.
Definition isalpha := ctest 0x30.
Definition isblank (c : Z) : option Z := Some (if (c =? 32) || (c =? 9) then 1 else 0).
Definition iscntrl := ctest 0x01.
Definition isdigit := ctest 0x08.
Definition isgraph (c : Z) : option Z := Some (if (c >? 32) && (c <=? 126) then 1 else 0).
Definition islower := ctest 0x20.
Definition isprint (c : Z) : option Z := Some (if (c >=? 32) && (c <=? 126) then 1 else 0).
Definition ispunct := ctest 0x04.
Definition isspace := ctest 0x02.
Definition isupper := ctest 0x10.
Definition isxdigit := ctest 0x48.
(** srclib/tolower.c:7-10, srclib/toupper.c:7-10. *)
Definition tolower (c : Z) : option Z :=
  option_map (fun t => c + Z.shiftl (Z.land t 0x10) 1) (zget chartype (c + 1)).
Definition toupper (c : Z) : option Z :=
  option_map (fun t => c - Z.land t 0x20) (zget chartype (c + 1)).
