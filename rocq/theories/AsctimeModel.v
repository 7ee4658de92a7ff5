(** Model of srclib/asctime.c and srclib/ctime.c (32-bit). *)
From Coq Require Import String.
From Verif Require Import Base TimeModel StrftimeModel LexModel DoPrintModel.

(** asctime.c:10-18: the arrays hold three characters for each name, without NUL. *)
Definition day : list Z := chars "SunMonTueWedThuFriSat".
Definition month : list Z := chars "JanFebMarAprMayJunJulAugSepOctNovDec".
(** An element of such an array as an argument: its address, from which the rest of the array can be read. *)
Definition elem (a : list Z) (i : Z) : res arg :=
  if (0 <=? i) && (3 * i <=? zlen a) then Ok (AStr (Some (skipn (Z.to_nat (3 * i)) a))) else Oob.
(** asctime.c:21. *)
Definition fmt : list Z := chars "%.3s %.3s%3d %.2d:%.2d:%.2d %d" ++ [10].
(** The result of a signed computation. *)
Definition cint (z : Z) : res Z := if (- 2 ^ 31 <=? z) && (z <? 2 ^ 31) then Ok z else Oob.

(** asctime.c:8-31; [res] is the content of the static array of 26 characters, before and after.
    sprintf.c:7-17 differs from vsprintf.c only in where the arguments come from. *)
Definition asctime pf (res : list Z) (t : tm) : LexModel.res (list Z) :=
  let! d := elem day (tm_wday t) in
  let! m := elem month (tm_mon t) in
  let! y := cint (1900 + tm_year t) in
  let! (_, res) := vsprintf pf res fmt
    [d; m; AInt (u32 (tm_mday t)); AInt (u32 (tm_hour t)); AInt (u32 (tm_min t)); AInt (u32 (tm_sec t)); AInt (u32 y)] in
  Ok res.
(** ctime.c:8-11; [lt] is what localtime returns.  asctime reads through the pointer. *)
Definition ctime pf (res : list Z) (lt : option (option tm)) : LexModel.res (list Z) :=
  match lt with
  | Some (Some t) => asctime pf res t
  | Some None => Oob                                   (* a null pointer *)
  | None => Oob
  end.
