(** How the declaration table represents types. *)
From Coq Require Import NArith.
From Verif Require Import Base DeclSpec DeclModel DtorSpec.

Section R.
Variable W : Z.
Definition nm (n : option N) : Z := match n with Some n => Z.of_N n | None => -1 end.
(** from the outside to the inside of the type, as one says it: [*], [[n]], [(...)] *)
Fixpoint enc (t : ty) : stk :=
  match t with
  | YSc s => [(scalTok W s, 0)]
  | YStr j => [(KStructPtr, j)]
  | YPtr t => (KStar, 0) :: enc t
  | YArr n t => [(KLb, 0); (KNum, match n with Some n => n | None => 0 end); (KRb, 0)] ++ enc t
  | YFun q t =>
      (KLp, 0) ::
      match q with
      | None => []
      | Some ([], false) => [(KIdent, -1); (KVoid, 0)]
      | Some (l, e) =>
          flat_map (fun p => (KIdent, nm (fst p)) :: enc (snd p)) l ++
          (if e then [(KIdent, -1); (KEllipsis, 0)] else [])
      end ++ (KRp, 0) :: enc t
  end.

(** A typedef known to the compiler: its place [p] is followed by its type. *)
Definition holds (st : stk) (p : Z) (t : ty) : Prop :=
  exists a z, st = a ++ enc t ++ z /\ zlen a = p + 1.
Definition env_ok (tdf : N -> option Z) (tenv : N -> option ty) (st : stk) : Prop :=
  forall n, match tdf n, tenv n with
            | Some p, Some t => holds st p t /\ wty W false t
            | None, None => True
            | _, _ => False
            end.

(** Entries a declarator needs at most while it is processed. *)
Section Cost.
Variable tenv : N -> option ty.
Definition cost_b (b : bspec) : Z :=
  match base_ty W tenv b with Some t => zlen (enc t) | None => 0 end.
Fixpoint cost_d (d : dcr) : Z :=
  match d with Dc s c ss => Z.of_nat s + cost_c c + cost_s ss end
with cost_c (c : core) : Z := match c with CName _ => 1 | CParen d => cost_d d end
with cost_s (ss : sufs) : Z :=
  match ss with SNil => 0 | SArr _ ss => 4 + cost_s ss | SFun ps ss => 2 + cost_p ps + cost_s ss end
with cost_p (ps : pars) : Z :=
  match ps with
  | PNil => 0
  | PLast b d => 1 + cost_b b + cost_d d
  | PEll b d _ => 3 + cost_b b + cost_d d
  | PCons b d ps => 1 + cost_b b + cost_d d + cost_p ps
  end.
End Cost.
End R.
