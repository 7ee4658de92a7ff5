(** Sizes, alignments and member offsets of C types on unbounded integers. *)
From Verif Require Import Base.

Inductive scal := SVoid | SChar | SSChar | SUChar | SShort | SUShort | SInt | SUns | SLong | SULong | SFloat.
(** A type as far as its storage goes: pointers all look alike.  A struct or union has a list of
    members, each with the #pragma pack value in force at its declaration, its name and its type. *)
Inductive cty :=
| TySc (s : scal)
| TyPtr
| TyArr (n : Z) (t : cty)
| TyAgg (union : bool) (ms : list (Z * (Z * cty))).

(** [x] rounded up to a multiple of [a] *)
Definition up (x a : Z) : Z := (x + a - 1) / a * a.

Section Layout.
Variable W : Z.                                 (* bytes in an int and in a pointer *)

Definition ssize (s : scal) : Z :=
  match s with
  | SVoid => 0 | SChar | SSChar | SUChar => 1 | SShort | SUShort => 2
  | SInt | SUns => W | SLong | SULong | SFloat => 4
  end.

(** Members given as (size, alignment), in order. *)
Definition maxalign (l : list (Z * Z)) : Z := fold_right (fun m a => Z.max (snd m) a) 1 l.
Definition maxsize (l : list (Z * Z)) : Z := fold_right (fun m a => Z.max (fst m) a) 0 l.
(** offsets of the members of a struct the first of which comes at or after offset [o] *)
Fixpoint offsets (o : Z) (l : list (Z * Z)) : list Z :=
  match l with
  | [] => []
  | (s, a) :: l => up o a :: offsets (up o a + s) l
  end.
Fixpoint endof (o : Z) (l : list (Z * Z)) : Z :=
  match l with [] => o | (s, a) :: l => endof (up o a + s) l end.

(** (size, alignment) *)
Fixpoint sa (t : cty) : Z * Z :=
  match t with
  | TySc s => (ssize s, Z.max 1 (ssize s))
  | TyPtr => (W, W)
  | TyArr n t => let '(s, a) := sa t in (n * s, a)
  | TyAgg u ms =>
      let l := map (fun m => let '(s, a) := sa (snd (snd m)) in (s, Z.min (fst m) a)) ms in
      (up (if u then maxsize l else endof 0 l) (maxalign l), maxalign l)
  end.
Definition size (t : cty) := fst (sa t).
Definition align (t : cty) := snd (sa t).
Definition msa (m : Z * (Z * cty)) : Z * Z := (size (snd (snd m)), Z.min (fst m) (align (snd (snd m)))).
(** offsets of the members *)
Definition moffsets (u : bool) (ms : list (Z * (Z * cty))) : list Z :=
  if u then map (fun _ => 0) ms else offsets 0 (map msa ms).

(** Declarations, as written: a declarator is a name, array dimensions, and possibly (a pointer
    to) something of no importance for the layout; a base type is a scalar type, a struct or union
    defined before (known to the compiler by its place [j]) or a definition. *)
Record dcl (X : Type) := Dcl { d_pack : Z; d_name : Z; d_dims : list Z; d_ptr : option X }.
Inductive base (X : Type) :=
| BSc (s : scal)
| BRef (j : Z)
| BDef (u : bool) (tag : Z) (ms : list (base X * list (dcl X))).
Arguments Dcl {X}. Arguments d_pack {X}. Arguments d_name {X}. Arguments d_dims {X}. Arguments d_ptr {X}.
Arguments BSc {X}. Arguments BRef {X}. Arguments BDef {X}.

Definition arrays (dims : list Z) (t : cty) : cty := fold_right TyArr t dims.
Definition dclty {X} (t : cty) (d : dcl X) : cty :=
  arrays (d_dims d) (match d_ptr d with Some _ => TyPtr | None => t end).
Definition mems {X} (t : cty) (ds : list (dcl X)) : list (Z * (Z * cty)) :=
  map (fun d => (d_pack d, (d_name d, dclty t d))) ds.
(** [env j]: the type defined at place [j] *)
Fixpoint tyb {X} (env : Z -> cty) (b : base X) : cty :=
  match b with
  | BSc s => TySc s
  | BRef j => env j
  | BDef u _ ms => TyAgg u (flat_map (fun bd => mems (tyb env (fst bd)) (snd bd)) ms)
  end.

(** All types of objects a declaration mentions: each struct or union defined and each member. *)
Fixpoint declared {X} (env : Z -> cty) (b : base X) : list cty :=
  match b with
  | BDef u _ ms =>
      tyb env b :: flat_map (fun bd => declared env (fst bd) ++
                                        map (dclty (tyb env (fst bd))) (snd bd)) ms
  | _ => []
  end.

(** Selecting a part of an object: members and array elements.  Gives the part's offset and type. *)
Inductive step := PMem (name : Z) | PIdx (i : Z).
Fixpoint memb (name : Z) (ms : list (Z * (Z * cty))) (os : list Z) : option (Z * cty) :=
  match ms, os with
  | (_, (n, t)) :: ms, o :: os => if n =? name then Some (o, t) else memb name ms os
  | _, _ => None
  end.
Fixpoint sel (t : cty) (p : list step) : option (Z * cty) :=
  match p with
  | [] => Some (0, t)
  | PMem name :: p =>
      match t with
      | TyAgg u ms =>
          match memb name ms (moffsets u ms) with
          | Some (o, t') => match sel t' p with Some (o', t'') => Some (o + o', t'') | None => None end
          | None => None
          end
      | _ => None
      end
  | PIdx i :: p =>
      match t with
      | TyArr n t' => match sel t' p with Some (o', t'') => Some (i * size t' + o', t'') | None => None end
      | _ => None
      end
  end.

(** Correct declarations.  Complete object types this target has ... *)
Definition p2 (a : Z) : Prop := a = 1 \/ a = 2 \/ a = 4.
Definition oksc (s : scal) : Prop := s <> SVoid /\ (W = 2 -> ssize s <= 2).
Definition okpack (p : Z) : Prop := p2 p /\ p <= W.
Fixpoint wfty (t : cty) : Prop :=
  match t with
  | TySc s => oksc s
  | TyPtr => True
  | TyArr n t => 1 <= n < 2 ^ (8 * W) /\ wfty t
  | TyAgg u ms => ms <> [] /\ (fix go ms := match ms with [] => True | m :: ms => okpack (fst m) /\ wfty (snd (snd m)) /\ go ms end) ms
  end.
(** ... declarators ([okp]: what may follow a star) and base types.  Members have different names,
    there is at least one, and no object has an incomplete type. *)
Section Wf.
Context {X : Type}.
Variable okp : X -> bool.
Definition wfd (t : cty) (d : dcl X) : Prop :=
  Forall (fun n => 1 <= n < 2 ^ (8 * W)) (d_dims d) /\ okpack (d_pack d) /\
  match d_ptr d with None => wfty t | Some l => okp l = true end.
Variable env : Z -> cty.
Definition allmems (ms : list (base X * list (dcl X))) :=
  flat_map (fun bd => mems (tyb env (fst bd)) (snd bd)) ms.
Fixpoint wfb (b : base X) : Prop :=
  match b with
  | BSc s => W = 2 -> ssize s <= 2
  | BRef i => match env i with TyAgg _ _ | TySc SVoid => True | _ => False end
  | BDef u tag ms =>
      allmems ms <> [] /\ NoDup (map (fun m => fst (snd m)) (allmems ms)) /\
      (fix go ms := match ms with
                    | [] => True
                    | (b, ds) :: ms => wfb b /\ Forall (wfd (tyb env b)) ds /\ go ms
                    end) ms
  end.
End Wf.

(** A program: declarations of objects, each with the base type it has written in front; base type
    number [i] can be referred to by [BRef i] in later declarations. *)
Definition prog (X : Type) : Type := list (base X * list (dcl X)).
Definition envof (ts : list cty) (i : Z) : cty := match zget ts i with Some t => t | None => TySc SVoid end.
Fixpoint objects {X} (ts : list cty) (p : prog X) : list cty :=
  match p with
  | [] => []
  | (b, ds) :: p => let t := tyb (envof ts) b in map (dclty t) ds ++ objects (ts ++ [t]) p
  end.
(** all object types mentioned *)
Fixpoint mentioned {X} (ts : list cty) (p : prog X) : list cty :=
  match p with
  | [] => []
  | (b, ds) :: p => let t := tyb (envof ts) b in
                    declared (envof ts) b ++ map (dclty t) ds ++ mentioned (ts ++ [t]) p
  end.
Fixpoint wfprog {X} (okp : X -> bool) (ts : list cty) (p : prog X) : Prop :=
  match p with
  | [] => True
  | (b, ds) :: p => let t := tyb (envof ts) b in
      wfb okp (envof ts) b /\ Forall (wfd okp t) ds /\ wfprog okp (ts ++ [t]) p
  end.
End Layout.
Arguments Dcl {X}. Arguments d_pack {X}. Arguments d_name {X}. Arguments d_dims {X}. Arguments d_ptr {X}.
Arguments BSc {X}. Arguments BRef {X}. Arguments BDef {X}.
