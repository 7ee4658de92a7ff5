(** Initialisers of objects of static storage duration (C 6.7.9), and the data they stand for. *)
From Verif Require Import Base DeclSpec.
From Verif Require CharSpec.

(** The value of an expression in an initialiser: a number (for a floating type: its
    representation), the address of an object plus an offset, a string literal, something which is
    not constant. *)
Inductive sinit := SNum (v : Z) | SAddr (label o : Z) | SStr (s : list Z) | SVar.
(** An initialiser: an expression or a list in braces; [c]: the list ends with a comma. *)
Inductive ini := IE (e : sinit) | IL (l : list ini) (c : bool).

(** How it is written *)
Inductive itok := TLb | TRb | TComma | TSemi | TExpr (e : sinit).
Fixpoint text (i : ini) : list itok :=
  match i with
  | IE e => [TExpr e]
  | IL l c =>
      TLb :: (fix go l := match l with
                          | [] => []
                          | i :: l => text i ++ match l with [] => [] | _ => TComma :: go l end
                          end) l ++
      (if c then [TComma] else []) ++ [TRb]
  end.

(** Data: bytes, and byte [k] of the address of an object plus an offset or of a string literal. *)
Inductive cell := CByte (b : Z) | CAddr (label o k : Z) | CStr (s : list Z) (k : Z).
Definition zeros (n : Z) : list cell := repeat (CByte 0) (Z.to_nat n).
Definition upto (n : Z) : list Z := map Z.of_nat (seq 0 (Z.to_nat n)).

Section Init.
Variable W : Z.                                 (* bytes in an int and in a pointer *)
(** [C]: exactly the rules of C.  Otherwise: what this compiler takes, which is no comma at the end of
    a list around a single expression for a scalar or around a string, and no string that nearly
    fills the address space. *)
Variable C : bool.
Notation size := (size W).

(** The data of a scalar of [sz] bytes: an address needs an object of the size of a pointer. *)
Definition sdata (sz : Z) (e : sinit) : option (list cell) :=
  match e with
  | SNum v => Some (map CByte (CharSpec.bytes (Z.to_nat sz) v))
  | SAddr l o => if sz =? W then Some (map (CAddr l (o mod 2 ^ (8 * W))) (upto W)) else None
  | SStr s => if sz =? W then Some (map (CStr s) (upto W)) else None
  | SVar => None
  end.
Definition scalar (t : cty) : Prop := match t with TySc _ | TyPtr => True | _ => False end.
Definition aggregate (t : cty) : Prop := match t with TyArr _ _ | TyAgg _ _ => True | _ => False end.
Definition character (t : cty) : Prop := match t with TySc SChar | TySc SSChar | TySc SUChar => True | _ => False end.
Definition okcomma (c : bool) : Prop := c = true -> C = true.
Definition okstr (s : list Z) : Prop := zlen s < 2 ^ (8 * W) - 1 \/ C = true.
(** the members to initialise: offsets and types; of a union, the first one only *)
Definition inimems (u : bool) (ms : list (Z * (Z * cty))) : list (Z * cty) :=
  let l := combine (moffsets W u ms) (map (fun m => snd (snd m)) ms) in
  if u then firstn 1 l else l.

(** [takes t l d r]: an object of type [t] is initialised from the first of the items [l] of a list,
    which gives the data [d] and leaves the items [r].
    - A scalar takes one expression, possibly in braces.
    - An array of characters takes a string, possibly in braces; the terminating zero need not fit.
    - An aggregate takes what is in braces, all of which must be used up, or if there are no braces
      as many items as it has parts for.
    Parts without an item, and the padding, are zero. *)
Inductive takes : cty -> list ini -> list cell -> list ini -> Prop :=
| t_sc t e d r : scalar t -> sdata (size t) e = Some d -> takes t (IE e :: r) d r
| t_scb t e c d r : scalar t -> sdata (size t) e = Some d -> okcomma c -> takes t (IL [IE e] c :: r) d r
| t_str n t s r : character t -> zlen s <= n -> okstr s ->
    takes (TyArr n t) (IE (SStr s) :: r) (map CByte s ++ zeros (n - zlen s)) r
| t_strb n t s c r : character t -> zlen s <= n -> okstr s -> okcomma c ->
    takes (TyArr n t) (IL [IE (SStr s)] c :: r) (map CByte s ++ zeros (n - zlen s)) r
| t_br t l c d r : aggregate t -> l <> [] -> parts t l d [] -> takes t (IL l c :: r) d r
| t_nobr t e l d r : aggregate t -> parts t (IE e :: l) d r -> takes t (IE e :: l) d r
with parts : cty -> list ini -> list cell -> list ini -> Prop :=
| p_arr n t l d r : elems n t l d r -> parts (TyArr n t) l d r
| p_agg u ms l d r : mems 0 (inimems u ms) (size (TyAgg u ms)) l d r -> parts (TyAgg u ms) l d r
(** [n] elements of type [t] *)
with elems : Z -> cty -> list ini -> list cell -> list ini -> Prop :=
| el_all t r : elems 0 t r [] r
| el_out n t : 0 < n -> elems n t [] (zeros (n * size t)) []
| el_next n t l d l' d' r : 0 < n -> takes t l d l' -> elems (n - 1) t l' d' r -> elems n t l (d ++ d') r
(** members [ms] of an object of [tot] bytes, from offset [o] on *)
with mems : Z -> list (Z * cty) -> Z -> list ini -> list cell -> list ini -> Prop :=
| me_all o tot r : mems o [] tot r (zeros (tot - o)) r
| me_out o ms tot : ms <> [] -> mems o ms tot [] (zeros (tot - o)) []
| me_next o p t ms tot l d l' d' r : takes t l d l' -> mems (p + size t) ms tot l' d' r ->
    mems o ((p, t) :: ms) tot l (zeros (p - o) ++ d ++ d') r.

(** [initialises t i d]: with the initialiser [i], an object of type [t] has the data [d].  That of
    an aggregate has braces unless it is a string. *)
Definition braced (t : cty) (i : ini) : Prop :=
  match t, i with
  | (TySc _ | TyPtr), _ => True
  | _, IL _ _ => True
  | TyArr _ t, IE (SStr _) => character t
  | _, _ => False
  end.
Definition initialises (t : cty) (i : ini) (d : list cell) : Prop := braced t i /\ takes t [i] d [].

(** [completes t i n d]: the initialiser of an array of unknown length with elements of type [t]
    makes it one of [n] elements, with the data [d] *)
Inductive all : cty -> list ini -> Z -> list cell -> Prop :=
| a_nil t : all t [] 0 []
| a_next t l d l' n d' : takes t l d l' -> all t l' n d' -> all t l (1 + n) (d ++ d').
Inductive completes (t : cty) : ini -> Z -> list cell -> Prop :=
| c_str s : character t -> okstr s -> completes t (IE (SStr s)) (zlen s + 1) (map CByte s ++ zeros 1)
| c_strb s c : character t -> okstr s -> okcomma c -> completes t (IL [IE (SStr s)] c) (zlen s + 1) (map CByte s ++ zeros 1)
| c_list l c n d : l <> [] -> all t l n d -> completes t (IL l c) n d.
End Init.

(** how deep a type is nested *)
Fixpoint depth (t : cty) : nat :=
  match t with
  | TySc _ | TyPtr => 0
  | TyArr _ t => S (depth t)
  | TyAgg _ ms => S (fold_right (fun m n => Nat.max (depth (snd (snd m))) n) 0%nat ms)
  end.

(** An initialiser which stays within what the compiler takes. *)
Inductive plain (W : Z) : ini -> Prop :=
| pl_e e : (forall s, e = SStr s -> zlen s < 2 ^ (8 * W) - 1) -> plain W (IE e)
| pl_l l c : (forall e, l = [IE e] -> c = false) -> (forall i, In i l -> plain W i) -> plain W (IL l c).
