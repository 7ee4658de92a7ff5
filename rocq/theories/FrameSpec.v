(** Objects with automatic storage in a function's frame. *)
From Verif Require Import Base DeclSpec.

(** The body of a function as far as local objects go: a variable with the temporary objects its
    initialiser needs, an expression statement (or any expression in a statement) with its
    temporaries, a block, and [for] with declarations in its first clause, its expressions and its
    body.  [A]: what is known of an object - its size, or its place and size. *)
Inductive item (A : Type) :=
| IVar (o : A) (tmps : list A)
| IExpr (tmps : list A)
| IBlock (l : list (item A))
| IFor (ds : list (A * list A)) (es : list (list A)) (body : item A).
Arguments IVar {A}. Arguments IExpr {A}. Arguments IBlock {A}. Arguments IFor {A}.

Fixpoint imap {A B} (f : A -> B) (i : item A) : item B :=
  match i with
  | IVar o ts => IVar (f o) (map f ts)
  | IExpr ts => IExpr (map f ts)
  | IBlock l => IBlock (map (imap f) l)
  | IFor ds es b => IFor (map (fun d => (f (fst d), map f (snd d))) ds) (map (map f) es) (imap f b)
  end.

Section S.
Variable W : Z.                       (* bytes in a word *)
Variable frame : Z.                   (* bytes the function's prologue reserves *)
Notation obj := (Z * Z)%type.         (* offset from the frame pointer, size *)

(** A new object next to the live ones: aligned, in the reserved space, apart from the others. *)
Definition fresh (live : list obj) (o : obj) : Prop :=
  fst o mod W = 0 /\ - frame <= fst o /\ fst o + snd o <= 0 /\
  Forall (fun p => fst o + snd o <= fst p \/ fst p + snd p <= fst o) live.

(** [sound live i live']: with [live] the objects alive before [i], and [live'] those after it,
    each object in [i] is fresh at the start of its lifetime.  Temporaries live to the end of their
    expression, variables to the end of their block. *)
Inductive temps : list obj -> list obj -> Prop :=
| t_nil live : temps live []
| t_cons live o ts : fresh live o -> temps (o :: live) ts -> temps live (o :: ts).
Inductive sound : list obj -> item obj -> list obj -> Prop :=
| s_var live o ts : fresh live o -> temps (o :: live) ts -> sound live (IVar o ts) (o :: live)
| s_expr live ts : temps live ts -> sound live (IExpr ts) live
| s_block live l live' : sounds live l live' -> sound live (IBlock l) live
| s_for live ds es b live1 live2 :
    sounds live (map (fun d => IVar (fst d) (snd d)) ds) live1 ->
    Forall (temps live1) es -> sound live1 b live2 -> sound live (IFor ds es b) live
with sounds : list obj -> list (item obj) -> list obj -> Prop :=
| ss_nil live : sounds live [] live
| ss_cons live i l live1 live2 : sound live i live1 -> sounds live1 l live2 -> sounds live (i :: l) live2.
End S.

(** The space needed: the largest total of word-aligned sizes alive at one time.  [used]: by what
    is alive before; gives the peak and what is used afterwards. *)
Section N.
Variable W : Z.
Fixpoint needT (used : Z) (ts : list Z) : Z :=
  match ts with [] => used | s :: ts => needT (used + up s W) ts end.
Definition needV (used : Z) (d : Z * list Z) : Z * Z :=
  (needT (used + up (fst d) W) (snd d), used + up (fst d) W).
Fixpoint needVs (used : Z) (ds : list (Z * list Z)) : Z * Z :=
  match ds with
  | [] => (used, used)
  | d :: ds => let '(p1, u1) := needV used d in let '(p2, u2) := needVs u1 ds in (Z.max p1 p2, u2)
  end.
Fixpoint need (used : Z) (i : item Z) : Z * Z :=
  match i with
  | IVar s ts => needV used (s, ts)
  | IExpr ts => (needT used ts, used)
  | IBlock l =>
      ((fix go used l := match l with
                         | [] => used
                         | i :: l => let '(p, u) := need used i in Z.max p (go u l)
                         end) used l, used)
  | IFor ds es b =>
      let '(p, u) := needVs used ds in
      (Z.max p (Z.max (fold_right (fun ts m => Z.max (needT u ts) m) u es) (fst (need u b))), used)
  end.
Definition needs (l : list (item Z)) : Z := fst (need 0 (IBlock l)).
End N.

(** all objects have a positive size that fits an unsigned int *)
Definition oksize (s : Z) : Prop := 1 <= s < 2 ^ 32.
Fixpoint okitem (i : item Z) : Prop :=
  match i with
  | IVar s ts => oksize s /\ Forall oksize ts
  | IExpr ts => Forall oksize ts
  | IBlock l => (fix go l := match l with [] => True | i :: l => okitem i /\ go l end) l
  | IFor ds es b => Forall (fun d => oksize (fst d) /\ Forall oksize (snd d)) ds /\
                    Forall (Forall oksize) es /\
                    match b with IVar _ _ => False | _ => True end /\ okitem b
  end.
