(** Scopes and declarations, independent of the compiler's tables.  A declaration is known by its
    handle: a number given to it when it was made. *)
From Verif Require Import Base.

(** A declared name is an object or function that is the same everywhere in the program
    ([Linked]: file scope, extern, functions), a static or automatic object of a block, an
    enumeration constant, or a type name.  Tags have names of their own. *)
Inductive kind := Linked | Static | Auto | EnumConst | Typename.
Inductive decl := Name (n : Z) (k : kind) (h : Z) | Tag (n : Z) (what : Z) (h : Z).
(** scopes from the innermost to the file scope, each with the latest declaration first *)
Definition env := list (list decl).

Definition named (n : Z) (d : decl) : bool := match d with Name m _ _ => m =? n | Tag _ _ _ => false end.
Definition tagged (n : Z) (d : decl) : bool := match d with Tag m _ _ => m =? n | Name _ _ _ => false end.
Definition linked (d : decl) : bool := match d with Name _ Linked _ => true | _ => false end.
Definition typename (d : decl) : bool := match d with Name _ Typename _ => true | _ => false end.
Definition handle (d : decl) : Z := match d with Name _ _ h => h | Tag _ _ h => h end.

(** the first declaration that satisfies [p], from the innermost scope outwards *)
Fixpoint innermost (p : decl -> bool) (e : env) : option decl :=
  match e with
  | [] => None
  | s :: e => match find p s with Some d => Some d | None => innermost p e end
  end.

(** May a name be declared in the innermost scope of [e] (its handle [h])?  Not if the scope
    declares it already, unless both declarations are linked; and linked declarations must agree
    with the closest linked declaration of the name ([compat]: the types are compatible). *)
Definition mayDeclare (compat : Z -> Z -> bool) (e : env) (n : Z) (k : kind) (h : Z) : bool :=
  let islinked := match k with Linked => true | _ => false end in
  match e with
  | [] => false
  | s :: _ =>
      negb (existsb (fun d => named n d && negb (linked d && islinked)) s) &&
      (if islinked then
         match innermost (fun d => named n d && linked d) e with
         | Some d => compat h (handle d)
         | None => true
         end
       else true)
  end.

(** What a program does with scopes.  A function is declared before its body, in which it can be
    used, and compared with the earlier declarations at its end. *)
Inductive sop := Declare (n : Z) (k : kind) | DeclareTag (n what : Z) | Function (n : Z) | Enter | Leave | Nothing | Wrong.
Definition sstep (compat : Z -> Z -> bool) (e : env) (o : sop) (h : Z) : option env :=
  match o, e with
  | Declare n k, s :: e' => if mayDeclare compat e n k h then Some ((Name n k h :: s) :: e') else None
  | DeclareTag n w, s :: e' => Some ((Tag n w h :: s) :: e')
  | Function n, [f] => Some [[]; Name n Linked h :: f]
  | Enter, _ :: _ :: _ => Some ([] :: e)
  | Leave, [_; Name n k h :: f] => if mayDeclare compat [f] n k h then Some [Name n k h :: f] else None
  | Leave, _ :: (_ :: _ :: _) as e' => Some (tl e)
  | Nothing, _ => Some e
  | _, _ => None
  end.
(** What a source text does to the symbol table, in order.  Types are sequences of tokens with
    values, the first one first.  [num]: the number that stands for a static object in the
    generated code; [ofs]: where an automatic object is. *)
Definition stack := list (Z * Z).
Inductive storage := SNone | SStatic | SExtern.
Inductive op :=
| ODecl (s : storage) (fn : bool) (name num ofs : Z) (body : stack)  (* ParseDecl: a variable or a function declaration; [body] from the bottom *)
| OTypedef (name : Z) (body : stack)
| OEnum (name value : Z)          (* an enumeration constant *)
| OTag (what name : Z)            (* struct, union or enum and its tag *)
| OToks (body : stack)            (* other tokens: sizes, members *)
| OFxn (name : Z) (body : stack)  (* a function definition up to its parameters *)
| OOpen                           (* a block *)
| OFor                            (* the declaration of a for statement *)
| OClose.                         (* the end of the function, block or for *)
(** and what that means *)
Definition meaning (infunction : bool) (o : op) : sop :=
  match o with
  | ODecl SStatic fn n _ _ _ => if infunction then if fn then Wrong else Declare n Static else Declare n Linked
  | ODecl SExtern _ n _ _ _ => Declare n Linked
  | ODecl SNone fn n _ _ _ => Declare n (if infunction && negb fn then Auto else Linked)
  | OTypedef n _ => Declare n Typename
  | OEnum n _ => Declare n EnumConst
  | OTag w n => DeclareTag n w
  | OToks _ => Nothing
  | OFxn n _ => Function n
  | OOpen | OFor => Enter
  | OClose => Leave
  end.
