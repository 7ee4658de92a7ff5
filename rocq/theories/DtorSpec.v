(** Declarators of C: their grammar and the type each one gives to its name (ISO C90 6.5.4, 6.5.5;
    C99 6.7.5, 6.7.6).  Nothing here refers to the compiler. *)
From Coq Require Import NArith.
From Verif Require Import Base DeclSpec.

(** Types.  A struct or union is known by a number.  [YArr None t]: array of unknown size.  A
    function has unspecified parameters, [YFun None t], or a list of them, each with its name if it
    has one, and an ellipsis or not; [YFun (Some ([], false)) t]: without parameters, [(void)]. *)
Inductive ty :=
| YSc (s : scal)
| YStr (j : Z)
| YPtr (t : ty)
| YArr (n : option Z) (t : ty)
| YFun (q : option (list (option N * ty) * bool)) (t : ty).

(** Type specifiers: words, a struct or union, a typedef name. *)
Inductive word := WVoid | WChar | WShort | WInt | WLong | WSigned | WUnsigned | WFloat | WDouble.
Definition word_eqb (a b : word) : bool :=
  match a, b with
  | WVoid, WVoid | WChar, WChar | WShort, WShort | WInt, WInt | WLong, WLong | WSigned, WSigned
  | WUnsigned, WUnsigned | WFloat, WFloat | WDouble, WDouble => true
  | _, _ => false
  end.
Inductive bspec := BWords (ws : list word) | BStruct (j : Z) | BTypedef (n : N).

(** Declarators: [*...* core suffix...suffix], where the core is a name, nothing (in type names and
    parameters) or a declarator in parentheses, and a suffix is [[n]] or [(parameters)]. *)
Inductive dcr := Dc (stars : nat) (c : core) (ss : sufs)
with core := CName (n : option N) | CParen (d : dcr)
with sufs := SNil | SArr (n : option Z) (ss : sufs) | SFun (ps : pars) (ss : sufs)
with pars :=
| PNil                                          (* nothing *)
| PLast (b : bspec) (d : dcr)                   (* the last parameter *)
| PEll (b : bspec) (d : dcr) (tr : bool)        (* the last parameter, a comma, an ellipsis; [tr]:
                                                   and another comma, which is not C *)
| PCons (b : bspec) (d : dcr) (ps : pars).      (* a parameter and a comma; more ([PNil] is not C) *)

(** Tokens; [TDim n] stands for a constant expression of value [n]. *)
Inductive tok :=
| TStar | TLp | TRp | TLb | TRb | TDim (n : Z) | TId (n : N) | TW (w : word) | TStruct (j : Z)
| TComma | TEll | TSemi | TLc | TEq | TOther.

Definition pr_base (b : bspec) : list tok :=
  match b with BWords ws => map TW ws | BStruct j => [TStruct j] | BTypedef n => [TId n] end.
Definition pr_dim (n : option Z) : list tok := match n with Some n => [TDim n] | None => [] end.
Fixpoint pr_d (d : dcr) : list tok :=
  match d with Dc s c ss => repeat TStar s ++ pr_c c ++ pr_s ss end
with pr_c (c : core) : list tok :=
  match c with
  | CName (Some n) => [TId n]
  | CName None => []
  | CParen d => TLp :: pr_d d ++ [TRp]
  end
with pr_s (ss : sufs) : list tok :=
  match ss with
  | SNil => []
  | SArr n ss => TLb :: pr_dim n ++ TRb :: pr_s ss
  | SFun ps ss => TLp :: pr_p ps ++ TRp :: pr_s ss
  end
with pr_p (ps : pars) : list tok :=
  match ps with
  | PNil => []
  | PLast b d => pr_base b ++ pr_d d
  | PEll b d tr => pr_base b ++ pr_d d ++ TComma :: TEll :: (if tr then [TComma] else [])
  | PCons b d ps => pr_base b ++ pr_d d ++ TComma :: pr_p ps
  end.

Section Meaning.
Variable W : Z.                                 (* bytes in an int *)
Variable tenv : N -> option ty.                 (* what typedef names stand for *)
(** [strict = true]: C.  [strict = false]: the elements of an array may be arrays of unknown size,
    as long as this is not written [[...][]]. *)
Variable strict : bool.

(** The table of C99 6.7.2, the words in any order.  This compiler's only floating type stands for
    float, double and long double; long needs an int of 4 bytes; there is no long long. *)
Definition wtable : list (scal * list word) :=
  [(SVoid, [WVoid]); (SChar, [WChar]); (SSChar, [WSigned; WChar]); (SUChar, [WUnsigned; WChar]);
   (SShort, [WShort]); (SShort, [WSigned; WShort]); (SShort, [WShort; WInt]);
   (SShort, [WSigned; WShort; WInt]); (SUShort, [WUnsigned; WShort]);
   (SUShort, [WUnsigned; WShort; WInt]); (SInt, [WInt]); (SInt, [WSigned]);
   (SInt, [WSigned; WInt]); (SUns, [WUnsigned]); (SUns, [WUnsigned; WInt]); (SLong, [WLong]);
   (SLong, [WSigned; WLong]); (SLong, [WLong; WInt]); (SLong, [WSigned; WLong; WInt]);
   (SULong, [WUnsigned; WLong]); (SULong, [WUnsigned; WLong; WInt]); (SFloat, [WFloat]);
   (SFloat, [WDouble]); (SFloat, [WLong; WDouble])].
Definition all_words := [WVoid; WChar; WShort; WInt; WLong; WSigned; WUnsigned; WFloat; WDouble].
Definition count (w : word) (l : list word) : nat := length (filter (word_eqb w) l).
Definition same_words (a b : list word) : bool :=
  forallb (fun w => Nat.eqb (count w a) (count w b)) all_words.
Definition available (s : scal) : bool :=
  match s with SLong | SULong => negb (W =? 2) | _ => true end.
Definition words_ty (ws : list word) : option scal :=
  match find (fun e => same_words ws (snd e)) wtable with
  | Some (s, _) => if available s then Some s else None
  | None => None
  end.
Definition base_ty (b : bspec) : option ty :=
  match b with
  | BWords ws => match words_ty ws with Some s => Some (YSc s) | None => None end
  | BStruct j => Some (YStr j)
  | BTypedef n => tenv n
  end.

(** The elements of an array: not functions, not void, and of known size (structures are taken to
    be).  The result of a function: not a function and not an array. *)
Definition open_first (ss : sufs) : bool := match ss with SArr None _ => true | _ => false end.
Definition elem_ok (opn : bool) (t : ty) : bool :=
  match t with
  | YFun _ _ | YSc SVoid => false
  | YArr None _ => negb (strict || opn)
  | _ => true
  end.
Definition ret_ok (t : ty) : bool := match t with YFun _ _ | YArr _ _ => false | _ => true end.
Definition dim_ok (n : option Z) : bool := match n with Some n => 1 <=? n | None => true end.
(** a parameter that is an array is a pointer to its elements, a function is a pointer to it *)
Definition adjust (t : ty) : ty :=
  match t with YArr _ t => YPtr t | YFun _ _ => YPtr t | _ => t end.
Definition is_void (t : ty) : bool := match t with YSc SVoid => true | _ => false end.

(** The parameters [l] as written, and whether there is an ellipsis: [()] leaves them unspecified,
    [(void)] means none, and otherwise none may be void. *)
Definition fun_params (ps : pars) (l : list (option N * ty)) (e : bool)
  : option (option (list (option N * ty) * bool)) :=
  match ps, l with
  | PNil, _ => Some None
  | PLast _ _, [(None, YSc SVoid)] => Some (Some ([], false))
  | _, _ => if existsb (fun p => is_void (snd p)) l then None
            else Some (Some (map (fun p => (fst p, adjust (snd p))) l, e))
  end.

(** If [T D] declares a name with the declarator [D]: the name and its type, or [None] if C does
    not allow it.  C99 6.7.5.1p1, 6.7.5.2p3, 6.7.5.3p5: [T * D] gives [D] the type pointer to [T],
    [T D[n]] array of [n] [T], [T D(p)] function returning [T]. *)
Fixpoint mean_d (d : dcr) (t : ty) : option (option N * ty) :=
  match d with
  | Dc s c ss =>
      match mean_s ss (Nat.iter s YPtr t) with Some t' => mean_c c t' | None => None end
  end
with mean_c (c : core) (t : ty) : option (option N * ty) :=
  match c with CName n => Some (n, t) | CParen d => mean_d d t end
with mean_s (ss : sufs) (t : ty) : option ty :=
  match ss with
  | SNil => Some t
  | SArr n ss' =>
      match mean_s ss' t with
      | Some t' => if dim_ok n && elem_ok (open_first ss') t' then Some (YArr n t') else None
      | None => None
      end
  | SFun ps ss' =>
      match mean_s ss' t, mean_p ps with
      | Some t', Some (l, e) =>
          match fun_params ps l e with
          | Some q => if ret_ok t' then Some (YFun q t') else None
          | None => None
          end
      | _, _ => None
      end
  end
with mean_p (ps : pars) : option (list (option N * ty) * bool) :=
  match ps with
  | PNil => Some ([], false)
  | PLast b d =>
      match base_ty b with
      | Some t => match mean_d d t with Some p => Some ([p], false) | None => None end
      | None => None
      end
  | PEll b d _ =>
      match base_ty b with
      | Some t => match mean_d d t with Some p => Some ([p], true) | None => None end
      | None => None
      end
  | PCons b d ps =>
      match base_ty b with
      | Some t => match mean_d d t, mean_p ps with Some p, Some (l, e) => Some (p :: l, e) | _, _ => None end
      | None => None
      end
  end.

(** The grammar's side conditions.  Nothing in parentheses is a parameter list, and so is a list
    that starts with a type (C99 6.7.5.3p11: a typedef name in parentheses is not the name
    declared); base types have at least one word. *)
Definition starts (t : tok) : bool :=
  match t with
  | TW WLong => negb (W =? 2)
  | TW _ | TStruct _ => true
  | TId n => match tenv n with Some _ => true | None => false end
  | _ => false
  end.
Definition wf_b (b : bspec) : bool :=
  match b with
  | BWords ws => match ws with [] => false | w :: _ => starts (TW w) end
  | BStruct _ => true
  | BTypedef n => match tenv n with Some _ => true | None => false end
  end.
Definition inner_ok (l : list tok) : bool :=
  match l with [] => false | t :: _ => negb (starts t) end.
Fixpoint wf_d (d : dcr) : bool := match d with Dc _ c ss => wf_c c && wf_s ss end
with wf_c (c : core) : bool :=
  match c with CName _ => true | CParen d => wf_d d && inner_ok (pr_d d) end
with wf_s (ss : sufs) : bool :=
  match ss with SNil => true | SArr _ ss => wf_s ss | SFun ps ss => wf_p ps && wf_s ss end
with wf_p (ps : pars) : bool :=
  match ps with
  | PNil => true
  | PLast b d => wf_b b && wf_d d
  | PEll b d tr => wf_b b && wf_d d && (if strict then negb tr else true)
  | PCons b d ps =>
      wf_b b && wf_d d && wf_p ps && (if strict then match ps with PNil => false | _ => true end else true)
  end.

(** Declarations [T D, ..., D;]: each declarator declares a name; in declarations of objects and
    functions ([obj]) nothing is of type void, in typedefs it may be. *)
Fixpoint pr_ds (ds : list dcr) : list tok :=
  match ds with
  | [] => []
  | [d] => pr_d d
  | d :: ds => pr_d d ++ TComma :: pr_ds ds
  end.
Definition pr_decl (b : bspec) (ds : list dcr) : list tok := pr_base b ++ pr_ds ds ++ [TSemi].
Definition declared (obj : bool) (t : ty) (d : dcr) : option (N * ty) :=
  match mean_d d t with
  | Some (Some n, t') => if obj && is_void t' then None else Some (n, t')
  | _ => None
  end.
Fixpoint declareds (obj : bool) (t : ty) (ds : list dcr) : option (list (N * ty)) :=
  match ds with
  | [] => Some []
  | d :: ds =>
      match declared obj t d, declareds obj t ds with
      | Some p, Some l => Some (p :: l)
      | _, _ => None
      end
  end.
Definition mean_decl (obj : bool) (b : bspec) (ds : list dcr) : option (list (N * ty)) :=
  match base_ty b with Some t => declareds obj t ds | None => None end.
Definition wf_decl (b : bspec) (ds : list dcr) : bool :=
  wf_b b && match ds with [] => false | _ => true end && forallb wf_d ds.
(** Type names in casts and under sizeof: a declarator without a name; void in casts only. *)
Definition mean_name (cast : bool) (b : bspec) (d : dcr) : option ty :=
  match base_ty b with
  | Some t =>
      match mean_d d t with
      | Some (None, t') => if negb cast && is_void t' then None else Some t'
      | _ => None
      end
  | None => None
  end.

(** Types that obey the rules above throughout. *)
Fixpoint wty (t : ty) : Prop :=
  match t with
  | YSc s => available s = true
  | YStr _ => True
  | YPtr t => wty t
  | YArr n t => dim_ok n = true /\ elem_ok false t = true /\ wty t
  | YFun q t =>
      ret_ok t = true /\ wty t /\
      match q with
      | None => True
      | Some (l, e) =>
          (e = true -> l <> []) /\
          (fix go (l : list (option N * ty)) : Prop :=
             match l with
             | [] => True
             | p :: l => (is_void (snd p) = false /\ adjust (snd p) = snd p /\ wty (snd p)) /\ go l
             end) l
      end
  end.
End Meaning.

(** Integer types of the same size and signedness are one type to this compiler. *)
Definition nrm_s (W : Z) (s : scal) : scal :=
  match s with
  | SLong => SInt
  | SULong => SUns
  | SShort => if W =? 2 then SInt else s
  | SUShort => if W =? 2 then SUns else s
  | _ => s
  end.
Fixpoint nrm (W : Z) (t : ty) : ty :=
  match t with
  | YSc s => YSc (nrm_s W s)
  | YStr j => YStr j
  | YPtr t => YPtr (nrm W t)
  | YArr n t => YArr n (nrm W t)
  | YFun q t =>
      YFun (match q with
            | Some (l, e) => Some (map (fun p => (fst p, nrm W (snd p))) l, e)
            | None => None
            end) (nrm W t)
  end.
