(** Model of statement code generation: smlrc.c ParseStatement, ParseBlock and the part of
    ParseDecl that handles function bodies, on syntax trees instead of tokens.  Simplifications:
    parsing and type checking have been done, declarations produce no code (initialisers are
    expression statements), inline assembly is left out, and the code for an expression is the one of
    CgModel.  Interrupt functions (GenIsrProlog) are left out. *)
From Verif Require Import Base X86 CgModel ExprSpec CgTree StmtSpec.

(** Label numbers for &&, || and ?: are taken from the label counter in the order in which
    smlrc.c:3600-5600 (exprval) visits the expression: operator first (4817, 5325), then its
    operands from right to left.  (Other users of the counter, such as string literals, leave
    gaps in the numbering; they are not modelled.) *)
Fixpoint relabel (e : ex) (n : Z) : ex * Z :=
  match e with
  | EVal _ | ENum _ _ | EIdent _ | ELocal _ => (e, n)
  | EDeref sz a => let (a, n) := relabel a n in (EDeref sz a, n)
  | EPre i sz a => let (a, n) := relabel a n in (EPre i sz a, n)
  | EPost i sz a => let (a, n) := relabel a n in (EPost i sz a, n)
  | EPostBy i sz k a => let (a, n) := relabel a n in (EPostBy i sz k a, n)
  | EUn u a => let (a, n) := relabel a n in (EUn u a, n)
  | EArith o l r => let (r, n) := relabel r n in let (l, n) := relabel l n in (EArith o l r, n)
  | ECmp c l r => let (r, n) := relabel r n in let (l, n) := relabel l n in (ECmp c l r, n)
  | EAssign sz l r => let (r, n) := relabel r n in let (l, n) := relabel l n in (EAssign sz l r, n)
  | EAssignOp o sz l r => let (r, n) := relabel r n in let (l, n) := relabel l n in (EAssignOp o sz l r, n)
  | EComma l r => let (r, n) := relabel r n in let (l, n) := relabel l n in (EComma l r, n)
  | EAnd2 _ l r => let (r, n1) := relabel r (n + 1) in let (l, n2) := relabel l n1 in (EAnd2 n l r, n2)
  | EOr2 _ l r => let (r, n1) := relabel r (n + 1) in let (l, n2) := relabel l n1 in (EOr2 n l r, n2)
  | ECond _ c t f =>
      let (t, n1) := relabel t (n + 2) in let (f, n2) := relabel f n1 in
      let (c, n3) := relabel c n2 in (ECond n c t f, n3)
  | ECall f args =>
      let (f, n) := relabel f n in
      let (args, n) :=
        (fix go l n := match l with
                       | [] => ([], n)
                       | a :: l => let (a, n) := relabel a n in let (l, n) := go l n in (a :: l, n)
                       end) args n in
      (ECall f args, n)
  end.

(** smlrc.c:570-585, 648: label counter, case table, goto table (name, label, defined), and
    the number of stashed entries (expr3Sp, 9267-9268). *)
Record cst := mkcst { lc : Z; cases : list (Z * Z); gotos : list (Z * Z * bool) }.
Definition MAX_GOTO_LABELS : Z := 16.
Definition MAX_CASES : Z := 128.

Section W.
Variable W : Z.

(** smlrc.c:681-692, truncInt: the word as a signed number. *)
Definition trunc_int (n : Z) : Z := swrap (8 * W) n.

(** smlrc.c:888-907, AddGotoLabel ([def]: the label is being defined). *)
Fixpoint goto_find (l : Z) (t : list (Z * Z * bool)) : option (Z * bool) :=
  match t with
  | [] => None
  | (n, k, d) :: t => if n =? l then Some (k, d) else goto_find l t
  end.
Fixpoint goto_mark (l : Z) (t : list (Z * Z * bool)) : list (Z * Z * bool) :=
  match t with
  | [] => []
  | (n, k, d) :: t => if n =? l then (n, k, true) :: t else (n, k, d) :: goto_mark l t
  end.
Definition add_goto_label (l : Z) (def : bool) (c : cst) : option (Z * cst) :=
  match goto_find l (gotos c) with
  | Some (k, d) =>
      if d && def then None else                     (* Redefinition of label *)
      Some (k, mkcst (lc c) (cases c) (if def then goto_mark l (gotos c) else gotos c))
  | None =>
      if zlen (gotos c) >=? MAX_GOTO_LABELS then None else    (* Goto table exhausted *)
      Some (lc c, mkcst (lc c + 1) (cases c) (gotos c ++ [(l, lc c, def)]))
  end.

(** smlrc.c:926-934, AddCase. *)
Definition add_case (v l : Z) (c : cst) : option cst :=
  if zlen (cases c) >=? MAX_CASES then None else Some (mkcst (lc c) (cases c ++ [(v, l)]) (gotos c)).

Definition set_lc (n : Z) (c : cst) : cst := mkcst n (cases c) (gotos c).

(** ParseExpr, then GenExpr. *)
Definition comp_expr (e : ex) (tail : stack) (c : cst) : option (list instr * cst) :=
  let (e', n) := relabel e (lc c) in
  let? code := gen_expr W (rpn W e' ++ tail) in
  Some (code, set_lc n c).

(** A controlling expression (smlrc.c:8997-9047, 9109-9156, 9187-9230, 9316-9372): jump to [l]
    when it is false ([neg]) or when it is true. *)
Definition comp_ctl (t : ctl) (neg : bool) (l : Z) (c : cst) : option (list instr * cst) :=
  match t with
  | CConst v =>
      Some (if Bool.eqb (trunc_int v =? 0) neg then gen_jump l else [], c)
  | CExpr e =>
      match e with
      | ECmp _ _ _ => comp_expr e [if neg then TIfNot l else TIf l] c
      | _ =>
          let? (code, c) := comp_expr e [TReturn] c in
          Some (code ++ (if neg then gen_jump_if_zero W l else gen_jump_if_not_zero W l), c)
      end
  end.
Definition comp_octl (t : option ctl) (l : Z) (c : cst) : option (list instr * cst) :=
  match t with None => Some ([], c) | Some t => comp_ctl t true l c end.

(** [cond] of smlrc.c:9264: the condition is a constant zero. *)
Definition never (t : ctl) : bool := match t with CConst v => trunc_int v =? 0 | CExpr _ => false end.
Definition onever (t : option ctl) : bool := match t with None => false | Some t => never t end.

(** smlrc.c:9524-9533: the chain of comparisons of a switch. *)
Definition gen_chain (tbl : list (Z * Z)) : list instr :=
  flat_map (fun x => gen_jump_if_equal W (fst x) (snd x)) tbl.

(** Where a statement stands: break and continue targets (BrkCntTarget; 0: no continue target),
    start of the innermost switch's cases (casesIdx; 0: none), epilogue label. *)
Record ctx := mkctx { brk : option Z; cnt : Z; cidx : Z; epi : Z; main : bool; stash : Z }.

(** ParseStatement.  [lvl] is ParseLevel; [last]: the token after the statement is the closing
    brace of the block it stands in. *)
Fixpoint comp (x : ctx) (lvl : Z) (last : bool) (s : stmt) (c : cst) : option (list instr * cst) :=
  match s with
  | SSkip => Some ([], c)                                              (* 8776-8779 *)
  | SExpr e => comp_expr e [] c                                        (* 9643-9665 *)
  | SSeq a b =>                                                        (* 9673-9719, ParseBlock *)
      let? (ca, c) := comp x lvl false a c in
      let? (cb, c) := comp x lvl last b c in
      Some (ca ++ cb, c)
  | SBlock b => comp x (lvl + 1) true b c                              (* 8780-8802 *)
  | SIf t a =>                                                         (* 9162-9250 *)
      let lif := lc c in
      let c := set_lc (lc c + 2) c in
      let? (ct, c) := comp_ctl t true lif c in
      let? (ca, c) := comp x lvl last a c in
      Some (ct ++ ca ++ [Lab lif], c)
  | SIfElse t a b =>
      let lif := lc c in
      let lelse := lc c + 1 in
      let c := set_lc (lc c + 2) c in
      let? (ct, c) := comp_ctl t true lif c in
      let? (ca, c) := comp x lvl false a c in
      let? (cb, c) := comp x lvl last b c in
      Some (ct ++ ca ++ gen_jump lelse ++ [Lab lif] ++ cb ++ [Lab lelse], c)
  | SWhile t b =>                                                      (* 8973-9061 *)
      let lbef := lc c in
      let laft := lc c + 1 in
      let c := set_lc (lc c + 2) c in
      let? (ct, c) := comp_ctl t true laft c in
      let? (cb, c) := comp (mkctx (Some laft) lbef (cidx x) (epi x) (main x) (stash x)) lvl last b c in
      Some ([Lab lbef] ++ ct ++ cb ++ (if never t then [] else gen_jump lbef) ++ [Lab laft], c)
  | SDo b t =>                                                         (* 9062-9161 *)
      let lbef := lc c in
      let lwhi := lc c + 1 in
      let laft := lc c + 2 in
      let c := set_lc (lc c + 3) c in
      let? (cb, c) := comp (mkctx (Some laft) lwhi (cidx x) (epi x) (main x) (stash x)) lvl false b c in
      let? (ct, c) := comp_ctl t false lbef c in
      Some ([Lab lbef] ++ cb ++ [Lab lwhi] ++ ct ++ [Lab laft], c)
  | SFor i t e3 b =>                                                   (* 9252-9441 *)
      let lbef := lc c in
      let lx := lc c + 1 in
      let lbody := lc c + 2 in
      let laft := lc c + 3 in
      let c := set_lc (lc c + 4) c in
      let? (ci, c) := match i with None => Some ([], c) | Some e => comp_expr e [] c end in
      let? (ct, c) := comp_octl t laft c in
      match e3 with
      | Some e =>
          let (e', n) := relabel e (lc c) in
          let c := set_lc n c in
          let sp := zlen (rpn W e') in
          if (sp <=? 16) && (sp <=? STACK_SIZE / 2 - stash x) then     (* 9391-9414 *)
            let? (cb, c) :=
              comp (mkctx (Some laft) lx (cidx x) (epi x) (main x) (stash x + sp)) lvl last b c in
            let? cx := gen_expr W (rpn W e') in
            Some (ci ++ [Lab lbef] ++ ct ++ cb ++ [Lab lx] ++ cx ++
                  (if onever t then [] else gen_jump lbef) ++ [Lab laft], c)
          else                                                         (* 9415-9438 *)
            let? cx := gen_expr W (rpn W e') in
            let? (cb, c) := comp (mkctx (Some laft) lx (cidx x) (epi x) (main x) (stash x)) lvl last b c in
            Some (ci ++ [Lab lbef] ++ ct ++ gen_jump lbody ++ [Lab lx] ++ cx ++ gen_jump lbef ++
                  [Lab lbody] ++ cb ++ gen_jump lx ++ [Lab laft], c)
      | None =>
          let lc' := if onever t then laft else lbef in
          let? (cb, c) := comp (mkctx (Some laft) lc' (cidx x) (epi x) (main x) (stash x)) lvl last b c in
          Some (ci ++ [Lab lbef] ++ ct ++ cb ++
                (if onever t then [] else gen_jump lbef) ++ [Lab laft], c)
      end
  | SBreak => match brk x with None => None | Some l => Some (gen_jump l, c) end      (* 9443-9456 *)
  | SContinue => if cnt x =? 0 then None else Some (gen_jump (cnt x), c)              (* 9457-9470 *)
  | SReturn e =>                                                       (* 8804-8972 *)
      let? (ce, c) := match e with None => Some ([], c) | Some e => comp_expr e [TReturn] c end in
      Some (ce ++ (if last && (lvl =? 1) && negb (main x) then [] else gen_jump (epi x)), c)
  | SSwitch e b =>                                                     (* 9471-9540 *)
      let undo := zlen (cases c) in
      let lbrk := lc c in
      let lbl := lc c + 1 in
      let c := set_lc (lc c + 2) c in
      let? (ce, c) := comp_expr e [TReturn] c in
      let? c := add_case 0 0 c in
      let? (cb, c) := comp (mkctx (Some lbrk) (cnt x) (zlen (cases c)) (epi x) (main x) (stash x)) lvl last b c in
      let? (_, d) := zget (cases c) undo in
      let dfl := if d =? 0 then lbrk else d in
      let tbl := skipn (Z.to_nat (undo + 1)) (cases c) in
      Some (ce ++ gen_jump lbl ++ cb ++ gen_jump lbrk ++ [Lab lbl] ++ gen_chain tbl ++
            (if dfl =? lbrk then [] else gen_jump dfl) ++ [Lab lbrk],
            mkcst (lc c) (firstn (Z.to_nat undo) (cases c)) (gotos c))
  | SCase v a =>                                                       (* 9541-9574 *)
      if cidx x =? 0 then None else
      let v := trunc_int v in
      if existsb (fun y => fst y =? v) (skipn (Z.to_nat (cidx x)) (cases c)) then None else
      let? c := add_case v (lc c) c in
      let l := lc c in
      let? (ca, c) := comp x lvl last a (set_lc (lc c + 1) c) in
      Some ([Lab l] ++ ca, c)
  | SDefault a =>                                                      (* 9575-9600 *)
      if cidx x =? 0 then None else
      let? (v, d) := zget (cases c) (cidx x - 1) in
      if negb (d =? 0) then None else
      let l := lc c in
      let? cs := zset (cases c) (cidx x - 1) (v, l) in
      let? (ca, c) := comp x lvl last a (mkcst (lc c + 1) cs (gotos c)) in
      Some ([Lab l] ++ ca, c)
  | SGoto l =>                                                         (* 9631-9642 *)
      let? (k, c) := add_goto_label l false c in Some (gen_jump k, c)
  | SLabel l a =>                                                      (* 9646-9655 *)
      let? (k, c) := add_goto_label l true c in
      let? (ca, c) := comp x lvl last a c in
      Some ([Lab k] ++ ca, c)
  end.

(** A function body between prologue and epilogue (smlrc.c:8352-8441); [n] is the label counter.
    The epilogue label comes first, then the label for __func__ (8400-8410). *)
Definition comp_body (main : bool) (n : Z) (body : stmt) : option (list instr * Z) :=
  let ep := n in
  let? (cb, c) := comp (mkctx None 0 0 ep main 0) 1 true body (mkcst (n + 2) [] []) in
  if negb (forallb (fun g => snd g) (gotos c)) then None else            (* Undeclared label *)
  let? cm := if main then gen_expr W [TNum 0; TReturn] else Some [] in
  Some (cb ++ cm ++ [Lab ep], lc c).
End W.
