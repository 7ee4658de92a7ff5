(** Model of statement code generation for MIPS: the same front end as in StmtModel (smlrc.c
    ParseStatement, ParseBlock, the part of ParseDecl that handles function bodies), with the jumps and
    the expression code of cgmips.c.  Simplifications as in StmtModel.  The back end's GenWreg is $2 between
    expressions (checked at cgmips.c:1572 and 2171), so the jumps test $2. *)
From Verif Require Import Base X86 CgModel ExprSpec CgTree StmtSpec StmtModel MipsModel MipsSpec.

(** cgmips.c:495-506, GenJumpIfEqual. *)
Definition gen_jump_if_equal (v l : Z) : list mins := [Mli rTB v; Mbr true rV0 rTB l].

(** ParseExpr, then GenExpr. *)
Definition comp_expr (e : ex) (tail : stack) (c : cst) : option (list mins * cst) :=
  let (e', n) := relabel e (lc c) in
  let? code := gen_expr (rpn 4 e' ++ tail) in
  Some (code, set_lc n c).

(** A controlling expression (smlrc.c:8997-9047, 9109-9156, 9187-9230, 9316-9372): jump to [l]
    when it is false ([neg]) or when it is true. *)
Definition comp_ctl (t : ctl) (neg : bool) (l : Z) (c : cst) : option (list mins * cst) :=
  match t with
  | CConst v =>
      Some (if Bool.eqb (trunc_int 4 v =? 0) neg then gen_jump l else [], c)
  | CExpr e =>
      match e with
      | ECmp _ _ _ => comp_expr e [if neg then TIfNot l else TIf l] c
      | _ =>
          let? (code, c) := comp_expr e [TReturn] c in
          Some (code ++ (if neg then gen_jump_if_zero rV0 l else gen_jump_if_not_zero rV0 l), c)
      end
  end.
Definition comp_octl (t : option ctl) (l : Z) (c : cst) : option (list mins * cst) :=
  match t with None => Some ([], c) | Some t => comp_ctl t true l c end.

(** smlrc.c:9524-9533: the chain of comparisons of a switch. *)
Definition gen_chain (tbl : list (Z * Z)) : list mins :=
  flat_map (fun x => gen_jump_if_equal (fst x) (snd x)) tbl.

(** ParseStatement.  [lvl] is ParseLevel; [last]: the token after the statement is the closing
    brace of the block it stands in. *)
Fixpoint comp (x : ctx) (lvl : Z) (last : bool) (s : stmt) (c : cst) : option (list mins * cst) :=
  match s with
  | SSkip => Some ([], c)                                              (* 8776-8779 *)
  | SExpr e => comp_expr e [] c                                        (* 9643-9665 *)
  | SSeq a b =>                                                        (* 9673-9719, ParseBlock *)
      let? (ca, c) := comp x lvl false a c in
      let? (cb, c) := comp x lvl last b c in
      Some (ca ++ cb, c)
  | SBlock b => comp x (lvl + 1) true b c                              (* 8780-8802 *)
  | SIf t a =>                                                         (* 9162-9250 *)
      let lif := lc c in
      let c := set_lc (lc c + 2) c in
      let? (ct, c) := comp_ctl t true lif c in
      let? (ca, c) := comp x lvl last a c in
      Some (ct ++ ca ++ [Mlab lif], c)
  | SIfElse t a b =>
      let lif := lc c in
      let lelse := lc c + 1 in
      let c := set_lc (lc c + 2) c in
      let? (ct, c) := comp_ctl t true lif c in
      let? (ca, c) := comp x lvl false a c in
      let? (cb, c) := comp x lvl last b c in
      Some (ct ++ ca ++ gen_jump lelse ++ [Mlab lif] ++ cb ++ [Mlab lelse], c)
  | SWhile t b =>                                                      (* 8973-9061 *)
      let lbef := lc c in
      let laft := lc c + 1 in
      let c := set_lc (lc c + 2) c in
      let? (ct, c) := comp_ctl t true laft c in
      let? (cb, c) := comp (mkctx (Some laft) lbef (cidx x) (epi x) (main x) (stash x)) lvl last b c in
      Some ([Mlab lbef] ++ ct ++ cb ++ (if never 4 t then [] else gen_jump lbef) ++ [Mlab laft], c)
  | SDo b t =>                                                         (* 9062-9161 *)
      let lbef := lc c in
      let lwhi := lc c + 1 in
      let laft := lc c + 2 in
      let c := set_lc (lc c + 3) c in
      let? (cb, c) := comp (mkctx (Some laft) lwhi (cidx x) (epi x) (main x) (stash x)) lvl false b c in
      let? (ct, c) := comp_ctl t false lbef c in
      Some ([Mlab lbef] ++ cb ++ [Mlab lwhi] ++ ct ++ [Mlab laft], c)
  | SFor i t e3 b =>                                                   (* 9252-9441 *)
      let lbef := lc c in
      let lx := lc c + 1 in
      let lbody := lc c + 2 in
      let laft := lc c + 3 in
      let c := set_lc (lc c + 4) c in
      let? (ci, c) := match i with None => Some ([], c) | Some e => comp_expr e [] c end in
      let? (ct, c) := comp_octl t laft c in
      match e3 with
      | Some e =>
          let (e', n) := relabel e (lc c) in
          let c := set_lc n c in
          let sp := zlen (rpn 4 e') in
          if (sp <=? 16) && (sp <=? STACK_SIZE / 2 - stash x) then     (* 9391-9414 *)
            let? (cb, c) :=
              comp (mkctx (Some laft) lx (cidx x) (epi x) (main x) (stash x + sp)) lvl last b c in
            let? cx := gen_expr (rpn 4 e') in
            Some (ci ++ [Mlab lbef] ++ ct ++ cb ++ [Mlab lx] ++ cx ++
                  (if onever 4 t then [] else gen_jump lbef) ++ [Mlab laft], c)
          else                                                         (* 9415-9438 *)
            let? cx := gen_expr (rpn 4 e') in
            let? (cb, c) := comp (mkctx (Some laft) lx (cidx x) (epi x) (main x) (stash x)) lvl last b c in
            Some (ci ++ [Mlab lbef] ++ ct ++ gen_jump lbody ++ [Mlab lx] ++ cx ++ gen_jump lbef ++
                  [Mlab lbody] ++ cb ++ gen_jump lx ++ [Mlab laft], c)
      | None =>
          let lc' := if onever 4 t then laft else lbef in
          let? (cb, c) := comp (mkctx (Some laft) lc' (cidx x) (epi x) (main x) (stash x)) lvl last b c in
          Some (ci ++ [Mlab lbef] ++ ct ++ cb ++
                (if onever 4 t then [] else gen_jump lbef) ++ [Mlab laft], c)
      end
  | SBreak => match brk x with None => None | Some l => Some (gen_jump l, c) end      (* 9443-9456 *)
  | SContinue => if cnt x =? 0 then None else Some (gen_jump (cnt x), c)              (* 9457-9470 *)
  | SReturn e =>                                                       (* 8804-8972 *)
      let? (ce, c) := match e with None => Some ([], c) | Some e => comp_expr e [TReturn] c end in
      Some (ce ++ (if last && (lvl =? 1) && negb (main x) then [] else gen_jump (epi x)), c)
  | SSwitch e b =>                                                     (* 9471-9540 *)
      let undo := zlen (cases c) in
      let lbrk := lc c in
      let lbl := lc c + 1 in
      let c := set_lc (lc c + 2) c in
      let? (ce, c) := comp_expr e [TReturn] c in
      let? c := add_case 0 0 c in
      let? (cb, c) := comp (mkctx (Some lbrk) (cnt x) (zlen (cases c)) (epi x) (main x) (stash x)) lvl last b c in
      let? (_, d) := zget (cases c) undo in
      let dfl := if d =? 0 then lbrk else d in
      let tbl := skipn (Z.to_nat (undo + 1)) (cases c) in
      Some (ce ++ gen_jump lbl ++ cb ++ gen_jump lbrk ++ [Mlab lbl] ++ gen_chain tbl ++
            (if dfl =? lbrk then [] else gen_jump dfl) ++ [Mlab lbrk],
            mkcst (lc c) (firstn (Z.to_nat undo) (cases c)) (gotos c))
  | SCase v a =>                                                       (* 9541-9574 *)
      if cidx x =? 0 then None else
      let v := trunc_int 4 v in
      if existsb (fun y => fst y =? v) (skipn (Z.to_nat (cidx x)) (cases c)) then None else
      let? c := add_case v (lc c) c in
      let l := lc c in
      let? (ca, c) := comp x lvl last a (set_lc (lc c + 1) c) in
      Some ([Mlab l] ++ ca, c)
  | SDefault a =>                                                      (* 9575-9600 *)
      if cidx x =? 0 then None else
      let? (v, d) := zget (cases c) (cidx x - 1) in
      if negb (d =? 0) then None else
      let l := lc c in
      let? cs := zset (cases c) (cidx x - 1) (v, l) in
      let? (ca, c) := comp x lvl last a (mkcst (lc c + 1) cs (gotos c)) in
      Some ([Mlab l] ++ ca, c)
  | SGoto l =>                                                         (* 9631-9642 *)
      let? (k, c) := add_goto_label l false c in Some (gen_jump k, c)
  | SLabel l a =>                                                      (* 9646-9655 *)
      let? (k, c) := add_goto_label l true c in
      let? (ca, c) := comp x lvl last a c in
      Some ([Mlab k] ++ ca, c)
  end.

(** A function body between prologue and epilogue (smlrc.c:8352-8441); [n] is the label counter.
    The epilogue label comes first, then the label for __func__ (8400-8410). *)
Definition comp_body (main : bool) (n : Z) (body : stmt) : option (list mins * Z) :=
  let ep := n in
  let? (cb, c) := comp (mkctx None 0 0 ep main 0) 1 true body (mkcst (n + 2) [] []) in
  if negb (forallb (fun g => snd g) (gotos c)) then None else            (* Undeclared label *)
  let? cm := if main then gen_expr [TNum 0; TReturn] else Some [] in
  Some (cb ++ cm ++ [Mlab ep], lc c).
