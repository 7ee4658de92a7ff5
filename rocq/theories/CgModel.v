(** Model of the x86 expression code generator: cgx86.c GetOperandInfo, GenFuse, GenExpr1 and the
    emission helpers they use.  Covers the output formats where a pointer is one word (flat 32-bit,
    and 16-bit tiny/small): [OutputFormat] is neither FormatSegHuge nor FormatSegUnreal.

    The expression stack [stack[0..sp)] of (token, value) pairs is a list of [tok]; a pair is one
    constructor with its value as argument.  Where the C code tests the numeric range of a token
    code (GetOperandInfo), the model tests the constructor. *)
From Verif Require Import Base X86.

(** Unary operators without operand fusion (cgx86.c:1497-1508). *)
Inductive unop := UNot | UPlus | UMinus | UBool | UVoid | UUChar | USChar | UShort | UUShort.

(** Binary arithmetic operators (and the operation of the compound assignments). *)
Inductive arith :=
| BAdd | BSub | BAnd | BXor | BOr | BMul | BDiv | BUDiv | BMod | BUMod | BShl | BShr | BUShr.

Inductive tok :=
| TNum (n : Z) | TNumU (n : Z) | TIdent (id : Z) | TLocal (ofs : Z)
| TShortCirc (v : Z) | TGoto (l : Z)
| TStar (sz : Z)
| TInc (sz : Z) | TDec (sz : Z) | TPostInc (sz : Z) | TPostDec (sz : Z)
| TPostAdd (sz : Z) | TPostSub (sz : Z)
| TUn (u : unop)
| TAssign (v : Z) | TAssignOp (a : arith) (v : Z)
| TArith (a : arith) (v : Z) | TCmp (c : cond) (v : Z)
| TLogAnd (l : Z) | TLogOr (l : Z) | TComma
| TLParen (v : Z) | TArgSep | TRParen (v : Z)
| TIf (l : Z) | TIfNot (l : Z) | TReturn
(* tokens introduced by fusion, cgx86.c:1306-1317 *)
| OpNum (n : Z) | OpNumU (n : Z) | OpIdent (id : Z) | OpLocal (ofs : Z) | OpAcc
| OpIndIdent (id : Z) | OpIndLocal (ofs : Z) | OpIndAcc | OpStack | OpIndStack
| TPushAcc.

Definition stack := list tok.

(** smlrc.c:346-348 (STACK_SIZE). *)
Definition STACK_SIZE : Z := 129.

(** smlrc.c:2428-2438, ins2/ins: [None] is the "expression too long" error. *)
Definition ins (s : stack) (pos : Z) (t : tok) : option stack :=
  if zlen s >=? STACK_SIZE then None else
  if (0 <=? pos) && (pos <=? zlen s)
  then Some (firstn (Z.to_nat pos) s ++ t :: skipn (Z.to_nat pos) s) else None.

(** smlrc.c:2446-2453, del. *)
Definition del (s : stack) (pos cnt : Z) : option stack :=
  if (0 <=? pos) && (0 <=? cnt) && (pos + cnt <=? zlen s)
  then Some (firstn (Z.to_nat pos) s ++ skipn (Z.to_nat (pos + cnt)) s) else None.

(** The value field of a stack entry ([stack[i][1]]); entries pushed without one have 0. *)
Definition tval (t : tok) : Z :=
  match t with
  | TNum n | TNumU n | TIdent n | TLocal n | TShortCirc n | TGoto n | TStar n
  | TInc n | TDec n | TPostInc n | TPostDec n | TPostAdd n | TPostSub n
  | TAssign n | TAssignOp _ n | TArith _ n | TCmp _ n | TLogAnd n | TLogOr n
  | TLParen n | TRParen n | TIf n | TIfNot n
  | OpNum n | OpNumU n | OpIdent n | OpLocal n | OpIndIdent n | OpIndLocal n => n
  | _ => 0
  end.

(** [stack[i][1] = v], for the tokens it is done to (cgx86.c:1749). *)
Definition set_tval (t : tok) (v : Z) : tok :=
  match t with
  | TAssign _ => TAssign v | TAssignOp a _ => TAssignOp a v
  | TArith a _ => TArith a v | TCmp c _ => TCmp c v
  | _ => t
  end.

Section W.
Variable W : Z.  (* SizeOfWord *)

(** [tok >= tokOpNumInt && tok <= tokOpIndAcc], cgx86.c:1326. *)
Definition is_fused_op (t : tok) : bool :=
  match t with
  | OpNum _ | OpNumU _ | OpIdent _ | OpLocal _ | OpAcc | OpIndIdent _ | OpIndLocal _ | OpIndAcc => true
  | _ => false
  end.

(** cgx86.c:1326-1327, the loop of GetOperandInfo. *)
Fixpoint skip_ops (fuel : nat) (s : stack) (idx : Z) : option Z :=
  match fuel with
  | O => None
  | S fuel =>
      let? t := zget s idx in
      if is_fused_op t then skip_ops fuel s (idx - 1) else Some idx
  end.

(** [tok + tokOpIndIdent - tokOpIdent], cgx86.c:1345. *)
Definition add_ind (t : tok) : option tok :=
  match t with
  | OpIdent n => Some (OpIndIdent n) | OpLocal n => Some (OpIndLocal n) | OpAcc => Some OpIndAcc
  | _ => None
  end.

(** cgx86.c:1319-1402, GetOperandInfo: operand kind (with its value), size, delDeref. *)
Definition operand_info (s : stack) (idx lvalSize : Z) : option (tok * Z * bool) :=
  let? i := skip_ops (S (length s)) s idx in
  let? t := zget s i in
  match t with
  | TStar sz =>
      if negb (lvalSize =? 0) then Some (OpIndAcc, lvalSize, false) else
      let? o := zget s (i + 1) in
      let? k := add_ind o in
      Some (k, sz, true)
  | _ =>
      let? t := zget s idx in
      if negb (lvalSize =? 0) then
        match t with
        | TIdent n => Some (OpIndIdent n, lvalSize, false)
        | TLocal n => Some (OpIndLocal n, lvalSize, false)
        | _ => Some (OpIndAcc, lvalSize, false)
        end
      else
        match t with
        | TNum n => Some (OpNum n, W, false)
        | TNumU n => Some (OpNumU n, W, false)
        | TIdent n => Some (OpIdent n, W, false)
        | TLocal n => Some (OpLocal n, W, false)
        | _ => Some (OpAcc, W, false)
        end
  end.

Definition is_acc (t : tok) : bool := match t with OpAcc | OpIndAcc => true | _ => false end.

(** cgx86.c:1683-1757: fusing both operands into a binary operator.  [idx] is the position before
    the left operand, [ol]/[orr] the last positions of the left and right operands.
    (C updates the indices in the same order.) *)
Definition fuse_operands (s : stack) (idx ol orr : Z)
  (kl : tok) (szl : Z) (dl : bool) (kr : tok) (szr : Z) (dr : bool) : option stack :=
  let? (s, ol, orr, kl) :=
    if negb (is_acc kl) then
      let cnt := ol - idx in
      let? s := del s (idx + 1) cnt in
      Some (s, ol - cnt, orr - cnt, kl)
    else if is_acc kr then
      let ol := ol + 1 in
      let? s := ins s ol TPushAcc in
      let orr := orr + 1 in
      let kl := match kl with OpAcc => OpStack | _ => OpIndStack end in
      if dl then
        let ol := ol - 2 in
        let? s := del s ol 2 in
        Some (s, ol, orr - 2, kl)
      else Some (s, ol, orr, kl)
    else if dl then
      let? s := del s (ol - 1) 2 in
      Some (s, ol - 2, orr - 2, kl)
    else Some (s, ol, orr, kl) in
  let? (s, orr) :=
    if negb (is_acc kr) then
      let cnt := orr - ol in
      let? s := del s (ol + 1) cnt in
      Some (s, orr - cnt)
    else if dr then
      let? s := del s (orr - 1) 2 in
      Some (s, orr - 2)
    else Some (s, orr) in
  let? t := zget s (orr + 1) in
  let? s := zset s (orr + 1) (set_tval t ((szl + 8) * 16 + (szr + 8))) in
  let? s := ins s (orr + 2) kr in
  ins s (orr + 2) kl.

(** cgx86.c:1404-1774, GenFuse: returns the new stack and [*idx]. *)
Fixpoint gen_fuse (fuel : nat) (s : stack) (idx : Z) : option (stack * Z) :=
  match fuel with
  | O => None
  | S fuel =>
      let? tk := zget s idx in
      let idx := idx - 1 in
      let oldsp := zlen s in
      match tk with
      | TNum _ | TNumU _ | TIdent _ | TLocal _ => Some (s, idx)
      | TShortCirc _ | TGoto _ => gen_fuse fuel s idx
      | TStar sz =>
          let? (s, idx') := gen_fuse fuel s idx in
          let orr := idx - (oldsp - zlen s) in
          let? t := zget s orr in
          match t with
          | TIdent n =>
              let? s := zset s (orr + 1) (OpIdent n) in
              let? s := zset s orr tk in Some (s, idx')
          | TLocal n =>
              let? s := zset s (orr + 1) (OpLocal n) in
              let? s := zset s orr tk in Some (s, idx')
          | _ => let? s := ins s (orr + 2) OpAcc in Some (s, idx')
          end
      | TInc _ | TDec _ | TPostInc _ | TPostDec _ =>
          let? (s, idx') := gen_fuse fuel s idx in
          let orr := idx - (oldsp - zlen s) in
          let? t := zget s orr in
          match t with
          | TIdent n =>
              let? s := zset s (orr + 1) (OpIndIdent n) in
              let? s := zset s orr tk in Some (s, idx')
          | TLocal n =>
              let? s := zset s (orr + 1) (OpIndLocal n) in
              let? s := zset s orr tk in Some (s, idx')
          | _ => let? s := ins s (orr + 2) OpIndAcc in Some (s, idx')
          end
      | TUn u =>
          let? (s, idx') := gen_fuse fuel s idx in
          let orr := idx - (oldsp - zlen s) in
          match u with
          | UPlus => let? s := del s (orr + 1) 1 in Some (s, idx')
          | _ => Some (s, idx')
          end
      | TPostAdd _ | TPostSub _ =>
          let? t := zget s idx in
          let num := tval t in
          let idx := idx - 1 in
          let? (s, idx') := gen_fuse fuel s idx in
          let orr := idx - (oldsp - zlen s) in
          let? t := zget s orr in
          match t with
          | TIdent n =>
              let? s := zset s (orr + 2) (OpNum num) in
              let? s := zset s (orr + 1) (OpIndIdent n) in
              let? s := zset s orr tk in Some (s, idx')
          | TLocal n =>
              let? s := zset s (orr + 2) (OpNum num) in
              let? s := zset s (orr + 1) (OpIndLocal n) in
              let? s := zset s orr tk in Some (s, idx')
          | _ =>
              let? s := zset s (orr + 1) tk in
              let? s := zset s (orr + 2) OpIndAcc in
              let? s := ins s (orr + 3) (OpNum num) in Some (s, idx')
          end
      | TAssign _ | TAssignOp _ _ | TArith _ _ | TCmp _ _ | TLogAnd _ | TLogOr _ | TComma =>
          let lvalSize := match tk with TAssign v | TAssignOp _ v => v | _ => 0 end in
          let? (s, idx1) := gen_fuse fuel s idx in
          let orr := idx - (oldsp - zlen s) in
          let? (kr, szr, dr) := operand_info s orr 0 in
          let ol := idx1 in
          let oldspl := zlen s in
          let? (s, idx2) := gen_fuse fuel s idx1 in
          let ol := ol - (oldspl - zlen s) in
          let orr := orr - (oldspl - zlen s) in
          let? (kl, szl, dl) := operand_info s ol lvalSize in
          match tk with
          | TLogAnd _ | TLogOr _ | TComma => Some (s, idx2)
          | _ =>
              let? s := fuse_operands s idx2 ol orr kl szl dl kr szr dr in
              Some (s, idx2)
          end
      | TRParen _ => fuse_args fuel s idx
      | _ => None
      end
  end
(** cgx86.c:1760-1768: the arguments of a call. *)
with fuse_args (fuel : nat) (s : stack) (idx : Z) : option (stack * Z) :=
  match fuel with
  | O => None
  | S fuel =>
      let? t := zget s idx in
      match t with
      | TLParen _ => Some (s, idx - 1)
      | _ =>
          let? (s, idx) := gen_fuse fuel s idx in
          let? t := zget s idx in
          fuse_args fuel s (match t with TArgSep => idx - 1 | _ => idx end)
      end
  end.

(** ** Emission helpers *)

(** cgx86.c:684-748, GenPrintInstr2Operands: additions of 0 are dropped, of 1 become inc/dec. *)
Definition gen2 (i : mnem) (d x : opnd) : list instr :=
  match i, x with
  | Iadd, XC n =>
      if uw W n =? 0 then [] else if n =? 1 then [I1 Iinc d] else if n =? -1 then [I1 Idec d] else [I2 i d x]
  | Isub, XC n =>
      if uw W n =? 0 then [] else if n =? -1 then [I1 Iinc d] else if n =? 1 then [I1 Idec d] else [I2 i d x]
  | _, _ => [I2 i d x]
  end.
Definition gen1 (i : mnem) (o : opnd) : list instr := [I1 i o].

(** cgx86.c:496-547, GenSelectByteOrWord. *)
Definition selA (sz : Z) : opnd :=
  if sz =? W then RA else if (sz =? 2) || (sz =? -2) then RAH else RAB.
Definition selM (sz : Z) : msize :=
  if sz =? W then MWord else if (sz =? 2) || (sz =? -2) then MHalf else MByte.

(** cgx86.c:765-798, GenExtendRegAIfNeeded. *)
Definition gen_extend (sz : Z) : list instr :=
  if W =? 2 then
    if sz =? -1 then [I0 Icbw] else if sz =? 1 then gen2 Imov RAHigh (XC 0) else []
  else
    if sz =? -1 then gen2 Imovsx RA RAB else if sz =? 1 then gen2 Imovzx RA RAB
    else if sz =? -2 then gen2 Imovsx RA RAH else if sz =? 2 then gen2 Imovzx RA RAH else [].

(** cgx86.c:1012-1043, GenReadIdent, GenReadLocal, GenReadIndirect. *)
Definition gen_read (sz : Z) (m : opnd) : list instr := gen2 Imov (selA sz) m ++ gen_extend sz.
Definition gen_read_ind (sz : Z) : list instr := gen2 Imov RB RA ++ gen_read sz (MRB MI).

(** cgx86.c:1045-1139, GenReadCRegIdent, GenReadCRegLocal, GenReadCRegIndirect; [m] builds the
    memory operand with the given explicit size. *)
Definition gen_readc (sz : Z) (m : msize -> opnd) : list instr :=
  if sz =? -1 then gen2 Imovsx RC (m MByte)
  else if sz =? 1 then gen2 Imovzx RC (m MByte)
  else if negb (sz =? W) && negb (- sz =? W) then
    if sz =? -2 then gen2 Imovsx RC (m MHalf)
    else if sz =? 2 then gen2 Imovzx RC (m MHalf) else []
  else gen2 Imov RC (m MI).
Definition gen_readc_ind (sz : Z) : list instr := gen2 Imov RB RA ++ gen_readc sz MRB.

(** cgx86.c:1141-1247: ++ and --; [m] as above. *)
Definition gen_incdec (inc : bool) (sz : Z) (m : msize -> opnd) : list instr :=
  gen1 (if inc then Iinc else Idec) (m (selM sz)) ++ gen2 Imov (selA sz) (m MI) ++ gen_extend sz.
Definition gen_postincdec (inc : bool) (sz : Z) (m : msize -> opnd) : list instr :=
  gen2 Imov (selA sz) (m MI) ++ gen_extend sz ++ gen1 (if inc then Iinc else Idec) (m (selM sz)).
(** cgx86.c:1249-1304. *)
Definition gen_postaddsub (add : bool) (sz val : Z) (m : msize -> opnd) : list instr :=
  gen2 Imov (selA sz) (m MI) ++ gen_extend sz ++
  gen2 (if add then Iadd else Isub) (m (selM sz)) (XC val).

(** The memory operand behind a fused ++/-- operand, with the code that prepares it. *)
Definition gen_lval (k : tok) : option (list instr * (msize -> opnd)) :=
  match k with
  | OpIndIdent n => Some ([], fun s => MLab s n)
  | OpIndLocal n => Some ([], fun s => MLoc s n)
  | OpIndAcc => Some (gen2 Imov RB RA, fun s => MRB s)
  | _ => None
  end.

(** cgx86.c:800-842. *)
Definition gen_jump (l : Z) : list instr := gen1 Ijmp (XNum l).
Definition gen_jump_if_equal (v l : Z) : list instr :=
  gen2 Icmp RA (XC v) ++ gen1 (Ijcc CEq) (XNum l).
Definition gen_jump_if_zero (l : Z) : list instr :=
  gen2 Itest RA RA ++ gen1 (Ijcc CEq) (XNum l).
Definition gen_jump_if_not_zero (l : Z) : list instr :=
  gen2 Itest RA RA ++ gen1 (Ijcc CNe) (XNum l).
(** cgx86.c:905-913, GenGrowStack. *)
Definition gen_grow_stack (size : Z) : list instr :=
  if size =? 0 then [] else gen2 Isub RSP (XC size).

(** cgx86.c:2159-2174: save the right operand in cx ([kr] is stack[i+2], [v] the sizes). *)
Definition gen_save_right (kr : tok) (v : Z) : list instr :=
  match kr with
  | OpAcc => gen2 Imov RC RA
  | OpIndAcc => gen_readc_ind (v mod 16 - 8)
  | _ => []
  end.

(** cgx86.c:2188-2238: load operand [k] of size [sz] into ax. *)
Definition gen_load (k : tok) (sz : Z) : option (list instr) :=
  match k with
  | OpNum n | OpNumU n => Some (gen2 Imov RA (XC n))
  | OpIdent n => Some (gen2 Imov RA (XLab n))
  | OpLocal n => Some (gen2 Ilea RA (MLoc MI n))
  | OpAcc => Some []
  | OpIndIdent n => Some (gen_read sz (MLab MI n))
  | OpIndLocal n => Some (gen_read sz (MLoc MI n))
  | OpIndAcc => Some (gen_read_ind sz)
  | OpStack => Some (gen1 Ipop RA)
  | OpIndStack => Some (gen1 Ipop RB ++ gen_read sz (MRB MI))
  | _ => None
  end.

(** cgx86.c:2275-2343: two-operand instruction [i] with ax and the right operand. *)
Definition gen_op2 (i : mnem) (kr : tok) (szr : Z) : option (list instr) :=
  match kr with
  | OpNum n | OpNumU n => Some (gen2 i RA (XC n))
  | OpIdent n => Some (gen2 i RA (XLab n))
  | OpLocal n => Some (gen2 Ilea RC (MLoc MI n) ++ gen2 i RA RC)
  | OpAcc | OpIndAcc => Some (gen2 i RA RC)
  | OpIndIdent n =>
      Some (if negb (szr =? W) then gen_readc szr (fun s => MLab s n) ++ gen2 i RA RC
            else gen2 i RA (MLab MI n))
  | OpIndLocal n =>
      Some (if negb (szr =? W) then gen_readc szr (fun s => MLoc s n) ++ gen2 i RA RC
            else gen2 i RA (MLoc MI n))
  | _ => None
  end.

(** cgx86.c:2400-2462: multiplication. *)
Definition gen_mul (kr : tok) (szr : Z) : option (list instr) :=
  match kr with
  | OpNum n | OpNumU n => Some [I3 Iimul RA RA (XC n)]
  | OpIdent n => Some [I3 Iimul RA RA (XLab n)]
  | OpLocal n => Some (gen2 Ilea RC (MLoc MI n) ++ gen1 Imul RC)
  | OpAcc | OpIndAcc => Some (gen1 Imul RC)
  | OpIndIdent n =>
      Some (if negb (szr =? W) then gen_readc szr (fun s => MLab s n) ++ gen1 Imul RC
            else gen1 Imul (MLab MWord n))
  | OpIndLocal n =>
      Some (if negb (szr =? W) then gen_readc szr (fun s => MLoc s n) ++ gen1 Imul RC
            else gen1 Imul (MLoc MWord n))
  | _ => None
  end.

(** cgx86.c:2464-2566: division and remainder. *)
Definition gen_div (sgn rem : bool) (kr : tok) (szr : Z) : option (list instr) :=
  let i := if sgn then Iidiv else Idiv in
  let pre := if sgn then (if W =? 2 then [I0 Icwd] else [I0 Icdq]) else gen2 Imov RD (XC 0) in
  let? c :=
    match kr with
    | OpNum n | OpNumU n => Some (gen2 Imov RC (XC n) ++ gen1 i RC)
    | OpIdent n => Some (gen2 Imov RC (XLab n) ++ gen1 i RC)
    | OpLocal n => Some (gen2 Ilea RC (MLoc MI n) ++ gen1 i RC)
    | OpAcc | OpIndAcc => Some (gen1 i RC)
    | OpIndIdent n =>
        Some (if negb (szr =? W) then gen_readc szr (fun s => MLab s n) ++ gen1 i RC
              else gen1 i (MLab MWord n))
    | OpIndLocal n =>
        Some (if negb (szr =? W) then gen_readc szr (fun s => MLoc s n) ++ gen1 i RC
              else gen1 i (MLoc MWord n))
    | _ => None
    end in
  Some (pre ++ c ++ (if rem then gen2 Imov RA RD else [])).

(** cgx86.c:2568-2622: shifts. *)
Definition gen_shift (i : mnem) (kr : tok) : option (list instr) :=
  match kr with
  | OpNum n | OpNumU n => Some (gen2 i RA (XC n))
  | OpIdent n => Some (gen2 i RA (XLab n))
  | OpLocal n => Some (gen2 Ilea RC (MLoc MI n) ++ gen2 i RA RCB)
  | OpAcc | OpIndAcc => Some (gen2 i RA RCB)
  | OpIndIdent n => Some (gen2 Imov RCB (MLab MI n) ++ gen2 i RA RCB)
  | OpIndLocal n => Some (gen2 Imov RCB (MLoc MI n) ++ gen2 i RA RCB)
  | _ => None
  end.

(** cgx86.c:2250-2622 with 1776-1833 (GenGetBinaryOperatorInstr). *)
Definition gen_arith (a : arith) (kr : tok) (szr : Z) : option (list instr) :=
  match a with
  | BAdd => gen_op2 Iadd kr szr
  | BSub => gen_op2 Isub kr szr
  | BAnd => gen_op2 Iand kr szr
  | BXor => gen_op2 Ixor kr szr
  | BOr => gen_op2 Ior kr szr
  | BMul => gen_mul kr szr
  | BDiv => gen_div true false kr szr
  | BMod => gen_div true true kr szr
  | BUDiv => gen_div false false kr szr
  | BUMod => gen_div false true kr szr
  | BShl => gen_shift Ishl kr
  | BShr => gen_shift Isar kr
  | BUShr => gen_shift Ishr kr
  end.

(** cgx86.c:2345-2396: what follows a comparison; [next] is stack[i+3]. *)
Definition gen_cmp_tail (c : cond) (next : option tok) : list instr :=
  match next with
  | Some (TIf l) => gen1 (Ijcc c) (XNum l)
  | Some (TIfNot l) => gen1 (Ijncc c) (XNum l)
  | _ => gen1 (Isetcc c) RAB ++ (if W =? 2 then [I0 Icbw] else gen2 Imovzx RA RAB)
  end.

(** cgx86.c:2637-2683: store ax into the left operand. *)
Definition gen_store (kl : tok) (sz : Z) : list instr :=
  (match kl with
   | OpIndIdent n => gen2 Imov (MLab MI n) (selA sz)
   | OpIndLocal n => gen2 Imov (MLoc MI n) (selA sz)
   | OpIndAcc | OpIndStack => gen2 Imov (MRB MI) (selA sz)
   | _ => []
   end) ++ gen_extend sz.

Definition is_sep (o : option tok) : bool := match o with Some TArgSep => true | _ => false end.
Definition is_rparen (o : option tok) : bool := match o with Some (TRParen _) => true | _ => false end.

(** cgx86.c:1948-2744: one iteration of the loop of GenExpr1 at position [i]: the code emitted and
    the next position.  (The annotation output, cgx86.c:1852-1946, is not modelled.) *)
Definition gen_step (s : stack) (i : Z) : option (list instr * Z) :=
  let? t := zget s i in
  match t with
  | TNum v | TNumU v =>
      Some (if is_sep (zget s (i + 1)) then [] else gen2 Imov RA (XC v), i + 1)
  | TIdent v =>
      Some (if is_sep (zget s (i + 1)) || is_rparen (zget s (i + 1)) then [] else gen2 Imov RA (XLab v), i + 1)
  | TLocal v => Some (gen2 Ilea RA (MLoc MI v), i + 1)
  | TUn UNot => Some (gen1 Inot RA, i + 1)
  | TUn UMinus => Some (gen1 Ineg RA, i + 1)
  | TUn UBool =>
      Some (gen2 Itest RA RA ++ gen1 (Isetcc CNe) RAB ++
            (if W =? 2 then [I0 Icbw] else gen2 Imovsx RA RAB), i + 1)
  | TUn USChar => Some (if W =? 2 then [I0 Icbw] else gen2 Imovsx RA RAB, i + 1)
  | TUn UUChar => Some (gen2 Iand RA (XC 255), i + 1)
  | TUn UShort => Some (gen2 Imovsx RA RAH, i + 1)
  | TUn UUShort => Some (gen2 Imovzx RA RAH, i + 1)
  | TUn UVoid => Some ([], i + 1)
  | TShortCirc v => Some (if v >=? 0 then gen_jump_if_zero v else gen_jump_if_not_zero (- v), i + 1)
  | TGoto v => Some (gen_jump v, i + 1)
  | TLogAnd v | TLogOr v => Some ([Lab v], i + 1)
  | TPushAcc => Some (gen1 Ipush RA, i + 1)
  | TArgSep =>
      let? p := zget s (i - 1) in
      let direct :=
        match p with
        | TNum v | TNumU v => gen1 Ipush (XC v)
        | TIdent v => gen1 Ipush (XLab v)
        | _ => gen1 Ipush RA
        end in
      match zget s (i - 2) with
      | Some (TStar sz) =>
          if sz =? W then
            match p with
            | OpIdent v => Some (gen1 Ipush (MLab MWord v), i + 1)
            | OpLocal v => Some (gen1 Ipush (MLoc MWord v), i + 1)
            | OpAcc => Some (gen2 Imov RB RA ++ gen1 Ipush (MRB MWord), i + 1)
            | _ => Some ([], i + 1)
            end
          else Some (direct, i + 1)
      | _ => Some (direct, i + 1)
      end
  | TStar v =>
      if (v =? W) && is_sep (zget s (i + 2)) then Some ([], i + 2) else
      let? k := zget s (i + 1) in
      match k with
      | OpIdent n => Some (gen_read v (MLab MI n), i + 2)
      | OpLocal n => Some (gen_read v (MLoc MI n), i + 2)
      | OpAcc => Some (gen_read_ind v, i + 2)
      | _ => Some ([], i + 2)
      end
  | TInc v | TDec v =>
      let? k := zget s (i + 1) in
      let? (p, m) := gen_lval k in
      Some (p ++ gen_incdec (match t with TInc _ => true | _ => false end) v m, i + 2)
  | TPostInc v | TPostDec v =>
      let? k := zget s (i + 1) in
      let? (p, m) := gen_lval k in
      Some (p ++ gen_postincdec (match t with TPostInc _ => true | _ => false end) v m, i + 2)
  | TPostAdd v | TPostSub v =>
      let? k := zget s (i + 1) in
      let? n := zget s (i + 2) in
      let? (p, m) := gen_lval k in
      Some (p ++ gen_postaddsub (match t with TPostAdd _ => true | _ => false end) v (tval n) m, i + 3)
  | TAssign v =>
      let? kl := zget s (i + 1) in
      let? kr := zget s (i + 2) in
      let? load := gen_load kr (v mod 16 - 8) in
      Some ((match kl with OpIndAcc => gen2 Imov RB RA | _ => [] end) ++ load ++
            (match kl with OpIndStack => gen1 Ipop RB | _ => [] end) ++
            gen_store kl (v / 16 - 8), i + 3)
  | TAssignOp a v =>
      let? kl := zget s (i + 1) in
      let? kr := zget s (i + 2) in
      let? load := gen_load kl (v / 16 - 8) in
      let? op := gen_arith a kr (v mod 16 - 8) in
      Some (gen_save_right kr v ++ load ++ op ++ gen_store kl (v / 16 - 8), i + 3)
  | TArith a v =>
      let? kl := zget s (i + 1) in
      let? kr := zget s (i + 2) in
      let? load := gen_load kl (v / 16 - 8) in
      let? op := gen_arith a kr (v mod 16 - 8) in
      Some (gen_save_right kr v ++ load ++ op, i + 3)
  | TCmp c v =>
      let? kl := zget s (i + 1) in
      let? kr := zget s (i + 2) in
      let? load := gen_load kl (v / 16 - 8) in
      let? op := gen_op2 Icmp kr (v mod 16 - 8) in
      Some (gen_save_right kr v ++ load ++ op ++ gen_cmp_tail c (zget s (i + 3)), i + 3)
  | TRParen v =>
      let? p := zget s (i - 1) in
      Some ((match p with TIdent n => gen1 Icall (XLab n) | _ => gen1 Icall RA end) ++
            gen_grow_stack (- v), i + 1)
  | TLParen _ | TIf _ | TIfNot _ | TReturn | TComma => Some ([], i + 1)
  | _ => None
  end.

(** The loop of GenExpr1. *)
Fixpoint gen_loop (fuel : nat) (s : stack) (i : Z) : option (list instr) :=
  if i >=? zlen s then Some [] else
  match fuel with
  | O => None
  | S fuel =>
      let? (c, i') := gen_step s i in
      let? r := gen_loop fuel s i' in
      Some (c ++ r)
  end.

(** cgx86.c:1842-1850 and the loop: GenExpr1. *)
Definition gen_expr (s : stack) : option (list instr) :=
  let? t := zget s (zlen s - 1) in
  let e := match t with TIf _ | TIfNot _ | TReturn => zlen s - 2 | _ => zlen s - 1 end in
  let? (s, _) := gen_fuse (2 * length s + 2) s e in
  gen_loop (length s) s 0.
End W.
