(** The prepared stack and the code of an expression, tree by tree (used by the proofs only). *)
From Verif Require Import Base BaseLemmas X86 ExprSpec CgModel CgTree MipsModel MipsSpec.

(** Operators in whose operands GenPrep may exchange. *)
Definition iscomm (t : tok) : bool :=
  match t with TArith (BAdd | BMul | BAnd | BXor | BOr) _ | TCmp _ _ => true | _ => false end.
(** Constant right operand [k] of operator [t]: the new constant and operator. *)
Definition rconst (t : tok) (k : Z) : Z * tok :=
  match t with
  | TArith BUDiv v => if pow2 (tru k) then (Z.log2 (tru k), TArith BUShr v) else (k, t)
  | TArith BUMod v => if pow2 (tru k) then (tru k - 1, TArith BAnd v) else (k, t)
  | TAssignOp BUDiv v => if pow2 (tru k) then (Z.log2 (tru k), TAssignOp BUShr v) else (k, t)
  | TAssignOp BUMod v => if pow2 (tru k) then (tru k - 1, TAssignOp BAnd v) else (k, t)
  | _ => if iscomm t then special_const t k else (k, t)
  end.
(** Binary operators with a constant operand: whether the operands are exchanged, the constant
    (now on the right), the operator. *)
Definition bconst (t : tok) (l r : ex) : option (bool * Z * tok) :=
  match r with
  | ENum _ k => let '(k', t') := rconst t k in Some (false, k', t')
  | _ =>
      match l with
      | ENum _ k => if iscomm t then let '(k', t') := special_const (flip t) k in Some (true, k', t') else None
      | _ => None
      end
  end.
Definition aop (o : arith) (r : ex) : arith :=
  match r with
  | ENum _ k => match rconst (TAssignOp o 0) k with (_, TAssignOp o' _) => o' | _ => o end
  | _ => o
  end.
Definition anum (o : arith) (r : ex) : option Z :=
  match r with ENum _ k => Some (fst (rconst (TAssignOp o 0) k)) | _ => None end.
Definition pl (e : ex) : option place :=
  match e with EIdent n => Some (PId n) | ELocal n => Some (PLoc n) | _ => None end.
Definition rev_tok (p : place) : mtok :=
  match p with PId n => RevIdent n | PLoc n => RevLocal n | PReg _ => Num0 end.

Fixpoint P (e : ex) : list mtok :=
  match e with
  | EVal _ => []
  | ENum _ n => [MT (TNum n)]
  | EIdent id => [MT (TIdent id)]
  | ELocal o => [MT (TLocal o)]
  | EDeref sz a => P a ++ [MT (TStar sz)]
  | EPre inc sz a => P a ++ [MT (if inc then TInc sz else TDec sz)]
  | EPost inc sz a => P a ++ [MT (if inc then TPostInc sz else TPostDec sz)]
  | EPostBy add sz n a => P a ++ [MT (TNum n); MT (if add then TPostAdd sz else TPostSub sz)]
  | EUn u x => P x ++ [MT (TUn (tok_un u))]
  | EArith o l r =>
      match bconst (TArith (tok_arith o) 0) l r with
      | Some (sw, k, t) => (if sw then P r else P l) ++ [MT (TNum k); MT t]
      | None => P l ++ P r ++ [MT (TArith (tok_arith o) 0)]
      end
  | ECmp c l r =>
      match bconst (TCmp (tok_cmp c) 0) l r with
      | Some (sw, k, t) => (if sw then P r else P l) ++ [MT (TNum k); MT t]
      | None => P l ++ P r ++ [MT (TCmp (tok_cmp c) 0)]
      end
  | EAssign sz l r =>
      match pl l with
      | Some p => P r ++ [rev_tok p; MT (TAssign sz)]
      | None => P l ++ P r ++ [MT (TAssign sz)]
      end
  | EAssignOp o sz l r =>
      let pr := match anum (tok_arith o) r with Some k => [MT (TNum k)] | None => P r end in
      let t := MT (TAssignOp (aop (tok_arith o) r) sz) in
      match pl l with
      | Some p => pr ++ [rev_tok p; t]
      | None => P l ++ pr ++ [t]
      end
  | EComma l r => P l ++ P r ++ [MT TComma]
  | EAnd2 k l r => P l ++ MT (TShortCirc k) :: P r ++ [MT (TLogAnd k)]
  | EOr2 k l r => P l ++ MT (TShortCirc (- k)) :: P r ++ [MT (TLogOr k)]
  | ECond k c t f =>
      P c ++ MT (TShortCirc (- k)) :: P f ++ MT (TGoto (k + 1)) :: MT (TLogAnd k) :: P t ++ [MT (TLogAnd (k + 1))]
  | ECall f args =>
      MT (TLParen (4 * zlen args)) ::
      (fix go l := match l with [] => [] | a :: l => go l ++ P a ++ [MT TArgSep] end) args ++
      P f ++ [MT (TRParen (4 * zlen args))]
  end.
Definition P_args := fix go l := match l with [] => [] | a :: l => go l ++ P a ++ [MT TArgSep] end.

(** An assignment of 0 as the whole expression. *)
Definition is_assign0 (e : ex) : option (Z * ex) :=
  match e with EAssign sz l (ENum _ n) => if tru n =? 0 then Some (sz, l) else None | _ => None end.
Definition Ptop (e : ex) : list mtok :=
  match is_assign0 e with
  | Some (sz, l) =>
      match pl l with
      | Some p => [Num0; rev_tok p; Assign0 sz]
      | None => P l ++ [Num0; Assign0 sz]
      end
  | None => P e
  end.

(** Nesting of calls. *)
Fixpoint cdepth (e : ex) : Z :=
  match e with
  | EVal _ | ENum _ _ | EIdent _ | ELocal _ => 0
  | EDeref _ a | EPre _ _ a | EPost _ _ a | EPostBy _ _ _ a | EUn _ a => cdepth a
  | EArith _ l r | ECmp _ l r | EAssign _ l r | EAssignOp _ _ l r
  | EComma l r | EAnd2 _ l r | EOr2 _ l r => Z.max (cdepth l) (cdepth r)
  | ECond _ c t f => Z.max (cdepth c) (Z.max (cdepth t) (cdepth f))
  | ECall f args =>
      1 + Z.max (cdepth f) ((fix go l := match l with [] => 0 | a :: l => Z.max (go l) (cdepth a) end) args)
  end.
Definition cdepth_args := fix go l := match l with [] => 0 | a :: l => Z.max (go l) (cdepth a) end.

(** Whether a value is pending after the expression (gotUnary). *)
Fixpoint guf (e : ex) : bool :=
  match e with
  | EUn EVoid _ => false
  | EComma _ r => guf r
  | ECond _ _ t _ => guf t
  | _ => true
  end.

Section Code.
Variable mcd : Z.
Definition rk (n : Z) : bool := can_use mcd && (n <? MAX_TEMP_REGS).
Definition wpush (w n : Z) : Z := if rk n then winc w else w.
Definition pushc (w n : Z) : list mins :=
  if rk n then [] else gen3c Msubu rSP rSP 4 ++ [Mstore 4 w (AInd 0 rSP)].
Definition popc (n : Z) : list mins :=
  if rk n then [] else Mload 4 rTA (AInd 0 rSP) :: gen3c Maddu rSP rSP 4.
Definition lreg (w n : Z) : Z := if rk n then w else rTA.
Definition rreg (w n : Z) : Z := if rk n then winc w else w.
Definition two (w n : Z) (cl cr : list mins) : list mins := cl ++ pushc w n ++ cr ++ popc n.

Definition unc (u : eunop) (w : Z) : list mins :=
  match u with
  | EPlus | EVoid => []
  | ENot => gen3 Mnor w w w
  | EMinus => gen3 Msubu w 0 w
  | EBool => gen3 Msltu w 0 w
  | ESChar => [Mseb w w]
  | EUChar => gen3c Mand w w 255
  | EShort => [Mseh w w]
  | EUShort => gen3c Mand w w 65535
  end.
(** Comparison without branch. *)
Definition slt_of (c : cond) : malu := if snd (cmp_op c) then Msltu else Mslt.
Definition cmp_imm (c : cond) (k w : Z) : list mins :=
  concat (map (fun b => gen_blk b (slt_of c) false (if k =? 0 then 0 else tri k) w 0 0 0)
    (cmp_blocks (fst (cmp_op c)) false (if k =? 0 then 0 else 1))).
Definition cmp_reg (c : cond) (w L R : Z) : list mins :=
  concat (map (fun b => gen_blk b (slt_of c) false 0 w L R 0) (cmp_blocks (fst (cmp_op c)) false 2)).
Definition isimm (t : tok) : bool :=
  match t with
  | TArith (BAdd | BSub | BAnd | BXor | BOr | BShl | BShr | BUShr) _ | TCmp _ _ => true
  | _ => false
  end.
Definition imm_code (t : tok) (k w : Z) : list mins :=
  match t with TArith a _ => gen3c (alu_of a) w w k | TCmp c _ => cmp_imm c k w | _ => [] end.
Definition bin_code (t : tok) (w L R : Z) : list mins :=
  match t with TArith a _ => gen_bin a w L R | TCmp c _ => cmp_reg c w L R | _ => [] end.
Definition const_code (t : tok) (k w n : Z) : list mins :=
  if isimm t then imm_code t k w
  else pushc w n ++ [Mli (wpush w n) k] ++ popc n ++ bin_code t w (lreg w n) (rreg w n).

Definition one := mcd =? 1.
(** After an argument, before the next one is evaluated. *)
Definition argpush (last : bool) : list mins := if last then [] else pushc rV0 0.
Definition loadargs (v : Z) : list mins :=
  (if 4 <=? v then [Mload 4 rA0 (AInd 0 rSP)] else []) ++
  (if 8 <=? v then [Mload 4 (rA0 + 1) (AInd 4 rSP)] else []) ++
  (if 12 <=? v then [Mload 4 (rA0 + 2) (AInd 8 rSP)] else []) ++
  (if 16 <=? v then [Mload 4 (rA0 + 3) (AInd 12 rSP)] else []).
Definition isnil {A} (l : list A) : bool := match l with [] => true | _ => false end.

Fixpoint C (e : ex) (w n : Z) : list mins :=
  match e with
  | EVal _ => []
  | ENum _ k => [Mli w k]
  | EIdent id => [Mla w id]
  | ELocal o => gen3c Maddu w rFP o
  | EDeref sz a =>
      match pl a with Some p => gread p w sz | None => C a w n ++ gread (PReg w) w sz end
  | EPre inc sz a =>
      match pl a with
      | Some p => gen_incdec inc p w sz
      | None => C a w n ++ Mmove rTA w :: gen_incdec inc (PReg rTA) w sz
      end
  | EPost inc sz a =>
      match pl a with
      | Some p => gen_postincdec inc p w sz
      | None => C a w n ++ Mmove rTA w :: gen_postincdec inc (PReg rTA) w sz
      end
  | EPostBy add sz k a =>
      two w n (C a w n) [Mli (wpush w n) k] ++ gen_postby add w (lreg w n) (rreg w n) sz
  | EUn u x => C x w n ++ unc u w
  | EArith o l r =>
      match bconst (TArith (tok_arith o) 0) l r with
      | Some (sw, k, t) => (if sw then C r w n else C l w n) ++ const_code t k w n
      | None => two w n (C l w n) (C r (wpush w n) (n + 1)) ++
                bin_code (TArith (tok_arith o) 0) w (lreg w n) (rreg w n)
      end
  | ECmp c l r =>
      match bconst (TCmp (tok_cmp c) 0) l r with
      | Some (sw, k, t) => (if sw then C r w n else C l w n) ++ const_code t k w n
      | None => two w n (C l w n) (C r (wpush w n) (n + 1)) ++
                bin_code (TCmp (tok_cmp c) 0) w (lreg w n) (rreg w n)
      end
  | EAssign sz l r =>
      match pl l with
      | Some p => C r w n ++ gwrite p w sz ++ gen_extend w sz
      | None => two w n (C l w n) (C r (wpush w n) (n + 1)) ++
                write_ind (lreg w n) (rreg w n) sz ++
                (if w =? rreg w n then [] else [Mmove w (rreg w n)]) ++ gen_extend w sz
      end
  | EAssignOp o sz l r =>
      let cr w n := match anum (tok_arith o) r with Some k => [Mli w k] | None => C r w n end in
      let a := aop (tok_arith o) r in
      match pl l with
      | Some p => cr w n ++ gread p rTB sz ++ gen_bin a w rTB w ++ gwrite p w sz ++ gen_extend w sz
      | None => two w n (C l w n) (cr (wpush w n) (n + 1)) ++
                gen_assignop a w (lreg w n) (rreg w n) sz ++ gen_extend w sz
      end
  | EComma l r => C l w n ++ C r w n
  | EAnd2 k l r => C l w n ++ [Mbr true w 0 k] ++ C r w n ++ [Mlab k]
  | EOr2 k l r => C l w n ++ [Mbr false w 0 k] ++ C r w n ++ [Mlab k]
  | ECond k c t f =>
      C c w n ++ [Mbr false w 0 k] ++ C f w n ++ [Mj (k + 1)] ++ [Mlab k] ++ C t w n ++ [Mlab (k + 1)]
  | ECall f args =>
      let v := 4 * zlen args in
      (if one then [] else if v <? 16 then gen_grow (16 - v) else []) ++
      (fix go l i := match l with
         | [] => []
         | a :: l =>
             go l (i + 1) ++
             (if one && (i <? 4) then C a (rA0 + i) n
              else argpush (isnil l) ++ C a rV0 n ++ (if one && (i =? 4) then pushc rV0 0 else []))
         end) args 0 ++
      (if one then [] else argpush (isnil args)) ++
      (match f with EIdent _ => [] | _ => C f rV0 n end) ++
      (if one then gen_grow 16 else loadargs v) ++
      (match f with EIdent id => [Mjal id] | _ => [Mjalr rV0] end) ++
      gen_grow (- (if v <? 16 then 16 else v))
  end.
Definition C_args (n : Z) := fix go l i := match l with
  | [] => []
  | a :: l =>
      go l (i + 1) ++
      (if one && (i <? 4) then C a (rA0 + i) n
       else argpush (isnil l) ++ C a rV0 n ++ (if one && (i =? 4) then pushc rV0 0 else []))
  end.

Definition Ctop (e : ex) : list mins :=
  match is_assign0 e with
  | Some (sz, l) =>
      match pl l with Some p => gwrite p 0 sz | None => C l rV0 0 ++ write_ind rV0 0 sz end
  | None => C e rV0 0
  end.
End Code.
