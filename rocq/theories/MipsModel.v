(** Model of the MIPS expression code generator: cgmips.c GenPrep, GenCmp, GenExpr0 and the emission
    helpers they use, in the default configuration (neither REORDER_WORKAROUND nor DONT_USE_SEH).

    The expression stack of (token, value) pairs is the list of [CgModel.tok] that the front end
    pushes; GenPrep adds four token kinds of its own (cgmips.c:1057-1060).  Instructions are
    constructors; constants are printed with [truncInt], so an instruction stands for its constant
    modulo 2^32. *)
From Verif Require Import Base X86 CgModel.

(** cgmips.c:177-214 and 256-312: the instructions that are used.  Registers are their numbers. *)
Inductive malu := Maddu | Msubu | Mand | Mor | Mxor | Mnor | Msll | Msrl | Msra | Mmul | Mslt | Msltu.
Inductive mopnd := OR (r : Z) | OC (n : Z).
Inductive maddr := AInd (ofs r : Z) | ALo (id : Z).      (* ofs($r) and %lo(id)($1) *)
Inductive mbz := Bltz | Bgez | Blez | Bgtz.
Inductive mins :=
| Mla (rd id : Z) | Mli (rd n : Z) | Mmove (rd rs : Z) | Mmflo (rd : Z) | Mmfhi (rd : Z)
| Mluihi (id : Z)                                         (* lui $1, %hi(id) *)
| Mload (sz rd : Z) (a : maddr)                           (* lb lbu lh lhu lw *)
| Mstore (n rs : Z) (a : maddr)                           (* sb sh sw *)
| Malu (op : malu) (rd rs : Z) (o : mopnd)
| Mdiv (sgn : bool) (rs rt : Z)                           (* div/divu $0, rs, rt *)
| Mseb (rd rs : Z) | Mseh (rd rs : Z)
| Mj (l : Z) | Mjal (id : Z) | Mjalr (r : Z)
| Mbr (eq : bool) (r1 r2 l : Z)                           (* beq, bne *)
| Mbz (c : mbz) (r l : Z)
| Mlab (l : Z).

Definition rV0 := 2. Definition rA0 := 4. Definition rA3 := 7. Definition rT0 := 8.
Definition rTA := 24. Definition rTB := 25.               (* TEMP_REG_A, TEMP_REG_B *)
Definition rSP := 29. Definition rFP := 30.
Definition MAX_TEMP_REGS := 8.

(** The stack during code generation. *)
Inductive mtok := MT (t : tok) | RevIdent (id : Z) | RevLocal (ofs : Z) | Num0 | Assign0 (sz : Z).

(** smlrc.c:684-707, truncUint and truncInt for a 32-bit target. *)
Definition tru (n : Z) : Z := wrap 32 n.
Definition tri (n : Z) : Z := swrap 32 n.

(** ** GenPrep *)

(** [m && !(m & (m - 1))], cgmips.c:1086, 1230. *)
Definition pow2 (m : Z) : bool := negb (m =? 0) && (Z.land m (m - 1) =? 0).

Definition num_of (t : mtok) : option Z :=
  match t with MT (TNum n) | MT (TNumU n) => Some n | _ => None end.
(** [stack[i][1] = n] on a number. *)
Definition renum (t : mtok) (n : Z) : mtok :=
  match t with MT (TNumU _) => MT (TNumU n) | _ => MT (TNum n) end.
(** tokUDiv, tokUMod, tokAssignUDiv, tokAssignUMod (cgmips.c:1078-1081): whether it is a
    remainder, and the token with another operator. *)
Definition udiv_kind (t : mtok) : option (bool * (arith -> mtok)) :=
  match t with
  | MT (TArith BUDiv v) => Some (false, fun a => MT (TArith a v))
  | MT (TArith BUMod v) => Some (true, fun a => MT (TArith a v))
  | MT (TAssignOp BUDiv v) => Some (false, fun a => MT (TAssignOp a v))
  | MT (TAssignOp BUMod v) => Some (true, fun a => MT (TAssignOp a v))
  | _ => None
  end.
(** cgmips.c:1076-1103.  [while (m >>= 1) t1++] is the binary logarithm; [m - 1] fits int. *)
Definition prep_udiv (s : list mtok) (t : mtok) (orr : Z) : option (list mtok * mtok) :=
  match udiv_kind t with
  | None => Some (s, t)
  | Some (md, mk) =>
      let? r := zget s orr in
      match num_of r with
      | None => Some (s, t)
      | Some n =>
          let m := tru n in
          if pow2 m then
            let t' := mk (if md then BAnd else BUShr) in
            let? s := zset s orr (renum r (if md then m - 1 else Z.log2 m)) in
            let? s := zset s (orr + 1) t' in
            Some (s, t')
          else Some (s, t)
      end
  end.

(** [memmove(stack[i], stack[i + 1], (j - i) * ...)] followed by storing [t] at [j]. *)
Definition rotate (s : list mtok) (i j : Z) (t : mtok) : option (list mtok) :=
  if (0 <=? i) && (i <=? j) && (j <? zlen s) then
    Some (firstn (Z.to_nat i) s ++
          firstn (Z.to_nat (j - i)) (skipn (Z.to_nat (i + 1)) s) ++
          t :: skipn (Z.to_nat (j + 1)) s)
  else None.

(** cgmips.c:1157-1164: an assigned variable becomes the last operand. *)
Definition prep_rev (s : list mtok) (ol orr : Z) : option (list mtok) :=
  let? t := zget s ol in
  match t with
  | MT (TIdent n) => rotate s ol orr (RevIdent n)
  | MT (TLocal n) => rotate s ol orr (RevLocal n)
  | _ => Some s
  end.

(** cgmips.c:1203-1222: the operator after exchanging its operands. *)
Definition flip (t : tok) : tok :=
  match t with
  | TCmp c v =>
      TCmp (match c with
            | CLt => CGt | CGt => CLt | CLe => CGe | CGe => CLe
            | CULt => CUGt | CUGt => CULt | CULe => CUGe | CUGe => CULe
            | c => c
            end) v
  | t => t
  end.
(** cgmips.c:1225-1280: operators with a constant right operand: the new constant and operator. *)
Definition special_const (t : tok) (n : Z) : Z * tok :=
  let m := tru n in
  match t with
  | TArith BMul v => if pow2 m then (Z.log2 m, TArith BShl v) else (n, t)
  | TCmp CLe v => if m =? 2147483647 then (0, TCmp CUGe v) else (n, t)
  | TCmp CULe v => if m =? 4294967295 then (0, TCmp CUGe v) else (n, t)
  | TCmp CGt v => if m =? 2147483647 then (0, TArith BAnd v) else (n, t)
  | TCmp CUGt v => if m =? 4294967295 then (0, TArith BAnd v) else (n, t)
  | _ => (n, t)
  end.
(** cgmips.c:1188-1282. *)
Definition prep_comm (s : list mtok) (t : tok) (ol orr : Z) : option (list mtok) :=
  let? r := zget s orr in
  let? l := zget s ol in
  let? (s, t) :=
    match r, l with
    | MT (TNum _), _ => Some (s, t)
    | _, MT (TNum n) => let? s := rotate s ol orr (MT (TNum n)) in Some (s, flip t)
    | _, _ => Some (s, t)
    end in
  let? r := zget s orr in
  match r with
  | MT (TNum n) =>
      let '(n', t') := special_const t n in
      let? s := zset s orr (MT (TNum n')) in
      zset s (orr + 1) (MT t')
  | _ => zset s (orr + 1) (MT t)
  end.

(** cgmips.c:1141-1151: [x = 0] whose value is not used. *)
Definition prep_assign0 (s : list mtok) (t : mtok) (orr : Z) : option (list mtok) :=
  match t with
  | MT (TAssign v) =>
      let? r := zget s orr in
      match num_of r with
      | Some n =>
          if (orr + 1 =? zlen s - 1) && (tru n =? 0) then
            let? s := zset s orr Num0 in zset s (orr + 1) (Assign0 v)
          else Some s
      | None => Some s
      end
  | _ => Some s
  end.

Inductive pkind := PLeaf | POne | PTwo | PAssign | PComm (t : tok) | PCall | PBad.
(** The cases of the switch, cgmips.c:1105-1291. *)
Definition prep_kind (t : mtok) : pkind :=
  match t with
  | Num0 => PLeaf
  | MT t =>
      match t with
      | TNum _ | TNumU _ | TIdent _ | TLocal _ => PLeaf
      | TPostAdd _ | TPostSub _ | TLogAnd _ | TLogOr _ | TComma => PTwo
      | TArith (BSub | BDiv | BMod | BUDiv | BUMod | BShl | BShr | BUShr) _ => PTwo
      | TArith _ _ | TCmp _ _ => PComm t
      | TShortCirc _ | TGoto _ | TStar _ | TInc _ | TDec _ | TPostInc _ | TPostDec _ | TUn _ => POne
      | TAssign _ | TAssignOp _ _ => PAssign
      | TRParen _ => PCall
      | _ => PBad
      end
  | _ => PBad
  end.

(** cgmips.c:1062-1303, GenPrep: the new stack and [*idx]. *)
Fixpoint gen_prep (fuel : nat) (s : list mtok) (idx : Z) : option (list mtok * Z) :=
  match fuel with
  | O => None
  | S fuel =>
      let? t := zget s idx in
      let orr := idx - 1 in
      let? (s, t) := prep_udiv s t orr in
      match prep_kind t with
      | PLeaf =>
          match t with
          | MT (TNumU n) => let? s := zset s idx (MT (TNum n)) in Some (s, orr)
          | _ => Some (s, orr)
          end
      | POne => gen_prep fuel s orr
      | PTwo => let? (s, ol) := gen_prep fuel s orr in gen_prep fuel s ol
      | PAssign =>
          let? s := prep_assign0 s t orr in
          let? (s, ol) := gen_prep fuel s orr in
          let? (s, i) := gen_prep fuel s ol in
          let? s := prep_rev s ol orr in
          Some (s, i)
      | PComm t =>
          let? (s, ol) := gen_prep fuel s orr in
          let? (s, i) := gen_prep fuel s ol in
          let? s := prep_comm s t ol orr in
          Some (s, i)
      | PCall => prep_args fuel s orr
      | PBad => None
      end
  end
(** cgmips.c:1285-1293. *)
with prep_args (fuel : nat) (s : list mtok) (idx : Z) : option (list mtok * Z) :=
  match fuel with
  | O => None
  | S fuel =>
      let? t := zget s idx in
      match t with
      | MT (TLParen _) => Some (s, idx - 1)
      | _ =>
          let? (s, idx) := gen_prep fuel s idx in
          let? t := zget s idx in
          prep_args fuel s (match t with MT TArgSep => idx - 1 | _ => idx end)
      end
  end.

(** ** Emission helpers *)

(** cgmips.c:409-432, GenPrintInstr3Operands: an addition of 0 in place is dropped. *)
Definition gen3c (op : malu) (rd rs n : Z) : list mins :=
  match op with
  | Maddu | Msubu => if (n =? 0) && (rd =? rs) then [] else [Malu op rd rs (OC n)]
  | _ => [Malu op rd rs (OC n)]
  end.
Definition gen3 (op : malu) (rd rs rt : Z) : list mins := [Malu op rd rs (OR rt)].

(** cgmips.c:434-485, GenExtendRegIfNeeded. *)
Definition gen_extend (reg sz : Z) : list mins :=
  if sz =? -1 then [Mseb reg reg] else if sz =? 1 then gen3c Mand reg reg 255
  else if sz =? -2 then [Mseh reg reg] else if sz =? 2 then gen3c Mand reg reg 65535 else [].
(** cgmips.c:580-589, GenGrowStack. *)
Definition gen_grow (size : Z) : list mins := if size =? 0 then [] else gen3c Msubu rSP rSP size.
(** cgmips.c:683-825: reads and writes.  The size of the access: [lw] and [sw] unless 1, 2. *)
Definition lsize (sz : Z) : Z := if (sz =? -1) || (sz =? 1) || (sz =? -2) || (sz =? 2) then sz else 4.
Definition read_ident (rd sz id : Z) : list mins := [Mluihi id; Mload (lsize sz) rd (ALo id)].
Definition read_local (rd sz ofs : Z) : list mins := [Mload (lsize sz) rd (AInd ofs rFP)].
Definition read_ind (rd rs sz : Z) : list mins := [Mload (lsize sz) rd (AInd 0 rs)].
Definition write_ident (rs sz id : Z) : list mins := [Mluihi id; Mstore (Z.abs (lsize sz)) rs (ALo id)].
Definition write_local (rs sz ofs : Z) : list mins := [Mstore (Z.abs (lsize sz)) rs (AInd ofs rFP)].
Definition write_ind (rd rs sz : Z) : list mins := [Mstore (Z.abs (lsize sz)) rs (AInd 0 rd)].

(** Where an operand is. *)
Inductive place := PId (id : Z) | PLoc (ofs : Z) | PReg (r : Z).
Definition gread (p : place) (rd sz : Z) : list mins :=
  match p with PId id => read_ident rd sz id | PLoc o => read_local rd sz o | PReg r => read_ind rd r sz end.
Definition gwrite (p : place) (rs sz : Z) : list mins :=
  match p with PId id => write_ident rs sz id | PLoc o => write_local rs sz o | PReg r => write_ind r rs sz end.
(** cgmips.c:827-876, GenIncDecIdent, GenIncDecLocal, GenIncDecIndirect. *)
Definition gen_incdec (inc : bool) (p : place) (rd sz : Z) : list mins :=
  gread p rd sz ++ gen3c (if inc then Maddu else Msubu) rd rd 1 ++ gwrite p rd sz ++ gen_extend rd sz.
(** cgmips.c:878-939: the postfix forms. *)
Definition gen_postincdec (inc : bool) (p : place) (rd sz : Z) : list mins :=
  let i := if inc then Maddu else Msubu in
  gread p rd sz ++ gen3c i rd rd 1 ++ gwrite p rd sz ++ gen3c i rd rd (-1) ++ gen_extend rd sz.
(** cgmips.c:487-531. *)
Definition gen_jump (l : Z) : list mins := [Mj l].
Definition gen_jump_if_zero (w l : Z) : list mins := [Mbr true w 0 l].
Definition gen_jump_if_not_zero (w l : Z) : list mins := [Mbr false w 0 l].

(** cgmips.c:619-680, GenGetBinaryOperatorInstr (the divisions are handled apart). *)
Definition alu_of (a : arith) : malu :=
  match a with
  | BAdd => Maddu | BSub => Msubu | BAnd => Mand | BXor => Mxor | BOr => Mor
  | BShl => Msll | BShr => Msra | BUShr => Msrl | _ => Mmul
  end.
Definition is_div (a : arith) : option (bool * bool) :=     (* signed, remainder *)
  match a with
  | BDiv => Some (true, false) | BMod => Some (true, true)
  | BUDiv => Some (false, false) | BUMod => Some (false, true) | _ => None
  end.
(** [rd := rs op rt], cgmips.c:1711-1770. *)
Definition gen_bin (a : arith) (rd rs rt : Z) : list mins :=
  match is_div a with
  | Some (sgn, rem) => [Mdiv sgn rs rt; if rem then Mmfhi rd else Mmflo rd]
  | None => gen3 (alu_of a) rd rs rt
  end.

(** ** State of the generator: gotUnary, GenWreg, TempsUsed, paramOfs *)
Record gst := mkg { gu : bool; wr : Z; tu : Z; po : Z }.
Definition set_gu (b : bool) (g : gst) := mkg b (wr g) (tu g) (po g).
Definition set_wr (w : Z) (g : gst) := mkg (gu g) w (tu g) (po g).

Section Gen.
Variable mcd : Z.                        (* maxCallDepth *)
Definition can_use := mcd =? 0.          (* CanUseTempRegs *)

(** cgmips.c:989-1008, GenWregInc. *)
Definition winc (w : Z) := if w =? rV0 then rT0 else w + 1.
Definition wdec (w : Z) := if w =? rT0 then rV0 else w - 1.
(** cgmips.c:1010-1030, GenPushReg. *)
Definition push_reg (g : gst) : list mins * gst :=
  if can_use && (tu g <? MAX_TEMP_REGS) then ([], mkg (gu g) (winc (wr g)) (tu g + 1) (po g))
  else (gen3c Msubu rSP rSP 4 ++ [Mstore 4 (wr g) (AInd 0 rSP)], mkg (gu g) (wr g) (tu g + 1) (po g)).
Definition push_if (g : gst) : list mins * gst := if gu g then push_reg g else ([], g).
(** cgmips.c:1032-1055, GenPopReg: the code, the left and the right register. *)
Definition pop_reg (g : gst) : list mins * Z * Z * gst :=
  let t := tu g - 1 in
  if can_use && (t <? MAX_TEMP_REGS) then
    ([], wdec (wr g), wr g, mkg (gu g) (wdec (wr g)) t (po g))
  else (Mload 4 rTA (AInd 0 rSP) :: gen3c Maddu rSP rSP 4, rTA, wr g, mkg (gu g) (wr g) t (po g)).

(** ** GenCmp *)

(** cgmips.c:1354-1380: the building blocks. *)
Inductive blk := Ba | Bb | Bc | Bd | Be | Bf | Bg | Bh | Bi | Bj | Bk | Bl | Bm | Bn | Bo | Bp | Bq | Br | Bs | Bt.
Definition cmp_blocks (op : Z) (branch : bool) (constness : Z) : list blk :=
  let pick (a b c : list blk) := if constness =? 0 then a else if constness =? 1 then b else c in
  if op =? 0 then if branch then pick [Bf] [Bm; Bc] [Bi; Bc] else pick [Bk] [Bm] [Bi]
  else if op =? 1 then if branch then pick [Bg] [Bn; Bc] [Bj; Bd] else pick [Bl] [Bn] [Bj; Bs]
  else if op =? 2 then if branch then pick [Bh] [Bn; Bd] [Bj; Bc] else pick [Bo] [Bn; Bs] [Bj]
  else if op =? 3 then if branch then pick [Be] [Bm; Bd] [Bi; Bd] else pick [Bk; Bs] [Bm; Bs] [Bi; Bs]
  else if op =? 4 then if branch then pick [Bd] [Bt; Bd] [Bb] else pick [Bq] [Bt; Bq] [Br; Bq]
  else if branch then pick [Bc] [Bt; Bc] [Ba] else pick [Bp] [Bt; Bp] [Br; Bp].

(** cgmips.c:1413-1520: one block; [br] is [condbranch == 1] (branch if true) at this point and
    the code is complete after a branch, so its changes are not kept.  [k] is [constval]. *)
Definition gen_blk (b : blk) (slt : malu) (br : bool) (k w L R lab : Z) : list mins :=
  match b with
  | Ba => [Mbr (negb br) L R lab]
  | Bb => [Mbr br L R lab]
  | Bc => [Mbr (negb br) w 0 lab]
  | Bd => [Mbr br w 0 lab]
  | Be => [Mbz (if negb br then Bltz else Bgez) w lab]
  | Bf => [Mbz (if br then Bltz else Bgez) w lab]
  | Bg => [Mbz (if negb br then Bgtz else Blez) w lab]
  | Bh => [Mbz (if br then Bgtz else Blez) w lab]
  | Bi => gen3 slt w L R
  | Bj => gen3 slt w R L
  | Bk => gen3 slt w w 0
  | Bl => gen3c slt w w 1
  | Bm => gen3c slt w w k
  | Bn => gen3c slt w w (k + 1)
  | Bo => gen3 slt w 0 w
  | Bp => gen3 Msltu w 0 w
  | Bq => gen3c Msltu w w 1
  | Br => gen3 Mxor w L R
  | Bs => gen3c Mxor w w 1
  | Bt => gen3c Mxor w w k
  end.

(** cgmips.c:2057-2066: the numbers of the operators, and whether they are unsigned. *)
Definition cmp_op (c : cond) : Z * bool :=
  match c with
  | CLt => (0, false) | CLe => (1, false) | CGt => (2, false) | CGe => (3, false)
  | CULt => (0, true) | CULe => (1, true) | CUGt => (2, true) | CUGe => (3, true)
  | CEq => (4, false) | CNe => (5, false)
  end.

(** cgmips.c:1383-1525, GenCmp: the code, whether the branch after it was consumed, the state. *)
Definition gen_cmp (c : cond) (prev : option mtok) (next : option mtok) (g : gst) : list mins * bool * gst :=
  let '(op, uns) := cmp_op c in
  let constness := match prev with Some (MT (TNum n)) => if n =? 0 then 0 else 1 | _ => 2 end in
  let constval := match prev with Some (MT (TNum n)) => if n =? 0 then 0 else tri n | _ => 0 end in
  let '(branch, br, lab) :=
    match next with
    | Some (MT (TIf l)) => (true, true, l)
    | Some (MT (TIfNot l)) => (true, false, l)
    | _ => (false, false, 0)
    end in
  let '(pc, L, R, g) := if constness =? 2 then pop_reg g else ([], 0, 0, g) in
  let special := branch && (op <? 4) && (constness =? 0) && uns in
  let op := if special && (op =? 2) then 5 else op in
  let constness := if special && negb (op =? 5) then 1 else constness in
  let slt := if uns then Msltu else Mslt in
  (pc ++ concat (map (fun b => gen_blk b slt br constval (wr g) L R lab) (cmp_blocks op branch constness)),
   branch, g).

(** ** GenExpr0 *)

(** cgmips.c:1613-1624: numbers that become immediate operands of the next instruction. *)
Definition imm_next (o : option mtok) : bool :=
  match o with
  | Some (MT (TArith (BAdd | BSub | BAnd | BXor | BOr | BShl | BShr | BUShr) _)) => true
  | Some (MT (TCmp _ _)) => true
  | _ => false
  end.
(** cgmips.c:1640-1645, 1659-1663. *)
Definition direct_next (o : option mtok) : bool :=
  match o with
  | Some (MT (TStar _ | TInc _ | TDec _ | TPostInc _ | TPostDec _)) => true
  | _ => false
  end.
Definition is_rpar (o : option mtok) : bool := match o with Some (MT (TRParen _)) => true | _ => false end.
Definition place_of (prev : option mtok) (r : Z) : place :=
  match prev with Some (MT (TIdent n)) => PId n | Some (MT (TLocal n)) => PLoc n | _ => PReg r end.
Definition rev_place (prev : option mtok) : option place :=
  match prev with Some (RevIdent n) => Some (PId n) | Some (RevLocal n) => Some (PLoc n) | _ => None end.

(** cgmips.c:1797-1815, 1833-1872 (tokPostAdd etc. and compound assignment): what is saved where. *)
Definition gen_postby (add : bool) (w L R sz : Z) : list mins :=
  let i := if add then Maddu else Msubu in
  if w =? L then
    Mmove rTB L :: read_ind w rTB sz ++ gen3 i rTA w R ++ write_ind rTB rTA sz
  else
    Mmove rTB R :: read_ind w L sz ++ gen3 i rTB w rTB ++ write_ind L rTB sz.
Definition gen_assignop (a : arith) (w L R sz : Z) : list mins :=
  let '(lsaved, rsaved, save) :=
    if w =? L then (rTB, R, Mmove rTB L) else (L, rTB, Mmove rTB R) in
  save :: read_ind w L sz ++ gen_bin a w w rsaved ++ write_ind lsaved w sz.

(** cgmips.c:1572-2168: the iteration at position [i]: code, next position, state.
    (The annotation output is not modelled.) *)
Definition gen_step (s : list mtok) (i : Z) (g : gst) : option (list mins * Z * gst) :=
  let? t := zget s i in
  let prev := zget s (i - 1) in
  let next := zget s (i + 1) in
  let w := wr g in
  match t with
  | MT t =>
      match t with
      | TNum v =>
          if imm_next next then Some ([], i + 1, set_gu true g)
          else let '(c, g) := push_if g in Some (c ++ [Mli (wr g) v], i + 1, set_gu true g)
      | TIdent v =>
          let '(c, g) := push_if g in
          Some (c ++ (if is_rpar next || direct_next next then [] else [Mla (wr g) v]), i + 1, set_gu true g)
      | TLocal v =>
          let '(c, g) := push_if g in
          Some (c ++ (if direct_next next then [] else gen3c Maddu (wr g) rFP v), i + 1, set_gu true g)
      | TLParen v =>
          let '(c, g) := push_if g in
          let c := c ++ (if negb (mcd =? 1) && (v <? 16) then gen_grow (16 - v) else []) in
          let p := v - 4 in
          let w := if (mcd =? 1) && (0 <=? p) && (p <=? 12) then rA0 + p / 4 else wr g in
          Some (c, i + 1, mkg false w (tu g) p)
      | TArgSep =>
          if mcd =? 1 then
            let p := po g in
            if p =? 16 then
              let '(c, g) := push_reg g in Some (c, i + 1, mkg false rA3 (tu g) (p - 4))
            else if (0 <=? p) && (p <=? 12) then
              Some ([], i + 1, mkg false (if p =? 0 then rV0 else w - 1) (tu g) (p - 4))
            else Some ([], i + 1, mkg (gu g) w (tu g) (p - 4))
          else Some ([], i + 1, g)
      | TRParen v =>
          let args :=
            if negb (mcd =? 1) then
              (if 4 <=? v then [Mload 4 rA0 (AInd 0 rSP)] else []) ++
              (if 8 <=? v then [Mload 4 (rA0 + 1) (AInd 4 rSP)] else []) ++
              (if 12 <=? v then [Mload 4 (rA0 + 2) (AInd 8 rSP)] else []) ++
              (if 16 <=? v then [Mload 4 (rA0 + 3) (AInd 12 rSP)] else [])
            else gen_grow 16 in
          let call := match prev with Some (MT (TIdent n)) => [Mjal n] | _ => [Mjalr w] end in
          Some (args ++ call ++ gen_grow (- (if v <? 16 then 16 else v)), i + 1, g)
      | TStar v => Some (gread (place_of prev w) w v, i + 1, g)
      | TUn UPlus => Some ([], i + 1, g)
      | TUn UNot => Some (gen3 Mnor w w w, i + 1, g)
      | TUn UMinus => Some (gen3 Msubu w 0 w, i + 1, g)
      | TUn UBool => Some (gen3 Msltu w 0 w, i + 1, g)
      | TUn USChar => Some ([Mseb w w], i + 1, g)
      | TUn UUChar => Some (gen3c Mand w w 255, i + 1, g)
      | TUn UShort => Some ([Mseh w w], i + 1, g)
      | TUn UUShort => Some (gen3c Mand w w 65535, i + 1, g)
      | TUn UVoid => Some ([], i + 1, set_gu false g)
      | TArith a _ =>
          let plain := let '(c, L, R, g) := pop_reg g in Some (c ++ gen_bin a (wr g) L R, i + 1, g) in
          match is_div a, a, prev with
          | Some _, _, _ => plain
          | None, BMul, _ => plain
          | None, _, Some (MT (TNum n)) => Some (gen3c (alu_of a) w w n, i + 1, g)
          | None, _, _ => plain
          end
      | TInc v | TDec v =>
          let inc := match t with TInc _ => true | _ => false end in
          Some (match place_of prev rTA with
                | PReg r => Mmove r w :: gen_incdec inc (PReg r) w v
                | p => gen_incdec inc p w v
                end, i + 1, g)
      | TPostInc v | TPostDec v =>
          let inc := match t with TPostInc _ => true | _ => false end in
          Some (match place_of prev rTA with
                | PReg r => Mmove r w :: gen_postincdec inc (PReg r) w v
                | p => gen_postincdec inc p w v
                end, i + 1, g)
      | TPostAdd v | TPostSub v =>
          let add := match t with TPostAdd _ => true | _ => false end in
          let '(c, L, R, g) := pop_reg g in
          Some (c ++ gen_postby add (wr g) L R v, i + 1, g)
      | TAssignOp a v =>
          match rev_place prev with
          | Some p =>
              Some (gread p rTB v ++ gen_bin a w rTB w ++ gwrite p w v ++ gen_extend w v, i + 1, g)
          | None =>
              let '(c, L, R, g) := pop_reg g in
              Some (c ++ gen_assignop a (wr g) L R v ++ gen_extend (wr g) v, i + 1, g)
          end
      | TAssign v =>
          match rev_place prev with
          | Some p => Some (gwrite p w v ++ gen_extend w v, i + 1, g)
          | None =>
              let '(c, L, R, g) := pop_reg g in
              Some (c ++ write_ind L R v ++ (if wr g =? R then [] else [Mmove (wr g) R]) ++
                    gen_extend (wr g) v, i + 1, g)
          end
      | TCmp c _ =>
          let '(code, skip, g) := gen_cmp c prev next g in
          Some (code, if skip : bool then i + 2 else i + 1, g)
      | TShortCirc v =>
          Some (if v >=? 0 then gen_jump_if_zero w v else gen_jump_if_not_zero w (- v), i + 1, set_gu false g)
      | TGoto v => Some (gen_jump v, i + 1, set_gu false g)
      | TLogAnd v | TLogOr v => Some ([Mlab v], i + 1, g)
      | TComma | TReturn => Some ([], i + 1, g)
      | TIf l => Some (gen_jump_if_not_zero w l, i + 1, g)
      | TIfNot l => Some (gen_jump_if_zero w l, i + 1, g)
      | _ => None
      end
  | RevIdent _ | RevLocal _ | Num0 => Some ([], i + 1, g)
  | Assign0 v =>
      Some (match rev_place prev with
            | Some p => gwrite p 0 v
            | None => write_ind w 0 v
            end, i + 1, g)
  end.

(** The loop; [errorInternal(104)] if the working register is not back. *)
Fixpoint gen_loop (fuel : nat) (s : list mtok) (i : Z) (g : gst) : option (list mins) :=
  if i >=? zlen s then (if wr g =? rV0 then Some [] else None) else
  match fuel with
  | O => None
  | S fuel =>
      let? (c, i', g') := gen_step s i g in
      let? r := gen_loop fuel s i' g' in
      Some (c ++ r)
  end.
End Gen.

(** cgmips.c:1558-1567. *)
Fixpoint max_call_depth (s : list mtok) (d mx : Z) : Z :=
  match s with
  | [] => mx
  | MT (TLParen _) :: s => max_call_depth s (d + 1) (Z.max mx (d + 1))
  | MT (TRParen _) :: s => max_call_depth s (d - 1) mx
  | _ :: s => max_call_depth s d mx
  end.

(** cgmips.c:1545-2173, GenExpr0. *)
Definition gen_expr (s : stack) : option (list mins) :=
  let s := map MT s in
  let? t := zget s (zlen s - 1) in
  let e := match t with MT (TIf _ | TIfNot _ | TReturn) => zlen s - 2 | _ => zlen s - 1 end in
  let? (s, _) := gen_prep (2 * length s + 2) s e in
  gen_loop (max_call_depth s 0 0) (length s) s 0 (mkg false rV0 0 0).
