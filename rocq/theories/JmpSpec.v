(** setjmp and longjmp: what they must do, and the instructions that only they use. *)
From Verif Require Import Base X86 CgModel ExprSpec MachSpec FnSpec HelpSpec.

(** The machine of HelpSpec.v with the flags as a word (ZF is bit 6) and the code segment. *)
Record jst := mkj { jh : hst; jf : Z; jcs : Z }.
Definition jmem (j : jst) : Z -> Z := M (hs (jh j)).
Definition jax (j : jst) : Z := ea (hs (jh j)).
Definition jsp (j : jst) : Z := esp (hs (jh j)).
Definition jbp (j : jst) : Z := ebp (hs (jh j)).

(** An instruction of HelpSpec.v; mov [b+d], r; pushf; pop [b+d]; xor r, r; or r, r; setz bl;
    or al, bl; push [b+d]; push cs; iret. *)
Inductive jins :=
| JH (i : hins) | Jst (b : hreg) (d : Z) (r : hreg) | Jpushf | JpopM (b : hreg) (d : Z) | Jxor (r : hreg) | Jor (r : hreg)
| Jsetz_bl | Jor_al_bl | JpushM (b : hreg) (d : Z) | Jpushcs | Jiret.

(** The flags after a logical operation with this result: ZF.  (The others are left alone here, and
    so are all flags by the instructions of HelpSpec.v, of which only mov, lea, push and leave are used.) *)
Definition lflags (r f : Z) : Z := if r =? 0 then Z.lor f 64 else Z.ldiff f 64.

Section JmpSpec.
Variable W : Z.
Let nW := Z.to_nat W.

Definition put (a v : Z) (h : hst) : hst := with_st (set_M (stn W nW (M (hs h)) a v) (hs h)) h.

(** Run instructions in sequence: the new state, and the address that ret or iret goes to if it was
    reached. *)
Fixpoint jexecs (addr : Z -> Z) (l : list jins) (j : jst) : option (option Z * jst) :=
  let h := jh j in
  match l with
  | [] => Some (None, j)
  | JH i :: l =>
      let? (r, h') := hexecs W addr [i] h in
      match r with Some a => Some (Some a, mkj h' (jf j) (jcs j)) | None => jexecs addr l (mkj h' (jf j) (jcs j)) end
  | Jst b d r :: l => jexecs addr l (mkj (put (uw W (hget b h + d)) (hget r h) h) (jf j) (jcs j))
  | Jpushf :: l => jexecs addr l (mkj (pushw W (jf j) h) (jf j) (jcs j))
  | JpopM b d :: l =>
      let v := ldn W nW (M (hs h)) (esp (hs h)) in
      let h := with_st (set_esp (uw W (esp (hs h) + W)) (hs h)) h in
      jexecs addr l (mkj (put (uw W (hget b h + d)) v h) (jf j) (jcs j))
  | Jxor r :: l => jexecs addr l (mkj (hset r 0 h) (lflags 0 (jf j)) (jcs j))
  | Jor r :: l => jexecs addr l (mkj h (lflags (hget r h) (jf j)) (jcs j))
  | Jsetz_bl :: l =>
      jexecs addr l (mkj (hset Hbx (hget Hbx h / 256 * 256 + (if Z.testbit (jf j) 6 then 1 else 0)) h) (jf j) (jcs j))
  | Jor_al_bl :: l =>
      let r := Z.lor (hget Hax h mod 256) (hget Hbx h mod 256) in
      jexecs addr l (mkj (hset Hax (hget Hax h / 256 * 256 + r) h) (lflags r (jf j)) (jcs j))
  | JpushM b d :: l => jexecs addr l (mkj (pushw W (ldn W nW (M (hs h)) (uw W (hget b h + d))) h) (jf j) (jcs j))
  | Jpushcs :: l => jexecs addr l (mkj (pushw W (jcs j) h) (jf j) (jcs j))
  | Jiret :: _ =>
      let p := esp (hs h) in
      Some (Some (ldn W nW (M (hs h)) p),
            mkj (with_st (set_esp (uw W (p + 3 * W)) (hs h)) h) (ldn W nW (M (hs h)) (uw W (p + 2 * W))) (ldn W nW (M (hs h)) (uw W (p + W)) mod 65536))
  end.

(** A call of the routine from [j], to come back at [ra], ends by going to address [t] in state [j']. *)
Definition jcall (addr : Z -> Z) (code : list jins) (ra : Z) (j : jst) (t : Z) (j' : jst) : Prop :=
  jexecs addr code (mkj (with_st (push_ra W ra (hs (jh j))) (jh j)) (jf j) (jcs j)) = Some (Some t, j').

(** A call is possible here: registers in range, [n] words of stack below, arguments [vs] above. *)
Definition at_call (n : Z) (vs : list Z) (j : jst) : Prop :=
  regs W (jbp j) (hs (jh j)) /\ 0 <= jbp j < 2 ^ (8 * W) /\ 0 <= jf j < 2 ^ (8 * W) /\ 0 <= jcs j < 65536 /\
  n * W <= jsp j /\ jsp j + W * zlen vs < 2 ^ (8 * W) /\ args_at W (jmem j) (jsp j) vs.

(** The buffer at [jb] (4 words) lies in memory, outside the [n] words below [sp]. *)
Definition clear_of (jb n sp : Z) : Prop :=
  0 <= jb /\ jb + 4 * W <= 2 ^ (8 * W) /\ (jb + 4 * W <= sp - n * W \/ sp <= jb).
End JmpSpec.
