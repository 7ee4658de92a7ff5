(** Model of the linker, v0100/smlrl.c: symbol resolution, section layout, relocation and writing.
    Object files are taken after loading (loadElfObj, 932-1166): headers, symbol tables, relocation
    tables and string tables are lists; a symbol's or section's name is the list of its characters
    (the string table lookup is done).  Built with SUPPORT_LOCAL_RELS (117-129, the default).
    [Err]: the linker ends with an error message; [Oob]: an array is accessed out of bounds. *)
From Verif Require Import Base LexModel LexSpec.
From Coq Require Import String.
Close Scope string_scope.

(** ** the data: smlrl.c 170-250 and 573-612 *)
(** Elf32_Sym; [st_name] is [None] when the field st_name is 0; st_info = bind * 16 + type *)
Record sym := mkSym { st_name : option (list Z); st_bind : Z; st_type : Z; st_shndx : Z; st_value : Z }.
(** Elf32_Rel; r_info = symbol index * 256 + type *)
Record rel := mkRel { r_offset : Z; r_sym : Z; r_type : Z }.
(** Elf32_Shd with the section's contents: [s_bytes] what the file holds at sh_offset, [s_syms] and
    [s_rels] the tables of a SHT_SYMTAB and of a SHT_REL section (sorted by offset, 1122) *)
Record sect := mkSect { sh_name : list Z; sh_type : Z; sh_flags : Z; sh_size : Z; sh_link : Z; sh_info : Z;
  sh_align : Z; s_bytes : list Z; s_syms : list sym; s_rels : list rel }.
(** tElfMeta: its sections (the flag Needed is kept aside) *)
Definition obj := list sect.

Definition SHT_PROGBITS : Z := 1.
Definition SHT_SYMTAB : Z := 2.
Definition SHT_NOBITS : Z := 8.
Definition SHT_REL : Z := 9.
Definition SHF_WRITE : Z := 1.
Definition SHF_ALLOC : Z := 2.
Definition SHF_EXECINSTR : Z := 4.
Definition SHN_COMMON : Z := 65522.
Definition STB_LOCAL : Z := 0.
Definition STB_GLOBAL : Z := 1.
Definition STT_SECTION : Z := 3.
Definition R_386_32 : Z := 1.
Definition R_386_PC32 : Z := 2.
Definition R_386_16 : Z := 20.
Definition R_386_PC16 : Z := 21.

(** smlrl.c 625-634 *)
Definition FormatDosComTiny : Z := 1.
Definition FormatDosExeSmall : Z := 2.
Definition FormatDosExeHuge : Z := 3.
Definition FormatDosExeUnreal : Z := 4.
Definition FormatFlat16 : Z := 5.
Definition FormatFlat32 : Z := 6.
Definition FormatWinPe32 : Z := 7.
Definition FormatElf32 : Z := 8.
Definition FormatAout : Z := 9.
Definition FormatMach32 : Z := 10.

Definition has (m x : Z) : bool := negb (Z.land x m =? 0).

(** ** relocating one field: smlrl.c 1721-1753, the end of Relocate; [i] is the index of [buf] in the buffer *)
Definition reloc1 (buf : list Z) (i ty symAddr off : Z) : res (list Z) :=
  if (ty =? R_386_32) || (ty =? R_386_PC32) then
    let! b0 := inb (zget buf i) in let! b1 := inb (zget buf (i + 1)) in
    let! b2 := inb (zget buf (i + 2)) in let! b3 := inb (zget buf (i + 3)) in
    let dd := u32 (b0 + u32 (Z.shiftl b1 8) + u32 (Z.shiftl b2 16) + u32 (Z.shiftl b3 24)) in
    let dd := u32 (dd + symAddr) in
    let dd := if ty =? R_386_PC32 then u32 (dd - off) else dd in
    let! buf := inb (zset buf i (u8 dd)) in
    let dd := Z.shiftr dd 8 in let! buf := inb (zset buf (i + 1) (u8 dd)) in
    let dd := Z.shiftr dd 8 in let! buf := inb (zset buf (i + 2) (u8 dd)) in
    let dd := Z.shiftr dd 8 in inb (zset buf (i + 3) (u8 dd))
  else if (ty =? R_386_16) || (ty =? R_386_PC16) then
    let! b0 := inb (zget buf i) in let! b1 := inb (zget buf (i + 1)) in
    let dd := u32 (b0 + u32 (Z.shiftl b1 8)) in
    let dd := u32 (dd + symAddr) in
    let dd := if ty =? R_386_PC16 then u32 (dd - off) else dd in
    let! buf := inb (zset buf i (u8 dd)) in
    let dd := Z.shiftr dd 8 in inb (zset buf (i + 1) (u8 dd))
  else Err.

(** ** smlrl.c 1756-1811 RelocateAndWriteSection; the symbol's address ([sval], 1669-1719) and the
    section's address ([base]) are parameters; [buf] is the static buffer with what earlier calls
    left in it; the stream's remaining bytes and the bytes written are lists *)
Definition FBUF : Z := 1024.
(** Fread(buf + sz, n) *)
Definition fread (buf : list Z) (sz n : Z) (input : list Z) : res (list Z * list Z) :=
  if zlen input <? n then Err else
  if zlen buf <? sz + n then Oob else
  Ok (firstn (Z.to_nat sz) buf ++ firstn (Z.to_nat n) input ++ skipn (Z.to_nat (sz + n)) buf, skipn (Z.to_nat n) input).

Section Slide.
Variable sval : rel -> res Z.
Variable base : Z.

(** 1784-1801: the relocations that begin in the part about to be written *)
Fixpoint relocs (buf : list Z) (ofs : Z) (rels : list rel) : res (list Z * list rel) :=
  match rels with
  | [] => Ok (buf, [])
  | r :: rest =>
      if r_offset r <? u32 (ofs + FBUF) then
        let! v := sval r in
        let! buf := reloc1 buf (r_offset r - ofs) (r_type r) v (u32 (r_offset r + base)) in
        relocs buf ofs rest
      else Ok (buf, rels)
  end.

(** 1771-1810, the loop *)
Fixpoint slide (fuel : nat) (buf : list Z) (sz ofs size : Z) (input : list Z) (rels : list rel) (out : list Z)
  : res (list Z * list Z) :=
  match fuel with
  | O => Oob
  | S fuel =>
      if sz =? 0 then Ok (buf, out) else
      let csz := if FBUF <? size then FBUF else size in
      let! (buf, input) := fread buf sz csz input in
      let size := size - csz in let sz := sz + csz in
      let! (buf, rels) := relocs buf ofs rels in
      let csz := if FBUF <? sz then FBUF else sz in
      let out := out ++ firstn (Z.to_nat csz) buf in
      let sz := sz - csz in
      if zlen buf <? FBUF + sz then Oob else
      let buf := firstn (Z.to_nat sz) (skipn (Z.to_nat FBUF) buf) ++ skipn (Z.to_nat sz) buf in
      slide fuel buf sz (u32 (ofs + FBUF)) size input rels out
  end.

Definition relocWrite (buf : list Z) (size : Z) (input : list Z) (rels : list rel) (out : list Z) : res (list Z * list Z) :=
  let csz := if 3 <? size then 3 else size in
  let! (buf, input) := fread buf 0 csz input in
  slide (S (Z.to_nat size)) buf csz 0 (size - csz) input rels out.
End Slide.

(** ** symbols *)
(** strcmp(a, b) == 0 *)
Definition nameIs (y : sym) (n : list Z) : bool := match st_name y with Some m => eqs m n | None => false end.
(** the symbols from sh_info on of a symbol table: the loop heads 1280-1282, 1346, 1415, 1640 *)
Definition globals (s : sect) : list sym :=
  if sh_type s =? SHT_SYMTAB then skipn (Z.to_nat (sh_info s)) (s_syms s) else [].
(** exported and imported symbols: 1289-1292 and 1423-1425 *)
Definition exported (y : sym) : bool :=
  (st_bind y =? STB_GLOBAL) && negb (st_shndx y =? 0) && match st_name y with Some _ => true | None => false end.
Definition imported (y : sym) : bool :=
  (st_bind y =? STB_GLOBAL) && (st_shndx y =? 0) && match st_name y with Some _ => true | None => false end.
Definition symName (y : sym) : list Z := match st_name y with Some n => n | None => [] end.
(** the two inner loops (sections, symbols) over one object are written as one list *)
Definition exports (o : obj) : list sym := filter exported (flat_map globals o).
Definition imports (o : obj) : list (list Z) := map symName (filter imported (flat_map globals o)).

Fixpoint prefixb (p s : list Z) : bool :=
  match p, s with
  | [], _ => true
  | a :: p, b :: s => (a =? b) && prefixb p s
  | _, _ => false
  end.
Definition START : list Z := str "__start_".
Definition STOP : list Z := str "__stop_".
(** 1318-1324; the four names listed there also begin with these prefixes *)
Definition boundary (n : list Z) : bool :=
  existsb (eqs n) [str "__start_allcode__"; str "__stop_allcode__"; str "__start_alldata__"; str "__stop_alldata__"]
  || (prefixb START n && (8 <? zlen n)) || (prefixb STOP n && (7 <? zlen n)).

(** pMetas[i].Needed for every i, and pDeferredSyms *)
Record rst := mkRst { needed : list bool; deferred : list (list Z) }.

(** smlrl.c 1258-1267 DeferSymbol *)
Definition defer (n : list Z) (d : list (list Z)) : list (list Z) :=
  if existsb (eqs n) d then d else d ++ [n].
(** smlrl.c 1273-1308: the first object that exports the name *)
Fixpoint findDef (objs : list obj) (i : nat) (n : list Z) : option nat :=
  match objs with
  | [] => None
  | o :: objs => if existsb (fun y => nameIs y n) (exports o) then Some i else findDef objs (S i) n
  end.
(** smlrl.c 1269-1329 FindSymbolByName *)
Definition findByName (objs : list obj) (n : list Z) (st : rst) : res (rst * bool) :=
  match findDef objs 0 n with
  | Some i =>
      match nth_error (needed st) i with
      | Some true => Ok (st, false)
      | Some false => Ok (mkRst (lset (needed st) i true) (deferred st), true)
      | None => Oob
      end
  | None => if boundary n then Ok (mkRst (needed st) (defer n (deferred st)), false) else Err
  end.
(** smlrl.c 1411-1429, one object *)
Fixpoint scanNames (objs : list obj) (ns : list (list Z)) (st : rst) (inc : bool) : res (rst * bool) :=
  match ns with
  | [] => Ok (st, inc)
  | n :: ns => let! (st, b) := findByName objs n st in scanNames objs ns st (inc || b)
  end.
(** smlrl.c 1403-1430, one round *)
Fixpoint scanObjs (objs rest : list obj) (i : nat) (st : rst) (inc : bool) : res (rst * bool) :=
  match rest with
  | [] => Ok (st, inc)
  | o :: rest =>
      match nth_error (needed st) i with
      | Some true => let! (st, inc) := scanNames objs (imports o) st inc in scanObjs objs rest (S i) st inc
      | Some false => scanObjs objs rest (S i) st inc
      | None => Oob
      end
  end.
(** smlrl.c 1397-1436 FindAllSymbols *)
Fixpoint findAll (fuel : nat) (objs : list obj) (st : rst) : res rst :=
  match fuel with
  | O => Oob
  | S fuel => let! (st, inc) := scanObjs objs objs 0 st false in if inc : bool then findAll fuel objs st else Ok st
  end.
(** smlrl.c 1331-1395 CheckDuplicates *)
Definition clash (o o2 : obj) : bool :=
  existsb (fun y => existsb (fun y2 => eqs (symName y) (symName y2)) (exports o2)) (exports o).
Fixpoint checkDups (objs : list (obj * bool)) : res unit :=
  match objs with
  | [] => Ok tt
  | (o, nd) :: rest =>
      if nd && existsb (fun o2 => snd o2 && clash o (fst o2)) rest then Err else checkDups rest
  end.
(** smlrl.c 3957-3959 (main); Needed is initially 0 (940) *)
Definition resolve (objs : list obj) (entry : list Z) : res rst :=
  let! (st, _) := findByName objs entry (mkRst (map (fun _ => false) objs) []) in
  let! st := findAll (S (List.length objs)) objs st in
  let! _ := checkDups (combine objs (needed st)) in
  Ok st.

(** ** sections *)
Record descr := mkDescr { d_name : list Z; d_attrs : Z; d_start : Z; d_stop : Z }.

Fixpoint strcmp (a b : list Z) : Z :=
  match a, b with
  | [], [] => 0
  | [], y :: _ => -1
  | _ :: _, [] => 1
  | x :: a, y :: b => if x =? y then strcmp a b else if x <? y then -1 else 1
  end.
Definition DOTTEXT : list Z := str ".text".
Definition DLL : list Z := str ".dll_".
Definition b2z (b : bool) : Z := if b then 1 else 0.
(** smlrl.c 1438-1474 SectDescCmp *)
Definition sectCmp (p1 p2 : descr) : Z :=
  let x := Z.lxor (d_attrs p1) (d_attrs p2) in
  if has SHT_NOBITS x then Z.land (d_attrs p1) SHT_NOBITS - Z.land (d_attrs p2) SHT_NOBITS else
  if has SHF_EXECINSTR x then - (Z.land (d_attrs p1) SHF_EXECINSTR - Z.land (d_attrs p2) SHF_EXECINSTR) else
  if has SHF_WRITE x then Z.land (d_attrs p1) SHF_WRITE - Z.land (d_attrs p2) SHF_WRITE else
  let i := strcmp (d_name p1) (d_name p2) in
  if negb (i =? 0) && has SHF_EXECINSTR (d_attrs p1) && eqs (d_name p1) DOTTEXT then -1 else
  if negb (i =? 0) && has SHF_EXECINSTR (d_attrs p1) && eqs (d_name p2) DOTTEXT then 1 else
  let i1 := prefixb DLL (d_name p1) in
  let i2 := prefixb DLL (d_name p2) in
  if negb (i =? 0) && has SHF_WRITE (d_attrs p1) && xorb i1 i2 then b2z i2 - b2z i1 else i.
(** qsort(pSectDescrs, ...), 1553: the names differ, so any sorting algorithm gives this list *)
Fixpoint insert (d : descr) (l : list descr) : list descr :=
  match l with
  | [] => [d]
  | e :: l' => if sectCmp d e <=? 0 then d :: l else e :: insert d l'
  end.
Definition sort (l : list descr) : list descr := fold_right insert [] l.

Definition attrs (s : sect) : Z :=
  Z.lor (Z.land (sh_flags s) (Z.lor SHF_WRITE SHF_EXECINSTR)) (Z.land (sh_type s) SHT_NOBITS).
Definition KEEP : Z := Z.lor (Z.lor SHF_WRITE SHF_EXECINSTR) SHT_NOBITS.
Definition RELOD : list Z := str ".relod".

(** 1512-1523 *)
Fixpoint findSect (ds : list descr) (n : list Z) (a : Z) : res bool :=
  match ds with
  | [] => Ok false
  | d :: ds => if eqs (d_name d) n then (if has KEEP (Z.lxor (d_attrs d) a) then Err else Ok true) else findSect ds n a
  end.
(** 1493-1509: what one relocation section adds to the generated section .relod *)
Definition relodRel (r : rel) : bool := negb (r_sym r =? 0) && (r_type r =? R_386_32).
Definition relodOf (s : sect) : Z := 4 * zlen (filter relodRel (s_rels s)).
(** 1486-1534 *)
Fixpoint addSects (fmt : Z) (ss : list sect) (ds : list descr) (relod : Z) : res (list descr * Z) :=
  match ss with
  | [] => Ok (ds, relod)
  | s :: ss =>
      if negb (has SHF_ALLOC (sh_flags s)) then
        addSects fmt ss ds (if (fmt =? FormatDosExeUnreal) && (sh_type s =? SHT_REL) then u32 (relod + relodOf s) else relod)
      else
        let! found := findSect ds (sh_name s) (attrs s) in
        if found : bool then addSects fmt ss ds relod else
        if (fmt =? FormatDosExeUnreal) && eqs (sh_name s) RELOD then Err else
        addSects fmt ss (ds ++ [mkDescr (sh_name s) (attrs s) 0 0]) relod
  end.
Fixpoint addObjs (fmt : Z) (objs : list (obj * bool)) (ds : list descr) (relod : Z) : res (list descr * Z) :=
  match objs with
  | [] => Ok (ds, relod)
  | (o, nd) :: objs =>
      if nd : bool then let! (ds, relod) := addSects fmt o ds relod in addObjs fmt objs ds relod
      else addObjs fmt objs ds relod
  end.
(** 1588-1603: does the rest of a boundary symbol's name match a section's name? *)
Fixpoint bmatch (p1 p2 : list Z) : bool :=
  match p1, p2 with
  | [], [] => true
  | a :: p1, b :: p2 => ((a =? b) || ((a =? 95) && (b =? 46))) && bmatch p1 p2
  | _, _ => false
  end.
Fixpoint findBound (ds : list descr) (i : Z) (p : list Z) : option Z :=
  match ds with
  | [] => None
  | d :: ds => if bmatch p (d_name d) then Some i else findBound ds (i + 1) p
  end.
(** tDeferredSym after 1606-1609: name, SectIdx, IsStop *)
Definition bsym := (list Z * Z * bool)%type.
Definition linkDeferred1 (ds : list descr) (n : list Z) : res bsym :=
  let isStop := negb (prefixb START n) in
  let p := skipn (if isStop then 7 else 8) n in
  match findBound ds 0 p with Some i => Ok (n, i, isStop) | None => Err end.
Fixpoint linkDeferred (ds : list descr) (ns : list (list Z)) : res (list bsym) :=
  match ns with
  | [] => Ok []
  | n :: ns => let! b := linkDeferred1 ds n in let! bs := linkDeferred ds ns in Ok (b :: bs)
  end.
(** smlrl.c 1476-1613 FindAllSections; the result: pSectDescrs (with the three hidden entries), the
    linked deferred symbols and UnrealRelodSize *)
Definition findSections (fmt : Z) (objs : list (obj * bool)) (dfr : list (list Z)) : res (list descr * list bsym * Z) :=
  let! (ds, relod) := addObjs fmt objs [] 0 in
  let ds := if relod =? 0 then ds else ds ++ [mkDescr RELOD 0 0 0] in
  let ds := sort ds in
  match ds with
  | [] => Oob
  | d0 :: _ =>
      if negb (has SHF_EXECINSTR (d_attrs d0)) then Err else
      if existsb (fun d => has SHF_EXECINSTR (d_attrs d) && has (Z.lor SHT_NOBITS SHF_WRITE) (d_attrs d)) ds then Err else
      let lastd := last ds d0 in
      let hidden := [mkDescr (str "allcode__") 0 0 0;
        mkDescr (if has SHF_EXECINSTR (d_attrs lastd) then [] else str "alldata__") 0 0 0;
        mkDescr (if (fmt =? FormatDosComTiny) || (fmt =? FormatDosExeSmall) then str "stack__" else []) 0 0 0] in
      let! bs := linkDeferred (ds ++ hidden) dfr in
      Ok (ds ++ hidden, bs, relod)
  end.

(** ** layout *)
(** OutOffset and OutFileOffset of section [s] of object [f]: the latest entry; 0 if never set (1052) *)
Record placed := mkPl { pl_obj : nat; pl_sect : nat; pl_addr : Z; pl_off : Z }.
Fixpoint outAddr (out : list placed) (f s : nat) : Z :=
  match out with
  | [] => 0
  | p :: out => if Nat.eqb (pl_obj p) f && Nat.eqb (pl_sect p) s then pl_addr p else outAddr out f s
  end.

(** smlrl.c 1615-1667 FindSymbolAddress.  A symbol table index beyond the section table (SHN_ABS, for
    example) is an access outside of pSections. *)
Definition sectAddr (out : list placed) (o : obj) (f : nat) (shndx : Z) : res Z :=
  let! _ := inb (zget o shndx) in Ok (outAddr out f (Z.to_nat shndx)).
Fixpoint findAddrSym (ys : list sym) (n : list Z) : option sym :=
  match ys with
  | [] => None
  | y :: ys => if nameIs y n then Some y else findAddrSym ys n
  end.
Fixpoint findAddrObj (objs : list (obj * bool)) (f : nat) (out : list placed) (n : list Z) : res Z :=
  match objs with
  | [] => Ok 0
  | (o, nd) :: objs =>
      match (if nd : bool then findAddrSym (exports o) n else None) with
      | Some y =>
          if st_shndx y =? SHN_COMMON then Err else
          let! a := sectAddr out o f (st_shndx y) in Ok (u32 (a + st_value y))
      | None => findAddrObj objs (S f) out n
      end
  end.
Fixpoint findBsym (bs : list bsym) (n : list Z) : option (Z * bool) :=
  match bs with
  | [] => None
  | (m, i, stop) :: bs => if eqs m n then Some (i, stop) else findBsym bs n
  end.
Definition symAddress (objs : list (obj * bool)) (bs : list bsym) (ds : list descr) (out : list placed) (n : list Z) : res Z :=
  match findBsym bs n with
  | Some (i, stop) => let! d := inb (zget ds i) in Ok (if stop : bool then d_stop d else d_start d)
  | None => findAddrObj objs 0 out n
  end.

(** smlrl.c 1669-1719, the first half of Relocate: the address the relocation refers to *)
Definition relSym (objs : list (obj * bool)) (bs : list bsym) (ds : list descr) (out : list placed)
    (f : nat) (o : obj) (rs : sect) (r : rel) : res Z :=
  if r_sym r =? 0 then Ok 0 else
  let! ss := inb (zget o (sh_link rs)) in
  let! y := inb (zget (s_syms ss) (r_sym r)) in
  if st_type y =? STT_SECTION then sectAddr out o f (st_shndx y) else
  if (st_bind y =? STB_GLOBAL) && match st_name y with Some _ => true | None => false end
  then symAddress objs bs ds out (symName y) else
  if st_bind y =? STB_LOCAL then let! a := sectAddr out o f (st_shndx y) in Ok (u32 (a + st_value y)) else
  Err.

(** smlrl.c 916-919 AlignTo *)
Definition alignTo (ofs align : Z) : Z := u32 (u32 (u32 (ofs + align) - 1) / align * align).
(** smlrl.c 902-914 FillWithByte: the chunks make up [size] copies of the byte *)
Definition fill (b size : Z) (file : list Z) : list Z := file ++ repeat b (Z.to_nat size).

(** what stays the same during Pass *)
Record env := mkEnv { e_objs : list (obj * bool); e_fmt : Z; e_useBss : bool; e_bs : list bsym; e_relod : Z;
  e_cnt : nat; (* SectCnt *) e_hdrsz : Z }.
(** the variables of Pass, the section descriptors, the placements, the static buffer and the file written *)
Record pst := mkPst { p_ofs : Z; p_startOfs : Z; p_written : Z; p_ds : list descr; p_out : list placed;
  p_buf : list Z; p_file : list Z }.

Definition is16 (fmt : Z) : bool := (fmt =? FormatDosComTiny) || (fmt =? FormatFlat16) || (fmt =? FormatDosExeSmall).
Definition isPaged (fmt : Z) : bool := (fmt =? FormatWinPe32) || (fmt =? FormatElf32) || (fmt =? FormatMach32).
(** smlrl.c 2102-2129 *)
Definition alignOf (fmt : Z) (isData : bool) (s : sect) : res Z :=
  let align := sh_align s in
  if has align (u32 (align - 1)) then Err else
  if is16 fmt then Ok (if negb isData && (4 <? align) then 4 else align) else
  if fmt =? FormatDosExeHuge then
    let align := if eqs (sh_name s) (str ".relot") || eqs (sh_name s) RELOD then 4 else align in
    if 16 <? align then Err else Ok align
  else if isPaged fmt then (if 4096 <? align then Err else Ok align)
  else Ok align.

(** Start and Stop of descriptor [i]: 2175-2183 and 2207-2214 *)
Definition setMin (ds : list descr) (i : nat) (v : Z) : list descr :=
  match nth_error ds i with
  | Some d => lset ds i (mkDescr (d_name d) (d_attrs d) (if v <? d_start d then v else d_start d) (d_stop d))
  | None => ds
  end.
Definition setMax (ds : list descr) (i : nat) (v : Z) : list descr :=
  match nth_error ds i with
  | Some d => lset ds i (mkDescr (d_name d) (d_attrs d) (d_start d) (if d_stop d <? v then v else d_stop d))
  | None => ds
  end.
Definition startOf (ds : list descr) (i : nat) : Z := match nth_error ds i with Some d => d_start d | None => 0 end.
Definition stopOf (ds : list descr) (i : nat) : Z := match nth_error ds i with Some d => d_stop d | None => 0 end.
Definition reset (ds : list descr) (i : nat) : list descr :=
  match nth_error ds i with
  | Some d => lset ds i (mkDescr (d_name d) (d_attrs d) (2 ^ 32 - 1) 0)
  | None => ds
  end.
(** the relocation section of section [k]: 2086-2095 *)
Definition relSect (o : obj) (k : nat) : option sect :=
  find (fun s => (sh_type s =? SHT_REL) && (sh_info s =? Z.of_nat k)) o.

(** smlrl.c 2078-2216: one section of one object; [k] is its index *)
Definition placeSect (e : env) (pass : bool) (j : nat) (isData : bool) (f : nat) (o : obj) (k : nat) (s : sect) (p : pst) : res pst :=
  let! align := alignOf (e_fmt e) isData s in
  let ofs := p_ofs p in
  let newOfs := if 1 <? align then alignTo ofs align else ofs in
  if newOfs <? ofs then Err else
  let file := if (1 <? align) && pass && ((sh_type s =? SHT_PROGBITS) || negb (e_useBss e))
    then fill (if isData then 0 else 204) (newOfs - ofs) (p_file p) else p_file p in
  let ofs := newOfs in
  let newOfs := u32 (ofs + sh_size s) in
  if newOfs <? ofs then Err else
  if is16 (e_fmt e) && (65536 <? newOfs) then Err else
  let out := mkPl f k ofs (u32 (e_hdrsz e + p_written p + (ofs - p_startOfs p))) :: p_out p in
  let seg := (e_cnt e + if isData then 1 else 0)%nat in
  let ds := if pass then p_ds p else
    let ds := setMin (p_ds p) j ofs in setMin ds seg (startOf ds j) in
  let! (buf, file) :=
    (if pass then
       if sh_type s =? SHT_PROGBITS then
         match relSect o k with
         | Some rs => relocWrite (relSym (e_objs e) (e_bs e) ds out f o rs) ofs (p_buf p) (sh_size s) (s_bytes s) (s_rels rs) file
         | None => relocWrite (fun _ => Err) ofs (p_buf p) (sh_size s) (s_bytes s) [] file
         end
       else Ok (p_buf p, if negb (e_useBss e) then fill 0 (sh_size s) file else file)
     else Ok (p_buf p, file)) in
  let ds := if pass then ds else
    let ds := setMax ds j newOfs in setMax ds seg (stopOf ds j) in
  Ok (mkPst newOfs (p_startOfs p) (p_written p) ds out buf file).

Fixpoint placeObj (e : env) (pass : bool) (j : nat) (isData : bool) (name : list Z) (f : nat) (o : obj) (k : nat)
    (ss : list sect) (p : pst) : res pst :=
  match ss with
  | [] => Ok p
  | s :: ss =>
      let! p := (if eqs name (sh_name s) then placeSect e pass j isData f o k s p else Ok p) in
      placeObj e pass j isData name f o (S k) ss p
  end.
Fixpoint placeObjs (e : env) (pass : bool) (j : nat) (isData : bool) (name : list Z) (f : nat) (objs : list (obj * bool)) (p : pst) : res pst :=
  match objs with
  | [] => Ok p
  | (o, nd) :: objs =>
      let! p := (if nd : bool then placeObj e pass j isData name f o 0 o p else Ok p) in
      placeObjs e pass j isData name (S f) objs p
  end.

(** smlrl.c 2248-2281: the addresses of the relocated 32-bit fields, for .relod; little-endian *)
Definition le32 (v : Z) : list Z := [u8 v; u8 (Z.shiftr v 8); u8 (Z.shiftr v 16); u8 (Z.shiftr v 24)].
Definition relodObj (out : list placed) (f : nat) (o : obj) : list Z :=
  flat_map (fun s => if sh_type s =? SHT_REL then
    flat_map (fun r => le32 (u32 (r_offset r + outAddr out f (Z.to_nat (sh_info s))))) (filter relodRel (s_rels s)) else []) o.
Fixpoint relodBytes (out : list placed) (f : nat) (objs : list (obj * bool)) : list Z :=
  match objs with
  | [] => []
  | (o, nd) :: objs => (if nd : bool then relodObj out f o else []) ++ relodBytes out (S f) objs
  end.
(** smlrl.c 2220-2287 *)
Definition placeRelod (e : env) (pass : bool) (j : nat) (isData : bool) (p : pst) : res pst :=
  let ofs := p_ofs p in
  let newOfs := u32 (u32 (ofs + 3) / 4 * 4) in
  if newOfs <? ofs then Err else
  let file := if pass then fill 0 (newOfs - ofs) (p_file p) else p_file p in
  let ofs := newOfs in
  let newOfs := u32 (ofs + e_relod e) in
  if newOfs <? ofs then Err else
  let seg := (e_cnt e + if isData then 1 else 0)%nat in
  if pass then
    let b := relodBytes (p_out p) 0 (e_objs e) in
    if negb (zlen b =? e_relod e) then Err else
    Ok (mkPst newOfs (p_startOfs p) (p_written p) (p_ds p) (p_out p) (p_buf p) (file ++ b))
  else
    let ds := setMin (p_ds p) j ofs in
    let ds := setMin ds seg (startOf ds j) in
    let ds := setMax ds j newOfs in
    let ds := setMax ds seg (stopOf ds j) in
    Ok (mkPst newOfs (p_startOfs p) (p_written p) ds (p_out p) (p_buf p) file).

(** smlrl.c 2289-2365: padding after the sections of one name; [d] their descriptor, [nxt] the next
    one ([None]: [d] is the last) *)
Definition nextHas (m : Z) (nxt : option descr) : bool := match nxt with Some n => has m (d_attrs n) | None => false end.
Definition padAfter (e : env) (pass : bool) (d : descr) (nxt : option descr) (p : pst) : res pst :=
  let isData := negb (has SHF_EXECINSTR (d_attrs d)) in
  let isLast := match nxt with None => true | Some _ => false end in
  let lastCode := negb isData && negb (nextHas SHF_EXECINSTR nxt) in
  let ofs := p_ofs p in
  let fmt := e_fmt e in
  if fmt =? FormatDosExeSmall then
    if lastCode then
      let newOfs := alignTo ofs 16 in
      let file := if pass then fill 204 (newOfs - ofs) (p_file p) else p_file p in
      let written := u32 (p_written p + (newOfs - p_startOfs p)) in
      if isLast then Ok (mkPst 0 0 written (p_ds p) (p_out p) (p_buf p) file)
      else Ok (mkPst 4 0 written (p_ds p) (p_out p) (p_buf p) (if pass then file ++ str "NULL" else file))
    else Ok p
  else if isPaged fmt || (fmt =? FormatAout) then
    let lastData := (negb (e_useBss e) && isLast) ||
      (e_useBss e && negb (has SHT_NOBITS (d_attrs d)) && (isLast || nextHas SHT_NOBITS nxt)) in
    let lastImp := (fmt =? FormatWinPe32) && prefixb DLL (d_name d) && (Z.land (d_attrs d) KEEP =? SHF_WRITE) &&
      match nxt with None => true | Some n => negb (prefixb DLL (d_name n)) end in
    let lastRo := (fmt =? FormatWinPe32) && negb (has KEEP (d_attrs d)) && (isLast || nextHas SHF_WRITE nxt) in
    if lastCode || lastRo || lastImp || lastData then
      let newOfs := alignTo ofs 4096 in
      if newOfs <? ofs then Err else
      let file := if pass then fill (if lastCode then 204 else 0) (newOfs - ofs) (p_file p) else p_file p in
      Ok (mkPst newOfs (p_startOfs p) (p_written p) (p_ds p) (p_out p) (p_buf p) file)
    else Ok p
  else Ok p.

(** smlrl.c 2069-2364: the loop over the section names *)
Fixpoint passLoop (e : env) (pass : bool) (j : nat) (ds : list descr) (p : pst) : res pst :=
  match ds with
  | [] => Ok p
  | d :: rest =>
      let isData := negb (has SHF_EXECINSTR (d_attrs d)) in
      let p := if pass then p else mkPst (p_ofs p) (p_startOfs p) (p_written p) (reset (p_ds p) j) (p_out p) (p_buf p) (p_file p) in
      let! p := placeObjs e pass j isData (d_name d) 0 (e_objs e) p in
      let! p := (if negb (e_relod e =? 0) && eqs (d_name d) RELOD then placeRelod e pass j isData p else Ok p) in
      let! p := padAfter e pass d (hd_error rest) p in
      passLoop e pass (S j) rest p
  end.
(** smlrl.c 2048-2365 Pass; [st]: descriptors, placements, static buffer and file before *)
Definition Pass (e : env) (pass : bool) (origin : Z) (ds : list descr) (out : list placed) (buf file : list Z) : res pst :=
  let ds0 := if pass then ds else reset (reset ds (e_cnt e)) (S (e_cnt e)) in
  passLoop e pass 0 (firstn (e_cnt e) ds) (mkPst origin origin 0 ds0 out buf file).

(** ** whole programs *)
(** command-line settings; 2^32 - 1 stands for "unspecified" *)
Record opts := mkOpts { op_fmt : Z; op_entry : list Z; op_origin : Z; op_stack : Z; op_useBss : bool }.
Definition UNSPEC : Z := 2 ^ 32 - 1.

Definition setStack (ds : list descr) (cnt : nat) (v w : Z) : list descr :=
  match nth_error ds (cnt + 2) with
  | Some d => lset ds (cnt + 2) (mkDescr (d_name d) (d_attrs d) v w)
  | None => ds
  end.
Definition hasData (ds : list descr) (cnt : nat) : bool :=
  match nth_error ds (pred cnt) with Some d => negb (has SHF_EXECINSTR (d_attrs d)) | None => false end.

(** smlrl.c 2367-2437 RwFlat; the result is the file *)
Definition rwFlat (op : opts) (e0 : env) (ds : list descr) : res (pst * Z) :=
  let fmt := op_fmt op in
  let cnt := e_cnt e0 in
  let stack := if op_stack op =? UNSPEC then 8192 else op_stack op in
  let tiny := fmt =? FormatDosComTiny in
  if tiny && ((stack <? 4096) || (65532 <? stack)) then Err else
  let origin := if tiny then 256 else if op_origin op =? UNSPEC then 0 else op_origin op in
  if (fmt =? FormatFlat16) && (65535 <? origin) then Err else
  let ds := if tiny then setStack ds cnt (65532 - stack) 65532 else ds in
  let buf := repeat 0 1027 in
  let! p := Pass e0 false origin ds [] buf [] in
  let! ip := symAddress (e_objs e0) (e_bs e0) (p_ds p) (p_out p) (op_entry op) in
  let! (e, origin, p, file) :=
    (if ip =? origin then Ok (e0, origin, p, []) else
      let hdrsz := if fmt =? FormatFlat32 then 5 else 3 in
      let norigin := u32 (origin + hdrsz) in
      if norigin <? origin then Err else
      if (fmt =? FormatFlat16) && (65535 <? norigin) then Err else
      let e := mkEnv (e_objs e0) (e_fmt e0) (e_useBss e0) (e_bs e0) (e_relod e0) cnt hdrsz in
      let! p := Pass e false norigin (p_ds p) (p_out p) buf [] in
      let! ip := symAddress (e_objs e) (e_bs e) (p_ds p) (p_out p) (op_entry op) in
      let imm := u32 (ip - norigin) in
      Ok (e, norigin, p, 233 :: firstn (Z.to_nat (hdrsz - 1)) (le32 imm))) in
  let hd := hasData ds cnt in
  if tiny && (startOf (p_ds p) (cnt + 2) <? stopOf (p_ds p) (cnt + if hd then 1 else 0)) then Err else
  let! p := Pass e true origin (p_ds p) (p_out p) buf file in
  Ok (p, origin).

(** smlrl.c 3442-3512 RwElf *)
Definition le16 (v : Z) : list Z := [u8 v; u8 (Z.shiftr v 8)].
Definition low12 (v : Z) : Z := Z.land v 4294963200. (* v & 0xFFFFF000 *)
(** an Elf32_Phdr: p_type, p_offset, p_vaddr, p_paddr, p_filesz, p_memsz, p_flags, p_align *)
Definition phdr (l : list Z) : list Z := flat_map le32 l.
(** the last descriptor without SHT_NOBITS: 3483-3485 *)
Fixpoint lastBits (ds : list descr) (i : nat) : option nat :=
  match nth_error ds i with
  | None => None
  | Some d => if has SHT_NOBITS (d_attrs d) then match i with O => None | S i => lastBits ds i end else Some i
  end.
Record segm := mkSegm { g_off : Z; g_vaddr : Z; g_filesz : Z; g_memsz : Z; g_flags : Z }.
Definition elfSegs (e : env) (ds : list descr) (imageBase : Z) : res (list segm) :=
  let cnt := e_cnt e in
  let start := low12 (startOf ds cnt) in
  let stop := low12 (u32 (stopOf ds cnt + 4095)) in
  let code := mkSegm (u32 (start - imageBase)) start (u32 (stop - start)) (u32 (stop - start)) 5 in
  if hasData ds cnt then
    let start := low12 (startOf ds (S cnt)) in
    let stop := low12 (u32 (stopOf ds (S cnt) + 4095)) in
    let! fsz :=
      (if match nth_error ds (pred cnt) with Some d => has SHT_NOBITS (d_attrs d) | None => false end && e_useBss e then
         let! i := inb (lastBits ds (pred cnt)) in
         Ok (u32 (low12 (u32 (stopOf ds i + 4095)) - start))
       else Ok (u32 (stop - start))) in
    Ok [code; mkSegm (u32 (start - imageBase)) start fsz (u32 (stop - start)) 6]
  else Ok [code].
Definition elfPhdr (g : segm) : list Z :=
  phdr [1; g_off g; g_vaddr g; g_vaddr g; g_filesz g; g_memsz g; g_flags g; 4096].
(** 2000-2016 ElfHeader with e_entry and e_phnum *)
Definition elfHeader (entry phnum : Z) : list Z :=
  [127; 69; 76; 70; 1; 1; 1] ++ repeat 0 9 ++ le16 2 ++ le16 3 ++ le32 1 ++ le32 entry ++ le32 52 ++ le32 0 ++ le32 0 ++
  le16 52 ++ le16 32 ++ le16 phnum ++ le16 0 ++ le16 0 ++ le16 0.
Definition rwElf (op : opts) (e0 : env) (ds : list descr) : res (pst * list segm * Z) :=
  let imageBase := if op_origin op =? UNSPEC then 134512640 else low12 (op_origin op) in
  if 4294963200 <=? imageBase then Err else
  let hdrsz := 4096 in
  let origin := u32 (imageBase + hdrsz) in
  let e := mkEnv (e_objs e0) (e_fmt e0) (e_useBss e0) (e_bs e0) (e_relod e0) (e_cnt e0) hdrsz in
  let buf := repeat 0 1027 in
  let! p := Pass e false origin ds [] buf [] in
  let! entry := symAddress (e_objs e) (e_bs e) (p_ds p) (p_out p) (op_entry op) in
  let! segs := elfSegs e (p_ds p) imageBase in
  let ph := flat_map elfPhdr segs in
  let header := elfHeader entry (zlen segs) ++ ph ++ repeat 0 (64 - List.length ph) in
  let file := header ++ repeat 0 (4096 - 116) in
  let! p := Pass e true origin (p_ds p) (p_out p) buf file in
  Ok (p, segs, entry).

(** smlrl.c 3957-3961: the linker after the objects are loaded, up to the choice of the format *)
Definition prepare (op : opts) (objs : list obj) : res (rst * env * list descr) :=
  let! st := resolve objs (op_entry op) in
  let os := combine objs (needed st) in
  let! (ds, bs, relod) := findSections (op_fmt op) os (deferred st) in
  Ok (st, mkEnv os (op_fmt op) (op_useBss op) bs relod (List.length ds - 3) 0, ds).
