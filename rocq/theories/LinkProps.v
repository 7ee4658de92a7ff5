(** C40, C41, C42: the linker. *)
From Verif Require Import Base BaseLemmas LexModel LexSpec LexProof LinkModel LinkSpec LinkReloc LinkResolve LinkFields LinkLayout LinkFind LinkPlace LinkImage LinkSpan LinkWhole LinkAddr LinkOut LinkElf.
From Coq Require Import Sorted String.
Close Scope string_scope.

(** ** C41: relocation *)
(** A section written through the buffer of FBUF + 3 = 1027 bytes, whatever earlier sections left in it,
    comes out as if the relocations had been applied one after the other to the whole section in memory;
    a relocation of unknown type, or whose symbol has no address, makes the linker fail. *)
Theorem C41_sliding_buffer : forall (sval : rel -> res Z) base buf w rels out,
  zlen buf = 1027 -> Sorted byOffset rels -> Forall (inside w) rels -> bytes w -> zlen w + 1024 <= 2 ^ 32 ->
  (Exists (fun r => ~ (known r /\ exists v, sval r = Ok v)) rels /\ forall x, relocWrite sval base buf (zlen w) w rels out <> Ok x) \/
  exists buf' v, Forall (fun r => known r /\ sval r = Ok (v r)) rels /\
    relocWrite sval base buf (zlen w) w rels out = Ok (buf', out ++ patchAll w base v rels) /\ zlen buf' = 1027.
Proof.
  intros sval base buf w rels out LB ST I0 B N.
  destruct (relocWrite_ok sval base buf w rels out LB ST I0 B N) as [[H1 H2]|(buf' & H1 & H2 & H3)].
  - left. split; [|exact H2]. eapply Exists_impl; [|exact H1]. intros r NG (K & v & E). apply NG. split; [auto|]. unfold s. rewrite E. reflexivity.
  - right. exists buf', (s sval). split; [exact H1|]. split; [exact H2|exact H3].
Qed.
(** When the relocated fields do not overlap, every one of them holds its old value plus the symbol's
    address, minus its own address if the relocation is relative, modulo the field's size; no byte
    outside the fields changes. *)
Theorem C41_fields : forall base v w rels, Forall (inside w) rels -> ForallOrdPairs apart rels ->
  zlen (patchAll w base v rels) = zlen w /\
  (forall r, In r rels -> field (patchAll w base v rels) r =
     (field w r + v r - (if relative r then base + r_offset r else 0)) mod 2 ^ (8 * width r)) /\
  (forall i, 0 <= i -> (forall r, In r rels -> i < r_offset r \/ r_offset r + width r <= i) ->
     zget (patchAll w base v rels) i = zget w i).
Proof. intros base v w rels F A. destruct (fields_ok base v rels w F) as (H1 & H2 & H3). split; [exact H1|]. split; [exact (H3 A)|exact H2]. Qed.

(** ** C42: resolution *)
(** The search ends; if it succeeds the objects in the program are those reachable from the entry point
    through undefined symbols, no two of them define the same symbol, and every symbol they use is
    defined in one of them or names the boundary of a section; if it fails, a symbol in use is defined
    nowhere or two objects in use define the same one. *)
Theorem C42_resolution : forall objs entry,
  match resolve objs entry with
  | Ok st => List.length (needed st) = List.length objs /\
      (forall i, nth_error (needed st) i = Some true <-> reach objs entry i) /\
      (forall n, wanted objs entry n -> (exists i, bound objs n i /\ reach objs entry i) \/ isBoundary n /\ nobody objs n /\ In n (deferred st)) /\
      (forall n, In n (deferred st) -> wanted objs entry n /\ isBoundary n /\ nobody objs n) /\
      ~ duplicate objs entry
  | Err => (exists n, wanted objs entry n /\ nobody objs n /\ ~ isBoundary n) \/ duplicate objs entry
  | Oob => False
  end.
Proof.
  intros objs entry. pose proof (resolve_ok objs entry) as H. destruct (resolve objs entry) as [st| |]; [|exact H|exact H].
  destruct H as (H1 & H2 & H3 & H4 & H5). split; [exact H1|]. split; [exact H2|]. split; [|split; [intros n I0; apply H4; exact I0|exact H5]].
  intros n W. destruct (H3 n W) as [(i & B & NI)|(B & NB & D)]; [left; exists i; split; [exact B|apply H2; exact NI]|right; auto].
Qed.

(** ** C40: the layout *)
(** One pass over the sections, for every output format except small DOS programs: each section of the
    program is placed at an aligned address, within the address space, the sections do not overlap,
    those of one name are together, code comes first and zero-initialized data last, and the distance of
    two sections in the file is that of their addresses.  (In the format for unreal mode no object
    has a section .relod.) *)
Theorem C40_layout : forall op objs st e ds, prepare op objs = Ok (st, e, ds) -> wellFormed objs ->
  op_fmt op <> FormatDosExeSmall ->
  (op_fmt op = FormatDosExeUnreal -> forall f k o s, sectionOf objs f k o s -> sh_name s <> str ".relod") ->
  forall header write origin buf file p, 0 <= origin <= limit (op_fmt op) ->
  Pass (withHdr e header) write origin ds [] buf file = Ok p ->
  goodLayout objs (op_entry op) (op_fmt op) (lookup (p_out p)) origin /\
  forall f k o s q, included objs (op_entry op) f k o s -> lookup (p_out p) f k = Some q ->
    pl_off q = (header + (pl_addr q - origin)) mod 2 ^ 32.
Proof.
  intros op objs st e ds PR WF NS NRL header write origin buf file p OR P.
  destruct (layout_general op objs st e ds PR WF NRL header write origin ds [] buf file p NS OR eq_refl P) as (L1 & L2 & L3 & L4 & L5).
  split; [split; [exact L1|split; [exact L2|split; [exact L3|exact L4]]]|exact L5].
Qed.
(** Small DOS programs have a code segment and a data segment, each with addresses of its own. *)
Theorem C40_layout_small : forall op objs st e ds, prepare op objs = Ok (st, e, ds) -> wellFormed objs ->
  op_fmt op = FormatDosExeSmall ->
  forall header write origin buf file p, 0 <= origin <= limit (op_fmt op) ->
  Pass (withHdr e header) write origin ds [] buf file = Ok p ->
  let place := lookup (p_out p) in let entry := op_entry op in let fmt := op_fmt op in
  everyPlaced objs entry fmt place origin (fun s => isExec s = true) /\
  everyPlaced objs entry fmt place 4 (fun s => isExec s = false) /\
  noOverlap objs entry place (fun s s' => isExec s = isExec s') /\
  inOrder objs entry place (fun s s' => isExec s = isExec s') /\
  together objs entry fmt place /\
  exists csize, 0 <= csize /\ (16 | origin + csize) /\ forall f k o s q, included objs entry f k o s -> place f k = Some q ->
    (isExec s = true -> end_ s q <= origin + csize /\ pl_off q = (header + (pl_addr q - origin)) mod 2 ^ 32) /\
    (isExec s = false -> pl_off q = (header + csize + pl_addr q) mod 2 ^ 32).
Proof.
  intros op objs st e ds PR WF ES header write origin buf file p OR P. cbv zeta.
  refine (layout_small op objs st e ds PR WF _ header write origin ds [] buf file p ES OR eq_refl P). intros C. rewrite ES in C. discriminate.
Qed.

(** ** C40, C41, C42 together: whole programs *)
(** Flat programs (.com and raw binaries).  The entry point [v] is at the beginning or the file begins with
    a jump to it; each section stored in the file is at its address and contains its bytes with every
    relocation resolved to the address the relocation's symbol got; in .com programs the stack is above
    all sections. *)
Theorem C40_flat_program : forall op objs st e ds p origin, prepare op objs = Ok (st, e, ds) -> wellFormed objs ->
  op_fmt op = FormatDosComTiny \/ op_fmt op = FormatFlat16 \/ op_fmt op = FormatFlat32 -> 0 <= op_origin op < 2 ^ 32 ->
  rwFlat op e ds = Ok (p, origin) ->
  let entry := op_entry op in let fmt := op_fmt op in
  exists base addr stack v,
    base = (if fmt =? FormatDosComTiny then 256 else if op_origin op =? 2 ^ 32 - 1 then 0 else op_origin op) /\
    goodLayout objs entry fmt (lookup (p_out p)) origin /\
    (forall f k q, lookup (p_out p) f k = Some q -> addr f k = pl_addr q) /\
    symbolAt objs entry addr stack entry v /\
    (origin = base /\ v = base \/
     exists h w, h = (if fmt =? FormatFlat32 then 5 else 3) /\ origin = base + h /\
       p_file p = 233 :: digits (Z.to_nat (h - 1)) ((v - origin) mod 2 ^ (8 * (h - 1))) ++ w) /\
    (forall f k o s, included objs entry f k o s -> sh_type s = 1 \/ op_useBss op = false ->
       exists b, finalBytes objs entry addr stack f k o s b /\ occurs (p_file p) (addr f k - base) b) /\
    match stack with
    | Some (a, b) => fmt = FormatDosComTiny /\ b = 65532 /\ b - a = (if op_stack op =? 2 ^ 32 - 1 then 8192 else op_stack op) /\ 0 <= a <= b - 4096 /\
        forall f k o s, included objs entry f k o s -> addr f k + sh_size s <= a
    | None => fmt <> FormatDosComTiny
    end.
Proof. intros op objs st e ds p origin PR WF FF OO H. exact (flat_ok op objs st e ds PR WF FF p origin OO H). Qed.

(** ELF programs: the file is an ELF file with the entry point and the segments [segs]; the segments can be
    loaded, do not overlap, and after loading every section is at its address, in a segment with the
    right permissions (5: read and execute, 6: read and write), with its relocated bytes, or zeros. *)
Theorem C40_elf_program : forall op objs st e ds p segs v, prepare op objs = Ok (st, e, ds) -> wellFormed objs ->
  op_fmt op = FormatElf32 -> 0 <= op_origin op < 2 ^ 32 -> rwElf op e ds = Ok (p, segs, v) ->
  let entry := op_entry op in
  exists base addr,
    base = (if op_origin op =? 2 ^ 32 - 1 then 134512640 else op_origin op - op_origin op mod 4096) /\
    goodLayout objs entry FormatElf32 (lookup (p_out p)) (base + 4096) /\
    (forall f k q, lookup (p_out p) f k = Some q -> addr f k = pl_addr q) /\
    symbolAt objs entry addr None entry v /\
    elfProgram (p_file p) v segs /\ Forall (segOk (p_file p)) segs /\ ForallOrdPairs segApart segs /\
    forall f k o s, included objs entry f k o s -> exists g b, In g segs /\ finalBytes objs entry addr None f k o s b /\
      g_flags g = (if isExec s then 5 else 6) /\ g_vaddr g <= addr f k /\ addr f k + sh_size s <= g_vaddr g + g_memsz g /\
      forall i, 0 <= i < sh_size s -> memory (p_file p) segs (addr f k + i) = zget b i.
Proof. intros op objs st e ds p segs v PR WF EL OO H. exact (elf_ok op objs st e ds PR WF EL p segs v OO H). Qed.

(** ** examples *)
(** two objects: [main] calls [f] in the other one, which uses a variable, a zero-initialized array and a boundary *)
Definition nul : sect := mkSect [] 0 0 0 0 0 0 [] [] [].
Definition noSym : sym := mkSym None 0 0 0 0.
Definition exA : obj :=
  [nul; mkSect (str ".text") 1 6 6 0 0 16 [232; 252; 255; 255; 255; 195] [] [];
   mkSect (str ".rel.text") 9 0 8 3 1 4 [] [] [mkRel 1 2 2];
   mkSect (str ".symtab") 2 0 48 4 1 4 [] [noSym; mkSym (Some (str "main")) 1 0 1 0; mkSym (Some (str "f")) 1 0 0 0] []].
Definition exB : obj :=
  [nul; mkSect (str ".text") 1 6 11 0 0 16 [161; 4; 0; 0; 0; 5; 0; 0; 0; 0; 195] [] [];
   mkSect (str ".rel.text") 9 0 16 3 1 4 [] [] [mkRel 1 1 1; mkRel 6 3 1];
   mkSect (str ".symtab") 2 0 64 0 2 4 [] [noSym; mkSym None 0 3 4 0; mkSym (Some (str "f")) 1 0 1 0; mkSym (Some (str "__stop_.bss")) 1 0 0 0] [];
   mkSect (str ".data") 1 3 5 0 0 4 [1; 2; 3; 4; 5] [] [];
   mkSect (str ".bss") 8 3 100 0 0 4 [] [] []].
(** an object nobody needs *)
Definition exC : obj := [nul; mkSect (str ".text") 1 6 1 0 0 1 [195] [] []; mkSect (str ".symtab") 2 0 32 0 1 4 [] [noSym; mkSym (Some (str "g")) 1 0 1 0] []].
Definition exObjs : list obj := [exC; exA; exB].
Definition exOp (fmt : Z) : opts := mkOpts fmt (str "main") UNSPEC UNSPEC true.

Ltac idx k := destruct k as [|k]; [|try (cbn in *; discriminate)].
Lemma ex_wf : wellFormed exObjs.
Proof.
  assert (RO : forall o k rs, relocationsOf o k rs -> In rs o /\ sh_type rs = 9 /\ sh_info rs = Z.of_nat k).
  { intros o k rs (i & A & B & C & _). split; [apply (nth_error_In _ _ A)|auto]. }
  assert (SS : forall f k o s, sectionOf exObjs f k o s -> In (f, k, o, s) (flat_map (fun '(f, o) => map (fun '(k, s) => (f, k, o, s)) (combine (seq 0 (List.length o)) o)) (combine (seq 0 3) exObjs))).
  { intros f k o s [A B]. do 3 (destruct f as [|f]; [injection A as <-; do 6 (destruct k as [|k]; [first [injection B as <- | discriminate B]; cbn; tauto|]); destruct k; discriminate B|]). destruct f; discriminate A. }
  split.
  - intros f k o s SE AL. apply SS in SE. cbn in SE.
    repeat (destruct SE as [SE|SE]; [injection SE as <- <- <- <-; first [discriminate AL|
      split; [cbn; lia|]; split; [cbn; lia|]; split; [cbn; lia|]; split; [cbn; lia|]; split;
      [intros T; first [discriminate T|split; [reflexivity|]; split; [repeat constructor; lia|cbn; lia]]|];
      intros rs R; apply RO in R as (R1 & R2 & R3); cbn in R1;
      repeat (destruct R1 as [<- |R1]; [first [discriminate R2|discriminate R3|
        split; [repeat constructor; unfold byOffset; cbn; lia|]; split; [repeat constructor; unfold inside; cbn; lia|];
        eexists; split; [reflexivity|]; split; [cbn; lia|]; split; [reflexivity|];
        intros i y I0 B; do 5 (destruct i as [|i]; [first [injection I0 as <-|discriminate I0]; cbn in *; lia|]); destruct i; discriminate I0]|]); destruct R1]|]); destruct SE.
  - intros f k o s f' k' o' s' SE SE' N AL. apply SS in SE, SE'. cbn in SE, SE'.
    repeat (destruct SE as [SE|SE]; [injection SE as <- <- <- <-; first [discriminate AL|
      repeat (destruct SE' as [SE'|SE']; [injection SE' as <- <- <- <-; first [discriminate N|reflexivity]|]); destruct SE']|]); destruct SE.
Qed.
Example ex_elf : exists st e ds p segs v, prepare (exOp FormatElf32) exObjs = Ok (st, e, ds) /\ rwElf (exOp FormatElf32) e ds = Ok (p, segs, v) /\
  v = 134516736 /\ map (fun g => (g_vaddr g, g_filesz g, g_memsz g, g_flags g)) segs = [(134516736, 4096, 4096, 5); (134520832, 4096, 8192, 6)].
Proof.
  destruct (prepare (exOp FormatElf32) exObjs) as [[[st e] ds]| |] eqn:E; [|vm_compute in E; discriminate E|vm_compute in E; discriminate E].
  exists st, e, ds. vm_compute in E. injection E as <- <- <-.
  match goal with |- context [rwElf ?a ?b ?c] => let r := eval vm_compute in (rwElf a b c) in match r with Ok (?p, ?segs, ?v) => exists p, segs, v end end.
  split; [reflexivity|]. split; [vm_compute; reflexivity|]. split; reflexivity.
Qed.
Example ex_flat : forall fmt, In fmt [FormatDosComTiny; FormatFlat16; FormatFlat32] ->
  exists st e ds p origin, prepare (exOp fmt) exObjs = Ok (st, e, ds) /\ rwFlat (exOp fmt) e ds = Ok (p, origin) /\ zlen (p_file p) > 20.
Proof.
  intros fmt I0. repeat (destruct I0 as [<- |I0]; [
    match goal with |- context [prepare ?a ?b] => destruct (prepare a b) as [[[st e] ds]| |] eqn:E; [|vm_compute in E; discriminate E|vm_compute in E; discriminate E] end;
    exists st, e, ds; vm_compute in E; injection E as <- <- <-;
    match goal with |- context [rwFlat ?a ?b ?c] => let r := eval vm_compute in (rwFlat a b c) in match r with Ok (?p, ?v) => exists p, v end end;
    split; [reflexivity|]; split; vm_compute; reflexivity|]); destruct I0.
Qed.
Example ex_small : exists st e ds p, prepare (exOp FormatDosExeSmall) exObjs = Ok (st, e, ds) /\ Pass (withHdr e 32) false 0 ds [] (repeat 0 1027) [] = Ok p.
Proof.
  match goal with |- context [prepare ?a ?b] => destruct (prepare a b) as [[[st e] ds]| |] eqn:E; [|vm_compute in E; discriminate E|vm_compute in E; discriminate E] end.
  exists st, e, ds. vm_compute in E. injection E as <- <- <-.
  match goal with |- context [Pass ?a ?b ?c ?d ?e ?f ?g = _] => let r := eval vm_compute in (Pass a b c d e f g) in match r with Ok ?p => exists p end end.
  split; [reflexivity|vm_compute; reflexivity].
Qed.
(** the first object is not part of the program; an undefined symbol and a duplicate make the linker fail *)
Example ex_resolve : (match resolve exObjs (str "main") with Ok st => needed st = [false; true; true] /\ deferred st = [str "__stop_.bss"] | _ => False end) /\
  resolve [exC; exA] (str "main") = Err /\ resolve [exA; exB; exB] (str "f") <> Err /\
  resolve [exA ++ [mkSect (str ".symtab2") 2 0 32 0 1 4 [] [noSym; mkSym (Some (str "g")) 1 0 0 0; mkSym (Some (str "h")) 1 0 1 0] []]; exB;
           exC ++ [mkSect (str ".symtab2") 2 0 32 0 1 4 [] [noSym; mkSym (Some (str "h")) 1 0 1 0] []]] (str "main") = Err.
Proof. vm_compute. repeat split; discriminate. Qed.
(** a relocation across the end of the buffer *)
Example ex_slide : let w := repeat 7 2000 in
  match relocWrite (fun r => Ok (r_sym r)) 4096 (repeat 9 1027) 2000 w [mkRel 1022 258 1; mkRel 1998 3 21] [] with
  | Ok (_, out) => firstn 6 (skipn 1021 out) = [7; 9; 8; 7; 7; 7] /\ skipn 1998 out = [60; 239] | _ => False end.
Proof. vm_compute. auto. Qed.
Example ex_slide_hyp : let w := repeat 7 2000 in let rels := [mkRel 1022 258 1; mkRel 1998 3 21] in
  Sorted byOffset rels /\ Forall (inside w) rels /\ ForallOrdPairs apart rels /\ bytes w.
Proof.
  cbv zeta. split; [repeat constructor; unfold byOffset; cbn; lia|]. split; [repeat constructor; unfold inside; cbn; lia|].
  split; [repeat constructor; unfold apart; cbn; lia|]. apply Forall_forall. intros x I0. apply repeat_spec in I0. lia.
Qed.

(** A global symbol with an absolute value (section index SHN_ABS) is looked up in the section table
    out of its bounds. *)
Definition exAbs : list obj :=
  [[nul; mkSect (str ".text") 1 6 1 0 0 1 [195] [] [];
    mkSect (str ".symtab") 2 0 32 0 1 4 [] [noSym; mkSym (Some (str "main")) 1 0 65521 4096] []]].
Theorem C40_absolute_refuted : exists objs st e ds, prepare (exOp FormatFlat32) objs = Ok (st, e, ds) /\
  reach objs (str "main") 0 /\ rwFlat (exOp FormatFlat32) e ds = Oob.
Proof.
  exists exAbs. match goal with |- context [prepare ?a ?b] => destruct (prepare a b) as [[[st e] ds]| |] eqn:E; [|vm_compute in E; discriminate E|vm_compute in E; discriminate E] end.
  exists st, e, ds. split; [reflexivity|]. split.
  - apply reach_entry. split; [|intros j o J; lia]. exists (List.hd [] exAbs). split; [reflexivity|]. exists (mkSym (Some (str "main")) 1 0 65521 4096).
    split; [|split; [cbn; lia|reflexivity]]. exists (nth 2 (List.hd [] exAbs) nul), 1%nat. repeat split; cbn; auto; lia.
  - vm_compute in E. injection E as <- <- <-. vm_compute. reflexivity.
Qed.

Print Assumptions C41_sliding_buffer.
Print Assumptions C41_fields.
Print Assumptions C42_resolution.
Print Assumptions C40_layout.
Print Assumptions C40_layout_small.
Print Assumptions C40_flat_program.
Print Assumptions C40_elf_program.
Print Assumptions C40_absolute_refuted.
