(** What the linker's results mean.  Only the records describing object files (section, symbol,
    relocation) are taken from the model. *)
From Verif Require Import Base LexModel LexSpec LinkModel.
From Coq Require Import Sorted String.
Close Scope string_scope.

(** ** relocated bytes *)
(** the little-endian number in a list of bytes, and back *)
Fixpoint number (bs : list Z) : Z := match bs with [] => 0 | b :: bs => b + 256 * number bs end.
Fixpoint digits (n : nat) (v : Z) : list Z := match n with O => [] | S n => v mod 256 :: digits n (v / 256) end.
Definition bytes (l : list Z) : Prop := Forall (fun b => 0 <= b < 256) l.

(** the four relocation types: field width in bytes and whether the place is subtracted *)
Definition width (r : rel) : Z := if (r_type r =? 1) || (r_type r =? 2) then 4 else 2.
Definition relative (r : rel) : bool := (r_type r =? 2) || (r_type r =? 21).
Definition known (r : rel) : Prop := r_type r = 1 \/ r_type r = 2 \/ r_type r = 20 \/ r_type r = 21.

(** the number in the relocated field of a section *)
Definition field (w : list Z) (r : rel) : Z :=
  number (firstn (Z.to_nat (width r)) (skipn (Z.to_nat (r_offset r)) w)).
(** ... and what it must become when the section is at [base] and the symbol at [s] *)
Definition relocated (w : list Z) (base : Z) (r : rel) (s : Z) : Z :=
  (field w r + s - (if relative r then base + r_offset r else 0)) mod 2 ^ (8 * width r).
(** one relocation applied to a whole section in memory *)
Definition patch (w : list Z) (base : Z) (r : rel) (s : Z) : list Z :=
  firstn (Z.to_nat (r_offset r)) w ++ digits (Z.to_nat (width r)) (relocated w base r s) ++
  skipn (Z.to_nat (r_offset r + width r)) w.
(** all of them, one after the other; [s] gives every relocation's symbol *)
Fixpoint patchAll (w : list Z) (base : Z) (s : rel -> Z) (rels : list rel) : list Z :=
  match rels with [] => w | r :: rels => patchAll (patch w base r (s r)) base s rels end.
Definition inside (w : list Z) (r : rel) : Prop := 0 <= r_offset r /\ r_offset r + width r <= zlen w.
Definition apart (r r2 : rel) : Prop :=
  r_offset r + width r <= r_offset r2 \/ r_offset r2 + width r2 <= r_offset r.
Definition byOffset (r r2 : rel) : Prop := r_offset r <= r_offset r2.

(** ** symbol resolution *)
(** a global symbol of an object file: beyond the local ones in one of its symbol tables *)
Definition globalOf (o : obj) (y : sym) : Prop :=
  exists t k, In t o /\ sh_type t = 2 /\ sh_info t <= Z.of_nat k /\ nth_error (s_syms t) k = Some y /\ st_bind y = 1.
Definition defines (o : obj) (n : list Z) : Prop := exists y, globalOf o y /\ st_shndx y <> 0 /\ st_name y = Some n.
Definition uses (o : obj) (n : list Z) : Prop := exists y, globalOf o y /\ st_shndx y = 0 /\ st_name y = Some n.
(** object [i] is the first on the command line that defines the name *)
Definition bound (objs : list obj) (n : list Z) (i : nat) : Prop :=
  (exists o, nth_error objs i = Some o /\ defines o n) /\
  forall j o, (j < i)%nat -> nth_error objs j = Some o -> ~ defines o n.
Definition nobody (objs : list obj) (n : list Z) : Prop := forall i o, nth_error objs i = Some o -> ~ defines o n.
(** the objects needed by the entry point, directly or through other objects *)
Inductive reach (objs : list obj) (entry : list Z) : nat -> Prop :=
  | reach_entry i : bound objs entry i -> reach objs entry i
  | reach_use i o n j : reach objs entry i -> nth_error objs i = Some o -> uses o n -> bound objs n j -> reach objs entry j.
(** the names that have to be found *)
Definition wanted (objs : list obj) (entry : list Z) (n : list Z) : Prop :=
  n = entry \/ exists i o, reach objs entry i /\ nth_error objs i = Some o /\ uses o n.
(** names of section boundaries *)
Definition isBoundary (n : list Z) : Prop :=
  exists m, m <> [] /\ (n = str "__start_" ++ m \/ n = str "__stop_" ++ m).
(** two needed objects define the same name *)
Definition duplicate (objs : list obj) (entry : list Z) : Prop :=
  exists i j o o' n, i <> j /\ reach objs entry i /\ reach objs entry j /\
    nth_error objs i = Some o /\ nth_error objs j = Some o' /\ defines o n /\ defines o' n.

(** ** layout *)
(** the next multiple of [al] from [a] on (alignments 0 and 1 mean none) *)
Definition roundup (a al x : Z) : Prop := a <= x /\ (x < a + al \/ x = a) /\ (al <= 1 \/ (al | x)).
(** the alignment the linker grants to a section: in 16-bit programs code is aligned to at most 4,
    in huge programs the relocation tables are aligned to 4 *)
Definition alignment (fmt : Z) (s : sect) : Z :=
  if (fmt =? FormatDosComTiny) || (fmt =? FormatFlat16) || (fmt =? FormatDosExeSmall)
  then (if has SHF_EXECINSTR (sh_flags s) then Z.min 4 (sh_align s) else sh_align s)
  else if fmt =? FormatDosExeHuge
  then (if eqs (sh_name s) (str ".relot") || eqs (sh_name s) (str ".relod") then 4 else sh_align s)
  else sh_align s.
(** end of the address space *)
Definition limit (fmt : Z) : Z :=
  if (fmt =? FormatDosComTiny) || (fmt =? FormatFlat16) || (fmt =? FormatDosExeSmall) then 65536 else 2 ^ 32 - 1.

(** sections placed one after the other from [a] on with nothing but alignment between them; they end at [b] *)
Inductive run (fmt : Z) : Z -> list (sect * placed) -> Z -> Prop :=
  | run_nil a : run fmt a [] a
  | run_cons a s q l b : roundup a (alignment fmt s) (pl_addr q) -> pl_addr q + sh_size s <= limit fmt ->
      run fmt (pl_addr q + sh_size s) l b -> run fmt a ((s, q) :: l) b.
(** groups of sections, each a run, one after the other *)
Inductive runs (fmt : Z) : Z -> list (list (sect * placed)) -> Z -> Prop :=
  | runs_nil a : runs fmt a [] a
  | runs_cons a a' g b l c : a <= a' -> run fmt a' g b -> runs fmt b l c -> runs fmt a (g :: l) c
  | runs_pad a gs b c : runs fmt a gs b -> b <= c -> runs fmt a gs c.

(** a section that occupies memory, its kind (code, read-only data, data, zero-initialized data: the
    order in which they are laid out) *)
Definition alloc (s : sect) : Prop := Z.testbit (sh_flags s) 1 = true.
Definition kind (s : sect) : Z :=
  if sh_type s =? 8 then 3 else if Z.testbit (sh_flags s) 2 then 0 else if Z.testbit (sh_flags s) 0 then 2 else 1.
(** section [k] of object [f] *)
Definition sectionOf (objs : list obj) (f k : nat) (o : obj) (s : sect) : Prop :=
  nth_error objs f = Some o /\ nth_error o k = Some s.
(** the relocations of section [k]: those of the first relocation section for it *)
Definition relocationsOf (o : obj) (k : nat) (rs : sect) : Prop :=
  exists i, nth_error o i = Some rs /\ sh_type rs = 9 /\ sh_info rs = Z.of_nat k /\
    forall i' s, (i' < i)%nat -> nth_error o i' = Some s -> ~ (sh_type s = 9 /\ sh_info s = Z.of_nat k).
(** object files as compilers make them: sizes and alignments are 32-bit numbers, sections in memory have
    contents or are zero-initialized, a name is not used both for sections in memory and for others,
    relocations are sorted (the linker does it when it loads them), lie within their section and refer to
    a symbol table whose local symbols come first *)
Definition wellFormed (objs : list obj) : Prop :=
  (forall f k o s, sectionOf objs f k o s -> alloc s ->
     0 <= sh_size s < 2 ^ 32 /\ 0 <= sh_align s < 2 ^ 32 /\ 0 <= sh_flags s /\ (sh_type s = 1 \/ sh_type s = 8) /\
     (sh_type s = 1 -> zlen (s_bytes s) = sh_size s /\ bytes (s_bytes s) /\ sh_size s + 1024 <= 2 ^ 32) /\
     forall rs, relocationsOf o k rs -> Sorted byOffset (s_rels rs) /\ Forall (inside (s_bytes s)) (s_rels rs) /\
       exists t, nth_error o (Z.to_nat (sh_link rs)) = Some t /\ 0 <= sh_link rs /\ sh_type t = 2 /\
         forall i y, nth_error (s_syms t) i = Some y -> st_bind y = 1 -> sh_info t <= Z.of_nat i) /\
  (forall f k o s f' k' o' s', sectionOf objs f k o s -> sectionOf objs f' k' o' s' -> sh_name s = sh_name s' -> alloc s -> alloc s').

(** ** addresses *)
(** the sections in the program: those in memory of the objects needed *)
Definition included (objs : list obj) (entry : list Z) (f k : nat) (o : obj) (s : sect) : Prop :=
  reach objs entry f /\ sectionOf objs f k o s /\ alloc s.
Definition isExec (s : sect) : bool := Z.testbit (sh_flags s) 2.
Definition least (P : Z -> Prop) (v : Z) : Prop := P v /\ forall x, P x -> v <= x.
Definition greatest (P : Z -> Prop) (v : Z) : Prop := P v /\ forall x, P x -> x <= v.

Section Addresses.
  Variables (objs : list obj) (entry : list Z).
  (** where the sections are; first and last address of the stack *)
  Variables (addr : nat -> nat -> Z) (stack : option (Z * Z)).

  (** least address and end of the sections with a property *)
  Definition firstOf (Q : sect -> Prop) : Z -> Prop := least (fun v => exists f k o s, included objs entry f k o s /\ Q s /\ v = addr f k).
  Definition endOf (Q : sect -> Prop) : Z -> Prop := greatest (fun v => exists f k o s, included objs entry f k o s /\ Q s /\ v = addr f k + sh_size s).
  (** a section name in a symbol name: a dot may be written as an underscore *)
  Definition stands (m nm : list Z) : Prop := Forall2 (fun a b => a = b \/ a = 95 /\ b = 46) m nm.
  (** the addresses __start_m and __stop_m *)
  Definition boundaryAt (n : list Z) (v : Z) : Prop :=
    exists m nm, stands m nm /\
      (n = str "__start_" ++ m /\ firstOf (fun s => sh_name s = nm) v \/
       n = str "__stop_" ++ m /\ endOf (fun s => sh_name s = nm) v \/
       nm = str "allcode__" /\ n = str "__start_" ++ m /\ firstOf (fun s => isExec s = true) v \/
       nm = str "allcode__" /\ n = str "__stop_" ++ m /\ endOf (fun s => isExec s = true) v \/
       nm = str "alldata__" /\ n = str "__start_" ++ m /\ firstOf (fun s => isExec s = false) v \/
       nm = str "alldata__" /\ n = str "__stop_" ++ m /\ endOf (fun s => isExec s = false) v \/
       nm = str "stack__" /\ n = str "__start_" ++ m /\ option_map fst stack = Some v \/
       nm = str "stack__" /\ n = str "__stop_" ++ m /\ option_map snd stack = Some v).
  (** the address of a global symbol: in the object of the program that defines it, or a boundary *)
  Definition symbolAt (n : list Z) (v : Z) : Prop :=
    (exists i o y, reach objs entry i /\ nth_error objs i = Some o /\ globalOf o y /\ st_name y = Some n /\
       0 < st_shndx y /\ v = (addr i (Z.to_nat (st_shndx y)) + st_value y) mod 2 ^ 32) \/
    nobody objs n /\ boundaryAt n v.
  (** the address a relocation of object [f] refers to *)
  Definition refers (f : nat) (o : obj) (rs : sect) (r : rel) (v : Z) : Prop :=
    r_sym r = 0 /\ v = 0 \/
    exists t y, nth_error o (Z.to_nat (sh_link rs)) = Some t /\ nth_error (s_syms t) (Z.to_nat (r_sym r)) = Some y /\
      (st_type y = 3 /\ v = addr f (Z.to_nat (st_shndx y)) \/
       st_type y <> 3 /\ st_bind y = 1 /\ (exists n, st_name y = Some n /\ symbolAt n v) \/
       st_type y <> 3 /\ st_bind y = 0 /\ v = (addr f (Z.to_nat (st_shndx y)) + st_value y) mod 2 ^ 32).
  (** what a section contains in the program *)
  Definition finalBytes (f k : nat) (o : obj) (s : sect) (b : list Z) : Prop :=
    if sh_type s =? 8 then b = repeat 0 (Z.to_nat (sh_size s)) else
    (exists rs v, relocationsOf o k rs /\ Forall (fun r => known r /\ refers f o rs r (v r)) (s_rels rs) /\
       b = patchAll (s_bytes s) (addr f k) v (s_rels rs)) \/
    (forall rs, ~ relocationsOf o k rs) /\ b = s_bytes s.
End Addresses.

(** ** what a good layout is *)
(** where section [k] of object [f] was put, in the linker's list of placed sections *)
Fixpoint lookup (out : list placed) (f k : nat) : option placed :=
  match out with
  | [] => None
  | p :: out => if Nat.eqb (pl_obj p) f && Nat.eqb (pl_sect p) k then Some p else lookup out f k
  end.
Section GoodLayout.
  Variables (objs : list obj) (entry : list Z) (fmt : Z).
  (** where every section was put *)
  Variable place : nat -> nat -> option placed.
  Definition end_ (s : sect) (q : placed) : Z := pl_addr q + sh_size s.
  (** every section of the program is at an aligned address within [from, limit] *)
  Definition everyPlaced (from : Z) (Q : sect -> Prop) : Prop := forall f k o s, included objs entry f k o s -> Q s ->
    exists q, place f k = Some q /\ from <= pl_addr q /\ end_ s q <= limit fmt /\
      (1 < alignment fmt s -> (alignment fmt s | pl_addr q)).
  (** two different sections do not overlap *)
  Definition noOverlap (Q : sect -> sect -> Prop) : Prop := forall f k o s q f' k' o' s' q',
    included objs entry f k o s -> included objs entry f' k' o' s' -> (f, k) <> (f', k') -> Q s s' ->
    place f k = Some q -> place f' k' = Some q' -> end_ s q <= pl_addr q' \/ end_ s' q' <= pl_addr q.
  (** code comes first, then read-only data, other data and zero-initialized data *)
  Definition inOrder (Q : sect -> sect -> Prop) : Prop := forall f k o s q f' k' o' s' q',
    included objs entry f k o s -> included objs entry f' k' o' s' -> kind s < kind s' -> Q s s' ->
    place f k = Some q -> place f' k' = Some q' -> end_ s q <= pl_addr q'.
  (** the sections of one name follow each other with nothing but alignment between them, in the order of
      the objects on the command line and of the sections in them *)
  Definition keyLt (x y : nat * nat) : Prop := (fst x < fst y)%nat \/ fst x = fst y /\ (snd x < snd y)%nat.
  Definition together : Prop := forall f k o s, included objs entry f k o s ->
    exists g a b, run fmt a g b /\ StronglySorted keyLt (map (fun sq => (pl_obj (snd sq), pl_sect (snd sq))) g) /\
      forall s' q, In (s', q) g <-> (exists o', included objs entry (pl_obj q) (pl_sect q) o' s') /\ sh_name s' = sh_name s /\
        place (pl_obj q) (pl_sect q) = Some q.
  (** all of it *)
  Definition goodLayout (from : Z) : Prop :=
    everyPlaced from (fun _ => True) /\ noOverlap (fun _ _ => True) /\ inOrder (fun _ _ => True) /\ together.
End GoodLayout.

(** ** files *)
(** bytes [b] in a file at an offset *)
Definition occurs (file : list Z) (off : Z) (b : list Z) : Prop := exists a c, file = a ++ b ++ c /\ zlen a = off.

(** numbers in a file *)
Definition word (n : nat) (file : list Z) (off : Z) : Z := number (firstn n (skipn (Z.to_nat off) file)).
(** the header of an ELF program: entry point, program header table *)
Definition elfProgram (file : list Z) (entry : Z) (segs : list segm) : Prop :=
  firstn 7 file = [127; 69; 76; 70; 1; 1; 1] /\ word 2 file 16 = 2 /\ word 2 file 18 = 3 /\ word 4 file 24 = entry /\
  word 4 file 28 = 52 /\ word 2 file 42 = 32 /\ word 2 file 44 = zlen segs /\
  forall i g, nth_error segs i = Some g -> let ph := 52 + 32 * Z.of_nat i in
    word 4 file ph = 1 /\ word 4 file (ph + 4) = g_off g /\ word 4 file (ph + 8) = g_vaddr g /\ word 4 file (ph + 16) = g_filesz g /\
    word 4 file (ph + 20) = g_memsz g /\ word 4 file (ph + 24) = g_flags g /\ word 4 file (ph + 28) = 4096.
(** a segment that can be loaded *)
Definition segOk (file : list Z) (g : segm) : Prop :=
  (4096 | g_vaddr g) /\ (4096 | g_off g) /\ 0 <= g_vaddr g /\ 0 <= g_off g /\ 0 <= g_filesz g <= g_memsz g /\
  g_vaddr g + g_memsz g <= 2 ^ 32 /\ g_off g + g_filesz g <= zlen file.
Definition segApart (g g' : segm) : Prop := g_vaddr g + g_memsz g <= g_vaddr g' \/ g_vaddr g' + g_memsz g' <= g_vaddr g.
(** the byte at an address after loading: from the file, then zeros *)
Fixpoint memory (file : list Z) (segs : list segm) (a : Z) : option Z :=
  match segs with
  | [] => None
  | g :: segs => if (g_vaddr g <=? a) && (a <? g_vaddr g + g_memsz g)
      then if a <? g_vaddr g + g_filesz g then zget file (g_off g + (a - g_vaddr g)) else Some 0
      else memory file segs a
  end.
