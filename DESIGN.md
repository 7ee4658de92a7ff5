# SmallerC in Rocq: design of the formal model

Source: `/repo/v0100` (compiler `smlrc.c`, x86 back end `cgx86.c`, float support `fp.c`,
linker `smlrl.c`, C library `srclib/*.c`).  The code is read as text; nothing is built or run.

## Layout

`rocq/theories/` holds, per area `X`:

* `XModel.v`  – the functions of the code, as total computable Gallina functions, each with
  a comment citing file and lines.  No proofs.
* `XSpec.v`   – a small independent specification (mathematics, or the C standard), which does
  not mention the model.
* `XProof.v`  – invariants and lemmas.
* `XProps.v`  – the property theorems only (`Theorem … . Proof. exact lemma. Qed.`),
  `Print Assumptions` for each, and beside each an `Example` on a concrete non-trivial case.

Integers of the C code are modelled in `Z` with explicit wrap-around (`mod 2^w`) wherever the code
can wrap; arrays are lists or finite maps with explicit out-of-range failure (`None`), so that an
out-of-bounds access is a distinct outcome and never a silent default.  Loops without a syntactic
bound carry fuel and return `None` when it runs out; theorems prove that enough fuel exists.

## Trusted base

* Coq 8.16.1's kernel (and `vm_compute`, which the kernel uses for finite checks).
* **Assumptions.** `Print Assumptions` is run in the `*Props.v` files for every property theorem;
  it prints "Closed under the global context" for all of them.  No axiom of the standard library,
  of another library or of our own is used.  (The checker's list of axioms in loaded libraries
  names `Coq.ssr.ssrunder` entries: module parameters of the standard library that no theorem
  depends on.)
* The reading of the C code recorded in the citations: the model is hand-written, not extracted,
  from C text that was not compiled.  The C compiler that builds SmallerC is assumed to give that
  code its standard meaning with 32-bit `int`, 8-bit `char` and two's complement.
* The specifications (`*Spec.v`, and `X86.v` as the meaning of the emitted instructions) say what
  the English says.

## Plan per property

| id | what is modelled | how it is proved |
|----|------------------|------------------|
| C01 | `GetNumber`, digit loops and suffix/fit logic, on a list of characters | induction on digits; value = positional value |
| C02 | the folding `switch` arms of `exprval`, `divCheckAndCalc`, `truncInt` | per operator, against word arithmetic on `Z mod 2^w` |
| C03 | `exprUnary`/`expr` token-by-token with the operator stack | soundness+completeness against an inductive grammar; induction on trees |
| C04–C06, C20 | `GenFuse`, `GenExpr1` as list transformers and emitters; x86 subset semantics | simulation by induction on expression trees |
| C07 | statement code emission of `ParseStatement` with labels | simulation against big-step structured semantics |
| C08 | case table and dispatch chain | induction on the table; nested scopes as a stack |
| C09 | `d2f` on the byte buffer arithmetic | inequality reasoning on `Z`; rounding spec stated on rationals by cross multiplication |
| C10 | layout loop of `ParseDecl`/`ParseBase`/`GetDeclAlignment` | induction on member lists |
| C11, C12 | `AllocLocal`, block entry/exit, `AddFxnParamSymbols`, argument pushes | induction on histories |
| C13, C16 | byte tables with in-place compaction | refinement to association lists, induction on histories |
| C14, C19 | `pushPrep`/`popPrep`, pack stack | refinement to stacks |
| C15 | `FindSymbol` over the syntax stack | refinement to list of scopes |
| C17 | `GetCharValue` | case analysis/induction on digits |
| C18 | `GetDeclSize` | induction on the type syntax |
| C21–C24 | `malloc`, `free`, `realloc` on a word-addressed memory | representation invariant (block list) preserved by every operation; refinement; the Linux growth bug is stated as a refutation |
| C25, C26 | `qsort` (heap sort) and `bsearch` on lists | loop invariants (heap property, permutation) |
| C27, C28 | `strtol`, `strtoul`, `atoi` | loop invariants over digit prefixes |
| C29–C31 | `__breaktime`, `__buildtime`, `mktime` | arithmetic against a day-count specification; refutation for C31 |
| C32–C34 | `mem*`, `str*`, `strtok` on byte memory | loop invariants |
| C35 | `__doprint` integer path | case analysis against a formatting spec |
| C36–C38 | `FILE` structure, `__fillbuf`, `__flushbuf`, `fread`, `fwrite`, `fseek`, … with the kernel as an oracle | refinement to an abstract file with a position; refutation for the `SEEK_CUR` case |
| C39 | `__cvtdif`, `__cvtdff` | `Z` arithmetic |
| C40–C42 | `Pass`, `RelocateAndWriteSection`, `Relocate`, `FindAllSymbols` | induction over sections/relocations/objects; fixed point measure |
| C43 | `__chartype__` and its fourteen users | evaluation on the finite table |
| C44 | pointer scaling of `exprval` down to the machine code | corollary of C02/C04 lemmas |
| C45 | `printff` of `doprint.c` on top of C39 | digit arithmetic against rounding of rationals; uniqueness of the text; plugged into C35 |
| C46 | `InitVar`, `InitScalar`, `InitArray`, `InitStruct` on the table of C10, with `GenIntData`, `GenAddrData`, `GenZeroData` | equivalence with an inductive definition of what an initialiser means: mutual induction one way, induction on the recursion depth the other |
| C47 | `strtof` with `match`, on the model of `__cvtfd` from C09 | the text is split by a function shown to compute the longest subject sequence of the specification; loops by induction on the string; value by C09 |
| C48 | `__doscan` with its two state machines, the parser of directives and the character classes; the stream is a list | a deterministic automaton per conversion: the loop runs it as far as it goes, every matching sequence has a run, so what was read is the longest prefix of a matching sequence; value of the digits as an invariant; induction on the directives of the format |
| C49 | `ParseBase` (words, structures, typedef names), `ParseDerived`, `ParseArrayDimension`, `ParseFxnParams`, `PushBase` and the loop of `ParseDecl`; type names of casts and `sizeof` | declarators as a syntax tree with a printer and the meaning C gives them by recursion; mutual induction on the tree for what the parser does with its text, induction on the recursion depth for what it accepts; the table is decoded uniquely by induction on types |
| C50 | `cgmips.c` `GenPrep`, `GenCmp`, `GenExpr0` and their emission helpers; MIPS subset semantics with `$at` destroyed by assembler macros | what `GenPrep` does to the stack and what `GenExpr0` emits, by induction on the tree; then simulation by induction on the tree with the register window, the saved operands and the stack as invariant |
| C51 | `strftime.c` in full, with `__isleap`, for 16-bit and 32-bit `int` | the format as an inductive definition of its text, shown functional; each conversion by cases, week numbers against counting and the Thursday rule; induction on the format; the destination by induction on the text |
| C52 | the statement code of C07 with the jumps and expressions of `cgmips.c` | simulation against the small-step statement semantics of C07, on the MIPS machine of C50 |
| C53 | prologue and epilogue of `cgmips.c` around the code of C52 | prologue and epilogue executed symbolically; between them C52, with the caller's memory and the saved registers protected; `MipsFnSpec.v` says what a call means |
| C54 | prologue and epilogue of `cgx86.c` around the code of C07 | as C53; `FnSpec.v` says what a call means and has the machine's call, `leave` and `ret` |
| C55 | the routines that `GenFin` of `cgx86.c` adds: structure copy, structure push, stack probe | `HelpSpec.v` has `rep movsb`, si, di and the direction flag on top of the machine of C04; the copy loop by induction on the size, the probe loop by induction on the number of pages |
| C56 | the routines that `GenFin` of `cgmips.c` adds: structure copy, structure push | as C55, on the MIPS machine of C50 |
| C57 | `rand` and `srand` as functions on the seed | the n-th state in closed form; the power of 2 dividing 1 + a + ... + a^(n-1) is that dividing n; counting over the resulting permutation of the states |
| C58 | `asctime` on top of the `sprintf` of C35, `ctime` on top of the `localtime` of C30 | the directives of the format one by one, by the theorem of C35; lengths of decimal numbers |
| C59 | `__ArgParser__` on a memory, reading and writing through pointers that may be into the same line | induction over a grammar of command lines; the write position, with the backslashes not yet written, never passes the read position |
| C60 | `setjmp` and `longjmp` as instructions, on the machine of C55 with the flags as a word, the code segment and `iret` | symbolic execution of the two routines; the words they write are disjoint from the buffer; the state between the two calls is any state with the buffer intact |
| C61 | `atexit`, its iterator and `exit` with the array, the counter and a history of events; programs are arbitrary trees of registrations | invariant: the array holds the unmatched registrations of the history, as a stack; the specification is a bracket grammar |
| C62 | `__lng*` on a memory of 16-bit halves, with the wrap at the size of int | carries and borrows by case analysis on quotients; aliasing of the operands |

No property of the list is considered inexpressible; what is left out of each model is said in the
header comment of the corresponding model file and in `MANIFEST.json`.

## What is modelled

| file | code |
|------|------|
| `NumModel.v`, `FpModel.v` | `smlrc.c` `GetNumber`; `fp.c` `d2f` (also `srclib/cvtfd.c`) |
| `CharModel.v` | `GetCharValue`, `GetString`, character constants; `cgx86.c` `GenDumpChar` |
| `LexModel.v` | the built-in preprocessor: directives, conditionals, macro table, pragma pack stack, `GetIdent`, `SkipSpace` |
| `IdentModel.v` | identifier table, `goto` labels, undo at block exit |
| `ScopeModel.v` | symbol table: `FindSymbol`, `FindTaggedDecl`, typedef lookup, `CheckRedecl`, block entry and exit |
| `DeclModel.v` | declaration table, `GetDeclSize`, `GetDeclAlignment`, struct/union layout of `ParseBase`/`ParseDecl`, member search |
| `ParseModel.v` | expression parser (`expr`, `exprUnary`, operator stack) |
| `FoldModel.v` | `exprval`: integer and pointer typing, conversion, constant folding |
| `CgModel.v` | `cgx86.c` `GenFuse`, `GenExpr1` and their emission helpers |
| `StmtModel.v` | `ParseStatement`/`ParseBlock` code emission: loops, `switch`, `goto`, `return` |
| `FrameModel.v`, `CallModel.v` | `AllocLocal`, parameter offsets, argument passing, structure push |
| `LinkModel.v` | `smlrl.c`: symbol resolution, `Pass`, relocation, flat and ELF output |
| `HeapModel.v` | `malloc.c`, `free.c`, `realloc.c`, `calloc.c` (DOS, DPMI, Linux) |
| `SortModel.v`, `StrModel.v`, `StrtolModel.v`, `CtypeModel.v`, `TimeModel.v` | `qsort`, `bsearch`; `mem*`, `str*`; `strtol`, `strtoul`, `atoi`; `is*`, `to*`; `gmtime`, `mktime`, `localtime` |
| `StdioModel.v` | buffered streams: `fopen` set-up, `fgetc`, `fputc`, `fread`, `fwrite`, `ungetc`, `fflush`, `fseek`, `ftell`, `rewind`, `setvbuf` |
| `DoPrintModel.v`, `CvtModel.v`, `FltPrintModel.v` | `__doprint`, `vsnprintf`, `vsprintf`; digit generation; `printff` |
| `InitModel.v` | initialisation of static objects; expressions are tokens with a value, no wide strings |
| `StrtofModel.v` | `strtof.c`, `strtod.c`, `atof.c`; the conversion is `d2f` of `FpModel.v` |
| `ScanModel.v` | `doscan.c` (`__SMALLER_C_32__`), as used by `scanf`, `fscanf`, `sscanf` and the `v` variants; the stream is a list of characters with an ideal `fgetc`/`ungetc` |
| `DtorModel.v` | `TokenStartsDeclaration`, `ParseBase`, `ParseDerived`, `PushBase`, `ParseFxnParams`, the declarator loop of `ParseDecl`, type names (`smlrc.c`) |
| `MipsModel.v` | `cgmips.c`: `GenPrep`, `maxCallDepth`, `GenPushReg`/`GenPopReg`, `GenGetBinaryOperatorInstr`, read/write/increment helpers, `GenCmp`, `GenExpr0` (default configuration); `MipsSpec.v` has the machine |
| `MipsStmtModel.v` | `smlrc.c` `ParseStatement`, `ParseBlock`, body part of `ParseDecl` with `cgmips.c` `GenJumpUncond`, `GenJumpIfEqual`, `GenJumpIfZero`, `GenJumpIfNotZero`; `MipsStmtPre.v` has the conditions |
| `MipsFnModel.v` | `cgmips.c` `GenFxnProlog`, `GenWriteFrameSize`, `GenFxnEpilog`, `GenLeaf`; `smlrc.c` function part of `ParseDecl` |
| `FnModel.v` | `cgx86.c` `GenFxnProlog`, `GenWriteFrameSize`, `GenFxnEpilog`; `smlrc.c` function part of `ParseDecl` |
| `HelpModel.v` | `cgx86.c` `GenFin` (structure copy and push, stack probe) |
| `MipsHelpModel.v` | `cgmips.c` `GenFin`, and what follows a call in the caller |
| `RandModel.v` | `srclib/rand.c`, `srand.c` |
| `AsctimeModel.v` | `srclib/asctime.c`, `ctime.c` |
| `ArgModel.v` | `srclib/c0.c` `__ArgParser__` |
| `JmpModel.v` | `srclib/longjmp.c` `setjmp`, `longjmp` (16-bit and flat 32-bit; not huge and unreal mode) |
| `AtexitModel.v` | `srclib/atexit.c` `atexit`, `iterator`; `srclib/exit.c` `exit`, `__ExitInner` up to the call of the iterator |
| `LngModel.v` | `srclib/lngadd.c`, `lngsub.c`, `lngeq.c`, `lngltz.c`, `lngul.c`, `lngsl.c`, `lngfs.c`, `lngfu.c`, `lngts.c`, `lngtu.c`; `srclib/fseek16.c` `__fseek`, the tests for seeking within the buffer |
| `StrftimeModel.v` | `strftime.c` |

## What is not modelled

* Of the MIPS back end (`cgmips.c`): structure parameters and results, data, annotations, the
  variants REORDER_WORKAROUND and DONT_USE_SEH; delay slots are the assembler's.  The huge and unreal memory models of `cgx86.c`, inline assembly,
  interrupt functions, floating point arithmetic of compiled programs (library calls).
* How `exprval` of `smlrc.c` turns structure assignments and structure arguments into the calls whose
  targets C55 and C56 are about.
* `ucpp`, `smlrcc.c` (the driver), `n2f.c`, `lb.c`, the assembler.
* Loading of object files and archives (`loadElfObj`, `loadMeta`) and the DOS EXE, a.out, PE and
  Mach-O writers of the linker beyond the common layout.
* Of the library: the x87 mathematics, directory and process calls,
  the inline assembly variants, the Windows and Mac OS variants that call the system.
* `enum` declarations, storage classes, bodies of functions inside `ParseDecl`; the hiding of typedef names
  by names declared earlier in the same declarator list.

## Findings

Each is a theorem that refutes the natural claim with a concrete input; the property it limits is
proved for the remaining inputs.

| theorem | what happens |
|---------|--------------|
| `C02_null_refuted` | arithmetic on a constant null pointer from `?:` is not scaled |
| `C07_trailing_return_refuted` | a brace-less `return` that ends a function inside a loop body loses its jump |
| `C52_trailing_return_refuted` | the same in the code for MIPS |
| `C09_long_refuted` | a fraction with more than 112 digits gets a wrong exponent |
| `C13_string_refuted` | spaces inside string literals of macro bodies are squeezed |
| `C14_refuted`, `C14_elif_refuted` | an unterminated `#ifdef` is accepted; `#elif` is ignored silently |
| `C15_typedef_refuted` | an inner `typedef` does not hide an outer object |
| `C16_refuted`, `C16_refused_refuted` | undoing identifiers at block exit corrupts label names |
| `C17_wide_octal_refuted` | wide octal escapes above 255 are refused |
| `C23_shrink_refuted` | shrinking `realloc` leaves adjacent free blocks |
| `C24_refuted` | `malloc` of nearly 4 GB on Linux returns a block that is too small |
| `C31_mktime_linux_error_refuted` | `mktime`'s error value is shifted by the time zone |
| `C35_hash_refuted` | `%#hhx` prints a prefix for a zero value |
| `C36_unget_refuted`, `C36_unget_text_refuted` | `ungetc` is refused after end of file; a pushed back `\r` is lost |
| `C37_crlf_refuted` | writing `\n` reports success when the inserted `\r` was lost |
| `C38_seek_cur_refuted` | `fseek(SEEK_CUR)` outside of the buffer goes too far by the characters read ahead |
| `C39_rem_refuted`, `C45_tie_refuted` | `%.0e` of 250 prints 3e+02 |
| `C40_absolute_refuted` | an absolute global symbol indexes the section table out of bounds |
| `C45_huge_refuted` | `%.2147483647g` overflows `int` |
| `C46_comma_refuted`, `C46_string_comma_refuted` | `int x = {1,};` and `char s[5] = {"abc",};` are refused |
| `C47_exponent_refuted` | `strtof("1e2147483648", &e)` returns 0 with `e` at the start of the string instead of infinity, `ERANGE` and the end |
| `C48_eof_refuted`, `C48_eof_char_refuted` | `sscanf("-", "%d", &i)` and `sscanf("ab", "%3c", p)` return `EOF`, not 0 |
| `C48_percent_refuted` | `%%` does not skip white space in the input |
| `C48_count_refuted` | `sscanf("", " %n", &i)` stores 1 |
| `C47_long_refuted` | `strtof` of 1. followed by 120 zeros is 1e-9 |
| `C49_accepts_only_C_refuted` | `int f(int,);` is accepted |
| `C49_accepts_only_C_array_refuted` | `int (a[3])[];` is accepted: an array of arrays of unknown size |
| `C49_typedef_name_in_parentheses` | `int (T);` is refused where `T` is a typedef name of an outer scope |
| `C51_wrap_refuted` | `strftime` with a text of 2^16 characters or more (16-bit `size_t`) wraps its count and writes past the destination |
| `C58_asctime_refuted` | `asctime` writes past its static array for years from 10000 on (and before -999) |
| `C58_ctime_refuted` | `ctime` of a time in 2106 uses the null pointer that `localtime` returns |

Seen while reading, not stated as theorems: the linker dereferences NULL when there are no
sections; a section without ALLOC that shares its name with one that has it is placed; output
right after reading up to the end of an update stream is refused; `ftell` in append mode ignores
the length of the file; a failed `fseek` discards the buffer; `fread`/`fwrite` miscount objects of
2^31 bytes and more.

## Wrong programs

`seeded/LOG.jsonl` records, one line per attempt, an edit of a model definition in a scratch copy
(`tools/mutate.py`), the claim it breaks, and the theorems that failed because of it.
