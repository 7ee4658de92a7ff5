#!/usr/bin/env python3
"""Writes ../properties.jsonl: one JSON object per property."""
import json, os
P = []
def p(title, statement, quantifier, why, anchors):
    P.append(dict(id="C%02d" % (len(P) + 1), title=title, statement=statement,
                  quantifier=quantifier, why_tests_cant=why, anchors=anchors))

# ---------------------------------------------------------------- compiler
p("Integer constants keep their value",
  "A decimal, octal or hexadecimal integer constant (with optional u/l suffix) that the compiler accepts denotes exactly its mathematical value and gets type int when that value is representable in the target's int (or unsigned otherwise / when required by a suffix or non-decimal radix); a constant that does not fit is rejected, never wrapped.",
  "every string of digits of any length, every radix, every suffix, 16- and 32-bit targets",
  "There are infinitely many digit strings and the overflow checks rely on wrap-around arithmetic; samples cannot show that no accepted string is wrapped.",
  ["v0100/smlrc.c: GetNumber, truncInt, truncUint"])
p("Constant folding agrees with run-time arithmetic",
  "When the compiler folds an integer operator (+ - * / % << >> & ^ | ~ unary minus, relational, equality, casts to char/short/unsigned types) the folded value, once reduced to the target word, is the value the target's word arithmetic produces, for signed and unsigned operands; division by zero and the overflowing signed division are never folded.",
  "every pair of operand values and every operator, for 16-bit and 32-bit words",
  "2^64 operand pairs per operator; folding is done in 32-bit host ints with lazy truncation, so errors show only on particular bit patterns.",
  ["v0100/smlrc.c: exprval, divCheckAndCalc, shiftCountCheck, truncInt, truncUint"])
p("Operator precedence and associativity",
  "The postfix form the compiler builds for an expression groups operators exactly as the C grammar does: precedence levels, left associativity of binary operators, right associativity of assignment and ?:, parentheses, unary prefix and postfix operators.",
  "every well-formed expression, of any length and nesting",
  "Unbounded expressions; a wrong comparison in the operator stack loop shows only for particular operator sequences.",
  ["v0100/smlrc.c: expr, exprUnary, preced, precedGEQ, isop, isunary"])
p("Generated x86 code computes the C value of an expression",
  "Executing the instructions emitted for an expression leaves in the accumulator the value that C semantics gives to that expression in the current memory, and performs exactly the stores the expression asks for, for byte, half-word and word operands, signed and unsigned.",
  "every expression tree, of any depth, every memory and register contents",
  "The operand-fusion pass rewrites the expression in place and chooses among dozens of operand shapes; only a proof covers every combination at every depth.",
  ["v0100/cgx86.c: GenFuse, GetOperandInfo, GenExpr1, GenReadIdent, GenReadLocal, GenReadIndirect, GenPostIncDec*, GenIncDec*"])
p("Expression code keeps the machine stack balanced",
  "Code emitted for an expression leaves the stack pointer and frame pointer where they were, never reads a stack slot it has not pushed, and leaves memory outside the stores requested by the expression and the area below the stack pointer unchanged.",
  "every expression tree and every machine state",
  "A push/pop mismatch on one rarely used operand shape corrupts the frame only for programs that reach it.",
  ["v0100/cgx86.c: GenFuse (tokPushAcc), GenExpr1, GenGrowStack"])
p("&&, ||, ?: and comma evaluate only what C says",
  "In generated code the right operand of && (||) runs only when the left operand is non-zero (zero), exactly one arm of ?: runs, and the result value is as in C.",
  "every expression tree and every machine state",
  "Short-circuit jumps interact with operands saved on the stack; each nesting is a different program.",
  ["v0100/smlrc.c: exprval (tokLogAnd, tokLogOr, '?')", "v0100/cgx86.c: GenExpr1 (tokShortCirc, tokGoto, tokLogAnd)"])
p("Structured statements run in C order",
  "The jumps and labels emitted for if/else, while, do-while, for, break, continue and return make execution follow the structured semantics of those statements, including the special handling of constant conditions and of the reordered third clause of for.",
  "every nesting of statements and every execution",
  "Control-flow bugs appear only for particular nestings; loops need arbitrarily long executions.",
  ["v0100/smlrc.c: ParseStatement, ParseBlock"])
p("switch dispatches to the right label",
  "A switch transfers control to the case whose constant equals the controlling value, else to default, else past the statement; two equal case constants in one switch are rejected; nested switches do not interfere.",
  "every set of case constants, every controlling value, every nesting",
  "The case table is shared by nested switches; only quantifying over all of them shows that slots do not mix.",
  ["v0100/smlrc.c: ParseStatement (tokSwitch, tokCase, tokDefault), AddCase"])
p("Decimal floating constants are correctly rounded",
  "The single-precision value given to a decimal floating constant is the IEEE-754 binary32 number nearest to the decimal value, ties to even, with gradual underflow and overflow to infinity; the working buffer is never overrun.",
  "every digit string up to the accepted length and every decimal exponent",
  "Halfway cases are arbitrarily rare; testing cannot enumerate 10^n digit strings.",
  ["v0100/fp.c: d2f, ChainMultiplyAdd, ChainDivide", "v0100/srclib/cvtfd.c: __cvtfd"])
p("Structure and union layout",
  "Each member of a struct lies at an offset that is a multiple of its alignment (bounded by #pragma pack), members do not overlap, are in declaration order and lie inside the object; union members are at offset 0 and fit; the size is the smallest multiple of the alignment that fits; sizes that do not fit the address space are rejected.",
  "every list of member sizes and alignments and every packing value",
  "Unbounded member lists; padding errors depend on particular size/alignment sequences.",
  ["v0100/smlrc.c: ParseDecl, ParseBase, GetDeclSize, GetDeclAlignment"])
p("Local variables do not overlap",
  "Within one function every two simultaneously live locals occupy disjoint, word-aligned frame ranges below the saved frame pointer and inside the space the prologue reserves; leaving a block frees exactly its locals; excessive sizes are rejected.",
  "every sequence of block entries, exits and declarations",
  "Needs every nesting history of blocks, not a sample.",
  ["v0100/smlrc.c: AllocLocal, ParseStatement ('{'), AddFxnParamSymbols", "v0100/cgx86.c: GenWriteFrameSize"])
p("Parameters are where the caller put them",
  "The frame offset assigned to each parameter equals the offset at which the call sequence pushes the corresponding argument (right to left, each rounded up to words), including the hidden pointer for struct results.",
  "every parameter list",
  "Unbounded argument lists with mixed sizes.",
  ["v0100/smlrc.c: AddFxnParamSymbols, exprUnary", "v0100/cgx86.c: GenExpr1 (',' and ')')"])
p("Macro table behaves as a map",
  "After any sequence of #define and #undef, looking a name up yields the expansion of its latest live #define (with trailing blanks trimmed) or nothing; the table is never written out of bounds, and exhausting it is reported as an error.",
  "every history of definitions, undefinitions and lookups",
  "Entries are variable-length and compacted in place; only an invariant over all histories shows lookups stay aligned.",
  ["v0100/smlrc.c: FindMacro, UndefineMacro, AddMacroIdent, AddMacroExpansionChar, DefineMacro"])
p("Conditional compilation keeps exactly the live groups",
  "For every nesting of #ifdef/#ifndef/#else/#endif the lines compiled are exactly those whose enclosing conditions are all true; unbalanced directives and nesting beyond the documented depth are reported.",
  "every sequence of directives and lines",
  "Unbounded nesting histories.",
  ["v0100/smlrc.c: pushPrep, popPrep, GetToken"])
p("Innermost declaration wins",
  "An identifier used in a block denotes the innermost enclosing declaration of that name; after the block ends the outer declaration is visible again; redeclaration in the same scope is rejected.",
  "every nesting of scopes and declarations",
  "Scope histories are unbounded and the tables are shared stacks.",
  ["v0100/smlrc.c: FindSymbol, PushSyntax2, CheckRedecl, ParseStatement ('{')"])
p("Identifier table interns names",
  "Two occurrences of a name get the same table index while the name is live and different names get different indices; leaving a block removes the names added in it except goto labels, whose text survives intact; overflow is reported.",
  "every history of additions, lookups and block exits",
  "The table is scanned backwards through length bytes and compacted on block exit.",
  ["v0100/smlrc.c: FindIdent, AddIdent, AddGotoLabel, UndoNonLabelIdents"])
p("Character and string escapes",
  "Every accepted character escape (simple, octal, hexadecimal) denotes the character C assigns to it; escapes that do not fit in a character are rejected.",
  "every escape sequence of any length",
  "Unbounded digit sequences after \\x and interaction with following characters.",
  ["v0100/smlrc.c: GetCharValue, GetString"])
p("Size computations never wrap",
  "The size computed for any declared type equals the mathematical product/sum of its parts; a type whose size does not fit the target's address space is rejected.",
  "every type nesting and every array dimension",
  "Wrap-around happens only for products past the word size; there are infinitely many factorisations.",
  ["v0100/smlrc.c: GetDeclSize, ParseArrayDimension"])
p("#pragma pack is a stack",
  "pack(push,n)/pack(pop)/pack(n)/pack() affect later structures exactly as a stack of packing values; only powers of two up to the word size are accepted; overflow and underflow are reported.",
  "every history of pack pragmas",
  "Histories are unbounded.",
  ["v0100/smlrc.c: GetToken (#pragma pack), PragmaPackValue"])
p("Switch-on-size loads extend correctly",
  "A read of a signed (unsigned) char or short object yields its value sign- (zero-) extended to the word, and a value stored to such an object then used in an expression is first converted to the object's type.",
  "every memory contents and every operand size",
  "2^32 memory patterns and many addressing shapes.",
  ["v0100/cgx86.c: GenExtendRegAIfNeeded, GenReadCRegIdent, GenReadCRegLocal, GenReadCRegIndirect"])

# ---------------------------------------------------------------- libc
p("malloc returns fresh, aligned, disjoint blocks",
  "After any history of malloc/free/realloc calls (each free/realloc given a live pointer) every live block is aligned, lies inside the heap, is at least as large as requested and overlaps no other live block nor the allocator's own headers and footers.",
  "every history of calls and request sizes, every heap extent",
  "Allocator states are histories; corruption appears only for particular interleavings.",
  ["v0100/srclib/malloc.c: malloc, init", "v0100/srclib/free.c: free", "v0100/srclib/realloc.c: realloc"])
p("The allocator leaves user data alone",
  "malloc, free and realloc change no byte of any live block; realloc returns a block whose first min(old,new) bytes are those of the old one, and on failure leaves the old block intact.",
  "every history of calls and every heap contents",
  "Same: depends on block adjacency patterns.",
  ["v0100/srclib/malloc.c: malloc", "v0100/srclib/free.c: free", "v0100/srclib/realloc.c: realloc"])
p("free makes the memory available again",
  "After every live block has been freed (histories without shrinking realloc), the heap is again one free block, so that the largest request that succeeded initially succeeds again; two adjacent free blocks never persist.",
  "every malloc/free history",
  "Coalescing failures need specific orders of frees.",
  ["v0100/srclib/free.c: free", "v0100/srclib/malloc.c: malloc"])
p("malloc on Linux never hands out memory it does not own",
  "On the brk-based port a successful malloc(size) returns size usable bytes inside the program break, for every size.",
  "every size and every heap state",
  "Sizes of 2 GB and more are never tried in tests; the growth amount is passed as a signed int.",
  ["v0100/srclib/malloc.c: malloc (_LINUX), __sbrk"])
p("qsort sorts",
  "qsort leaves a permutation of the original elements, in non-decreasing order with respect to the comparison function, comparing and moving only elements of the array, and terminates.",
  "every array, element size and every comparison function that is a total preorder (permutation and bounds: for any comparison function)",
  "Arrays and comparison functions are unbounded; heap sort's sift loops have boundary cases.",
  ["v0100/srclib/qsort.c: qsort, exchange"])
p("bsearch finds",
  "On an array sorted with respect to the key, bsearch returns an element equal to the key if there is one and null otherwise, inspecting only elements of the array.",
  "every sorted array and every key",
  "Unbounded arrays; off-by-one errors on odd/even sizes.",
  ["v0100/srclib/bsearch.c: bsearch"])
p("strtol and strtoul convert and saturate",
  "strtol/strtoul skip white space, accept a sign and an optional radix prefix, return the mathematical value of the longest digit prefix in the base when it is representable, otherwise the saturated limit with ERANGE, and set the end pointer just past the consumed characters (or to the start when nothing was converted).",
  "every string and every base",
  "Infinitely many strings; overflow detection uses wrap-around arithmetic.",
  ["v0100/srclib/strtol.c: strtol", "v0100/srclib/strtoul.c: strtoul"])
p("atoi converts representable numbers",
  "atoi returns the value of the decimal number at the start of the string whenever that value is representable as int.",
  "every string",
  "Infinitely many strings; limits of the range.",
  ["v0100/srclib/atoi.c: atoi"])
p("gmtime follows the Gregorian calendar",
  "gmtime converts a time to the proleptic Gregorian date, time of day, weekday and day of the year that lies exactly that many seconds after 1970-01-01 00:00:00, or fails when the year is beyond the supported range.",
  "every 32-bit time value",
  "2^32 inputs, table-driven binary search.",
  ["v0100/srclib/brktime.c: __breaktime, DaysSinceEpoch", "v0100/srclib/time1.c"])
p("mktime inverts gmtime",
  "Building a time from a broken-down UTC time yields the unique count of seconds, rejects every invalid date or time, fills in weekday and day of year, and is inverse to breaking a time down.",
  "every broken-down time and every 32-bit time value",
  "The combination space is in the billions and leap-year corrections have rare cases.",
  ["v0100/srclib/bldtime.c: __buildtime", "v0100/srclib/brktime.c: __breaktime"])
p("mktime reports invalid input",
  "mktime returns -1 for every broken-down time it does not accept, whatever the local time zone.",
  "every broken-down time and time-zone offset",
  "The failing combination is an invalid date in a non-zero zone.",
  ["v0100/srclib/mktime.c: mktime (UNIX_LIKE)"])
p("memmove and memcpy move bytes",
  "memmove makes the destination equal to the old contents of the source even when they overlap and changes nothing else; memcpy does so for non-overlapping ranges; memset, memcmp, memchr meet their C specifications.",
  "every memory, address and length",
  "Overlap cases are unbounded.",
  ["v0100/srclib/memmove.c", "v0100/srclib/memcpy.c", "v0100/srclib/memset.c", "v0100/srclib/memcmp.c", "v0100/srclib/memchr.c"])
p("String functions meet their specifications",
  "strlen, strcpy, strncpy, strcat, strncat, strcmp, strncmp, strchr, strrchr, strspn, strcspn, strpbrk, strstr return what C prescribes and write only the bytes C allows.",
  "every pair of terminated strings and every limit",
  "Unbounded strings; zero-length and prefix corner cases.",
  ["v0100/srclib/str*.c"])
p("strtok splits into the maximal fields",
  "Successive strtok calls return, in order, exactly the maximal runs of non-delimiter characters of the original string, then null, whatever the delimiter sets.",
  "every string, delimiter sets and call history",
  "Hidden state across calls.",
  ["v0100/srclib/strtok.c: strtok"])
p("printf integer conversions",
  "For %d %i %u %o %x %X %p %c %s the characters produced for every combination of flags, width, precision and length modifier are those the C standard prescribes, and the returned count is their number.",
  "every value, width, precision and flag combination",
  "The combination space is unbounded; padding rules interact.",
  ["v0100/srclib/doprint.c: __doprint"])
p("Buffered reading returns the file's bytes",
  "Any mixture of fgetc, fread and ungetc on a stream yields exactly the underlying bytes in order (with pushed-back characters first), regardless of buffer size, buffering mode and of how many bytes each low-level read returns.",
  "every file, buffer size, call history and schedule of short reads",
  "Short-read schedules and call mixes are unbounded.",
  ["v0100/srclib/fillbuf.c: __fillbuf", "v0100/srclib/fgetc.c", "v0100/srclib/fread.c", "v0100/srclib/ungetc.c"])
p("Buffered writing delivers every byte once",
  "After fflush or fclose the bytes written through fputc/fwrite have been passed to the low-level write exactly once, in order, whatever the buffer size and mode; a low-level failure is reported.",
  "every call history, buffer size and mode",
  "Flush points depend on the history.",
  ["v0100/srclib/flushbuf.c: __flushbuf", "v0100/srclib/fputc.c", "v0100/srclib/fwrite.c", "v0100/srclib/fflush.c"])
p("fseek positions the stream",
  "After a successful fseek(f, off, whence) the next byte read from a readable stream is the byte of the file at the requested position (counted from the start, from the position ftell reported, or from the end).",
  "every file, stream state reachable by reads and seeks, offset and whence",
  "The optimisation that keeps the buffer makes behaviour depend on the distance to the buffer ends.",
  ["v0100/srclib/fseek.c: fseek", "v0100/srclib/ftell.c: ftell"])
p("Float-to-decimal digits are exact",
  "The digit generators behind printf %f/%e produce exactly the decimal digits of the integral and fractional parts of the binary32 value, report whether non-zero digits remain, and stay inside their buffers.",
  "every finite non-negative binary32 value and every requested digit count",
  "2^31 values times digit counts.",
  ["v0100/srclib/cvtdf.c: __cvtdif, __cvtdff"])

# ---------------------------------------------------------------- linker
p("Linked sections do not overlap",
  "In the image layout every input section of every included object gets an address that is a multiple of its alignment, no two sections overlap, sections of one name are contiguous up to padding and file offsets correspond to addresses; overflow of the address space is an error.",
  "every set of objects, sections, sizes and alignments",
  "Unbounded inputs; wrap-around and padding cases.",
  ["v0100/smlrl.c: Pass, AlignTo, FindAllSections"])
p("Relocation through the small buffer equals whole-section relocation",
  "Writing a section through the sliding buffer produces the same bytes as applying all relocations to the whole section in memory, and each relocated field holds addend + symbol (minus place for PC-relative), modulo the field size.",
  "every section size, relocation list and buffer size",
  "Relocations straddling chunk boundaries are rare; only all offsets show they are handled.",
  ["v0100/smlrl.c: RelocateAndWriteSection, Relocate, RelCmp"])
p("Symbol resolution is complete and minimal",
  "If linking succeeds every undefined symbol of every included object is bound to a definition in an included object (or a section boundary symbol), each included object was needed transitively by the entry point, no symbol is defined twice among included objects, and resolution terminates.",
  "every collection of objects and archives",
  "Fixed-point iteration over arbitrary dependency graphs.",
  ["v0100/smlrl.c: FindAllSymbols, FindSymbolByName, CheckDuplicates"])

p("Character classification follows the C locale",
  "Each of the twelve is* functions returns non-zero exactly for the characters the C locale puts in that class, toupper/tolower change exactly the letters, and none of them reads outside its table.",
  "EOF and every unsigned char value",
  "A test samples characters; the table has 257 entries and fourteen consumers.",
  ["v0100/srclib/ctype.c", "v0100/srclib/isalpha.c", "v0100/srclib/toupper.c"])

p("Pointer arithmetic counts in elements",
  "Adding an integer to a pointer (in either order, also through indexing) moves the address by that many times the size of the pointed-to object, and the difference of two pointers into one array is the number of elements between them.",
  "every pair of operand expressions, element size, and state in which the operands have values",
  "Element sizes, constant/non-constant operand combinations and the folding of offsets into addresses give unboundedly many shapes.",
  ["v0100/smlrc.c: exprval"])

p("printf prints correctly rounded floating point numbers",
  "For %e, %f, %g (and %E, %F, %G) with any flags, width and precision, printf, snprintf and sprintf print the value of the argument rounded to the requested number of decimal digits, halves to even, in the layout the C standard prescribes (style chosen by the exponent for %g, trailing zeros dropped unless #, inf and nan), mixed with any other conversions.",
  "every binary32 argument including subnormals, zeros, infinities and NaNs; every flag, width and precision; every list of conversions",
  "2^32 arguments times unboundedly many precisions; ties and carries across all the digits are rare.",
  ["v0100/srclib/doprint.c: printff, roundup", "v0100/srclib/vsnprint.c", "v0100/srclib/cvtdf.c"])

p("Static initialisers mean what C says",
  "An initialiser of an object of static storage duration is accepted exactly if it fits the object's type (braces present or left out, nested to any depth, strings for character arrays, too few items, unions, a trailing comma) and is followed by a comma or semicolon; the data emitted then has exactly the object's size, holds each value at the offset of its member or element, and is zero everywhere else. An array without a length gets the number of elements of its initialiser.",
  "every accepted sequence of declarations, every object in it, every sequence of tokens as initialiser",
  "Types nest without bound and every opening brace may be left out or present, so initialisers have unboundedly many shapes per type.",
  ["v0100/smlrc.c: InitVar, InitScalar, InitArray, InitStruct", "v0100/cgx86.c: GenIntData, GenAddrData, GenZeroData"])

p("strtof, strtod and atof convert correctly",
  "For every string, strtof (and strtod, atof) finds the longest initial part, after white space, that is a decimal floating number, INF, INFINITY or NAN with an optional sign, returns its value correctly rounded to the float type with its sign, stores the address right after it in *endptr, and sets errno to ERANGE on overflow; if there is no such part it returns 0 and stores the string's own address. It never reads past the terminating null character.",
  "every null-terminated string",
  "Strings are unbounded, and correct rounding must hold for every digit sequence and exponent; halfway cases are too rare for tests to meet.",
  ["v0100/srclib/strtof.c: match, strtof", "v0100/srclib/strtod.c: strtod", "v0100/srclib/atof.c: atof", "v0100/srclib/cvtfd.c: __cvtfd"])

p("scanf reads, converts and stores what the format asks for",
  "For every format made of white space, ordinary characters, %%, %n and the conversions d i u o x X p e f g E F G c s [ with or without *, a field width and a length modifier, and for every input, scanf (fscanf, sscanf and the v variants) executes the directives in order as the C standard says: each input item is the longest sequence of characters within the width that is, or is a prefix of, a matching sequence; the item's value is stored through the next pointer, integers reduced to the size of the object, floating numbers correctly rounded; the first directive that fails ends the call; exactly the items and white space consumed are removed from the stream; and the number of assignments is returned, or EOF if the input ended before the first.",
  "every such format and every input of up to 2^30 characters",
  "Formats and inputs are unbounded, and the rule for where an input item ends (prefixes of numbers such as 0x, 1e+, INFI) interacts with the field width and the end of the input in more ways than tests can list.",
  ["v0100/srclib/doscan.c: __doscan", "v0100/srclib/sscanf.c: sscanf", "v0100/srclib/vfscanf.c: vfscanf"])

p("Declarators give names the types C gives them",
  "Every declaration of objects, functions or typedefs and every type name in a cast or under sizeof that C allows, however its declarators nest pointers, arrays, functions, parameter lists and parentheses, is accepted, and each declared name is recorded with exactly the type C gives it (parameters of array and function type adjusted to pointers, (void) meaning no parameters, typedef names replaced by their types). Whatever else is accepted has a reading as such a declaration, and what is recorded is that reading. Different types are recorded differently.",
  "every declaration and type name, that is every base type and every tree of declarators; every sequence of tokens for the converse; int of 2 or 4 bytes",
  "Declarators nest without bound and the parser handles them inside out, with a table it edits in the middle; only a few shapes are ever tested.",
  ["v0100/smlrc.c: ParseDerived, ParseFxnParams, PushBase, ParseBase, ParseArrayDimension, ParseDecl, TokenStartsDeclaration"])

p("Generated MIPS code computes the C value of an expression",
  "For every expression whose evaluation is defined, the MIPS code generated for it runs to its end without a trap; it leaves the value in $2 if the value is used, changes C objects as some evaluation order allowed by C does, calls functions with the arguments where the calling convention wants them, evaluates the right operand of && and || only when C says so, and in a condition jumps to the label exactly if the value is nonzero (or zero). The stack pointer and frame pointer are back afterwards and nothing above the stack pointer has changed. Code is produced for every expression the front end accepts.",
  "every expression tree, every program the code is placed in, every machine state and memory",
  "Expressions nest without bound; the generator juggles eight temporary registers, spills them around calls and past the eighth, and picks instructions by the shape of the operands, so its behaviour depends on the whole tree.",
  ["v0100/cgmips.c: GenPrep, GenExpr0, GenCmp, GenPushReg, GenPopReg, GenIncDecIdent, GenReadIndirect, GenWriteIndirect, GenGetBinaryOperatorInstr"])

p("strftime writes the text its format stands for and stays within the destination",
  "For every format C defines and every broken-down time whose members are in range, strftime puts the text that C prescribes in the C locale (names, padded numbers, week numbers, composite conversions) and a terminator into the destination and returns the text's length, if both fit in maxsize characters; otherwise it returns 0. It never writes outside the first maxsize characters, changes nothing after the terminator, and reads nothing past the format's end.",
  "all formats of any length made of literal characters and the 36 conversions with their E and O forms, all broken-down times in range, all destination sizes, 16-bit and 32-bit targets",
  "Week numbers depend on the year's length, the weekday of January 1st and the day in combination; formats are unbounded; overflow of the destination depends on where exactly the text is cut.",
  ["v0100/srclib/strftime.c: strftime, helper, doformat, __putn, __putc", "v0100/srclib/time1.c: __isleap"])

p("Generated MIPS code executes statements as C prescribes",
  "For every function body, the MIPS code generated for its statements (if, while, do, for, switch, break, continue, goto, labels, return, blocks, expression statements) runs as the C abstract machine does: if the function returns, the machine arrives at the function's epilogue with the returned value in $2 and the same memory; if it runs on forever, so does the machine, in step. A switch continues after the matching case, else after default, else after the switch; duplicate cases and defaults, and case labels outside a switch, are refused. Labels are never used twice, and the stack pointer, frame pointer and the frames above are preserved.",
  "every function body, every surrounding program, every machine state and memory, executions of any length",
  "Statements nest without bound, executions have no bound on their length, and jumps interact across nesting levels (goto into loops, case labels inside loops).",
  ["v0100/smlrc.c: ParseStatement, ParseBlock, ParseDecl, AddGotoLabel, AddCase", "v0100/cgmips.c: GenJumpUncond, GenJumpIfEqual, GenJumpIfZero, GenJumpIfNotZero, GenNumLabel"])

p("Functions compiled for MIPS obey the calling convention",
  "When a compiled function is called with its arguments in $4-$7 and on the stack, it runs as the C function does, with its parameters holding the arguments and its locals as new objects. If the C function returns, the machine leaves the function with the returned value in $2, the stack pointer, frame pointer and return address as they were at the call, the C objects as the C function leaves them, and nothing else of the callers' frames changed; if the C function runs forever, so does the machine. So a compiled function may in turn be called by compiled code.",
  "every function body, number of parameters, arguments, frame size, stack position and memory, executions of any length, leaf functions and functions that call others (or themselves)",
  "Whether a frame survives depends on everything the body and the functions it calls do with the stack; whether the return address is saved depends on whether any expression in the body makes a call.",
  ["v0100/cgmips.c: GenFxnProlog, GenWriteFrameSize, GenUpdateFrameSize, GenFxnEpilog, GenLeaf", "v0100/smlrc.c: ParseDecl, GetFxnInfo"])

p("Functions compiled for x86 obey the calling convention",
  "When a compiled function is called with its arguments on the stack, it runs as the C function does, with its parameters holding the arguments and its locals as new objects. If the C function returns, the machine is back at the return address with the returned value in (e)ax, the stack pointer and the frame pointer as they were at the call, the C objects as the C function leaves them, and nothing else of the callers' frames changed; if the C function runs forever, so does the machine. So a compiled function may in turn be called by compiled code.",
  "every function body, arguments, frame size, stack position, return address and memory, executions of any length, 16-bit and 32-bit code",
  "Whether a frame survives depends on everything the body and the functions it calls do with the stack, in executions of any length.",
  ["v0100/cgx86.c: GenFxnProlog, GenWriteFrameSize, GenUpdateFrameSize, GenFxnEpilog", "v0100/smlrc.c: ParseDecl"])
p("The helper routines for structures and for the Windows stack do their job",
  "A structure assignment, compiled as a call of the compiler's copy routine, gives the destination exactly the bytes of the source, changes no other object, yields the destination's address and obeys the calling convention. A structure argument, compiled as a call of the push routine, ends up on the stack with all its bytes, padded to whole words, in place of the routine's own arguments. Before a frame of a page or more is allocated for Windows, the probe routine reads every page of the frame, in descending order and none below it, and leaves stack and frame pointers and memory as they were.",
  "every structure size and address, stack position, return address, register contents and memory; 16-bit and 32-bit code; every frame size",
  "The routines are loops over sizes given at run time, with addresses anywhere; off-by-one errors and overlap with the stack show only for some of them.",
  ["v0100/cgx86.c: GenFin, GenWriteFrameSize", "v0100/smlrc.c: exprval (structure assignment and arguments)"])
p("The helper routines for structures in MIPS programs do their job",
  "In a MIPS program, a structure assignment, compiled as a call of the compiler's copy routine, gives the destination exactly the bytes of the source, changes no other object, yields the destination's address and obeys the calling convention. A structure argument, compiled as a call of the push routine followed by the caller's usual code after a call, ends up on the stack with all its bytes, padded to whole words and aligned.",
  "every non-empty structure, address, stack position, register contents and memory",
  "The routines are loops over sizes given at run time, with addresses anywhere; off-by-one errors and overlap with the stack show only for some of them.",
  ["v0100/cgmips.c: GenFin, GenGrowStack, GenPushReg", "v0100/smlrc.c: exprval (structure assignment and arguments)"])
p("rand() goes through all its states and is uniform",
  "Every result of rand() is between 0 and RAND_MAX. Whatever seed srand() was given, the sequence of states repeats after 2^32 calls and not before, every state is reached, and among any 2^32 consecutive results each value from 0 to RAND_MAX occurs exactly 2^17 times.",
  "every seed, every number of calls, every result value, every stretch of 2^32 consecutive calls",
  "The sequence has 2^32 states; a test sees a tiny part of it, for a few seeds.",
  ["v0100/srclib/rand.c: rand", "v0100/srclib/srand.c: srand", "v0100/include/stdlib.h: RAND_MAX"])
p("asctime and ctime produce the standard text and stay within their buffer",
  "For a broken-down time with its members in range, asctime returns the text the C standard prescribes, such as Sun Sep 16 01:03:52 1973 and a newline, and writes nothing outside of its 26-character array; ctime does so for the local time that the given time_t stands for in the Gregorian calendar.",
  "every broken-down time in range with every year an int can hold; every time_t and time zone offset",
  "The text has a fixed place only for some years; the array is overrun only for others, and the last weeks of time_t are special.",
  ["v0100/srclib/asctime.c: asctime", "v0100/srclib/ctime.c: ctime", "v0100/srclib/sprintf.c: sprintf", "v0100/srclib/doprint.c: __doprint", "v0100/srclib/localtim.c: localtime"])
p("The command line is split into the right arguments",
  "Under DOS and Windows, main receives the arguments that the command line means under the rules of the Microsoft run-time library (quotes, doubled quotes, backslashes before quotes); in particular any list of strings, each written in quotes with the usual backslashes, is received exactly. The splitting may be done in place; it writes only to the result, which needs no more room than the line, and the array of pointers is always large enough.",
  "every command line, every list of arguments, every placement of the result at or below the start of the line or above its end",
  "Lines are unbounded combinations of quotes, backslashes and blanks; overwriting of characters not yet read, or overrun of the pointer array, would show only for a few of them.",
  ["v0100/srclib/c0.c: __ArgParser__, setargs"])
p("setjmp returns a second time when longjmp is called",
  "setjmp returns 0. Whenever longjmp is later called with the same buffer, unchanged, from the same function or a deeper one, control comes back to the point after the call of setjmp with the stack pointer, frame pointer and flags of that time; the value seen there is the one given to longjmp, or 1 if that is 0. The two calls write only to the buffer and to unused stack below the stack pointers, so all objects of the calling function keep their latest values.",
  "every buffer, value, stack position, return address, flags and memory; everything the program may do between the calls; 16-bit and flat 32-bit code",
  "What happens between the two calls is arbitrary, and so are the depths of the stack; a wrong saved pointer or a word written too high shows only in some of them.",
  ["v0100/srclib/longjmp.c: setjmp, longjmp", "v0100/include/setjmp.h: jmp_buf", "v0100/cgx86.c: GenFxnProlog, GenFxnEpilog"])
p("Functions registered with atexit are called at exit, last first",
  "When the program exits, every function registered with atexit is called exactly once for each successful registration, in the reverse order of registration; a function registered while exit is calling functions is called before those registered earlier and not yet called. At least 32 functions can be pending; a registration is refused only beyond that, with no other effect.",
  "every program: any number and order of registrations, before and during exit, depending in any way on what happened before",
  "Histories of registrations and calls are unbounded and nested; tests try a few.",
  ["v0100/srclib/atexit.c: atexit, iterator", "v0100/srclib/exit.c: exit, __ExitInner"])
p("Long integers kept as pairs of 16-bit halves compute correctly",
  "The functions for 32-bit integers kept as two 16-bit halves, such as file positions in 16-bit programs, add and subtract modulo 2^32, also a number to or from itself, compare as signed and as unsigned numbers, and convert from and to int and unsigned without changing the value if it fits. Nothing but the result is written. A seek in a 16-bit program therefore stays within the buffer, and moves by the right amount, exactly when the plain numbers say so.",
  "every pair of numbers, at the same place or apart, with any contents of the rest of the memory; int of 16 or 32 bits",
  "There are 2^64 pairs of operands; carries and signs show only in some of them.",
  ["v0100/srclib/lngadd.c: __lngAdd", "v0100/srclib/lngsub.c: __lngSub", "v0100/srclib/lngsl.c: __lngSignedLess", "v0100/srclib/lngul.c: __lngUnsignedLess", "v0100/srclib/lngeq.c: __lngEq", "v0100/srclib/lngltz.c: __lngLessThan0", "v0100/srclib/lngfs.c: __lngFromSigned", "v0100/srclib/lngfu.c: __lngFromUnsigned", "v0100/srclib/lngts.c: __lngToSigned", "v0100/srclib/lngtu.c: __lngToUnsigned", "v0100/srclib/fseek16.c: __fseek"])

if __name__ == "__main__":
    out = os.path.join(os.path.dirname(os.path.abspath(__file__)), "..", "properties.jsonl")
    with open(out, "w") as f:
        for q in P:
            f.write(json.dumps(q, ensure_ascii=True) + "\n")
    print(len(P))
