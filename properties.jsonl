{"id": "C01", "title": "Integer constants keep their value", "statement": "A decimal, octal or hexadecimal integer constant (with optional u/l suffix) that the compiler accepts denotes exactly its mathematical value and gets type int when that value is representable in the target's int (or unsigned otherwise / when required by a suffix or non-decimal radix); a constant that does not fit is rejected, never wrapped.", "quantifier": "every string of digits of any length, every radix, every suffix, 16- and 32-bit targets", "why_tests_cant": "There are infinitely many digit strings and the overflow checks rely on wrap-around arithmetic; samples cannot show that no accepted string is wrapped.", "anchors": ["v0100/smlrc.c: GetNumber, truncInt, truncUint"]}
{"id": "C02", "title": "Constant folding agrees with run-time arithmetic", "statement": "When the compiler folds an integer operator (+ - * / % << >> & ^ | ~ unary minus, relational, equality, casts to char/short/unsigned types) the folded value, once reduced to the target word, is the value the target's word arithmetic produces, for signed and unsigned operands; division by zero and the overflowing signed division are never folded.", "quantifier": "every pair of operand values and every operator, for 16-bit and 32-bit words", "why_tests_cant": "2^64 operand pairs per operator; folding is done in 32-bit host ints with lazy truncation, so errors show only on particular bit patterns.", "anchors": ["v0100/smlrc.c: exprval, divCheckAndCalc, shiftCountCheck, truncInt, truncUint"]}
{"id": "C03", "title": "Operator precedence and associativity", "statement": "The postfix form the compiler builds for an expression groups operators exactly as the C grammar does: precedence levels, left associativity of binary operators, right associativity of assignment and ?:, parentheses, unary prefix and postfix operators.", "quantifier": "every well-formed expression, of any length and nesting", "why_tests_cant": "Unbounded expressions; a wrong comparison in the operator stack loop shows only for particular operator sequences.", "anchors": ["v0100/smlrc.c: expr, exprUnary, preced, precedGEQ, isop, isunary"]}
{"id": "C04", "title": "Generated x86 code computes the C value of an expression", "statement": "Executing the instructions emitted for an expression leaves in the accumulator the value that C semantics gives to that expression in the current memory, and performs exactly the stores the expression asks for, for byte, half-word and word operands, signed and unsigned.", "quantifier": "every expression tree, of any depth, every memory and register contents", "why_tests_cant": "The operand-fusion pass rewrites the expression in place and chooses among dozens of operand shapes; only a proof covers every combination at every depth.", "anchors": ["v0100/cgx86.c: GenFuse, GetOperandInfo, GenExpr1, GenReadIdent, GenReadLocal, GenReadIndirect, GenPostIncDec*, GenIncDec*"]}
{"id": "C05", "title": "Expression code keeps the machine stack balanced", "statement": "Code emitted for an expression leaves the stack pointer and frame pointer where they were, never reads a stack slot it has not pushed, and leaves memory outside the stores requested by the expression and the area below the stack pointer unchanged.", "quantifier": "every expression tree and every machine state", "why_tests_cant": "A push/pop mismatch on one rarely used operand shape corrupts the frame only for programs that reach it.", "anchors": ["v0100/cgx86.c: GenFuse (tokPushAcc), GenExpr1, GenGrowStack"]}
{"id": "C06", "title": "&&, ||, ?: and comma evaluate only what C says", "statement": "In generated code the right operand of && (||) runs only when the left operand is non-zero (zero), exactly one arm of ?: runs, and the result value is as in C.", "quantifier": "every expression tree and every machine state", "why_tests_cant": "Short-circuit jumps interact with operands saved on the stack; each nesting is a different program.", "anchors": ["v0100/smlrc.c: exprval (tokLogAnd, tokLogOr, '?')", "v0100/cgx86.c: GenExpr1 (tokShortCirc, tokGoto, tokLogAnd)"]}
{"id": "C07", "title": "Structured statements run in C order", "statement": "The jumps and labels emitted for if/else, while, do-while, for, break, continue and return make execution follow the structured semantics of those statements, including the special handling of constant conditions and of the reordered third clause of for.", "quantifier": "every nesting of statements and every execution", "why_tests_cant": "Control-flow bugs appear only for particular nestings; loops need arbitrarily long executions.", "anchors": ["v0100/smlrc.c: ParseStatement, ParseBlock"]}
{"id": "C08", "title": "switch dispatches to the right label", "statement": "A switch transfers control to the case whose constant equals the controlling value, else to default, else past the statement; two equal case constants in one switch are rejected; nested switches do not interfere.", "quantifier": "every set of case constants, every controlling value, every nesting", "why_tests_cant": "The case table is shared by nested switches; only quantifying over all of them shows that slots do not mix.", "anchors": ["v0100/smlrc.c: ParseStatement (tokSwitch, tokCase, tokDefault), AddCase"]}
{"id": "C09", "title": "Decimal floating constants are correctly rounded", "statement": "The single-precision value given to a decimal floating constant is the IEEE-754 binary32 number nearest to the decimal value, ties to even, with gradual underflow and overflow to infinity; the working buffer is never overrun.", "quantifier": "every digit string up to the accepted length and every decimal exponent", "why_tests_cant": "Halfway cases are arbitrarily rare; testing cannot enumerate 10^n digit strings.", "anchors": ["v0100/fp.c: d2f, ChainMultiplyAdd, ChainDivide", "v0100/srclib/cvtfd.c: __cvtfd"]}
{"id": "C10", "title": "Structure and union layout", "statement": "Each member of a struct lies at an offset that is a multiple of its alignment (bounded by #pragma pack), members do not overlap, are in declaration order and lie inside the object; union members are at offset 0 and fit; the size is the smallest multiple of the alignment that fits; sizes that do not fit the address space are rejected.", "quantifier": "every list of member sizes and alignments and every packing value", "why_tests_cant": "Unbounded member lists; padding errors depend on particular size/alignment sequences.", "anchors": ["v0100/smlrc.c: ParseDecl, ParseBase, GetDeclSize, GetDeclAlignment"]}
{"id": "C11", "title": "Local variables do not overlap", "statement": "Within one function every two simultaneously live locals occupy disjoint, word-aligned frame ranges below the saved frame pointer and inside the space the prologue reserves; leaving a block frees exactly its locals; excessive sizes are rejected.", "quantifier": "every sequence of block entries, exits and declarations", "why_tests_cant": "Needs every nesting history of blocks, not a sample.", "anchors": ["v0100/smlrc.c: AllocLocal, ParseStatement ('{'), AddFxnParamSymbols", "v0100/cgx86.c: GenWriteFrameSize"]}
{"id": "C12", "title": "Parameters are where the caller put them", "statement": "The frame offset assigned to each parameter equals the offset at which the call sequence pushes the corresponding argument (right to left, each rounded up to words), including the hidden pointer for struct results.", "quantifier": "every parameter list", "why_tests_cant": "Unbounded argument lists with mixed sizes.", "anchors": ["v0100/smlrc.c: AddFxnParamSymbols, exprUnary", "v0100/cgx86.c: GenExpr1 (',' and ')')"]}
{"id": "C13", "title": "Macro table behaves as a map", "statement": "After any sequence of #define and #undef, looking a name up yields the expansion of its latest live #define (with trailing blanks trimmed) or nothing; the table is never written out of bounds, and exhausting it is reported as an error.", "quantifier": "every history of definitions, undefinitions and lookups", "why_tests_cant": "Entries are variable-length and compacted in place; only an invariant over all histories shows lookups stay aligned.", "anchors": ["v0100/smlrc.c: FindMacro, UndefineMacro, AddMacroIdent, AddMacroExpansionChar, DefineMacro"]}
{"id": "C14", "title": "Conditional compilation keeps exactly the live groups", "statement": "For every nesting of #ifdef/#ifndef/#else/#endif the lines compiled are exactly those whose enclosing conditions are all true; unbalanced directives and nesting beyond the documented depth are reported.", "quantifier": "every sequence of directives and lines", "why_tests_cant": "Unbounded nesting histories.", "anchors": ["v0100/smlrc.c: pushPrep, popPrep, GetToken"]}
{"id": "C15", "title": "Innermost declaration wins", "statement": "An identifier used in a block denotes the innermost enclosing declaration of that name; after the block ends the outer declaration is visible again; redeclaration in the same scope is rejected.", "quantifier": "every nesting of scopes and declarations", "why_tests_cant": "Scope histories are unbounded and the tables are shared stacks.", "anchors": ["v0100/smlrc.c: FindSymbol, PushSyntax2, CheckRedecl, ParseStatement ('{')"]}
{"id": "C16", "title": "Identifier table interns names", "statement": "Two occurrences of a name get the same table index while the name is live and different names get different indices; leaving a block removes the names added in it except goto labels, whose text survives intact; overflow is reported.", "quantifier": "every history of additions, lookups and block exits", "why_tests_cant": "The table is scanned backwards through length bytes and compacted on block exit.", "anchors": ["v0100/smlrc.c: FindIdent, AddIdent, AddGotoLabel, UndoNonLabelIdents"]}
{"id": "C17", "title": "Character and string escapes", "statement": "Every accepted character escape (simple, octal, hexadecimal) denotes the character C assigns to it; escapes that do not fit in a character are rejected.", "quantifier": "every escape sequence of any length", "why_tests_cant": "Unbounded digit sequences after \\x and interaction with following characters.", "anchors": ["v0100/smlrc.c: GetCharValue, GetString"]}
{"id": "C18", "title": "Size computations never wrap", "statement": "The size computed for any declared type equals the mathematical product/sum of its parts; a type whose size does not fit the target's address space is rejected.", "quantifier": "every type nesting and every array dimension", "why_tests_cant": "Wrap-around happens only for products past the word size; there are infinitely many factorisations.", "anchors": ["v0100/smlrc.c: GetDeclSize, ParseArrayDimension"]}
{"id": "C19", "title": "#pragma pack is a stack", "statement": "pack(push,n)/pack(pop)/pack(n)/pack() affect later structures exactly as a stack of packing values; only powers of two up to the word size are accepted; overflow and underflow are reported.", "quantifier": "every history of pack pragmas", "why_tests_cant": "Histories are unbounded.", "anchors": ["v0100/smlrc.c: GetToken (#pragma pack), PragmaPackValue"]}
{"id": "C20", "title": "Switch-on-size loads extend correctly", "statement": "A read of a signed (unsigned) char or short object yields its value sign- (zero-) extended to the word, and a value stored to such an object then used in an expression is first converted to the object's type.", "quantifier": "every memory contents and every operand size", "why_tests_cant": "2^32 memory patterns and many addressing shapes.", "anchors": ["v0100/cgx86.c: GenExtendRegAIfNeeded, GenReadCRegIdent, GenReadCRegLocal, GenReadCRegIndirect"]}
{"id": "C21", "title": "malloc returns fresh, aligned, disjoint blocks", "statement": "After any history of malloc/free/realloc calls (each free/realloc given a live pointer) every live block is aligned, lies inside the heap, is at least as large as requested and overlaps no other live block nor the allocator's own headers and footers.", "quantifier": "every history of calls and request sizes, every heap extent", "why_tests_cant": "Allocator states are histories; corruption appears only for particular interleavings.", "anchors": ["v0100/srclib/malloc.c: malloc, init", "v0100/srclib/free.c: free", "v0100/srclib/realloc.c: realloc"]}
{"id": "C22", "title": "The allocator leaves user data alone", "statement": "malloc, free and realloc change no byte of any live block; realloc returns a block whose first min(old,new) bytes are those of the old one, and on failure leaves the old block intact.", "quantifier": "every history of calls and every heap contents", "why_tests_cant": "Same: depends on block adjacency patterns.", "anchors": ["v0100/srclib/malloc.c: malloc", "v0100/srclib/free.c: free", "v0100/srclib/realloc.c: realloc"]}
{"id": "C23", "title": "free makes the memory available again", "statement": "After every live block has been freed (histories without shrinking realloc), the heap is again one free block, so that the largest request that succeeded initially succeeds again; two adjacent free blocks never persist.", "quantifier": "every malloc/free history", "why_tests_cant": "Coalescing failures need specific orders of frees.", "anchors": ["v0100/srclib/free.c: free", "v0100/srclib/malloc.c: malloc"]}
{"id": "C24", "title": "malloc on Linux never hands out memory it does not own", "statement": "On the brk-based port a successful malloc(size) returns size usable bytes inside the program break, for every size.", "quantifier": "every size and every heap state", "why_tests_cant": "Sizes of 2 GB and more are never tried in tests; the growth amount is passed as a signed int.", "anchors": ["v0100/srclib/malloc.c: malloc (_LINUX), __sbrk"]}
{"id": "C25", "title": "qsort sorts", "statement": "qsort leaves a permutation of the original elements, in non-decreasing order with respect to the comparison function, comparing and moving only elements of the array, and terminates.", "quantifier": "every array, element size and every comparison function that is a total preorder (permutation and bounds: for any comparison function)", "why_tests_cant": "Arrays and comparison functions are unbounded; heap sort's sift loops have boundary cases.", "anchors": ["v0100/srclib/qsort.c: qsort, exchange"]}
{"id": "C26", "title": "bsearch finds", "statement": "On an array sorted with respect to the key, bsearch returns an element equal to the key if there is one and null otherwise, inspecting only elements of the array.", "quantifier": "every sorted array and every key", "why_tests_cant": "Unbounded arrays; off-by-one errors on odd/even sizes.", "anchors": ["v0100/srclib/bsearch.c: bsearch"]}
{"id": "C27", "title": "strtol and strtoul convert and saturate", "statement": "strtol/strtoul skip white space, accept a sign and an optional radix prefix, return the mathematical value of the longest digit prefix in the base when it is representable, otherwise the saturated limit with ERANGE, and set the end pointer just past the consumed characters (or to the start when nothing was converted).", "quantifier": "every string and every base", "why_tests_cant": "Infinitely many strings; overflow detection uses wrap-around arithmetic.", "anchors": ["v0100/srclib/strtol.c: strtol", "v0100/srclib/strtoul.c: strtoul"]}
{"id": "C28", "title": "atoi converts representable numbers", "statement": "atoi returns the value of the decimal number at the start of the string whenever that value is representable as int.", "quantifier": "every string", "why_tests_cant": "Infinitely many strings; limits of the range.", "anchors": ["v0100/srclib/atoi.c: atoi"]}
{"id": "C29", "title": "gmtime follows the Gregorian calendar", "statement": "gmtime converts a time to the proleptic Gregorian date, time of day, weekday and day of the year that lies exactly that many seconds after 1970-01-01 00:00:00, or fails when the year is beyond the supported range.", "quantifier": "every 32-bit time value", "why_tests_cant": "2^32 inputs, table-driven binary search.", "anchors": ["v0100/srclib/brktime.c: __breaktime, DaysSinceEpoch", "v0100/srclib/time1.c"]}
{"id": "C30", "title": "mktime inverts gmtime", "statement": "Building a time from a broken-down UTC time yields the unique count of seconds, rejects every invalid date or time, fills in weekday and day of year, and is inverse to breaking a time down.", "quantifier": "every broken-down time and every 32-bit time value", "why_tests_cant": "The combination space is in the billions and leap-year corrections have rare cases.", "anchors": ["v0100/srclib/bldtime.c: __buildtime", "v0100/srclib/brktime.c: __breaktime"]}
{"id": "C31", "title": "mktime reports invalid input", "statement": "mktime returns -1 for every broken-down time it does not accept, whatever the local time zone.", "quantifier": "every broken-down time and time-zone offset", "why_tests_cant": "The failing combination is an invalid date in a non-zero zone.", "anchors": ["v0100/srclib/mktime.c: mktime (UNIX_LIKE)"]}
{"id": "C32", "title": "memmove and memcpy move bytes", "statement": "memmove makes the destination equal to the old contents of the source even when they overlap and changes nothing else; memcpy does so for non-overlapping ranges; memset, memcmp, memchr meet their C specifications.", "quantifier": "every memory, address and length", "why_tests_cant": "Overlap cases are unbounded.", "anchors": ["v0100/srclib/memmove.c", "v0100/srclib/memcpy.c", "v0100/srclib/memset.c", "v0100/srclib/memcmp.c", "v0100/srclib/memchr.c"]}
{"id": "C33", "title": "String functions meet their specifications", "statement": "strlen, strcpy, strncpy, strcat, strncat, strcmp, strncmp, strchr, strrchr, strspn, strcspn, strpbrk, strstr return what C prescribes and write only the bytes C allows.", "quantifier": "every pair of terminated strings and every limit", "why_tests_cant": "Unbounded strings; zero-length and prefix corner cases.", "anchors": ["v0100/srclib/str*.c"]}
{"id": "C34", "title": "strtok splits into the maximal fields", "statement": "Successive strtok calls return, in order, exactly the maximal runs of non-delimiter characters of the original string, then null, whatever the delimiter sets.", "quantifier": "every string, delimiter sets and call history", "why_tests_cant": "Hidden state across calls.", "anchors": ["v0100/srclib/strtok.c: strtok"]}
{"id": "C35", "title": "printf integer conversions", "statement": "For %d %i %u %o %x %X %p %c %s the characters produced for every combination of flags, width, precision and length modifier are those the C standard prescribes, and the returned count is their number.", "quantifier": "every value, width, precision and flag combination", "why_tests_cant": "The combination space is unbounded; padding rules interact.", "anchors": ["v0100/srclib/doprint.c: __doprint"]}
{"id": "C36", "title": "Buffered reading returns the file's bytes", "statement": "Any mixture of fgetc, fread and ungetc on a stream yields exactly the underlying bytes in order (with pushed-back characters first), regardless of buffer size, buffering mode and of how many bytes each low-level read returns.", "quantifier": "every file, buffer size, call history and schedule of short reads", "why_tests_cant": "Short-read schedules and call mixes are unbounded.", "anchors": ["v0100/srclib/fillbuf.c: __fillbuf", "v0100/srclib/fgetc.c", "v0100/srclib/fread.c", "v0100/srclib/ungetc.c"]}
{"id": "C37", "title": "Buffered writing delivers every byte once", "statement": "After fflush or fclose the bytes written through fputc/fwrite have been passed to the low-level write exactly once, in order, whatever the buffer size and mode; a low-level failure is reported.", "quantifier": "every call history, buffer size and mode", "why_tests_cant": "Flush points depend on the history.", "anchors": ["v0100/srclib/flushbuf.c: __flushbuf", "v0100/srclib/fputc.c", "v0100/srclib/fwrite.c", "v0100/srclib/fflush.c"]}
{"id": "C38", "title": "fseek positions the stream", "statement": "After a successful fseek(f, off, whence) the next byte read from a readable stream is the byte of the file at the requested position (counted from the start, from the position ftell reported, or from the end).", "quantifier": "every file, stream state reachable by reads and seeks, offset and whence", "why_tests_cant": "The optimisation that keeps the buffer makes behaviour depend on the distance to the buffer ends.", "anchors": ["v0100/srclib/fseek.c: fseek", "v0100/srclib/ftell.c: ftell"]}
{"id": "C39", "title": "Float-to-decimal digits are exact", "statement": "The digit generators behind printf %f/%e produce exactly the decimal digits of the integral and fractional parts of the binary32 value, report whether non-zero digits remain, and stay inside their buffers.", "quantifier": "every finite non-negative binary32 value and every requested digit count", "why_tests_cant": "2^31 values times digit counts.", "anchors": ["v0100/srclib/cvtdf.c: __cvtdif, __cvtdff"]}
{"id": "C40", "title": "Linked sections do not overlap", "statement": "In the image layout every input section of every included object gets an address that is a multiple of its alignment, no two sections overlap, sections of one name are contiguous up to padding and file offsets correspond to addresses; overflow of the address space is an error.", "quantifier": "every set of objects, sections, sizes and alignments", "why_tests_cant": "Unbounded inputs; wrap-around and padding cases.", "anchors": ["v0100/smlrl.c: Pass, AlignTo, FindAllSections"]}
{"id": "C41", "title": "Relocation through the small buffer equals whole-section relocation", "statement": "Writing a section through the sliding buffer produces the same bytes as applying all relocations to the whole section in memory, and each relocated field holds addend + symbol (minus place for PC-relative), modulo the field size.", "quantifier": "every section size, relocation list and buffer size", "why_tests_cant": "Relocations straddling chunk boundaries are rare; only all offsets show they are handled.", "anchors": ["v0100/smlrl.c: RelocateAndWriteSection, Relocate, RelCmp"]}
{"id": "C42", "title": "Symbol resolution is complete and minimal", "statement": "If linking succeeds every undefined symbol of every included object is bound to a definition in an included object (or a section boundary symbol), each included object was needed transitively by the entry point, no symbol is defined twice among included objects, and resolution terminates.", "quantifier": "every collection of objects and archives", "why_tests_cant": "Fixed-point iteration over arbitrary dependency graphs.", "anchors": ["v0100/smlrl.c: FindAllSymbols, FindSymbolByName, CheckDuplicates"]}
{"id": "C43", "title": "Character classification follows the C locale", "statement": "Each of the twelve is* functions returns non-zero exactly for the characters the C locale puts in that class, toupper/tolower change exactly the letters, and none of them reads outside its table.", "quantifier": "EOF and every unsigned char value", "why_tests_cant": "A test samples characters; the table has 257 entries and fourteen consumers.", "anchors": ["v0100/srclib/ctype.c", "v0100/srclib/isalpha.c", "v0100/srclib/toupper.c"]}
{"id": "C44", "title": "Pointer arithmetic counts in elements", "statement": "Adding an integer to a pointer (in either order, also through indexing) moves the address by that many times the size of the pointed-to object, and the difference of two pointers into one array is the number of elements between them.", "quantifier": "every pair of operand expressions, element size, and state in which the operands have values", "why_tests_cant": "Element sizes, constant/non-constant operand combinations and the folding of offsets into addresses give unboundedly many shapes.", "anchors": ["v0100/smlrc.c: exprval"]}
{"id": "C45", "title": "printf prints correctly rounded floating point numbers", "statement": "For %e, %f, %g (and %E, %F, %G) with any flags, width and precision, printf, snprintf and sprintf print the value of the argument rounded to the requested number of decimal digits, halves to even, in the layout the C standard prescribes (style chosen by the exponent for %g, trailing zeros dropped unless #, inf and nan), mixed with any other conversions.", "quantifier": "every binary32 argument including subnormals, zeros, infinities and NaNs; every flag, width and precision; every list of conversions", "why_tests_cant": "2^32 arguments times unboundedly many precisions; ties and carries across all the digits are rare.", "anchors": ["v0100/srclib/doprint.c: printff, roundup", "v0100/srclib/vsnprint.c", "v0100/srclib/cvtdf.c"]}
{"id": "C46", "title": "Static initialisers mean what C says", "statement": "An initialiser of an object of static storage duration is accepted exactly if it fits the object's type (braces present or left out, nested to any depth, strings for character arrays, too few items, unions, a trailing comma) and is followed by a comma or semicolon; the data emitted then has exactly the object's size, holds each value at the offset of its member or element, and is zero everywhere else. An array without a length gets the number of elements of its initialiser.", "quantifier": "every accepted sequence of declarations, every object in it, every sequence of tokens as initialiser", "why_tests_cant": "Types nest without bound and every opening brace may be left out or present, so initialisers have unboundedly many shapes per type.", "anchors": ["v0100/smlrc.c: InitVar, InitScalar, InitArray, InitStruct", "v0100/cgx86.c: GenIntData, GenAddrData, GenZeroData"]}
{"id": "C47", "title": "strtof, strtod and atof convert correctly", "statement": "For every string, strtof (and strtod, atof) finds the longest initial part, after white space, that is a decimal floating number, INF, INFINITY or NAN with an optional sign, returns its value correctly rounded to the float type with its sign, stores the address right after it in *endptr, and sets errno to ERANGE on overflow; if there is no such part it returns 0 and stores the string's own address. It never reads past the terminating null character.", "quantifier": "every null-terminated string", "why_tests_cant": "Strings are unbounded, and correct rounding must hold for every digit sequence and exponent; halfway cases are too rare for tests to meet.", "anchors": ["v0100/srclib/strtof.c: match, strtof", "v0100/srclib/strtod.c: strtod", "v0100/srclib/atof.c: atof", "v0100/srclib/cvtfd.c: __cvtfd"]}
{"id": "C48", "title": "scanf reads, converts and stores what the format asks for", "statement": "For every format made of white space, ordinary characters, %%, %n and the conversions d i u o x X p e f g E F G c s [ with or without *, a field width and a length modifier, and for every input, scanf (fscanf, sscanf and the v variants) executes the directives in order as the C standard says: each input item is the longest sequence of characters within the width that is, or is a prefix of, a matching sequence; the item's value is stored through the next pointer, integers reduced to the size of the object, floating numbers correctly rounded; the first directive that fails ends the call; exactly the items and white space consumed are removed from the stream; and the number of assignments is returned, or EOF if the input ended before the first.", "quantifier": "every such format and every input of up to 2^30 characters", "why_tests_cant": "Formats and inputs are unbounded, and the rule for where an input item ends (prefixes of numbers such as 0x, 1e+, INFI) interacts with the field width and the end of the input in more ways than tests can list.", "anchors": ["v0100/srclib/doscan.c: __doscan", "v0100/srclib/sscanf.c: sscanf", "v0100/srclib/vfscanf.c: vfscanf"]}
{"id": "C49", "title": "Declarators give names the types C gives them", "statement": "Every declaration of objects, functions or typedefs and every type name in a cast or under sizeof that C allows, however its declarators nest pointers, arrays, functions, parameter lists and parentheses, is accepted, and each declared name is recorded with exactly the type C gives it (parameters of array and function type adjusted to pointers, (void) meaning no parameters, typedef names replaced by their types). Whatever else is accepted has a reading as such a declaration, and what is recorded is that reading. Different types are recorded differently.", "quantifier": "every declaration and type name, that is every base type and every tree of declarators; every sequence of tokens for the converse; int of 2 or 4 bytes", "why_tests_cant": "Declarators nest without bound and the parser handles them inside out, with a table it edits in the middle; only a few shapes are ever tested.", "anchors": ["v0100/smlrc.c: ParseDerived, ParseFxnParams, PushBase, ParseBase, ParseArrayDimension, ParseDecl, TokenStartsDeclaration"]}
{"id": "C50", "title": "Generated MIPS code computes the C value of an expression", "statement": "For every expression whose evaluation is defined, the MIPS code generated for it runs to its end without a trap; it leaves the value in $2 if the value is used, changes C objects as some evaluation order allowed by C does, calls functions with the arguments where the calling convention wants them, evaluates the right operand of && and || only when C says so, and in a condition jumps to the label exactly if the value is nonzero (or zero). The stack pointer and frame pointer are back afterwards and nothing above the stack pointer has changed. Code is produced for every expression the front end accepts.", "quantifier": "every expression tree, every program the code is placed in, every machine state and memory", "why_tests_cant": "Expressions nest without bound; the generator juggles eight temporary registers, spills them around calls and past the eighth, and picks instructions by the shape of the operands, so its behaviour depends on the whole tree.", "anchors": ["v0100/cgmips.c: GenPrep, GenExpr0, GenCmp, GenPushReg, GenPopReg, GenIncDecIdent, GenReadIndirect, GenWriteIndirect, GenGetBinaryOperatorInstr"]}
{"id": "C51", "title": "strftime writes the text its format stands for and stays within the destination", "statement": "For every format C defines and every broken-down time whose members are in range, strftime puts the text that C prescribes in the C locale (names, padded numbers, week numbers, composite conversions) and a terminator into the destination and returns the text's length, if both fit in maxsize characters; otherwise it returns 0. It never writes outside the first maxsize characters, changes nothing after the terminator, and reads nothing past the format's end.", "quantifier": "all formats of any length made of literal characters and the 36 conversions with their E and O forms, all broken-down times in range, all destination sizes, 16-bit and 32-bit targets", "why_tests_cant": "Week numbers depend on the year's length, the weekday of January 1st and the day in combination; formats are unbounded; overflow of the destination depends on where exactly the text is cut.", "anchors": ["v0100/srclib/strftime.c: strftime, helper, doformat, __putn, __putc", "v0100/srclib/time1.c: __isleap"]}
{"id": "C52", "title": "Generated MIPS code executes statements as C prescribes", "statement": "For every function body, the MIPS code generated for its statements (if, while, do, for, switch, break, continue, goto, labels, return, blocks, expression statements) runs as the C abstract machine does: if the function returns, the machine arrives at the function's epilogue with the returned value in $2 and the same memory; if it runs on forever, so does the machine, in step. A switch continues after the matching case, else after default, else after the switch; duplicate cases and defaults, and case labels outside a switch, are refused. Labels are never used twice, and the stack pointer, frame pointer and the frames above are preserved.", "quantifier": "every function body, every surrounding program, every machine state and memory, executions of any length", "why_tests_cant": "Statements nest without bound, executions have no bound on their length, and jumps interact across nesting levels (goto into loops, case labels inside loops).", "anchors": ["v0100/smlrc.c: ParseStatement, ParseBlock, ParseDecl, AddGotoLabel, AddCase", "v0100/cgmips.c: GenJumpUncond, GenJumpIfEqual, GenJumpIfZero, GenJumpIfNotZero, GenNumLabel"]}
{"id": "C53", "title": "Functions compiled for MIPS obey the calling convention", "statement": "When a compiled function is called with its arguments in $4-$7 and on the stack, it runs as the C function does, with its parameters holding the arguments and its locals as new objects. If the C function returns, the machine leaves the function with the returned value in $2, the stack pointer, frame pointer and return address as they were at the call, the C objects as the C function leaves them, and nothing else of the callers' frames changed; if the C function runs forever, so does the machine. So a compiled function may in turn be called by compiled code.", "quantifier": "every function body, number of parameters, arguments, frame size, stack position and memory, executions of any length, leaf functions and functions that call others (or themselves)", "why_tests_cant": "Whether a frame survives depends on everything the body and the functions it calls do with the stack; whether the return address is saved depends on whether any expression in the body makes a call.", "anchors": ["v0100/cgmips.c: GenFxnProlog, GenWriteFrameSize, GenUpdateFrameSize, GenFxnEpilog, GenLeaf", "v0100/smlrc.c: ParseDecl, GetFxnInfo"]}
{"id": "C54", "title": "Functions compiled for x86 obey the calling convention", "statement": "When a compiled function is called with its arguments on the stack, it runs as the C function does, with its parameters holding the arguments and its locals as new objects. If the C function returns, the machine is back at the return address with the returned value in (e)ax, the stack pointer and the frame pointer as they were at the call, the C objects as the C function leaves them, and nothing else of the callers' frames changed; if the C function runs forever, so does the machine. So a compiled function may in turn be called by compiled code.", "quantifier": "every function body, arguments, frame size, stack position, return address and memory, executions of any length, 16-bit and 32-bit code", "why_tests_cant": "Whether a frame survives depends on everything the body and the functions it calls do with the stack, in executions of any length.", "anchors": ["v0100/cgx86.c: GenFxnProlog, GenWriteFrameSize, GenUpdateFrameSize, GenFxnEpilog", "v0100/smlrc.c: ParseDecl"]}
{"id": "C55", "title": "The helper routines for structures and for the Windows stack do their job", "statement": "A structure assignment, compiled as a call of the compiler's copy routine, gives the destination exactly the bytes of the source, changes no other object, yields the destination's address and obeys the calling convention. A structure argument, compiled as a call of the push routine, ends up on the stack with all its bytes, padded to whole words, in place of the routine's own arguments. Before a frame of a page or more is allocated for Windows, the probe routine reads every page of the frame, in descending order and none below it, and leaves stack and frame pointers and memory as they were.", "quantifier": "every structure size and address, stack position, return address, register contents and memory; 16-bit and 32-bit code; every frame size", "why_tests_cant": "The routines are loops over sizes given at run time, with addresses anywhere; off-by-one errors and overlap with the stack show only for some of them.", "anchors": ["v0100/cgx86.c: GenFin, GenWriteFrameSize", "v0100/smlrc.c: exprval (structure assignment and arguments)"]}
{"id": "C56", "title": "The helper routines for structures in MIPS programs do their job", "statement": "In a MIPS program, a structure assignment, compiled as a call of the compiler's copy routine, gives the destination exactly the bytes of the source, changes no other object, yields the destination's address and obeys the calling convention. A structure argument, compiled as a call of the push routine followed by the caller's usual code after a call, ends up on the stack with all its bytes, padded to whole words and aligned.", "quantifier": "every non-empty structure, address, stack position, register contents and memory", "why_tests_cant": "The routines are loops over sizes given at run time, with addresses anywhere; off-by-one errors and overlap with the stack show only for some of them.", "anchors": ["v0100/cgmips.c: GenFin, GenGrowStack, GenPushReg", "v0100/smlrc.c: exprval (structure assignment and arguments)"]}
{"id": "C57", "title": "rand() goes through all its states and is uniform", "statement": "Every result of rand() is between 0 and RAND_MAX. Whatever seed srand() was given, the sequence of states repeats after 2^32 calls and not before, every state is reached, and among any 2^32 consecutive results each value from 0 to RAND_MAX occurs exactly 2^17 times.", "quantifier": "every seed, every number of calls, every result value, every stretch of 2^32 consecutive calls", "why_tests_cant": "The sequence has 2^32 states; a test sees a tiny part of it, for a few seeds.", "anchors": ["v0100/srclib/rand.c: rand", "v0100/srclib/srand.c: srand", "v0100/include/stdlib.h: RAND_MAX"]}
{"id": "C58", "title": "asctime and ctime produce the standard text and stay within their buffer", "statement": "For a broken-down time with its members in range, asctime returns the text the C standard prescribes, such as Sun Sep 16 01:03:52 1973 and a newline, and writes nothing outside of its 26-character array; ctime does so for the local time that the given time_t stands for in the Gregorian calendar.", "quantifier": "every broken-down time in range with every year an int can hold; every time_t and time zone offset", "why_tests_cant": "The text has a fixed place only for some years; the array is overrun only for others, and the last weeks of time_t are special.", "anchors": ["v0100/srclib/asctime.c: asctime", "v0100/srclib/ctime.c: ctime", "v0100/srclib/sprintf.c: sprintf", "v0100/srclib/doprint.c: __doprint", "v0100/srclib/localtim.c: localtime"]}
{"id": "C59", "title": "The command line is split into the right arguments", "statement": "Under DOS and Windows, main receives the arguments that the command line means under the rules of the Microsoft run-time library (quotes, doubled quotes, backslashes before quotes); in particular any list of strings, each written in quotes with the usual backslashes, is received exactly. The splitting may be done in place; it writes only to the result, which needs no more room than the line, and the array of pointers is always large enough.", "quantifier": "every command line, every list of arguments, every placement of the result at or below the start of the line or above its end", "why_tests_cant": "Lines are unbounded combinations of quotes, backslashes and blanks; overwriting of characters not yet read, or overrun of the pointer array, would show only for a few of them.", "anchors": ["v0100/srclib/c0.c: __ArgParser__, setargs"]}
{"id": "C60", "title": "setjmp returns a second time when longjmp is called", "statement": "setjmp returns 0. Whenever longjmp is later called with the same buffer, unchanged, from the same function or a deeper one, control comes back to the point after the call of setjmp with the stack pointer, frame pointer and flags of that time; the value seen there is the one given to longjmp, or 1 if that is 0. The two calls write only to the buffer and to unused stack below the stack pointers, so all objects of the calling function keep their latest values.", "quantifier": "every buffer, value, stack position, return address, flags and memory; everything the program may do between the calls; 16-bit and flat 32-bit code", "why_tests_cant": "What happens between the two calls is arbitrary, and so are the depths of the stack; a wrong saved pointer or a word written too high shows only in some of them.", "anchors": ["v0100/srclib/longjmp.c: setjmp, longjmp", "v0100/include/setjmp.h: jmp_buf", "v0100/cgx86.c: GenFxnProlog, GenFxnEpilog"]}
{"id": "C61", "title": "Functions registered with atexit are called at exit, last first", "statement": "When the program exits, every function registered with atexit is called exactly once for each successful registration, in the reverse order of registration; a function registered while exit is calling functions is called before those registered earlier and not yet called. At least 32 functions can be pending; a registration is refused only beyond that, with no other effect.", "quantifier": "every program: any number and order of registrations, before and during exit, depending in any way on what happened before", "why_tests_cant": "Histories of registrations and calls are unbounded and nested; tests try a few.", "anchors": ["v0100/srclib/atexit.c: atexit, iterator", "v0100/srclib/exit.c: exit, __ExitInner"]}
{"id": "C62", "title": "Long integers kept as pairs of 16-bit halves compute correctly", "statement": "The functions for 32-bit integers kept as two 16-bit halves, such as file positions in 16-bit programs, add and subtract modulo 2^32, also a number to or from itself, compare as signed and as unsigned numbers, and convert from and to int and unsigned without changing the value if it fits. Nothing but the result is written. A seek in a 16-bit program therefore stays within the buffer, and moves by the right amount, exactly when the plain numbers say so.", "quantifier": "every pair of numbers, at the same place or apart, with any contents of the rest of the memory; int of 16 or 32 bits", "why_tests_cant": "There are 2^64 pairs of operands; carries and signs show only in some of them.", "anchors": ["v0100/srclib/lngadd.c: __lngAdd", "v0100/srclib/lngsub.c: __lngSub", "v0100/srclib/lngsl.c: __lngSignedLess", "v0100/srclib/lngul.c: __lngUnsignedLess", "v0100/srclib/lngeq.c: __lngEq", "v0100/srclib/lngltz.c: __lngLessThan0", "v0100/srclib/lngfs.c: __lngFromSigned", "v0100/srclib/lngfu.c: __lngFromUnsigned", "v0100/srclib/lngts.c: __lngToSigned", "v0100/srclib/lngtu.c: __lngToUnsigned", "v0100/srclib/fseek16.c: __fseek"]}
