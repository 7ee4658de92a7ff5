s("C29", "proved", "All 2^32 time values, binary-search tables included.")
s("C30", "proved", "UTC core, all struct tm contents; both round trips, plus the Linux localtime/mktime pair. The Windows variants call the OS and are not modelled.")
s("C31", "partial", "False as stated: refuted for the Linux variant (error value is shifted by the zone offset). Proved for zero/unknown offsets.")
s("C25", "proved", "Byte-level model; permutation and memory safety for arbitrary (even stateful) comparison functions, sortedness for consistent ones.")
s("C26", "proved", "")
s("C27", "proved", "All strings, all valid bases.")
s("C28", "proved", "")
s("C43", "proved", "")
s("C01","proved","GetNumber on every text: the value and type of every integer constant, and the converse (what is accepted is a constant with that value). int is 16 or 32 bits; the only types are int and unsigned, as in the compiler.")
s("C09","proved","Decimal to binary32: GetNumber and d2f, from the source text to the bits, correctly rounded (ties to even, denormals, infinity) for every constant with at most 112 significant digits; C09_long_refuted shows the digit bound is needed (a constant with more digits is misscaled). C's standard allows any nearby value for such a constant, but not one off by powers of ten.")
s("C04", "proved", "16- and 32-bit x86 code of the fusing code generator, all analysed expression trees, all machine states; integer and pointer expressions (floating point is calls to library routines). The front end's type analysis is not part of the model: it is represented by the conversion-explicit tree and its stack encoding.")
s("C05", "proved", "")
s("C06", "proved", "")
s("C20", "proved", "")
s("C07", "partial", "Proved for all statement nestings and executions (also goto, case labels inside loops), except that a brace-less return that ends a function inside a while/for loop is miscompiled: C07_trailing_return_refuted. The theorem excludes exactly that shape (tail_ret).")
s("C08", "proved", "For the functions that C07_function_body_partial covers.")
s("C32", "proved", "C versions of the 32-bit libraries; the inline assembly of the 16-bit ones is not modelled.")
s("C33", "proved", "C versions of the 32-bit libraries.")
s("C34", "proved", "")
s("C21", "proved", "DOS (16-bit), DPMI and Linux allocators; on Linux for requests up to 2 GB - 16 bytes (see C24).")
s("C22", "proved", "Same scope as C21.")
s("C23", "proved", "For histories without shrinking realloc, as stated; C23_shrink_refuted shows that the restriction is needed.")
s("C24", "partial", "Holds for sizes up to 2 GB - 16 (C24_within_break_partial); false for larger ones: C24_refuted.")
s("C03","proved","expr/exprUnary on the full ISO C expression grammar (string literals and type names as single tokens). C03_groups: result is the postfix form or the too-long error; C03_fits: never the error when the input is short enough for the 129-entry stacks; C03_postfix_unambiguous: the postfix form determines the tree.")
s("C02","proved","exprval on integer and pointer operators, 16- and 32-bit ints; calls, assignments, member access and floating point are opaque leaves. C02_null_refuted: on machines where null is an ordinary address, arithmetic on a constant null ?: of pointer type is not scaled.")
s("C44","proved","Null pointers excluded (arithmetic on them is undefined in C); see C02_null_refuted.")
s("C10","proved","ParseBase/ParseDecl/GetDeclSize/GetDeclAlignment on the declaration table and the member search of exprval, for any sequence of object declarations with nested struct/union definitions, arrays and pointers. C10_rules: the layout rules as stated; C10_offsets: what the tables lead to is that layout. Typedef, enum, bit-fields (absent) and forward references completed later are not modelled.")
s("C18","proved","C18_sizes: accepted iff every object type fits (or the table is full); C18_product: the checked multiplication for any operands.")
s("C11","proved","AllocLocal, the scopes of '{' and for, and the temporaries of structure-returning calls, for any nesting; C11_frame also gives the exact frame size and that a function is refused only when it needs more than the limit.")
s("C12","proved","AddFxnParamSymbols against the call sequence of exprval/GenExpr1 including the routine that pushes structures (16-bit and flat 32-bit); huge and unreal models not modelled. Structures passed must lie outside the stack area being written.")
s("C13","proved","Any source of nested groups with #define/#undef: lookups give the expansion of the latest live definition, nothing is read or written out of bounds, and the compiler stops exactly when a name is defined twice or the table or an expansion would overflow. Finding (C13_string_refuted): white space inside string literals of a macro body is squeezed.")
s("C14","partial","C14_groups: for properly nested groups exactly the live lines are compiled and nesting over 8 is refused. C14_any: whatever sequence of directives is accepted is a prefix of nested groups and is compiled as its meaning (stray or repeated #else/#endif always refused). Missing because false: groups left open at the end of the source are not reported (C14_refuted), nor is #elif after a skipped group (C14_elif_refuted).")
s("C19","proved","The packing value is that of a stack machine over the live pragmas, for any source of nested groups; pushes over 16, pops of the empty stack and values that are not 1, 2 or 4 up to the word size are refused, exactly.")
s("C16","partial","Full refinement (indices, interning, refusals, label numbers, text after block exit, bounds) for every history in which, in each block, labels are first used in the order their names appeared; C16_fresh: true whenever a label's name was not already used in the block. Missing because false: otherwise UndoNonLabelIdents overwrites label names, and a goto may silently go to a different label (C16_refuted) or a correct program is refused (C16_refused_refuted).")
s("C17","proved","GetCharValue, GetString (text printed by GenDumpChar read back as bytes), adjacent literals and character constants against a grammar of C characters, for every text and both character widths. C17_wide_octal_refuted: a wide octal escape above 255 is valid C and refused.")
s("C15","partial","Lock-step refinement of the symbol table (declarations, functions, blocks, for, tags, type names) to scopes, for every history: lookups give the innermost declaration, blocks restore the outer ones, redeclarations are refused exactly where the rules say (type compatibility is a parameter, any outcome). Missing because false (C15_typedef_refuted): a type name declared in an inner scope does not hide an outer object in expressions.")
s("C40","proved","every output format for the layout (C40_layout, C40_layout_small); flat and ELF programs to the last byte of the file (C40_flat_program, C40_elf_program); unreal-mode programs without sections .relod. Objects are taken after loading. Absolute global symbols index the section table out of bounds: C40_absolute_refuted.")
s("C41","proved","the buffer is the program's own (1027 bytes); any section size that fits in the 32-bit arithmetic (size + 1024 <= 2^32)")
s("C42","proved","archives are taken as the objects in them, after loading")
s("C36","proved","every history of fopen, setvbuf, fgetc, fread, ungetc, fputc, fwrite, fflush, fseek the C standard allows (input not directly after output), every buffer, every schedule of reads; text mode with and without \\r\\n. Refuted beside it: push-back after end of file is refused (C36_unget_refuted), a pushed back \\r is lost on \\r\\n text streams (C36_unget_text_refuted). String streams are not modelled.")
s("C37","proved","every history as for C36, every schedule of writes. On \\r\\n text streams the loss of the inserted \\r is visible in the error flag only: C37_crlf_refuted.")
s("C38","partial","SEEK_SET and SEEK_END in full, ftell in full (not append mode). SEEK_CUR: C38_seek_cur_partial excludes a target outside the buffer while characters are read ahead, because the code goes too far by their number there: C38_seek_cur_refuted.")
s("C35","partial","every format, flag, width, precision (also by *), modifier and argument, on a stream, in vsnprintf and in vsprintf; output below 2^31 characters. Missing because false: %#x/%#X with h or hh and an argument that only becomes 0 in the narrow type prints the prefix (C35_hash_refuted). Floating point conversions: C39, C45.")
s("C39","partial","every finite non-negative binary32, every buffer and digit count: digits, counts, bounds of writes, and whether digits remain for the fractional part. frexpf/modff/ldexpf are taken as exact operations (the proofs show they are only used where exact). Missing because false: when integral digits are dropped, *rem is non-zero even if only zeros were dropped (C39_rem_refuted).")
s("C45","partial","every format of C35 with float conversions added; every binary32, flag, width and precision. The text printed always shows a nearest value (C45_nearest), and rounds halves to even for every %f and %F. Missing because false: %e, %E (and %g, %G in that style) of a number exactly half way with more than two digits dropped before the point rounds up instead of to even (C45_tie_refuted: %.0e of 250 gives 3e+02); precisions of %g above 2^31-5 overflow (C45_huge_refuted).")
s("C46","partial","every accepted program of declarations (as in C10), every object, every token sequence; both directions. Expressions are tokens with their value (C20, C09 are about those). Missing because false: a comma after the only expression in braces around a scalar or a string, as in int x = {1,};, is refused (C46_comma_refuted, C46_string_comma_refuted); C46_taken_partial says this is all that is missing, apart from strings of 2^(8W)-1 characters.")
s("C47","partial","every null-terminated string shorter than 2^31: no subject sequence, NAN, INF, INFINITY, and every number of up to 112 significant digits with an exponent in the range of int; memory safety and absence of overflow for all strings (C47_safe). Missing because false: an exponent above INT_MAX makes it report no number (C47_exponent_refuted); digits after the 112th in the fraction scale the value (C47_long_refuted). Not known to the library and left out of the specification: hexadecimal numbers, NAN(...).")
s("C48","partial","every format of the listed directives and every input of up to 2^30 characters (C48_scan_partial); the specification determines the count, status and rest (C48_unique). Missing because false: EOF instead of 0 when the first item is a number or %c field cut short by the end of the input (C48_eof_refuted, C48_eof_char_refuted); %% does not skip white space (C48_percent_refuted, so the theorem wants white space before it); white space in the format counts the end of the input as a character for a later %n (C48_count_refuted); numbers of more than 112 significant digits (C47_long_refuted). fgetc and ungetc are those of an ideal stream (C36).")
s("C49","partial","every declaration and type name of C as modelled is accepted with its type (C49_declaration_gives_the_types, C49_type_name_gives_the_type, room in the table given); every token sequence accepted is a declaration of the grammar of C with a comma allowed before the end of a parameter list, with types that obey the rules of C except that elements of arrays may be arrays of unknown size (the two _partial theorems); types that break the other rules are refused; the table determines the type. Missing because false: C49_accepts_only_C_refuted, C49_accepts_only_C_array_refuted, C49_typedef_name_in_parentheses. enum and qualifiers are not modelled; array dimensions are tokens with a value.")
s("C50","proved","every expression tree (C50_expression_code, C50_statement_code, C50_condition_code), with the stack (C50_stack_balance), the order of && and || (C50_logical_and, C50_logical_or) and existence of the code (C50_code_exists). The tree is as the front end types it (void operands only where C allows); accesses to misaligned objects are undefined. Structure copies go through a helper function and are not expressions of the model.")
s("C51","partial","every format and every time in range with year up to 2^(8W-1)-2, both word sizes: the text (C51_strftime_partial, exactly one text), result, destination, and what is left of a text that does not fit (C51_truncated_partial). Missing because false: texts of 2^(8W) or more characters wrap the count and overrun the destination (C51_wrap_refuted, W=2).")
s("C52","partial","all statement nestings and executions, as C07/C08 on x86 (C52_function_body_partial, C52_function_returns_partial, C52_switch_partial, C52_labels_accepted, C52_labels_unique). Missing because false: a brace-less return that ends a function inside a while/for loop loses its jump to the epilogue (C52_trailing_return_refuted); the theorems exclude exactly that shape (tail_ret).")
s("C53","partial","every function with word parameters and result that C52 covers: arguments reach the parameters, $2, $29, $30, $31 and callers' memory come back as the convention wants, for leaves and for functions that call others (C53_function_partial); so compiled functions may be called by compiled code, one call level above the other (C53_implements_convention_partial). Missing because false: functions with a trailing return inside a loop (C52_trailing_return_refuted). Structure parameters and results are not modelled.")
s("C54","partial","every function with word parameters and result that C07 covers, 16-bit and 32-bit: the function returns to its return address with (e)ax, (e)sp, (e)bp and callers' memory as the convention wants (C54_function_partial); so compiled functions may be called by compiled code, one call level above the other (C54_implements_convention_partial). Missing because false: functions with a trailing return inside a loop (C07_trailing_return_refuted). Structure parameters and results are not modelled; structure copies and the Windows stack probe are in C55.")
s("C55","proved","structure copy (and its calling convention, so that it can be one of the callees of C04, C07 and C54), structure push and the stack probe, for all sizes, addresses and states; flat 32-bit and 16-bit code. The variants for the huge and unreal memory models are not modelled.")
s("C56","proved","structure copy (and its calling convention, so that it can be one of the callees of C50, C52 and C53) and structure push, for all non-empty structures (the compiler rejects empty ones), addresses and states.")
s("C57","proved","range, exact period, reachability of every state and uniformity, for all seeds and stretches of calls.")
s("C58","partial","asctime: exact text for the years 1000 to 9999; for any year, exactly whether the text fits (years -999 to 9999). ctime: every time before 2106. Missing because false: years beyond 9999 overrun the array (C58_asctime_refuted), times from 2106 on make ctime use a null pointer (C58_ctime_refuted).")
s("C59","proved","splitting for every line and placement, existence and uniqueness of the arguments, round trip for every list of arguments, room for characters and pointers.")
s("C60","proved","setjmp and longjmp separately and together, for all memories and registers, with anything in between; 16-bit and flat 32-bit code (huge and unreal mode are not modelled); the buffer must not lie in the three unused words below the stack pointer of setjmp's caller.")
s("C61","proved","every program and every behaviour of the registered functions that is defined in C (no second exit, no longjmp out); termination when they register nothing.")
s("C62","proved","addition, subtraction, all comparisons, all conversions, for both sizes of int; the two tests of fseek in 16-bit programs that use them.")
