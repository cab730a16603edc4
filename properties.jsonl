{"id": "C01", "title": "RISC-V instruction words mean what the mnemonic says", "statement": "For every RISC-V mnemonic the compiler can emit, every register triple and every immediate it accepts, the 32-bit word it writes decodes under the RV32IM manual to exactly that instruction with exactly those operands; an I-, S- or B-type immediate outside the encodable range is rejected, never silently truncated.", "quantifier": "all mnemonics, all registers 0..31, all 32-bit immediates", "why_tests_cant": "2^32 immediates x 2^15 register triples; a wrong bit slice shows only on particular immediates (e.g. bit 11 of a branch offset).", "anchors": ["src/riscv.c: rv_encode_R/I/S/B/J/U, __add.. __mod"]}
{"id": "C02", "title": "ARM instruction words mean what the mnemonic says", "statement": "For every ARM mnemonic the compiler can emit, every condition code, every register operand and every immediate used, the word written decodes under the ARMv7-A manual to exactly that instruction; an immediate the rotated 8-bit form cannot express is rejected.", "quantifier": "all mnemonics, condition codes, registers 0..15 and 32-bit immediates", "why_tests_cant": "Modified-immediate rotation and split movw/movt fields fail only on particular values.", "anchors": ["src/arm.c: arm_encode, __mov, __movw, __movt, arm_transfer, __b, __bl, __blx, __mul, __div"]}
{"id": "C03", "title": "Any integer constant survives to run time", "statement": "The code emitted to load an integer constant into a register leaves exactly that 32-bit value there and changes no other allocatable register, stack pointer or memory, on both targets.", "quantifier": "all 2^32 constants, all destination registers, all machine states", "why_tests_cant": "Sign-carry between the upper and lower immediate halves fails for specific bit patterns only.", "anchors": ["src/riscv-codegen.c: emit_ph2_ir OP_load_constant", "src/riscv.c: rv_hi rv_lo", "src/arm-codegen.c: OP_load_constant", "src/arm.c: __movw __movt __rsb_i"]}
{"id": "C04", "title": "Software multiplication on RISC-V is exact", "statement": "Without +m, the multiplication sequence terminates for every pair of operands and yields the product modulo 2^32, for any choice (including aliasing) of operand and destination registers, leaving every other allocatable register and memory unchanged.", "quantifier": "all 2^64 operand pairs, all register choices, all machine states", "why_tests_cant": "A loop whose length depends on the data; 2^64 operand pairs.", "anchors": ["src/riscv-codegen.c: emit_ph2_ir OP_mul"]}
{"id": "C05", "title": "Software division and modulo on RISC-V implement C division", "statement": "Without +m, a/b and a%b terminate for all operands; for b != 0 they give the C99 truncating quotient and remainder (wrapping for INT_MIN/-1), for any aliasing of registers, leaving every other allocatable register and memory unchanged.", "quantifier": "all 2^64 operand pairs, all register choices, all machine states", "why_tests_cant": "Data-dependent loops; corner cases at INT_MIN, -1, 0 and around powers of two.", "anchors": ["src/riscv-codegen.c: emit_ph2_ir OP_div/OP_mod"]}
{"id": "C06", "title": "Software division and modulo on ARM implement C division", "statement": "Without +m, a/b and a%b on ARM terminate for all operands, and for b != 0 give the C99 truncating quotient and remainder, leaving other allocatable registers, the stack pointer and live memory unchanged.", "quantifier": "all operand pairs, all register choices (including both operands in one register), all machine states", "why_tests_cant": "Data-dependent loops plus register aliasing; the sequence clobbers and restores its operands.", "anchors": ["src/arm-codegen.c: emit_ph2_ir OP_div/OP_mod"]}
{"id": "C07", "title": "+m changes speed, never results", "statement": "For every operand pair with a non-zero divisor the hardware (+m) and the emulated instruction sequences for *, / and % compute the same value.", "quantifier": "all operand pairs with non-zero divisor, all register choices", "why_tests_cant": "Compares two code sequences over 2^64 inputs.", "anchors": ["src/riscv-codegen.c: OP_mul OP_div OP_mod", "src/arm-codegen.c: OP_div OP_mod"]}
{"id": "C08", "title": "Arithmetic, bitwise, shift, comparison and logical-not operators compute C's result", "statement": "For each remaining operator the emitted code computes the C value on 32-bit two's-complement ints (comparisons are signed and yield 0/1; shifts by 0..31, right shift arithmetic), for any aliasing of registers, leaving every other allocatable register and memory unchanged, on both targets.", "quantifier": "all operand values, register choices, machine states", "why_tests_cant": "Signed/unsigned confusion or aliasing of destination with an operand fails only on particular values or allocations.", "anchors": ["src/riscv-codegen.c: emit_ph2_ir", "src/arm-codegen.c: emit_ph2_ir", "src/arm.c: arm_get_cond"]}
{"id": "C09", "title": "Locals, globals and data are addressed exactly, at any offset", "statement": "Loading, storing or taking the address of a stack or global slot at any offset the compiler accepts touches exactly the word at base+offset, whatever the size of the frame, on both targets.", "quantifier": "all offsets, all registers, all machine states", "why_tests_cant": "Code shape switches at 255/2047/4095; large frames are rarely tested.", "anchors": ["src/riscv-codegen.c: OP_load OP_store OP_address_of OP_global_*", "src/arm-codegen.c: same"]}
{"id": "C10", "title": "RISC-V code layout: predicted addresses are the real ones", "statement": "For every program the address assigned to each function and block before emission equals the address at which its first instruction is actually written, the .data base used in address constants equals the end of the code, so every jump, branch, call and function/data address refers to its intended target.", "quantifier": "all programs (any number of functions, blocks and instructions)", "why_tests_cant": "Two independent passes must agree on the size of every instruction in every program.", "anchors": ["src/riscv-codegen.c: update_elf_offset cfg_flatten emit_ph2_ir code_generate"]}
{"id": "C11", "title": "ARM code layout: predicted addresses are the real ones", "statement": "Same as the RISC-V layout property, for the ARM back end.", "quantifier": "all programs", "why_tests_cant": "Two independent passes must agree on the size of every instruction in every program.", "anchors": ["src/arm-codegen.c: update_elf_offset cfg_flatten emit_ph2_ir code_generate"]}
{"id": "C12", "title": "RISC-V executables run the program", "statement": "Executing the emitted RISC-V code from the entry point performs exactly the steps of the program being compiled (in its low-level register/stack form): same register values, same memory, same calls, same system calls in the same order, same exit status, for any number of steps.", "quantifier": "all low-level programs, all executions of any length, all system-call results", "why_tests_cant": "Unbounded programs and unbounded executions.", "anchors": ["src/riscv-codegen.c: cfg_flatten emit_ph2_ir code_generate"]}
{"id": "C13", "title": "ARM executables run the program", "statement": "Same as the RISC-V execution property for the ARM back end.", "quantifier": "all low-level programs, all executions of any length, all system-call results", "why_tests_cant": "Unbounded programs and unbounded executions.", "anchors": ["src/arm-codegen.c: cfg_flatten emit_ph2_ir code_generate"]}
{"id": "C14", "title": "The output file is a well-formed ELF executable", "statement": "For every code and data image the output file parses as a 32-bit little-endian ET_EXEC with one loadable segment that maps exactly the code followed by the data at the address the code was compiled for, the entry point is the first code byte, all section headers lie inside the file and name the right byte ranges.", "quantifier": "all code and data images within the compiler's buffers", "why_tests_cant": "Offsets depend on the sizes of all parts; alignment padding matters for 3 of 4 data sizes.", "anchors": ["src/elf.c: elf_generate_header elf_generate_sections elf_align elf_generate"]}
{"id": "C15", "title": "Peephole optimisation preserves behaviour", "statement": "For every instruction sequence the optimiser rewrites, the optimised block leaves memory and every register except eliminated temporaries exactly as the original block would; it never touches control flow, calls or memory operations.", "quantifier": "all instruction sequences, all register files and memories", "why_tests_cant": "Window rewriting interacts with register aliasing and with what follows.", "anchors": ["src/peephole.c: insn_fusion peephole"]}
{"id": "C16", "title": "Compile-time constant folding equals run-time evaluation", "statement": "Whenever an arithmetic instruction on constants is folded, the folded constant is the value the instruction would have computed at run time; folding never changes which variable values the rest of the function sees.", "quantifier": "all instruction sequences, all 32-bit constants", "why_tests_cant": "All constants and operator combinations; stale constant marks can propagate.", "anchors": ["src/ssa.c: mark_const eval_const_arithmetic const_folding"]}
{"id": "C17", "title": "Function table behaves as a map for any set of names", "statement": "Looking up a function name returns the entry stored for that very name, and nothing if it was never stored, for any set of names, however their hashes collide; the bucket index is always inside the table.", "quantifier": "all strings, all sequences of insertions, all table sizes", "why_tests_cant": "Collisions and sign-overflow of the hash occur only for particular strings.", "anchors": ["src/globals.c: hashmap_hash_index round_up_pow2 hashmap_put hashmap_get hashmap_contains add_func find_func"]}
{"id": "C18", "title": "Arena allocations never overlap", "statement": "Every block handed out by an arena lies inside one of its chunks, has the requested size and overlaps no other block handed out since the last reset, for any sequence of allocation sizes.", "quantifier": "all sequences of allocation requests and resets", "why_tests_cant": "Histories of unbounded length; growth path depends on remaining space.", "anchors": ["src/globals.c: arena_init arena_alloc arena_reset"]}
{"id": "C19", "title": "Source buffer keeps every byte", "statement": "After any sequence of characters appended to the source buffer, the buffer contains exactly these characters in order and never writes outside its capacity, however often it grows.", "quantifier": "all append sequences, all initial capacities", "why_tests_cant": "Growth happens only at capacity boundaries.", "anchors": ["src/globals.c: create_source source_expand source_push"]}
{"id": "C20", "title": "#define / #undef give the value in force", "statement": "Looking up a macro name yields a definition exactly when more definitions than removals of that name are in force, and which definition is returned is determined by the history as documented, independent of other names.", "quantifier": "all histories of define and undef", "why_tests_cant": "Histories of unbounded length.", "anchors": ["src/globals.c: add_alias find_alias remove_alias add_macro find_macro remove_macro"]}
{"id": "C21", "title": "Identifiers resolve to the innermost declaration", "statement": "A variable name resolves to the declaration in the nearest enclosing block that declares it, then to a parameter of the function, then to a global; otherwise to nothing.", "quantifier": "all scope nests, all declaration lists, all names", "why_tests_cant": "Any depth of nesting and shadowing.", "anchors": ["src/globals.c: find_local_var find_global_var find_var"]}
{"id": "C22", "title": "String library functions follow their contract", "statement": "strlen, strcmp, strncmp, strcpy, strncpy and memcpy return and store exactly what ISO C prescribes for every pair of strings/buffers, touch no byte outside them, and terminate.", "quantifier": "all memory contents, strings of any length, all counts", "why_tests_cant": "Strings of unbounded length; off-by-one at terminators and at n.", "anchors": ["lib/c.c: strlen strcmp strncmp strcpy strncpy memcpy"]}
{"id": "C23", "title": "Decimal output is exact", "statement": "printing an int with %d produces its canonical decimal representation for all 2^32 values, using no division.", "quantifier": "all 32-bit ints", "why_tests_cant": "The reciprocal-by-shift approximation could be off for sparse values; 2^32 inputs.", "anchors": ["lib/c.c: __str_base10 __format"]}
{"id": "C24", "title": "Hexadecimal and octal output is exact", "statement": "%x and %o produce the canonical unsigned base-16/base-8 digits of all 2^32 values; # adds the prefix only for non-zero values.", "quantifier": "all 32-bit ints", "why_tests_cant": "Leading-digit handling of negative values; 2^32 inputs.", "anchors": ["lib/c.c: __str_base8 __str_base16 __format"]}
{"id": "C25", "title": "Field width and zero padding", "statement": "A conversion with width w and optional 0 flag yields exactly max(w, natural length) characters, padded on the left with the requested character, the sign or prefix preceding zero padding.", "quantifier": "all values, widths, flags, bases", "why_tests_cant": "Combinations of sign, prefix, width and base.", "anchors": ["lib/c.c: __format"]}
{"id": "C26", "title": "snprintf never writes outside its buffer", "statement": "snprintf(buf, n, ...) writes only bytes buf[0..n-1], always terminates the text when n > 0 and returns the length stored.", "quantifier": "all formats, arguments, sizes", "why_tests_cant": "Overrun happens only when a conversion straddles the end of the buffer.", "anchors": ["lib/c.c: __format_to_buf snprintf"]}
{"id": "C27", "title": "malloc returns usable, disjoint memory", "statement": "Every block returned by malloc has at least the requested number of usable bytes and overlaps no other live block or allocator header, for any history of malloc and free.", "quantifier": "all histories of malloc/free, all sizes", "why_tests_cant": "Reuse depends on the whole allocation history.", "anchors": ["lib/c.c: malloc free __align_up"]}
{"id": "C28", "title": "free detects double frees and recycles memory safely", "statement": "Freeing a live block makes exactly that block available again and keeps all others; freeing a block twice is detected and aborts.", "quantifier": "all histories of malloc/free", "why_tests_cant": "Histories of unbounded length.", "anchors": ["lib/c.c: free malloc chunk_set_freed"]}
{"id": "C29", "title": "calloc returns zeroed memory", "statement": "Every byte of the block calloc returns is zero, also when the memory was used before, for every size.", "quantifier": "all sizes and heap contents", "why_tests_cant": "Sizes not a multiple of the word size; reused chunks.", "anchors": ["lib/c.c: calloc"]}
{"id": "C30", "title": "Lexing recovers the token sequence", "statement": "Writing any sequence of tokens separated by white space and reading it back yields the same tokens with the same spellings, independent of the amount of white space, newlines and comments between them; lexing terminates on every input.", "quantifier": "all token sequences, all layouts", "why_tests_cant": "Unbounded inputs; tokens that are prefixes of one another.", "anchors": ["src/lexer.c: lex_token_internal skip_whitespace read_char"]}
{"id": "C31", "title": "Integer literals have their C value", "statement": "Decimal, octal and hexadecimal literals denote their mathematical value (modulo 2^32).", "quantifier": "all digit strings", "why_tests_cant": "Unbounded digit strings, three bases, two separate readers in the code.", "anchors": ["src/parser.c: read_numeric_constant read_numeric_param"]}
{"id": "C32", "title": "Operator precedence and associativity", "statement": "An infix expression over binary operators is evaluated with C's precedence and left associativity, whatever its length and operand values.", "quantifier": "all operator/operand sequences", "why_tests_cant": "All operator combinations of unbounded length.", "anchors": ["src/parser.c: get_operator_prio read_expr"]}
{"id": "C33", "title": "Global initialisers get the C value of their expression", "statement": "A global variable initialised with a constant expression starts with the value C assigns to that expression.", "quantifier": "all constant expressions the compiler accepts", "why_tests_cant": "All operator/operand combinations.", "anchors": ["src/parser.c: read_global_assignment eval_expression_imm read_primary_constant"]}
{"id": "C34", "title": "Preprocessor conditions get the C value of their expression", "statement": "#if/#elif take the branch the C value of the constant expression demands.", "quantifier": "all constant expressions", "why_tests_cant": "All operator/operand combinations.", "anchors": ["src/parser.c: read_constant_infix_expr read_constant_expr_operand get_operator"]}
{"id": "C35", "title": "Structure members do not overlap", "statement": "Members of a struct occupy disjoint byte ranges inside the struct in declaration order, the size of the struct covers all of them, and element i of an array of structs does not overlap element j.", "quantifier": "all member lists", "why_tests_cant": "Unbounded member lists and nesting.", "anchors": ["src/parser.c: read_global_statement", "src/globals.c: size_var find_type find_member"]}
{"id": "C36", "title": "Enumeration constants count up", "statement": "An enumerator without explicit value is one more than its predecessor (the first is 0), with explicit value it has that value; a lookup by name returns the value of the first declaration of that name.", "quantifier": "all enumerator lists", "why_tests_cant": "Unbounded lists, mixes of explicit and implicit values.", "anchors": ["src/parser.c: read_global_statement", "src/globals.c: add_constant find_constant"]}
{"id": "C37", "title": "Block ordering visits every reachable block once, predecessors before successors except on loop edges", "statement": "The block order used for emission contains every block reachable from the function entry exactly once, starts at the entry, and every edge that does not close a loop goes forward in it.", "quantifier": "all control-flow graphs", "why_tests_cant": "Arbitrary graphs.", "anchors": ["src/ssa.c: bb_forward_traversal bb_index_rpo bb_reverse_index bb_build_rpo build_rpo"]}
{"id": "C38", "title": "Immediate dominators are correct", "statement": "The dominator computed for each reachable block is the immediate dominator in the graph-theoretic sense, and the computation terminates.", "quantifier": "all control-flow graphs", "why_tests_cant": "Arbitrary graphs, iteration to a fixpoint.", "anchors": ["src/ssa.c: intersect build_idom"]}
{"id": "C39", "title": "Liveness is never underestimated", "statement": "If along some path from the end of a block a variable's current value is read before being overwritten, the analysis reports it live at the end of that block; the analysis terminates.", "quantifier": "all functions, all paths of any length", "why_tests_cant": "Unbounded paths through loops.", "anchors": ["src/ssa.c: bb_solve_locals compute_live_in merge_live_in recompute_live_out liveness_analysis"]}
{"id": "C40", "title": "Register allocation preserves what a function does", "statement": "For every function, with any number of variables, blocks, globals, arrays and calls, the code produced with 8 registers and stack slots ends with the same result and the same memory as the code with unlimited variables: a spilled variable is reloaded with the value it had, two live variables never share a register or a slot, and storage of arrays and structures overlaps nothing else in the frame.", "quantifier": "all functions, all executions, any number of variables", "why_tests_cant": "Spill decisions depend on the whole block.", "anchors": ["src/reg-alloc.c: prepare_operand prepare_dest spill_var load_var refresh spill_alive spill_live_out reg_alloc"]}
{"id": "C41", "title": "Dead-code elimination removes only unobservable work", "statement": "Instructions that write memory, call functions, return, or compute a value such an instruction depends on are never removed.", "quantifier": "all functions", "why_tests_cant": "Dependency chains of unbounded length.", "anchors": ["src/ssa.c: dce_init_mark dce_insn dce_sweep"]}
{"id": "C42", "title": "Embedding libc reproduces its text", "statement": "The text compiled in as libc by the build-time inliner is the text of lib/c.c.", "quantifier": "all input files", "why_tests_cant": "Escaping of quotes, backslashes and long lines.", "anchors": ["tools/inliner.c: write_line load_from"]}
{"id": "C43", "title": "The two targets agree", "statement": "A program gives the same results whether compiled for ARM or RISC-V.", "quantifier": "all low-level instructions and values", "why_tests_cant": "Two back ends, all values.", "anchors": ["src/arm-codegen.c", "src/riscv-codegen.c: OP_read"]}
{"id": "C44", "title": "Command-line options mean what the usage text says", "statement": "For every argument vector the last non-option argument is the input, -o names the output, +m, --dump-ir and --no-libc switch their features on/off irrespective of order, and missing input is reported.", "quantifier": "all argument vectors", "why_tests_cant": "Argument vectors of any length and order.", "anchors": ["src/main.c: main"]}
{"id": "C45", "title": "Inclusion expands files in place", "statement": "Loading a source file appends to the source buffer exactly the text of the file with every #include \"name\" line replaced by the expansion of the file of that name in the including file's directory, to any depth, and writes nothing outside the buffer.", "quantifier": "all file systems, all nesting depths, all buffer contents", "why_tests_cant": "Any nesting of inclusions, any line lengths and path shapes.", "anchors": ["src/parser.c: load_source_file"]}
{"id": "C46", "title": "Removing repeated memory reads never changes a value", "statement": "When the compiler replaces a later read of base+index by the value of an earlier one, the program still observes the value memory holds at that moment, and every address computation that is still needed remains; together with constant folding and dead code elimination, optimisation preserves every terminating execution.", "quantifier": "all functions, all executions, all memory contents", "why_tests_cant": "Whether memory changed in between depends on every path between the two reads, and on aliasing.", "anchors": ["src/ssa.c: cse use_chain_build use_chain_delete optimize"]}
{"id": "C47", "title": "Statements do what C says", "statement": "A function body made of declarations, assignments, ++/--, compound assignments, calls, blocks, if/else, while, do, for, break, continue and return does what the C standard says: the generated intermediate code ends with the same return value and the same effects on memory and globals as the source, with C's scoping of names.", "quantifier": "all function bodies of any length and nesting, all parameter values, all initial memories, all meanings of the called functions", "why_tests_cant": "Any nesting of control structures with jumps out of them, any shadowing of names, any values.", "anchors": ["src/parser.c: read_body_statement read_body_assignment read_code_block read_func_body read_inner_var_decl read_full_var_decl read_partial_var_decl"]}
{"id": "C48", "title": "SSA construction preserves what a function does", "statement": "Putting a function into static single assignment form (phi insertion, renaming of every variable, replacement of phi functions by copies) does not change what it does: started with the same arguments and the same memory, the function returns the same value and leaves the same memory and globals, and it cannot end in any other way.", "quantifier": "all control-flow graphs and instruction lists of any size in the form the parser produces, all arguments, memories and meanings of called functions, all executions", "why_tests_cant": "Any graph with any nesting of loops and joins, any interleaving of assignments in them; a missing or misplaced phi only shows on one path of one shape of graph.", "anchors": ["src/ssa.c: ssa_build build_dom bb_build_dom dom_connect solve_globals solve_phi_insertion insert_phi_insn var_check_in_scope solve_phi_params bb_solve_phi_params new_name rename_var pop_name append_phi_operand unwind_phi bb_unwind_phi append_unwound_phi_insn", "src/globals.c: add_insn bb_create"]}
{"id": "C49", "title": "The result of SSA construction is in SSA form", "statement": "Whenever SSA construction succeeds on a function, in the code it leaves every local variable is assigned by exactly one instruction, or only by the copies that stand for one phi function; the parameters are assigned by no instruction; on every path from the entry to an instruction that reads a local variable, an instruction has assigned that variable before (or it is a parameter, or the name of a function); the copies for a phi function are at the end of exactly the blocks that lead to its block. This is what constant folding, common subexpression elimination, dead code elimination and register allocation rely on.", "quantifier": "all control-flow graphs and instruction lists of any size in the form the parser produces, all scopes, all paths through the graph", "why_tests_cant": "Single assignment and assignment before use are claims about all pairs of instructions and all paths of a graph with any nesting of loops, of which there are infinitely many.", "anchors": ["src/ssa.c: ssa_build solve_phi_insertion solve_phi_params bb_solve_phi_params new_name rename_var pop_name append_phi_operand unwind_phi bb_unwind_phi append_unwound_phi_insn", "src/defs.h: var_t insn_t"]}
{"id": "C50", "title": "SSA construction follows no null pointer", "statement": "Whatever function the parser accepts, the phases that compute dominators and dominance frontiers never follow the immediate dominator of a block that has none: a block that cannot be reached from the entry never leads to a block that can, so the compiler does not crash on code such as a loop whose body always returns.", "quantifier": "all accepted functions (all token sequences), control-flow graphs of any size", "why_tests_cant": "Any nesting of loops, conditionals and jumps can leave an unreachable block behind; only some shapes connect it to a reachable one.", "anchors": ["src/ssa.c: build_idom bb_build_df build_df ssa_build", "src/parser.c: read_body_statement read_logical finalize_logical read_ternary_operation", "src/globals.c: bb_create bb_connect"]}
{"id": "C51", "title": "Files are read and written byte for byte", "statement": "fgets delivers the next line of a file, or as much of it as fits the buffer, with a terminating zero, writes nothing outside the buffer and reads exactly those bytes; at the end of the file it returns NULL and changes nothing. So the strings delivered one after the other are the file, whatever the size of the buffer. After fopen for writing, a sequence of fputc and fclose, the file consists of exactly the bytes written, and no other file has changed. Opening a file that is not there for reading gives NULL.", "quantifier": "all file contents, lengths and line lengths, all buffer sizes, all states of the file system", "why_tests_cant": "Lines of every length relative to the buffer, files of every length and content, and files that were there before.", "anchors": ["lib/c.c: fopen fclose fgetc fgets fputc", "src/elf.c: elf_generate", "src/parser.c: load_source_file"]}
{"id": "C52", "title": "An error message shows the place of the error", "statement": "When compilation stops with an error, the message contains the line of the source on which the compiler stood and, below it, a mark under the character at which it stood, and producing it writes nothing outside its buffer.", "quantifier": "all source texts and all places in them", "why_tests_cant": "Any line length and any place on a line, including its end and the first and last line.", "anchors": ["src/globals.c: error"]}
{"id": "C53", "title": "Switch statements do what C says", "statement": "A switch statement evaluates its value once, goes on at the case label with that value, else at the default label, else behind the switch, and from there falls through the labels below until a break, a return or the end of the switch.", "quantifier": "all switch statements: any labels, bodies and values, in any function and with any number of iterations and calls in their bodies", "why_tests_cant": "Any number of labels and any combination of values, fall-through, breaks and returns; the tests run a few switches.", "anchors": ["src/parser.c: read_body_statement (switch, 2592-2749), read_code_block, read_func_body"]}
