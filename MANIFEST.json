{
 "claims": [
  {
   "property": "C01",
   "status": "proved",
   "theorems": [
    "C01_rv_words_decode",
    "C01_rv_out_of_range_rejected",
    "C01_rv_never_truncated"
   ],
   "note": "All mnemonics of riscv.c against an RV32IM decoder written from the manual."
  },
  {
   "property": "C02",
   "status": "proved",
   "theorems": [
    "C02_arm_words_decode",
    "C02_arm_immediate_exact"
   ],
   "note": "Non-negative immediates: exact or rejected, iff representable. Negative arguments to the shared encoder are masked (Example C02_negative_immediate_truncated); no caller passes one."
  },
  {
   "property": "C03",
   "status": "proved",
   "theorems": [
    "C03_rv_constant",
    "C03_arm_constant"
   ],
   "note": ""
  },
  {
   "property": "C04",
   "status": "proved",
   "theorems": [
    "C04_rv_soft_mul"
   ],
   "note": ""
  },
  {
   "property": "C05",
   "status": "proved",
   "theorems": [
    "C05_rv_soft_div",
    "C05_rv_soft_mod"
   ],
   "note": ""
  },
  {
   "property": "C06",
   "status": "partial",
   "theorems": [
    "C06_arm_soft_div_partial",
    "C06_arm_soft_mod_partial",
    "C06_arm_same_register"
   ],
   "note": "Proved for operands in two different registers; with both operands in one register the code is wrong for negative values (C06_arm_same_register gives the exact wrong result), so the full claim is false."
  },
  {
   "property": "C07",
   "status": "partial",
   "theorems": [
    "C07_rv_hard_soft_agree",
    "C07_arm_hard_soft_agree_partial"
   ],
   "note": "RISC-V full; ARM for div/mod with operands in two registers (false otherwise, see C06)."
  },
  {
   "property": "C08",
   "status": "proved",
   "theorems": [
    "C08_rv_binary",
    "C08_rv_unary",
    "C08_rv_assign",
    "C08_arm_binary",
    "C08_arm_unary",
    "C08_arm_assign"
   ],
   "note": "All operators on both targets; ARM emulated div/mod excluded for a single operand register (C06)."
  },
  {
   "property": "C09",
   "status": "proved",
   "theorems": [
    "C09_rv_load",
    "C09_rv_store",
    "C09_rv_address",
    "C09_rv_data_address",
    "C09_rv_read",
    "C09_rv_write",
    "C09_word_read_back",
    "C09_arm_load",
    "C09_arm_store",
    "C09_arm_address",
    "C09_arm_negative_offset_rejected",
    "C09_arm_data_address",
    "C09_arm_read",
    "C09_arm_write"
   ],
   "note": ""
  },
  {
   "property": "C10",
   "status": "proved",
   "theorems": [
    "C10_rv_layout",
    "C10_rv_targets"
   ],
   "note": "C10_rv_targets assumes the image is below the 1 MiB reach of JAL, which the compiler does not check."
  },
  {
   "property": "C11",
   "status": "partial",
   "theorems": [
    "C11_arm_layout_partial",
    "C11_arm_targets_partial"
   ],
   "note": "For programs without a register self-move; false otherwise (Example C11_self_move_wrong)."
  },
  {
   "property": "C12",
   "status": "proved",
   "theorems": [
    "C12_rv_executes",
    "C12_rv_diverges"
   ],
   "note": "Assumes image < 1 MiB (JAL reach), distinct block identities; undefined behaviour of the IR is excluded."
  },
  {
   "property": "C13",
   "status": "partial",
   "theorems": [
    "C13_arm_executes_partial",
    "C13_arm_diverges_partial"
   ],
   "note": "Hypotheses: branch placed before one of its targets (false otherwise: Example C13_unplaced_branch_wrong), no self-move, no emulated division inside one register, image < 32 MiB, aligned frames."
  },
  {
   "property": "C14",
   "status": "proved",
   "theorems": [
    "C14_elf_loads",
    "C14_sections",
    "C14_rv_file_executes",
    "C14_arm_file_executes",
    "C14_section_table_misaligned"
   ],
   "note": "Against an ELF32 reader written from the gABI. The symbol and string tables are always empty (elf_generate resets their indices); the section header table is 3 bytes off alignment (C14_section_table_misaligned)."
  },
  {
   "property": "C15",
   "status": "partial",
   "theorems": [
    "C15_peephole_block_partial",
    "C15_effects_untouched",
    "C15_segments",
    "C15_never_longer",
    "C15_live_constant_refuted",
    "C15_aliased_constant_refuted"
   ],
   "note": "Register/memory preservation needs two facts the allocator does not guarantee (removed register dead, constant not both operands): without them it is false (the two _refuted theorems). Effects untouched: unconditional."
  },
  {
   "property": "C16",
   "status": "partial",
   "theorems": [
    "C16_arithmetic",
    "C16_same_execution",
    "C16_touches_only",
    "C16_form_kept",
    "C16_folding_and_elimination",
    "C16_address_taken_refuted",
    "C16_division_refuted"
   ],
   "note": "mark_const, eval_const_arithmetic and const_folding over all blocks. Proved: the folded value is that of the run-time operator; every execution of a strict SSA function has the same effect, block by block, after folding; only copies and arithmetic change; the folded function is in the form dead code elimination needs, and the two passes together preserve terminating executions. Partial because a scalar whose address is taken is folded too (C16_address_taken_refuted: 6 instead of 7), excluded by a hypothesis, and because folding 1/0 crashes the compiler itself, even in code that is never reached (C16_division_refuted)."
  },
  {
   "property": "C17",
   "status": "proved",
   "theorems": [
    "C17_lookup",
    "C17_functions",
    "C17_index_in_range",
    "C17_table_size",
    "C17_put_does_not_replace"
   ],
   "note": "First insertion of a key wins (the comment on hashmap_put says it replaces: C17_put_does_not_replace); the function table never inserts a key twice."
  },
  {
   "property": "C18",
   "status": "proved",
   "theorems": [
    "C18_arena",
    "C18_overflow_refuted"
   ],
   "note": "Requests below 2^30 bytes; at INT_MAX the bounds check overflows (C18_overflow_refuted)."
  },
  {
   "property": "C19",
   "status": "proved",
   "theorems": [
    "C19_push",
    "C19_zero_capacity_refuted"
   ],
   "note": "Initial capacity at least 1, less than 2^30 bytes; loading files does not go through this growth path (see C45)."
  },
  {
   "property": "C20",
   "status": "proved",
   "theorems": [
    "C20_alias",
    "C20_macro",
    "C20_define_then_found",
    "C20_redefinition_refuted"
   ],
   "note": "The oldest definition in force wins (differs from ISO C on redefinition: C20_redefinition_refuted). Fixed table sizes not modelled."
  },
  {
   "property": "C21",
   "status": "proved",
   "theorems": [
    "C21_scope",
    "C21_unique"
   ],
   "note": ""
  },
  {
   "property": "C22",
   "status": "partial",
   "theorems": [
    "C22_strlen",
    "C22_strcmp_partial",
    "C22_strncmp_partial",
    "C22_strcpy",
    "C22_strncpy",
    "C22_memcpy",
    "C22_strcmp_order_refuted"
   ],
   "note": "All but the sign of strcmp/strncmp on bytes above 127 with RISC-V (signed char), which is wrong: C22_strcmp_order_refuted. The zero/non-zero answer is proved for all bytes."
  },
  {
   "property": "C23",
   "status": "proved",
   "theorems": [
    "C23_decimal"
   ],
   "note": ""
  },
  {
   "property": "C24",
   "status": "proved",
   "theorems": [
    "C24_hex_octal"
   ],
   "note": ""
  },
  {
   "property": "C25",
   "status": "partial",
   "theorems": [
    "C25_width_partial",
    "C25_string_width_refuted"
   ],
   "note": "Proved for %d, %o and %x. For %s and %c the code parses the width and ignores it (C25_string_width_refuted)."
  },
  {
   "property": "C26",
   "status": "partial",
   "theorems": [
    "C26_snprintf_partial",
    "C26_text_only",
    "C26_fits",
    "C26_zero_size",
    "C26_number_overrun_refuted",
    "C26_printf_buffer_refuted"
   ],
   "note": "Contents, terminator and result proved for every format of supported conversions; bytes outside the buffer are untouched when no number straddles its end. A number that does is written past the end (C26_number_overrun_refuted), so the full claim is false."
  },
  {
   "property": "C27",
   "status": "partial",
   "theorems": [
    "C27_malloc_partial",
    "C27_returned_partial",
    "C27_live_disjoint_partial",
    "C27_reuse_refuted",
    "C27_malloc_nonpositive"
   ],
   "note": "Proved for every history of malloc, calloc, free and writes in which no requested size lies 1 to 12 bytes below a multiple of the page size. For those sizes the claim is false: reuse compares the size with the chunk size including its header (C27_reuse_refuted)."
  },
  {
   "property": "C28",
   "status": "proved",
   "theorems": [
    "C28_free",
    "C28_free_null",
    "C28_double_free",
    "C28_recycle"
   ],
   "note": "Histories as in C27."
  },
  {
   "property": "C29",
   "status": "partial",
   "theorems": [
    "C29_calloc_partial",
    "C29_calloc_returns_partial",
    "C29_overflow_refuted"
   ],
   "note": "Proved for products n*size that are sizes covered by C27; a product of 2^32 or more silently wraps (C29_overflow_refuted)."
  },
  {
   "property": "C30",
   "status": "partial",
   "theorems": [
    "C30_roundtrip_partial",
    "C30_layout_irrelevant_partial",
    "C30_terminates",
    "C30_blank_refuted",
    "C30_divide_deref_refuted",
    "C30_backslash_refuted",
    "C30_stars_refuted",
    "C30_crlf_refuted",
    "C30_macro_comment_refuted"
   ],
   "note": "Proved for token sequences outside a list of exclusions, each refuted by a theorem: operators that look past blanks for a longer token (/ ^ * % - << >>), a doubled backslash at the end of a string, comments ending in two or more stars, CRLF after a line comment, a blank at the start of the file, and (termination) a macro body followed by a line comment."
  },
  {
   "property": "C31",
   "status": "proved",
   "theorems": [
    "C31_constant",
    "C31_expression",
    "C31_readers_agree",
    "C31_upper_case_prefix_refuted"
   ],
   "note": "Both readers, all literals, modulo 2^32. The prefix 0X is not recognised by the lexer (C31_upper_case_prefix_refuted); literals of 64 or more characters overflow a buffer (not modelled here)."
  },
  {
   "property": "C32",
   "status": "partial",
   "theorems": [
    "C32_return_partial",
    "C32_shift_refuted",
    "C32_minus_refuted",
    "C32_element_refuted",
    "C32_element_precedence_refuted",
    "C32_conditional_refuted"
   ],
   "note": "read_expr, read_expr_operand, read_lvalue, read_func_call, read_logical, finalize_logical and read_ternary_operation: for every expression (any length and nesting, binary and unary operators, subscripts, calls, && || ?:, parentheses) of the supported forms, the code produced for return e; returns the value C gives e and leaves the same world, whenever the compiler accepts it. Excluded, and refuted: shifts next to other operators, a minus before a parenthesis, an addition after a subscript or pointer, && || ?: in an arm of ?:. Also excluded: reading a global variable in an expression that also calls (C leaves part of that order open), assignment operators, ++ and --, members, casts. That the reader accepts is an hypothesis (the operand stack, oper_stack[10], params[8] and MAX_BB_PRED are finite)."
  },
  {
   "property": "C33",
   "status": "partial",
   "theorems": [
    "C33_initialiser_partial",
    "C33_declarators_partial",
    "C33_shift_refuted",
    "C33_remainder_refuted",
    "C33_rejected_refuted",
    "C33_declarator_lost_refuted"
   ],
   "note": "Chains of any length over + - * / % << >> == != < <= > >= && || and ?: over such chains, within good_chain (no shift next to an operator of lower precedence, no remainder of a negative number by a power of two, literals shorter than ten characters). Each exclusion is refuted by a theorem: the claim as stated is false of the code."
  },
  {
   "property": "C34",
   "status": "partial",
   "theorems": [
    "C34_conditional_partial",
    "C34_value_partial",
    "C34_precedence_refuted",
    "C34_rejected_refuted",
    "C34_nested_refuted",
    "C34_next_line_refuted"
   ],
   "note": "Unnested groups whose conditions have operators in order of increasing precedence; the general claim is false of the code and refuted for equal or decreasing precedence, ! and %, parenthesised operators, nested groups and a group starting with an operator."
  },
  {
   "property": "C35",
   "status": "proved",
   "theorems": [
    "C35_struct",
    "C35_struct_complete",
    "C35_typedef_struct",
    "C35_typedef_tag",
    "C35_no_overlap",
    "C35_member",
    "C35_array_elements",
    "C35_uninitialised_refuted",
    "C35_typedef_refuted",
    "C35_namespace_refuted"
   ],
   "note": "All member lists within the fixed table sizes (names below 32 characters, at most 64 members, total below 2^31), with TYPES[] starting out zeroed as fresh pages are; that memory comes from malloc and is not cleared, which C35_uninitialised_refuted shows to matter. Neighbouring defects: typedef of a structure type loses its members, tags and type names share one name space."
  },
  {
   "property": "C36",
   "status": "proved",
   "theorems": [
    "C36_enum",
    "C36_rejected_refuted"
   ],
   "note": "All enumerator lists the compiler accepts, within table sizes; negative values, enum without typedef and a trailing comma are rejected."
  },
  {
   "property": "C37",
   "status": "proved",
   "theorems": [
    "C37_block_order",
    "C37_reversed_order"
   ],
   "note": "All graphs with finitely many reachable blocks; also for the reversed order from the exit. Every block but the first also has an earlier neighbour in the order."
  },
  {
   "property": "C38",
   "status": "proved",
   "theorems": [
    "C38_immediate_dominators",
    "C38_immediate_post_dominators",
    "C38_frontiers",
    "C38_reverse_frontiers",
    "C38_unreachable_predecessor_refuted"
   ],
   "note": "All graphs with finitely many reachable blocks, including irreducible ones: termination and correctness of build_idom and build_r_idom; the dominance frontiers when every predecessor is reachable, and a graph made by a for loop with a trailing break on which build_df dereferences NULL."
  },
  {
   "property": "C39",
   "status": "proved",
   "theorems": [
    "C39_liveness"
   ],
   "note": "All functions: termination, live_out contains every local variable whose value is read later on some path before being overwritten (and nothing else), and consumed is at least the index of every reader. Assumes every reachable block can reach the exit, no edge into the entry, and fewer than 800 variables per set (the arrays are unbounded in the model)."
  },
  {
   "property": "C40",
   "status": "partial",
   "theorems": [
    "C40_allocation_partial",
    "C40_few_variables_partial",
    "C40_frame_layout",
    "C40_example",
    "C40_clash_refuted",
    "C40_indirect_refuted"
   ],
   "note": "Whole functions with any control flow, globals, arrays and calls: every terminating run of the code with variables is a run of the code with registers and slots, with the same result, as long as no operand clash happened during allocation (C40_allocation_partial; C40_few_variables_partial: none can when a block mentions few variables). Refuted in general: C40_clash_refuted (two operands of one addition in one register, eight-parameter function) and C40_indirect_refuted (stale register after a call through a pointer). The frame layout (disjoint slots and storage, stores inside the frame) holds for every function. Missing: clashes, addresses of scalar locals, values in variadic functions."
  },
  {
   "property": "C41",
   "status": "partial",
   "theorems": [
    "C41_never_removed",
    "C41_same_effects",
    "C41_no_dangling",
    "C41_completes",
    "C41_void_loop_refuted"
   ],
   "note": "optimize() without cse and const_folding, composed from build_reversed_rpo, build_r_idom, build_rdf, dce_insn and dce_sweep. Proved for every function in the stated form: nothing an effect depends on is removed; every terminating execution, for any meaning of the instructions, has the same effect afterwards; no reachable block loses all its successors when every block that leads to the exit ends with a return; the pass ends normally within its tables. Partial because the last hypothesis is needed: in a void function a branch block may be left without a successor, and the code falls into the next block (C41_void_loop_refuted, an endless loop)."
  },
  {
   "property": "C42",
   "status": "partial",
   "theorems": [
    "C42_embed_partial",
    "C42_backslash_refuted",
    "C42_long_line_refuted",
    "C42_last_line_refuted",
    "C42_size_refuted"
   ],
   "note": "Proved for files without backslash and NUL, with lines below 199 characters, that fit the buffer; each exclusion is refuted, the first on line 396 of lib/c.c itself."
  },
  {
   "property": "C43",
   "status": "partial",
   "theorems": [
    "C43_operators_agree_partial",
    "C43_constants_agree",
    "C43_char_refuted"
   ],
   "note": "Per instruction; reads of chars above 127 differ (C43_char_refuted), so the full claim is false."
  },
  {
   "property": "C44",
   "status": "proved",
   "theorems": [
    "C44_options",
    "C44_order",
    "C44_coverage",
    "C44_dangling_output"
   ],
   "note": "All argument vectors; a dangling -o is silently accepted."
  },
  {
   "property": "C45",
   "status": "proved",
   "theorems": [
    "C45_inclusion",
    "C45_no_directory_refuted",
    "C45_overflow_refuted"
   ],
   "note": "For files named with a directory part, lines below 256 characters and a total below the buffer capacity; without a directory the path starts with an uninitialised byte (C45_no_directory_refuted) and the copy is unchecked (C45_overflow_refuted)."
  },
  {
   "property": "C46",
   "status": "partial",
   "theorems": [
    "C46_same_execution_partial",
    "C46_optimize_partial",
    "C46_stale_read_refuted",
    "C46_swap_refuted"
   ],
   "note": "cse, the use chains and the whole instruction loop of optimize() (cse interleaved with const_folding). Refuted as stated: a store between two reads is ignored (C46_stale_read_refuted returns the old value) and an addition followed by a read of something else is deleted although it is still used (C46_swap_refuted: a[i] = *b after reading a[i] writes to a stray address). Proved: if every repeated sum is the address that is read, is used for nothing else, and nothing changes memory or its operands in between, then the loop preserves every execution, and so does all of optimize() including dead code elimination."
  },
  {
   "property": "C47",
   "status": "partial",
   "theorems": [
    "C47_function_partial",
    "C47_function_applies",
    "C47_sample",
    "C47_char_refuted",
    "C47_char_assignment_refuted",
    "C47_pointed_increment_refuted",
    "C47_pointer_step_refuted",
    "C47_increment_refuted",
    "C47_continue_refuted"
   ],
   "note": "read_func_body, read_code_block, read_body_statement, read_body_assignment and the local declarations, on top of the expression reader of C32. For every sequence of statements in the supported forms (fine_stmt) that the reader accepts, of any length and nesting: whenever C says the body ends with a return value and a memory, the code produced ends with exactly these, names being resolved by scope. fine_stmt leaves out what is refuted: initialising or assigning a char variable (not truncated), p[i]++ and p[i] op= e through a pointer (scaled), pointers to pointers stepped by ++, && || ?: in the increment of a for, and continue in a for whose body never ends normally and whose increment is empty. Not modelled: switch, members, calls through pointers, macros and #if in a body, statements that cannot be reached."
  },
  {
   "property": "C48",
   "status": "partial",
   "theorems": [
    "C48_same_execution_partial",
    "C48_source_to_ssa_partial",
    "C48_from_source_partial",
    "C48_example",
    "C48_scope_refuted",
    "C48_versions_refuted"
   ],
   "note": "ssa_build as a whole (block order, dominators, dominator tree, frontiers, shared variables, phi insertion, renaming, unwinding) for one function, of any size: if it succeeds, every execution of the given code is one of the code produced, with the same result, memory and globals, and the code produced has no other. Composed with C47: from C statements to SSA code. ssa_input says what is asked of the given code; besides the form of graph and instructions: a local variable still needed in a block counts as visible there, which the parser does not always ensure (C48_scope_refuted: a miscompiled program), and the results of && || ?: are not needed at later joins of other paths. That it succeeds is an hypothesis (arrays of 64 elements are overrun without check: C48_versions_refuted; a variable read before any value is an error). That whatever the parser accepts has the form of graph and instructions is proved (C48_from_source_partial, from ParseShape/StmtShape); what ssa_input says about where variables are needed is left as an hypothesis there (decided for the example)."
  },
  {
   "property": "C49",
   "status": "proved",
   "theorems": [
    "C49_ssa_form",
    "C49_from_source",
    "C49_optimizers",
    "C49_allocator",
    "C49_example",
    "C49_from_source_example"
   ],
   "note": "ssa_build as a whole, of any size and with any scopes: whenever it succeeds, the result is in SSA form (SsaSpec.v: ssa_form: single assignment, parameters never assigned, every read preceded by an assignment on every path, the copies of a phi exactly in the predecessors of one block, copies last). Asked of the given code: the form of graph and instructions (ssa_shape), nothing about scopes or liveness (so it also holds for the miscompiled program of C48_scope_refuted). C49_optimizers, C49_allocator: the hypotheses f_single, strict, strict_reads (C41, C16, C46) and v_strict (C40) follow. A declaration counts as an assignment, as it does in the source. C49_from_source: for the function the parser makes of any tokens, the form of the given code is proved as well, not assumed."
  },
  {
   "property": "C50",
   "status": "partial",
   "theorems": [
    "C50_null_iff",
    "C50_no_null_partial",
    "C50_no_null_example",
    "C50_dead_predecessor",
    "C50_for_refuted",
    "C50_do_refuted",
    "C50_conditional_refuted",
    "C50_refuted_programs_meaning",
    "C50_conditional_programs_meaning",
    "C49_from_source_example"
   ],
   "note": "Refuted as stated: four valid C functions (for (; n < 3; n++) return n; / do return n; while (n && total); / return n ? n && total : 0; / return n ? (n ? total : 1) : 0;) are accepted by the parser, and SSA construction cannot treat them: a block without immediate dominator leads to a reachable one (bug 45). C50_null_iff: for every graph, the phase that computes the dominance frontiers succeeds exactly if no unreachable block leads to a reachable one; C50_dead_predecessor: otherwise ssa_build as a whole has no result, whatever the code. C50_no_null_partial: for any tokens without for, do and ?: (any nesting of if, while, break, continue, return, && and ||), no unreachable block leads anywhere and the phase succeeds. Missing: which functions with for, do and ?: are safe."
  },
  {
   "property": "C51",
   "status": "partial",
   "theorems": [
    "C51_fgets",
    "C51_read_all",
    "C51_load_file",
    "C51_write_file",
    "C51_round_trip",
    "C51_truncate_refuted",
    "C51_missing_refuted",
    "C51_fputc_refuted"
   ],
   "note": "fopen, fclose, fgetc, fgets, fputc over open/read/write/close of POSIX, and the loops of elf_generate and load_source_file. Reading: in full (zero bytes in the file end a string early, so reading it whole asks for none). Writing: the file begins with exactly the bytes written; it ends with them if it was not there or not longer before. Refuted: opening for writing does not empty a longer file (C51_truncate_refuted), a missing file is not noticed and is loaded as an empty one (C51_missing_refuted), fputc reports failure for byte 255 passed as a signed char (C51_fputc_refuted). The model of the file system: no errors but missing and wrongly opened files, one process."
  },
  {
   "property": "C52",
   "status": "partial",
   "theorems": [
    "C52_diagnostic_partial",
    "C52_line_end_refuted",
    "C52_overflow_refuted"
   ],
   "note": "For every source and every place that is a character of a line, if the text fits the 512 bytes. At the end of a line, where the compiler stands after the last token of it, the message always shows the following line, marked under its first column (C52_line_end_refuted); a long line is written past the buffer (C52_overflow_refuted). The printf of the message is not modelled."
  },
  {
   "property": "C53",
   "status": "partial",
   "theorems": [
    "C53_switch_partial",
    "C53_switch_applies",
    "C53_sample"
   ],
   "note": "For any list of statements (of the forms C47 supports) and switch statements at the top level of the body of a function. Missing: switches nested in other statements, default before another label, an unparenthesised conditional expression as the value, negative labels, declarations directly below a label, statements behind a break of the same label (outside of a nested block). switch (x) { } is outside the model: its block is left without a successor (bug 63)."
  }
 ]
}