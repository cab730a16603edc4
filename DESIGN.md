# Formal model of sysprog21/shecc in Rocq (Coq 8.16.1)

The code under study is `/repo` (read as text only, never built or run).
Sources are cited as `src/file.c:lines` in a comment above every model definition.

## 1. Method

* Shallow model: each C function becomes one total Gallina function over `Z`, `list`,
  records. Mutation = returned new state. Loops = structural recursion or fuel with a
  distinguished out-of-fuel result that the theorems exclude.
* `int` is 32-bit two's complement. Arithmetic in the *modelled program* wraps
  (`Base/Int32.v`). Where C makes the operation undefined and the result matters
  (division by zero, INT_MIN / -1 on the host, out-of-bounds access) the model has a
  distinct outcome.
* The machine is specified independently of the compiler: `RvISA.v` and `ArmISA.v`
  are decoders + step functions written from the architecture manuals. Theorems about
  generated code run the *emitted 32-bit words* through these decoders.
* Property theorems live in `theories/Properties/*.v`, each closed by `exact` and
  followed by `Print Assumptions`; beside each is an `Example` showing its hypotheses
  can be met. A false property is kept as a `_refuted` theorem with a witness, together
  with the strongest true version (`_partial` when it is weaker than the claim).

## 2. Per property: what is modelled and how it is proved

Paths are relative to `rocq/theories/`. The theorem names are in `MANIFEST.json`; statements are in
`Properties/*.v`.

| id | model | specification | proof |
|----|-------|---------------|-------|
| C01 | `Rv/RvEnc` (riscv.c) | decoder `Rv/RvISA` | field algebra, all registers and immediates; range errors |
| C02 | `Arm/ArmEnc` (arm.c) | decoder `Arm/ArmISA` | field algebra; rotation loop by induction |
| C03 | `Rv/RvGen`, `Arm/ArmGen` OP_load_constant | ISA runs | emitted words executed symbolically |
| C04 | `Rv/RvGen` soft multiplication | ISA runs, `Base/Int32` | loop invariant, induction on the multiplier |
| C05 | `Rv/RvGen` soft division | ISA runs, Z.quot/Z.rem | two loop invariants |
| C06 | `Arm/ArmGen` soft division | same, NZCV flags | same; operands in one register refuted |
| C07 | C04-C06 | hardware semantics of MUL/DIV/SDIV | corollary |
| C08 | both back ends, remaining operators | `Ir/Ph2Sem` operators | symbolic execution |
| C09 | both back ends, memory operators | byte memory `Base/Mem` | symbolic execution |
| C10/C11 | `Ir/Layout`, `Rv/RvEmit`, `Arm/ArmEmit` | `Properties/LayoutSpec` | induction over programs; ARM self-move refuted |
| C12/C13 | `Rv/RvProg`, `Arm/ArmProg` | interpreter `Ir/Ph2Sem` | forward simulation, induction over steps, divergence |
| C14 | `Out/Elf` (elf.c) | ELF reader in `Properties/ElfProps` | list layout lemmas; composed with C12/C13 |
| C15 | `Opt/Peephole` | register-file semantics | simulation; two refutations |
| C16 | `Mid/Fold` | `Mid/FoldSpec` | SSA environment simulation |
| C17 | `Data/Hashmap` | association list | refinement to a finite map |
| C18 | `Data/Arena` | disjointness of blocks | invariant over operation sequences |
| C19/C45 | `Data/SourceBuf` | list of bytes / expansion relation | refinement |
| C20/C21 | `Data/Names` | history / scope specification | refinement |
| C22 | `Lib/LibcString` over `Lib/CMem` (unmapped addresses trap) | ISO C 7.21 | induction on strings |
| C23-C26 | `Lib/LibcFormat` | `Lib/FormatSpec` | arithmetic bounds, digit lists, induction on formats |
| C27-C29 | `Lib/LibcMalloc` | block map | heap invariant over histories |
| C30 | `Front/Lexer` | `Front/LexSpec` | print/lex round trip |
| C31 | `Front/Numeric` | value of a literal | Horner induction |
| C32 | `Front/ExprParse` | `Front/ExprSpec` (trees, meaning), `Mid/AllocSpec` (IR runs) | mutual induction on the readers, block positions and frames (`ExprRun`, `ExprPieces`, `ExprEval`) |
| C33 | `Front/GlobalInit` | `Front/CExpr` | two-stack evaluator (`Front/Chain`) against the grammar |
| C34 | `Front/Preproc` | `Front/CExpr` | same, for the #if evaluator, and groups of lines |
| C35/C36 | `Front/Decls` | offsets, values | induction on member / enumerator lists |
| C37 | `Mid/Cfg`, `Mid/Edges` | `Mid/Graph` paths | depth-first traversal invariant |
| C38 | `Mid/Dom` | `Mid/Graph` dominance | Cooper/Harvey/Kennedy fixpoint: invariant, termination measure |
| C39 | `Mid/Live` | `Mid/LiveSpec` | fixpoint argument |
| C40 | `Mid/Alloc`, `Mid/AllocFunc` | `Mid/AllocSpec` | simulation between variables and registers/slots |
| C41 | `Mid/Dce` | `Mid/DceSpec` | post-dominance, slicing simulation |
| C42 | `Tool/Inliner` | text of the file | round trip; four refutations |
| C43 | C08/C09 of both targets | `Ir/Ph2Sem` | corollary; char signedness refuted |
| C44 | `Tool/Driver` | usage text | fold over argv |
| C47 | `Front/StmtParse` | `Front/StmtSpec` (statements, big-step meaning, scopes), `Mid/AllocSpec` | induction on the reader's fuel, the blocks' frames and predecessors (`StmtPred`, `StmtRun`, `StmtEval`); the refutations run both sides (`StmtExec`, `CodeExec`) |
| C48 | `Mid/Ssa` | `Mid/SsaSpec` (form of the input), `Mid/AllocSpec` (executions) | dominator tree (`SsaTree`), renaming as a relation (`SsaRename`), the walk over the tree (`SsaWalk`, `SsaForm`), simulation (`SsaSim`), determinism (`SrunsDet`); `SsaCheck` decides the form of concrete functions |
| C49 | `Mid/Ssa` | `Mid/SsaSpec` (`ssa_form`), `Mid/Graph` (walks) | every version is a fresh number (`SsaRename.newly`, kept over the walk of the tree by `SsaWalk.delta`), the names of a block come from its immediate dominator (`SsaForm.more`); `SsaOnce`. Used to discharge hypotheses of C16, C40, C41, C46. The form of parsed code: `Front/ParseShape` (expressions) and `Front/StmtShape` (statements) keep an invariant over the readers, for any tokens; that predecessors are reachable comes from the success of `ssa_build` (`Mid/SsaReach`) |
| C50 | `Mid/Ssa`, `Front/ExprParse`, `Front/StmtParse` | `Mid/Graph` (reach) | `Mid/SsaReach`: a block without immediate dominator that leads to a reachable block makes build_df fail; `Properties/SsaSourceProps` for functions as parsed; `Front/ReachShape`: without for, do and ?: the parser connects only blocks that can be reached (`Properties/ReachProps`) |
| C51 | `Lib/LibcFile` | POSIX open/read/write/close in `LibcFile`; line of a file and file contents in `Properties/FileProps` | induction on the rest of the file (fgets), on the bytes written (fputc) |
| C52 | `Data/ErrorMsg` | place on a line, in `Properties/ErrorProps` | induction on the line, backwards and forwards |
| C53 | `Front/SwitchParse` (with `Front/StmtParse`) | `Front/SwitchSpec`, `Front/StmtSpec`, `Mid/AllocSpec` (executions) | induction on the list of labels over the blocks of the reader (`SwitchEval`), the operand stack is balanced (`StackKeep`, `StackKeepStmt`) |
| C46 | `Mid/Cse` | `Mid/CseSpec` | simulation; composed with C16 and C41 |

A property marked `partial` in the manifest is one whose English statement is false of the code (the `_refuted` theorem
is the witness) or is proved under hypotheses that the code does not establish; the note there says which.

## 3. Findings

Defects met while modelling. "R:" names the theorem that proves the wrong behaviour of the model; the others were found
by reading and are not proved (they concern fixed-size arrays or parts outside the model).

1. ARM soft division with both operands in one register (`x / x`): the sign is wrong, `x/x = -1` for INT_MIN < x < 0
   (arm-codegen.c:329-362). R: C06_arm_same_register.
2. ARM `update_elf_offset` counts 0 bytes for a self move, `emit_ph2_ir` emits 4. R: C11_self_move_wrong.
3. Peephole: `li rn,0; add rd,rn,rn` becomes `mv rd,rn` without the `li`. R: C15_aliased_constant_refuted.
4. `hashmap_put` appends instead of replacing, so the first value wins. R: C17_put_does_not_replace.
5. `malloc` reuses a freed chunk when its size *including the header* is at least the request. R: C27_reuse_refuted.
6. `snprintf` numeric conversions ignore the remaining room; printf's array has 200 bytes. R: C26_number_overrun_refuted, C26_printf_buffer_refuted.
7. White space is skipped inside operators; `a / *p` starts a comment. R: C30_blank_refuted, C30_divide_deref_refuted.
8. `/***/` is not recognised as a closed comment. R: C30_stars_refuted.
9. Shifts have priority 0: `a | b << c` parses as `(a|b) << c`. R: C32_shift_refuted, C33_shift_refuted.
10. `int x = -7 % 4;` at file scope yields 1. R: C33_remainder_refuted.
11. `#if 1 + 2 + 3`: operators are lost by a doubled get_operator(). R: C34_precedence_refuted.
12. `char` loads are zero-extended on ARM and sign-extended on RISC-V. R: C43_char_refuted.
13. `prepare_operand` may evict the register that holds operand 0: both operands in one register. R: C40_clash_refuted.
14. `load_source_file`: for a name without '/', path[0] is never written. R: C45_no_directory_refuted.
15. The inliner does not escape backslashes (line 396 of lib/c.c itself). R: C42_backslash_refuted.
16. `-o` as last argument is accepted. R: C44_dangling_output.
17. elf_generate resets the indices elf_add_symbol advanced: .symtab is always empty. See C14_sections.
18. RISC-V `__ebreak` encodes 0x00200073 (unused function).
19. ARM: a detached OP_branch falls through assuming then_bb comes next (arm-codegen.c:166-170, 266-275). R: C13_unplaced_branch_wrong.
20. A non-void function that falls off its end runs into the next function.
21. The reach of JAL and B is not checked; ARM `__mov` truncates a negative operand 2. R: C02_negative_immediate_truncated.
22. The peephole pass itself creates self-moves (see 2).
23. Peephole removes `li rn,0/1` or the temporary of an ALU operation although it is live. R: C15_live_constant_refuted.
24. ELF: the section header table is misaligned (R: C14_section_table_misaligned); padding of .data is not initialised.
25. `load_source_file`: strcpy unchecked (R: C45_overflow_refuted); a last #include line without newline loses a character.
26. `#define` of a defined name keeps the old value. R: C20_redefinition_refuted.
27. Arena bounds check overflows near INT_MAX. R: C18_overflow_refuted.
28. source_expand with capacity 0 never grows. R: C19_zero_capacity_refuted.
29. error() writes into a 512-byte buffer unchecked; bb_connect reads prev[128] before its bound check; names of 32 or more characters overflow.
30. strcmp orders bytes above 127 as negative on RISC-V. R: C22_strcmp_order_refuted.
31. `%s`/`%c` field widths ignored (R: C25_string_width_refuted); `%` at the end of a format; an unknown conversion consumes an argument.
32. mmap failure unchecked; calloc overflow unchecked (R: C29_overflow_refuted); free leaves prev uninitialised when cur->prev is NULL.
33. `"\\"` at the end of a string literal. R: C30_backslash_refuted.
34. `// ...` before CRLF (R: C30_crlf_refuted); a file that starts with a blank is rejected; unclosed strings; tokens of 256 or more characters; skip_macro_body at end of file.
35. A macro call followed by a `//` comment recurses without end. R: C30_macro_comment_refuted.
36. `0X1F` is not a literal. R: C31_upper_case_prefix_refuted.
37. `-(e)` loses its minus. R: C32_minus_refuted.
38. #if rejects `!`, `~`, `%` and parenthesised operators (R: C34_rejected_refuted); a condition runs on into the next line (R: C34_next_line_refuted); nested #if in a skipped group (R: C34_nested_refuted); `#define EMPTY` takes the next line's token.
39. Macro arguments with nested parentheses or commas are split wrongly.
40. `c ? a && b : d`: the end of the arm is not connected to the join. R: C32_conditional_refuted. `a ? b : c ? d : e` is rejected.
41. Global initialisers: literals of ten or more characters overflow buffer[10], the value stack of 10 gets an 11th entry, a conditional drops the following declarators (R: C33_declarator_lost_refuted), `0 && 1/0` is evaluated eagerly, `int a, b;` is not supported (R: C33_rejected_refuted).
42. TYPES[] is not initialised (R: C35_uninitialised_refuted); `typedef X Y` of a structure drops its members (R: C35_typedef_refuted); tags and type names share a name space (R: C35_namespace_refuted).
43. The inliner loses the end of long lines and of files without final newline, and has a fixed buffer. R: C42_long_line_refuted, C42_last_line_refuted, C42_size_refuted.
44. A statement after return/break in the same block aborts (bb_connect of NULL) or dereferences NULL.
45. bb_build_df dereferences NULL when a predecessor is unreachable: `for (; n < 3; n++) return n;`, `do return n; while (n && total);`, `return n ? n && total : 0;`, `return n ? (n ? total : 1) : 0;`. R: C38_unreachable_predecessor_refuted, C50_for_refuted, C50_do_refuted, C50_conditional_refuted. DF[64], RDF[64], the live arrays [800], the phi work list [64] and the rename stack [64] are not bounds-checked.
46. Dead code elimination ignores termination, and in void functions may leave a branch block without successor. R: C41_void_loop_refuted. work_list[2048] is checked only while it is filled initially.
47. Address-taken locals: after `p = &x`, `x = 6` creates a new SSA name with its own slot, so `*p` sees the old value; constant folding ignores them as well. R: C16_address_taken_refuted.
48. The compiler itself divides by zero on `1/0` (and traps on INT_MIN/-1). R: C16_division_refuted.
49. CSE ignores stores and calls between two reads. R: C46_stale_read_refuted. It does not compare sizes; use_chain_delete dereferences NULL on a one-element chain.
50. CSE deletes an addition followed by a read of something else. R: C46_swap_refuted.
51. An implicit return is only added to the predecessors of the exit of void functions (reg-alloc.c:621-637).
52. OP_indirect does not clear REGS: an argument used after a call through a pointer reads a clobbered register. R: C40_indirect_refuted.
53. A call without arguments to a function with parameters skips spill_alive; 8-argument calls can clobber an argument when a dead variable occupies r0; OP_push of a 9th argument overflows REGS; address_of_func does not drop stale copies of globals.
54. `a[i] + e` goes into the pointer-arithmetic path: e is scaled by the element size and only one operand is read. R: C32_element_refuted, C32_element_precedence_refuted.
55. The second subscript of a `char **` (argv[1][0]) uses element size 4.
56. operand_stack[32] and params[8] are not bounds-checked.
57. Assigning to a `char` variable does not truncate: `char c = 300; return c;` gives 300. R: C47_char_refuted, C47_char_assignment_refuted.
58. `p[i]++`, `p[i] += e` through a pointer add a multiple of the element size. R: C47_pointed_increment_refuted.
59. `char **q; q++` adds 1. R: C47_pointer_step_refuted.
60. `&&`, `||`, `?:` in the increment of a `for`: the body is connected to the last block of the increment, not to its first. R: C47_increment_refuted.
61. `for (;;) { if (c) { ...; continue; } return e; }`: the continue goes to a block without successor. R: C47_continue_refuted.
62. The initialisers of the second and later declarators of a declaration are read without `?:`; `++i` is not accepted in the first part of a `for`.
63. `switch (x) {}` leaves a block without successor.
64. In statement position a function's name wins over a local variable of that name, and an enumeration constant wins over a local variable everywhere.
65. A block's scope is that of the last instruction added to it. In `int y; { int x = 1; if (n) x = 2; y = x; } y = y + 1; return y;` the join of the if also holds the
    instructions behind the inner braces, so x does not count as visible there and gets no phi: the function returns 2 for n != 0. R: C48_scope_refuted.
66. subscripts[64], rename.stack[64] and work_list[64] are not bounds-checked: 65 versions of a variable (a declaration and 64 assignments) overrun them. R: C48_versions_refuted.
67. lib/c.c `fopen(.., "wb")` passes O_WRONLY\|O_CREAT without O_TRUNC: writing a file over a longer one leaves the rest of the old one. R: C51_truncate_refuted.
68. lib/c.c `fopen` returns the negative error number, not NULL: `load_source_file` of a missing file (in the self-hosted compiler) reads an empty file. R: C51_missing_refuted.
69. `fputc` returns its argument, not the byte: -1 for byte 255 passed as char. R: C51_fputc_refuted.
70. `error()`: if the compiler stands at the end of a line (after its last token) the next line is shown; `diagnostic[512]` is not bounds-checked. R: C52_line_end_refuted, C52_overflow_refuted.

## 4. Trusted base

* The kernel of Coq 8.16.1 (`coqc`, no plugins, no flag of the kernel switched off).
* `Print Assumptions` is run after every property theorem (in `Properties/*.v`); each prints
  "Closed under the global context": no axioms, neither the standard library's nor others. Only the standard library is
  used (ZArith, List, Bool, Lia, Arith, Wf_nat and the like).
* The reading of C in section 1, in particular: 32-bit wrapping `int`; pointers to blocks, instructions and variables are
  numbers (distinct pointers are distinct numbers, arena memory starts zeroed); sharing and mutation by state passing.
* The specifications: RV32IM (`Rv/RvISA`), ARMv7-A (`Arm/ArmISA`), system calls (`Base/Os`), the ELF reader, ISO C as
  written in the `*Spec` files.
* That the model says what the C text says. Every definition cites the lines it models; nothing was extracted from or run
  against the C code.

### Modelled

* `src/riscv.c`, `src/arm.c`: all of it. `src/riscv-codegen.c`, `src/arm-codegen.c`: all of it (start-up code, layout, emission of every
  IR operator, calls, returns, system call entry).
* `src/elf.c`: the whole writer. `src/peephole.c`: all of it.
* `src/reg-alloc.c`: all of the allocation of a function (22-638); not dump_ph2_ir (640-782).
* `src/ssa.c`: traversals, block orders, dominators, dominator tree, post-dominators, dominance frontiers, phi insertion, renaming, unwinding,
  ssa_build, liveness, constant folding, common subexpression elimination, dead code elimination, optimize(). Not modelled: dump_cfg, dump_dom,
  MAX_LOCALS and MAX_ANALYSIS_STACK_SIZE.
* `src/globals.c`: arena, hash map, function table, aliases, macros, scopes and variable lookup, constants, types, source buffer,
  bb_create/bb_connect/bb_disconnect, add_insn. error() up to its printf. Not modelled: global_init/global_release (except start values), dump_insn.
* `src/lexer.c`: all of it except the expansion of macro parameters during lexing.
* `src/parser.c`: numeric and character literals; expressions (read_expr, read_expr_operand, read_lvalue without members, casts, ++, --,
  read_func_call, read_logical, finalize_logical, read_ternary_operation); statements (read_body_statement without switch,
  read_body_assignment, read_code_block, read_func_body, local declarations); global initialisers; #if/#elif evaluation and
  conditional groups; #define/#undef tables; struct, typedef and enum declarations; load_source_file.
  Not modelled: macro expansion of function-like macros in the parser, switch, member access, ++/-- inside expressions, casts, function declarators, variadic
  functions, array initialisers.
* `src/main.c`: option parsing. `tools/inliner.c`: all. `lib/c.c`: strings, memcpy, formatted output, malloc/calloc/free, file functions.
* Fixed table sizes: modelled where the code checks them or where a theorem says so (BB predecessors, operand stack, operator stack,
  parameters, work list of dead code elimination); otherwise unbounded, which the note of the claim says.
