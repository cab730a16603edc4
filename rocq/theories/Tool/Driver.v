(** Model of the command line, src/main.c. *)
From Coq Require Import String.
From Verif.Front Require Import Lexer LexSpec.

(** The settings after the argument loop: src/main.c:45-46 (libc, out, in), src/globals.c (dump_ir,
    hard_mul_div, both 0 at start).  [None] for out/in is the null pointer. *)
Record settings := mkset { dump_ir : bool; hard_mul_div : bool; libc : bool; out : option text; inp : option text }.
Definition initial : settings := mkset false false true None None.

(* src/main.c:48-67; [argv] is argv[i..argc-1]; argv[argc] is NULL (C11 5.1.2.2.1), so the read of argv[i+1]
   under the guard i < argc + 1, which always holds, gives NULL for a last argument -o *)
Fixpoint args (s : settings) (argv : list text) : settings :=
  match argv with
  | [] => s
  | a :: r =>
    if text_eqb a (bytes "--dump-ir") then args (mkset true (hard_mul_div s) (libc s) (out s) (inp s)) r
    else if text_eqb a (bytes "+m") then args (mkset (dump_ir s) true (libc s) (out s) (inp s)) r
    else if text_eqb a (bytes "--no-libc") then args (mkset (dump_ir s) (hard_mul_div s) false (out s) (inp s)) r
    else if text_eqb a (bytes "-o") then
      match r with
      | [] => mkset (dump_ir s) (hard_mul_div s) (libc s) None (inp s)
      | o :: r' => args (mkset (dump_ir s) (hard_mul_div s) (libc s) (Some o) (inp s)) r'
      end
    else args (mkset (dump_ir s) (hard_mul_div s) (libc s) (out s) (Some a)) r
  end.

(** What main does after that, as the sequence of the calls it makes. *)
Inductive action :=
| Print_usage | Init | Libc | Parse (file : text) | Dump_ph1 | Ssa_build (dump : bool) | Optimize | Liveness | Reg_alloc
| Peephole | Flatten | Dump_ph2 | Code_generate (hard : bool) | Elf_generate (file : text) | Release.
(* src/main.c:69-121, with the default of elf_generate, src/elf.c:254-255; result: actions and exit code *)
Definition main (argv : list text) : list action * Z :=
  let s := args initial argv in
  match inp s with
  | None => ([Print_usage], -1)
  | Some f =>
    ([Init] ++ (if libc s then [Libc] else []) ++ [Parse f] ++ (if dump_ir s then [Dump_ph1] else []) ++
     [Ssa_build (dump_ir s); Optimize; Liveness; Reg_alloc; Peephole; Flatten] ++
     (if dump_ir s then [Dump_ph2] else []) ++
     [Code_generate (hard_mul_div s); Elf_generate (match out s with Some o => o | None => bytes "a.out" end); Release], 0)
  end.
