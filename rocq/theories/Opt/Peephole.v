(** Model of src/peephole.c. *)
From Verif.Base Require Import Int32 Mem.
From Verif.Ir Require Import Ph2 Ph2Sem Regs.

(* src/peephole.c:8-32 is_fusible_insn *)
Definition is_fusible_insn (i : ph2) : bool :=
  match p_op i with
  | OP_add | OP_sub | OP_mul | OP_div | OP_mod | OP_lshift | OP_rshift
  | OP_bit_and | OP_bit_or | OP_bit_xor | OP_log_and | OP_log_or | OP_log_not
  | OP_negate | OP_load | OP_global_load | OP_load_data_address => true
  | _ => false
  end.

Definition set_dest (i : ph2) (d : Z) : ph2 :=
  mkph2 (p_op i) (p_src0 i) (p_src1 i) d (p_func i) (p_next i) (p_then i) (p_else i) (p_det i).
Definition set_op (i : ph2) (o : opcode) (s0 d : Z) : ph2 :=
  mkph2 o s0 (p_src1 i) d (p_func i) (p_next i) (p_then i) (p_else i) (p_det i).
Definition opeq (a b : opcode) : bool := if opcode_eq_dec a b then true else false.

(* src/peephole.c:34-142 insn_fusion, called with ph2_ir = [i], ph2_ir->next = [n];
   [Some i']: the pair is replaced by [i'] (n is unlinked) *)
Definition insn_fusion (i n : ph2) : option ph2 :=
  if opeq (p_op n) OP_assign && is_fusible_insn i && (p_dest i =? p_src0 n) then
    Some (set_dest i (p_dest n))
  else if opeq (p_op i) OP_load_constant && (p_src0 i =? 0) &&
          opeq (p_op n) OP_add && ((p_dest i =? p_src0 n) || (p_dest i =? p_src1 n)) then
    Some (set_op i OP_assign (if p_dest i =? p_src0 n then p_src1 n else p_src0 n) (p_dest n))
  else if opeq (p_op i) OP_load_constant && (p_src0 i =? 0) &&
          opeq (p_op n) OP_sub && (p_dest i =? p_src1 n) then
    Some (set_op i OP_assign (p_src0 n) (p_dest n))
  else if opeq (p_op i) OP_load_constant && (p_src0 i =? 0) &&
          opeq (p_op n) OP_sub && (p_dest i =? p_src0 n) then
    Some (set_op i OP_negate (p_src1 n) (p_dest n))
  else if opeq (p_op i) OP_load_constant && (p_src0 i =? 0) &&
          opeq (p_op n) OP_mul && ((p_dest i =? p_src0 n) || (p_dest i =? p_src1 n)) then
    Some (set_op i OP_load_constant 0 (p_dest n))
  else if opeq (p_op i) OP_load_constant && (p_src0 i =? 1) &&
          opeq (p_op n) OP_mul && ((p_dest i =? p_src0 n) || (p_dest i =? p_src1 n)) then
    Some (set_op i OP_assign (if p_dest i =? p_src0 n then p_src1 n else p_src0 n) (p_dest n))
  else None.

Definition self_move (n : ph2) : bool := opeq (p_op n) OP_assign && (p_dest n =? p_src0 n).

(* src/peephole.c:149-158 the loop over one block *)
Fixpoint peep (l : list ph2) : list ph2 :=
  match l with
  | i :: ((n :: r) as rest) =>
      if self_move n then i :: peep r
      else match insn_fusion i n with
           | Some i' => i' :: peep r
           | None => i :: peep rest
           end
  | _ => l
  end.

(* src/peephole.c:145-161 peephole: every block of every function in FUNC_LIST
   (GLOBAL_FUNC is not visited) *)
Definition peep_block (b : block) : block := mkblock (b_id b) (peep (b_insns b)).
Definition peep_func (f : func) : func := mkfunc (f_name f) (f_stack f) (map peep_block (f_blocks f)).
Definition peephole (p : program) : program :=
  mkprog (g_insns p) (g_stack p) (g_bb p) (map peep_func (p_funcs p)) (p_mainbb p) (p_sysname p) (p_sysbb p).
