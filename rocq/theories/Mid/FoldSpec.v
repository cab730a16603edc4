(** Specification for constant folding: what the instructions it touches mean, and the form of the functions it is given.
    Nothing here is taken from src/ssa.c. *)
From Verif.Ir Require Import Ph2Sem.
From Verif.Mid Require Export DceSpec.
From Verif.Base Require Import Int32.

(** The value an instruction computes from the values of its operands.  [init d]: the constant attached to d.  Instructions
    other than constants, copies and arithmetic, and divisions by zero, have any meaning [other]. *)
Definition computes {world : Type} (other : nat -> option Z -> option Z -> world -> Z)
  (ins : nat -> insn) (init : nat -> Z) (i : nat) (a b : option Z) (w : world) : Z :=
  match i_op (ins i), i_rd (ins i), a, b with
  | OP_load_constant, Some d, _, _ => init d
  | OP_assign, _, Some x, _ => x
  | OP_add as o, _, Some x, Some y | OP_sub as o, _, Some x, Some y | OP_mul as o, _, Some x, Some y
  | OP_div as o, _, Some x, Some y | OP_mod as o, _, Some x, Some y =>
      match c_binop o x y with Some z => s32 z | None => other i a b w end
  | _, _, _, _ => other i a b w
  end.

Section Strict.
  Variable ins : nat -> insn.
  Variable code : nat -> list nat.
  Variable g : cfg.
  Variable entry : nat.
  Variable is_global : nat -> bool.
  Definition plain (o : opcode) : bool :=
    match o with OP_load_constant | OP_assign | OP_add | OP_sub | OP_mul | OP_div | OP_mod => true | _ => false end.
  (** on every way from the entry, j has been executed when i is about to be *)
  Definition executed_before (j i : nat) : Prop :=
    forall b l1 l2 l, code b = l1 ++ i :: l2 -> walk (succs g) entry (l ++ [b]) b ->
      In j l1 \/ exists c, In c l /\ In j (code c).
  (** static single assignment: a definition of a local variable by a plain instruction is executed before every use *)
  Definition strict : Prop :=
    forall b c i j v, reach (succs g) entry b -> reach (succs g) entry c -> In i (code b) -> In j (code c) ->
      is_global v = false -> (i_rs1 (ins i) = Some v \/ i_rs2 (ins i) = Some v) -> i_rd (ins j) = Some v -> plain (i_op (ins j)) = true ->
      executed_before j i.
End Strict.
