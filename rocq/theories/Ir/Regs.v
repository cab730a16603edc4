(** Which register fields a phase-2 instruction uses. *)
From Verif.Base Require Import Int32.
From Verif.Ir Require Import Ph2.

(** an allocatable register *)
Definition vreg (i : Z) : Prop := 0 <= i < 8.

(** which register fields an instruction uses *)
Definition uses_dest (o : opcode) : bool :=
  match o with
  | OP_load_constant | OP_load_data_address | OP_address_of | OP_global_address_of
  | OP_assign | OP_load | OP_global_load | OP_read
  | OP_add | OP_sub | OP_mul | OP_div | OP_mod | OP_lshift | OP_rshift
  | OP_log_not | OP_eq | OP_neq | OP_lt | OP_leq | OP_gt | OP_geq
  | OP_bit_or | OP_bit_and | OP_bit_xor | OP_bit_not | OP_negate => true
  | _ => false
  end.
Definition uses_src0 (o : opcode) : bool :=
  match o with
  | OP_assign | OP_store | OP_global_store | OP_read | OP_write | OP_branch
  | OP_address_of_func | OP_load_func
  | OP_add | OP_sub | OP_mul | OP_div | OP_mod | OP_lshift | OP_rshift
  | OP_log_not | OP_eq | OP_neq | OP_lt | OP_leq | OP_gt | OP_geq
  | OP_bit_or | OP_bit_and | OP_bit_xor | OP_bit_not | OP_negate => true
  | _ => false
  end.
Definition uses_src1 (o : opcode) : bool :=
  match o with
  | OP_write
  | OP_add | OP_sub | OP_mul | OP_div | OP_mod | OP_lshift | OP_rshift
  | OP_eq | OP_neq | OP_lt | OP_leq | OP_gt | OP_geq
  | OP_bit_or | OP_bit_and | OP_bit_xor => true
  | _ => false
  end.

Definition regs_ok (i : ph2) : Prop :=
  (uses_dest (p_op i) = true -> vreg (p_dest i)) /\
  (uses_src0 (p_op i) = true -> vreg (p_src0 i)) /\
  (uses_src1 (p_op i) = true -> vreg (p_src1 i)) /\
  (p_op i = OP_return -> p_src0 i = -1 \/ vreg (p_src0 i)).

Lemma emits_length fs : forall pos ws, emits pos fs = Some ws -> length ws = length fs.
Proof.
  induction fs as [|f fs IH]; cbn; intros pos ws H.
  - inversion H; reflexivity.
  - destruct (f pos); [|discriminate]. destruct (emits (pos + 4) fs) eqn:E; [|discriminate].
    inversion H; subst. cbn. f_equal. eauto.
Qed.

