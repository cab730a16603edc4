(** Specification: when is the value a variable holds at the end of a block still needed? *)
From Verif.Mid Require Import Insn.

Definition reads (i : insn) (v : nat) : Prop := i_rs1 i = Some v \/ i_rs2 i = Some v.
(** i gives v a new value.  The copies made from phi instructions do not count as ending a live range: this makes more
    variables live. *)
Definition writes (i : insn) (v : nat) : Prop := i_rd i = Some v /\ i_op i <> OP_unwound_phi.
Definition untouched (l : list insn) (v : nat) : Prop := forall i, In i l -> ~ writes i v.
(** v is read in l before anything writes it *)
Definition exposed (l : list insn) (v : nat) : Prop := exists l1 i l2, l = l1 ++ i :: l2 /\ reads i v /\ untouched l1 v.
(** along some path from the end of b, v is read before being overwritten *)
Inductive needed (succ : nat -> list nat) (code : nat -> list insn) (v : nat) : nat -> Prop :=
| needed_next b c : In c (succ b) -> exposed (code c) v -> needed succ code v b
| needed_later b c : In c (succ b) -> untouched (code c) v -> needed succ code v c -> needed succ code v b.
