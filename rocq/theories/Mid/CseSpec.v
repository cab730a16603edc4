(** Specification for common subexpression elimination: when is a value read from memory still there?
    Nothing here is taken from src/ssa.c. *)
From Verif.Ir Require Import Ph2Sem.
From Verif.Mid Require Export FoldSpec LiveSpec.
From Verif.Base Require Import Int32.

Definition plain_or_read (o : opcode) : bool := plain o || match o with OP_read => true | _ => false end.

Section Repeats.
  Variable ins : nat -> insn.
  Variable own : nat -> nat.
  Variable code : nat -> list nat.
  Variable g : cfg.
  Variable entry : nat.
  Variables is_global in_memory : nat -> bool.
  (** t lists the instructions executed on some way from the entry to the moment i is about to be executed *)
  Definition way_to (i : nat) (t : list nat) : Prop :=
    exists b l1 l2 l, code b = l1 ++ i :: l2 /\ walk (succs g) entry (l ++ [b]) b /\ t = flat_map code l ++ l1.
  (** the additions [base + idx] that are followed by a reading instruction *)
  Definition sum_read (p r base idx : nat) : Prop :=
    exists b l1 l2, reach (succs g) entry b /\ code b = l1 ++ p :: r :: l2 /\
      i_op (ins p) = OP_add /\ i_op (ins r) = OP_read /\ i_rs1 (ins p) = Some base /\ i_rs2 (ins p) = Some idx /\
      is_global base = false /\ is_global idx = false.
  (** k changes neither memory nor the two variables *)
  Definition quiet (base idx k : nat) : Prop :=
    has_effect (i_op (ins k)) = false /\ forall d, i_rd (ins k) = Some d -> in_memory d = false /\ d <> base /\ d <> idx.
  (** static single assignment for constants, copies, arithmetic and readings *)
  Definition strict_reads : Prop :=
    forall b c i j v, reach (succs g) entry b -> reach (succs g) entry c -> In i (code b) -> In j (code c) ->
      is_global v = false -> (i_rs1 (ins i) = Some v \/ i_rs2 (ins i) = Some v) -> i_rd (ins j) = Some v -> plain_or_read (i_op (ins j)) = true ->
      executed_before code g entry j i.
  (** [alike r n]: r and n read in the same way (as many bytes) *)
  Variable alike : nat -> nat -> Prop.
  Record repeats_ok : Prop := mkrep {
    (* the sum is the address read, and used for nothing else *)
    r_sum : forall p r i n base idx, p <> i -> sum_read p r base idx -> sum_read i n base idx ->
      alike r n /\ exists v, i_rd (ins p) = Some v /\ i_rs1 (ins r) = Some v /\ i_rs2 (ins r) = None /\
        forall c k, reach (succs g) entry c -> In k (code c) -> reads (ins k) v -> k = r;
    (* from one reading to the next of the same sum, nothing changes memory or the two variables *)
    r_quiet : forall p r i n base idx, p <> i -> sum_read p r base idx -> sum_read i n base idx ->
      dominates (succs g) entry (own p) (own i) ->
      (own p = own i -> exists l1 l2 l3, code (own p) = l1 ++ p :: r :: l2 ++ i :: l3) ->
      forall t1 t2, way_to i (t1 ++ r :: t2) -> ~ In r t2 -> forall k, In k (p :: r :: t2) -> quiet base idx k }.
End Repeats.
