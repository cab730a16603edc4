(** Specification for dead code elimination: a meaning for functions in the intermediate form, and what an instruction with
    an effect depends on.  Nothing here is taken from src/ssa.c. *)
From Verif.Mid Require Export Insn EdgesSpec Graph.

Definition final {A} (l : list A) : option A := hd_error (rev l).
Definition is_call (o : opcode) : bool := match o with OP_call | OP_indirect => true | _ => false end.
(** the instructions that act on the world outside the variables *)
Definition has_effect (o : opcode) : bool :=
  match o with OP_write | OP_call | OP_indirect | OP_push | OP_return | OP_allocat => true | _ => false end.

(** Meaning.  Values, the world (memory, input and output, argument and return registers, what has been printed so far...)
    and the meaning of each instruction are arbitrary.  Variables with a place in memory - globals, locals whose address is
    taken - are part of the world: an effect may change them.  Every other instruction only gives its destination a value,
    which depends on its operands and the world. *)
Section Meaning.
  Context {val world : Type}.
  Variable truth : val -> bool.
  Variable get : world -> nat -> val.
  Variable put : world -> nat -> val -> world.
  Variable effect : nat -> option val -> option val -> world -> world.
  Variable result : nat -> option val -> option val -> world -> val.
  Variable in_memory : nat -> bool.
  Variable ins : nat -> insn.

  Definition state := ((nat -> val) * world)%type.
  Definition value (st : state) (v : nat) : val := if in_memory v then get (snd st) v else fst st v.
  Definition step (i : nat) (st : state) : state :=
    let a := option_map (value st) (i_rs1 (ins i)) in
    let b := option_map (value st) (i_rs2 (ins i)) in
    let w := if has_effect (i_op (ins i)) then effect i a b (snd st) else snd st in
    match i_rd (ins i) with
    | None => (fst st, w)
    | Some v => let x := result i a b (snd st) in
                if in_memory v then (fst st, put w v x) else (upd (fst st) v x, w)
    end.
  Definition steps (l : list nat) (st : state) : state := fold_left (fun st i => step i st) l st.

  Variable g : egraph.
  Variable code : nat -> list nat.
  (** where control goes after the instructions of b; None: the function ends *)
  Definition next_block (b : nat) (st : state) : option nat :=
    match e_next g b with
    | Some c => Some c
    | None => match e_then g b, e_else g b, final (code b) with
              | Some t, Some e, Some i => match i_rs1 (ins i) with
                                          | Some v => Some (if truth (value st v) then t else e)
                                          | None => None
                                          end
              | _, _, _ => None
              end
    end.
  (** started in block b in state st, the function ends after n more blocks and leaves the world w *)
  Inductive runs : nat -> nat -> state -> world -> Prop :=
  | runs_end b st : next_block b (steps (code b) st) = None -> runs 0 b st (snd (steps (code b) st))
  | runs_step n b c st w : next_block b (steps (code b) st) = Some c -> runs n c (steps (code b) st) w -> runs (S n) b st w.
End Meaning.

(** What must stay.  [matters i]: i has an effect, or computes a value or takes a decision that such an instruction depends on. *)
Section Matters.
  Variable ins : nat -> insn.
  Variable code : nat -> list nat.
  Variable g : cfg.
  Variables entry exit : nat.
  Variable is_global : nat -> bool.
  Definition post_dominates (x y : nat) : Prop := dominates (preds g) exit x y.
  (** the end of a decides whether b is executed: b post-dominates one of its successors, but not a itself *)
  Definition decides (a b : nat) : Prop :=
    (exists c, reach (preds g) exit c /\ In c (succs g a) /\ post_dominates b c) /\ ~ (post_dominates b a /\ b <> a).
  Definition observable (i : nat) : Prop :=
    In (i_op (ins i)) [OP_return; OP_write; OP_call; OP_indirect; OP_allocat] \/
    exists v, i_rd (ins i) = Some v /\ is_global v = true.
  Inductive matters : nat -> Prop :=
  | m_effect b i : reach (succs g) entry b -> In i (code b) -> observable i -> matters i
  | m_argument b l1 p ps c l2 : reach (succs g) entry b -> code b = l1 ++ p :: ps ++ c :: l2 ->
      (forall q, In q (p :: ps) -> i_op (ins q) = OP_push) -> is_call (i_op (ins c)) = true -> matters p
  | m_return b l1 c r l2 : reach (succs g) entry b -> code b = l1 ++ c :: r :: l2 ->
      is_call (i_op (ins c)) = true -> i_op (ins r) = OP_func_ret -> matters r
  | m_value i v b j : matters i -> i_rs1 (ins i) = Some v \/ i_rs2 (ins i) = Some v ->
      reach (succs g) entry b -> In j (code b) -> i_rd (ins j) = Some v -> matters j
  | m_decision i b a j : matters i -> reach (succs g) entry b -> In i (code b) ->
      decides a b -> final (code a) = Some j -> i_op (ins j) = OP_branch -> matters j.
End Matters.

(** Functions as the earlier passes leave them. *)
Section Form.
  Variable ins : nat -> insn.
  Variable own : nat -> nat.
  Variable code : nat -> list nat.
  Variable g : egraph.
  Variables entry exit : nat.
  Variables is_global in_memory : nat -> bool.
  (** the three kinds of blocks *)
  Inductive shape (b : nat) : Prop :=
  | shape_end : e_next g b = None -> e_then g b = None -> e_else g b = None ->
      (forall i, In i (code b) -> i_op (ins i) <> OP_branch) -> shape b
  | shape_next c : e_next g b = Some c -> e_then g b = None -> e_else g b = None ->
      (forall i, In i (code b) -> i_op (ins i) <> OP_branch) -> shape b
  | shape_branch t e l i v : e_next g b = None -> e_then g b = Some t -> e_else g b = Some e ->
      code b = l ++ [i] -> i_op (ins i) = OP_branch -> i_rs1 (ins i) = Some v ->
      (forall j, In j l -> i_op (ins j) <> OP_branch) -> shape b.
  Let live b := reach (succs (to_cfg g)) entry b.
  Record function_ok : Prop := mkfok {
    f_links : linked g;
    f_exit : succs (to_cfg g) exit = [] /\ code exit = [];
    (* every reachable block leads to the exit *)
    f_leads : forall b, live b -> reach (succs (to_cfg g)) b exit;
    f_shape : forall b, live b -> shape b;
    f_own : forall b i, In i (code b) -> own i = b;
    (* a local variable has one definition, or all its definitions are copies made from a phi instruction *)
    f_single : forall b c i j v, live b -> live c -> In i (code b) -> In j (code c) ->
      i_rd (ins i) = Some v -> i_rd (ins j) = Some v -> is_global v = false ->
      i = j \/ i_op (ins i) = OP_unwound_phi /\ i_op (ins j) = OP_unwound_phi;
    (* arguments are passed right before a call *)
    f_push : forall b l1 p l2, live b -> code b = l1 ++ p :: l2 -> i_op (ins p) = OP_push ->
      exists ps c l3, l2 = ps ++ c :: l3 /\ (forall q, In q ps -> i_op (ins q) = OP_push) /\ is_call (i_op (ins c)) = true;
    f_ret : forall i, i_op (ins i) = OP_func_ret -> i_rs1 (ins i) = None /\ i_rs2 (ins i) = None;
    (* only globals and locals whose address is taken have a place in memory *)
    f_memory : forall v, in_memory v = true -> is_global v = true \/
      exists b i, live b /\ In i (code b) /\ i_op (ins i) = OP_address_of /\ i_rs1 (ins i) = Some v }.
End Form.
