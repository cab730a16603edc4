(** Specification for the construction of SSA form: the functions it is given, and what it means that the result is the same
    function.  Nothing here is taken from src/ssa.c. *)
From Verif.Mid Require Export AllocSpec.

(** the frontier of a: the blocks with a predecessor that a dominates and that a does not strictly dominate *)
Definition frontier (succ : nat -> list nat) (entry a b : nat) : Prop :=
  (exists p, reach succ entry p /\ In b (succ p) /\ dominates succ entry a p) /\ ~ (dominates succ entry a b /\ a <> b).

Section Form.
  Variable V : vars.
  Variable in_scope : nat -> nat -> bool.          (* the variable is visible in the block *)
  Variable declared : nat -> list nat.             (* the variables declared in the block *)
  Variable temp : nat -> bool.                     (* the results of && || ?: *)
  Variable g : cfg.
  Variables entry exit : nat.
  Variable params : list nat.
  Variable nvars : nat.
  Variable code : nat -> list rinsn.
  Notation R := (reach (succs g) entry).
  Notation plain := (plain_code code).
  (** the value x has at the beginning of b is read before x is overwritten, on some path *)
  Definition live_in (x b : nat) : Prop := exposed (plain b) x \/ untouched (plain b) x /\ needed (succs g) plain x b.
  (** b writes x *)
  Definition defines (b x : nat) : Prop := exists i, In i (plain b) /\ i_rd i = Some x.
  (** the form of the graph and of the instructions *)
  Record ssa_shape : Prop := mkss {
    (* the graph *)
    si_preds : forall a b, R b -> (In a (preds g b) <-> R a /\ In b (succs g a));
    si_entry : preds g entry = [];
    si_exit : code exit = [] /\ succs g exit = [];
    (* variables are numbered below nvars *)
    si_vars : forall b i x, R b -> In i (plain b) -> i_rd i = Some x \/ reads i x -> (x < nvars)%nat;
    si_params : NoDup params /\ forall x, In x params -> v_global V x = false /\ (x < nvars)%nat;
    (* branches end blocks, arguments are passed right before a call, some instructions have no result *)
    si_branch : forall b l1 i l2, R b -> plain b = l1 ++ i :: l2 -> i_op i = OP_branch -> l2 = [];
    si_push : forall b l i, R b -> plain b = l ++ [i] -> i_op i <> OP_push;
    si_dest : forall b i, R b -> In i (plain b) -> In (i_op i) [OP_write; OP_push; OP_call; OP_indirect; OP_branch; OP_return] -> i_rd i = None;
    si_plain : forall b i, R b -> In i (plain b) -> i_op i <> OP_unwound_phi;
    si_func : forall b i y, R b -> In i (plain b) -> i_rs2 i = Some y -> v_func V y <> None -> i_op i = OP_write }.
  (** and where variables are needed *)
  Record ssa_input : Prop := mksi {
    si_shape :> ssa_shape;
    (* a local variable whose value is still needed in b is visible in b and not declared there *)
    si_scope : forall b x, R b -> b <> entry -> v_global V x = false -> live_in x b -> in_scope x b = true;
    si_declared : forall b x, R b -> b <> entry -> v_global V x = false -> live_in x b -> ~ In x (declared b);
    (* the result of && || ?: is joined where its values meet, and not needed at later joins of other paths *)
    si_temp : forall a y b x, R b -> temp x = true -> defines a x -> frontier (succs g) entry a y -> frontier (succs g) entry y b -> live_in x b ->
      exists a', R a' /\ defines a' x /\ frontier (succs g) entry a' b }.
End Form.

(** Static single assignment form, of the code that comes out.  Copies stand for phi instructions: those with the same target are
    at the ends of the blocks that lead to the block of the phi instruction. *)
Section Result.
  Variable V : vars.
  Variable g : cfg.
  Variable entry : nat.
  Variable params : list nat.
  Variable code : nat -> list rinsn.
  Notation R := (reach (succs g) entry).
  Notation plain := (plain_code code).
  Record ssa_form : Prop := mksf {
    (* a local variable is the target of one instruction, or of copies only *)
    sf_single : forall b c k j i i' v, R b -> R c -> nth_error (plain b) k = Some i -> nth_error (plain c) j = Some i' ->
      i_rd i = Some v -> i_rd i' = Some v -> v_global V v = false ->
      (b = c /\ k = j) \/ i_op i = OP_unwound_phi /\ i_op i' = OP_unwound_phi;
    (* the parameters are of no instruction *)
    sf_params : NoDup params /\ forall b i v, R b -> In i (plain b) -> i_rd i = Some v -> ~ In v params;
    (* whatever way leads to an instruction that reads a local variable, the variable is the target of an instruction on it; or it is
       the name of a function, and the target of none *)
    sf_strict : forall b k i v, R b -> nth_error (plain b) k = Some i -> reads i v -> v_global V v = false ->
      (forall l, walk (succs g) entry (l ++ [b]) b ->
        In v params \/ exists j, In j (flat_map plain l ++ firstn k (plain b)) /\ i_rd j = Some v) \/
      (i_rs2 i = Some v /\ v_func V v <> None /\ ~ In v params /\ forall c j, R c -> In j (plain c) -> i_rd j <> Some v);
    (* the blocks with copies to v are those that lead to a certain block *)
    sf_joins : forall b i v, R b -> In i (plain b) -> i_op i = OP_unwound_phi -> i_rd i = Some v ->
      v_global V v = false /\ exists c, forall p, R p -> (In c (succs g p) <-> exists j, In j (plain p) /\ i_rd j = Some v);
    (* copies are the last instructions of a block, before the branch *)
    sf_last : forall b l1 i l2 j, R b -> plain b = l1 ++ i :: l2 -> i_op i = OP_unwound_phi -> In j l2 ->
      i_op j = OP_unwound_phi \/ i_op j = OP_branch }.
End Result.

(** the attributes of a version are those of its variable *)
Definition versions (V : vars) (base : nat -> nat) : vars :=
  mkvars (fun v => v_global V (base v)) (fun v => v_func V (base v)) (fun v => v_init V (base v)) (fun v => v_scalar V (base v))
         (fun v => v_array V (base v)) (fun v => v_ptr V (base v)) (fun v => v_tsize V (base v)).
