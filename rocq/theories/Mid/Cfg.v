(** Model of the control-flow graph passes of src/ssa.c: traversal and block ordering.
    Blocks are numbers (stand for pointers); NULL is None.  The numbers of visits are unbounded integers. *)
From Coq Require Export List ZArith Bool Lia.
Export ListNotations.
Open Scope Z_scope.

(* src/defs.h:395-435 basic_block_t, the edges; [prev] holds the MAX_BB_PRED slots *)
Record cfg := mkcfg {
  g_next : nat -> option nat;
  g_then : nat -> option nat;
  g_else : nat -> option nat;
  g_prev : nat -> list (option nat) }.

Definition opt_list {A} (o : option A) : list A := match o with Some x => [x] | None => [] end.
(* src/ssa.c:21-38: the successors in the order they are tried *)
Definition succs (g : cfg) (b : nat) : list nat := opt_list (g_next g b) ++ opt_list (g_then g b) ++ opt_list (g_else g b).
(* src/ssa.c:52-62: the predecessors in the order they are tried *)
Definition preds (g : cfg) (b : nat) : list nat := flat_map opt_list (g_prev g b).

Definition upd {A} (f : nat -> A) (i : nat) (v : A) : nat -> A := fun j => if Nat.eqb j i then v else f j.

Section Traverse.
  Context {St : Type}.
  Variable succ : nat -> list nat.          (* [succs g] or [preds g] *)
  Variables pre post : nat -> St -> St.     (* the callbacks; a NULL callback is the identity *)
  Variable V : Z.                           (* fn->visited *)
  Definition tstate := ((nat -> Z) * St)%type.

  (* src/ssa.c:9-41 bb_forward_traversal, 43-66 bb_backward_traversal.  [None]: the counter is exhausted *)
  Fixpoint traverse (fuel : nat) (bb : nat) (s : tstate) : option tstate :=
    match fuel with
    | O => None
    | S fuel =>
      let '(vis, st) := s in
      let vis := upd vis bb (vis bb + 1) in
      let st := pre bb st in
      match (fix each (l : list nat) (s : tstate) : option tstate :=
               match l with
               | [] => Some s
               | n :: r => if fst s n <? V then match traverse fuel n s with Some s => each r s | None => None end
                           else each r s
               end) (succ bb) (vis, st) with
      | None => None
      | Some (vis, st) => Some (vis, post bb st)
      end
    end.
End Traverse.

(** the fields the ordering works on: rpo (or rpo_r), rpo_next (or rpo_r_next), fn->bb_cnt *)
Record order := mkorder { o_rpo : nat -> Z; o_next : nat -> option nat; o_cnt : Z }.

(* src/ssa.c:68-71 bb_index_rpo, 1562-1565 bb_index_reversed_rpo *)
Definition bb_index_rpo (bb : nat) (o : order) : order := mkorder (upd (o_rpo o) bb (o_cnt o)) (o_next o) (o_cnt o + 1).
(* src/ssa.c:73-76 bb_reverse_index, 1567-1570 bb_reverse_reversed_index *)
Definition bb_reverse_index (bb : nat) (o : order) : order :=
  mkorder (upd (o_rpo o) bb (o_cnt o - o_rpo o bb)) (o_next o) (o_cnt o).
(* src/ssa.c:83-96, 1577-1590: the walk along the chain; [prev] = prev *)
Fixpoint rpo_insert (fuel : nat) (rpo : nat -> Z) (next : nat -> option nat) (prev bb : nat) : option (nat -> option nat) :=
  match fuel with
  | O => None
  | S fuel =>
    match next prev with
    | None => Some (upd next prev (Some bb))
    | Some curr => if rpo curr <? rpo bb then rpo_insert fuel rpo next curr bb
                   else Some (upd (upd next bb (Some curr)) prev (Some bb))
    end
  end.
(* src/ssa.c:78-97 bb_build_rpo, 1572-1591 bb_build_reversed_rpo; [head] = fn->bbs or fn->exit *)
Definition bb_build_rpo (fuel : nat) (head bb : nat) (o : option order) : option order :=
  match o with
  | None => None
  | Some o => if Nat.eqb head bb then Some o
              else match rpo_insert fuel (o_rpo o) (o_next o) head bb with
                   | Some nx => Some (mkorder (o_rpo o) nx (o_cnt o))
                   | None => None
                   end
  end.
Definition nop {St} (_ : nat) (s : St) : St := s.

(* the body of the loops of src/ssa.c:99-119 build_rpo and 1593-1615 build_reversed_rpo, for one function.
   [V] = fn->visited before, [vis] = the visited fields.  (build_reversed_rpo sets fn->bb_cnt to 0 first; for build_rpo it
   is 0 from the calloc of add_fn.) *)
Definition order_blocks (fuel : nat) (succ : nat -> list nat) (head : nat) (V : Z) (vis : nat -> Z) (o : order)
  : option (Z * (nat -> Z) * order) :=
  match traverse succ nop bb_index_rpo (V + 1) fuel head (vis, o) with
  | None => None
  | Some (vis, o) =>
    match traverse succ nop bb_reverse_index (V + 2) fuel head (vis, o) with
    | None => None
    | Some (vis, o) =>
      match traverse succ nop (bb_build_rpo fuel head) (V + 3) fuel head (vis, Some o) with
      | Some (vis, Some o) => Some (V + 3, vis, o)
      | _ => None
      end
    end
  end.
Definition build_rpo (fuel : nat) (g : cfg) (entry : nat) := order_blocks fuel (succs g) entry.
Definition build_reversed_rpo (fuel : nat) (g : cfg) (exit : nat) := order_blocks fuel (preds g) exit.
