(** Model of the functions of src/globals.c that connect blocks.  The predecessor table of a block is a list of slots
    (MAX_BB_PRED of them), each empty or holding a block and the kind of connection. *)
From Verif.Mid Require Export Cfg.

(* src/defs.h: bb_connection_type_t *)
Inductive conn := NEXT | THEN | ELSE.
Definition conn_eq_dec (a b : conn) : {a = b} + {a <> b}.
Proof. decide equality. Defined.

(* src/defs.h:395-435 basic_block_t: next, then_, else_, prev *)
Record egraph := mkegraph {
  e_next : nat -> option nat; e_then : nat -> option nat; e_else : nat -> option nat;
  e_prev : nat -> list (option (nat * conn)) }.
Definition edge (g : egraph) (t : conn) : nat -> option nat :=
  match t with NEXT => e_next g | THEN => e_then g | ELSE => e_else g end.
(* src/globals.c:740-752, 761-772: pred->next = ..., pred->then_ = ..., pred->else_ = ... *)
Definition set_edge (g : egraph) (t : conn) (b : nat) (c : option nat) : egraph :=
  match t with
  | NEXT => mkegraph (upd (e_next g) b c) (e_then g) (e_else g) (e_prev g)
  | THEN => mkegraph (e_next g) (upd (e_then g) b c) (e_else g) (e_prev g)
  | ELSE => mkegraph (e_next g) (e_then g) (upd (e_else g) b c) (e_prev g)
  end.
Definition set_prev (g : egraph) (b : nat) (l : list (option (nat * conn))) : egraph :=
  mkegraph (e_next g) (e_then g) (e_else g) (upd (e_prev g) b l).
(* what the passes of src/ssa.c read *)
Definition to_cfg (g : egraph) : cfg := mkcfg (e_next g) (e_then g) (e_else g) (fun b => map (option_map fst) (e_prev g b)).

(* src/globals.c:728-738: the first empty slot; None: there is none (the code reads past the array, then aborts) *)
Fixpoint fill_slot (l : list (option (nat * conn))) (x : nat * conn) : option (list (option (nat * conn))) :=
  match l with
  | [] => None
  | None :: r => Some (Some x :: r)
  | Some y :: r => match fill_slot r x with Some r => Some (Some y :: r) | None => None end
  end.
(* src/globals.c:719-755 bb_connect; None: abort (or a NULL argument) *)
Definition bb_connect (g : egraph) (pred succ : option nat) (t : conn) : option egraph :=
  match pred, succ with
  | Some pred, Some succ =>
    match fill_slot (e_prev g succ) (pred, t) with
    | Some l => Some (set_edge (set_prev g succ l) t pred (Some succ))
    | None => None
    end
  | _, _ => None
  end.
(* src/globals.c:760-777: the first slot holding [pred] is emptied *)
Fixpoint clear_slot (l : list (option (nat * conn))) (pred : nat) : option (list (option (nat * conn)) * conn) :=
  match l with
  | [] => None
  | Some (p, t) :: r => if Nat.eqb p pred then Some (None :: r, t)
                        else match clear_slot r pred with Some (r, t') => Some (Some (p, t) :: r, t') | None => None end
  | None :: r => match clear_slot r pred with Some (r, t') => Some (None :: r, t') | None => None end
  end.
(* src/globals.c:758-783 bb_disconnect; None: succ is NULL *)
Definition bb_disconnect (g : egraph) (pred : nat) (succ : option nat) : option egraph :=
  match succ with
  | None => None
  | Some succ => match clear_slot (e_prev g succ) pred with
                 | Some (l, t) => Some (set_edge (set_prev g succ l) t pred None)
                 | None => Some g
                 end
  end.
