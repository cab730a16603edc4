(** Model of the liveness analysis of src/ssa.c:1617-1772. *)
From Verif.Mid Require Export Insn.

(** the fields of the blocks (live_gen, live_kill, live_in, live_out with their counts; unbounded here, 800 in the code)
    and of the variables (consumed) *)
Record live := mklive {
  l_gen : nat -> list nat; l_kill : nat -> list nat; l_in : nat -> list nat; l_out : nat -> list nat; l_cons : nat -> Z }.

Section Live.
  Variable g : cfg.
  Variable code : nat -> list insn.
  Variable is_global : nat -> bool.

  (* src/ssa.c:1617-1621 bb_reset_live_kill_idx *)
  Definition bb_reset_live_kill_idx (b : nat) (s : live) : live :=
    mklive (l_gen s) (upd (l_kill s) b []) (l_in s) (l_out s) (l_cons s).
  (* src/ssa.c:452-474 var_check_killed, bb_add_killed_var *)
  Definition var_check_killed (v : nat) (b : nat) (s : live) : bool := mem v (l_kill s b).
  Definition bb_add_killed_var (b v : nat) (s : live) : live :=
    mklive (l_gen s) (upd (l_kill s) b (add v (l_kill s b))) (l_in s) (l_out s) (l_cons s).
  (* src/ssa.c:1623-1632 add_live_gen *)
  Definition add_live_gen (b v : nat) (s : live) : live :=
    if is_global v then s else mklive (upd (l_gen s) b (add v (l_gen s b))) (l_kill s) (l_in s) (l_out s) (l_cons s).
  (* src/ssa.c:1634-1638 update_consumed *)
  Definition update_consumed (idx : Z) (v : nat) (s : live) : live :=
    if l_cons s v <? idx then mklive (l_gen s) (l_kill s) (l_in s) (l_out s) (upd (l_cons s) v idx) else s.
  (* src/ssa.c:1648-1652, 1653-1657: one operand *)
  Definition use_operand (b : nat) (idx : Z) (o : option nat) (s : live) : live :=
    match o with
    | None => s
    | Some v => update_consumed idx v (if var_check_killed v b s then s else add_live_gen b v s)
    end.
  (* src/ssa.c:1645-1661: the loop body *)
  Definition solve_insn (b : nat) (idx : Z) (i : insn) (s : live) : live :=
    let s := use_operand b idx (i_rs2 i) (use_operand b idx (i_rs1 i) s) in
    match i_rd i with
    | Some v => if op_is i OP_unwound_phi then s else bb_add_killed_var b v s
    | None => s
    end.
  Fixpoint solve_insns (b : nat) (idx : Z) (l : list insn) (s : live) : live :=
    match l with [] => s | i :: r => solve_insns b (idx + 1) r (solve_insn b idx i s) end.
  (* src/ssa.c:1640-1662 bb_solve_locals *)
  Definition bb_solve_locals (b : nat) (s : live) : live := solve_insns b 0 (code b) s.

  (* src/ssa.c:1664-1671 add_live_in, 1673-1684 compute_live_in *)
  Definition compute_live_in (b : nat) (s : live) : live :=
    let l := fold_left (fun acc v => if var_check_killed v b s then acc else add v acc) (l_out s b) [] in
    let l := fold_left (fun acc v => add v acc) (l_gen s b) l in
    mklive (l_gen s) (l_kill s) (upd (l_in s) b l) (l_out s) (l_cons s).
  (* src/ssa.c:1686-1700 merge_live_in *)
  Definition merge_live_in (acc : list nat) (b : nat) (s : live) : list nat := fold_left (fun acc v => add v acc) (l_in s b) acc.
  (* src/ssa.c:1707-1718: one of the three successors *)
  Definition merge_succ (o : option nat) (p : live * list nat) : live * list nat :=
    match o with
    | None => p
    | Some c => let s := compute_live_in c (fst p) in (s, merge_live_in (snd p) c s)
    end.
  (* src/ssa.c:1702-1737 recompute_live_out *)
  Definition recompute_live_out (b : nat) (s : live) : live * bool :=
    let '(s, new) := merge_succ (g_else g b) (merge_succ (g_then g b) (merge_succ (g_next g b) (s, []))) in
    let set := mklive (l_gen s) (l_kill s) (l_in s) (upd (l_out s) b new) (l_cons s) in
    if negb (Nat.eqb (length (l_out s b)) (length new)) then (set, true)
    else if forallb (fun v => mem v (l_out s b)) new then (s, false)
    else (set, true).

  Variable next : nat -> option nat.     (* rpo_r_next *)
  (* src/ssa.c:1767-1768: one sweep *)
  Fixpoint live_sweep (n : nat) (b : option nat) (s : live) (changed : bool) : option (live * bool) :=
    match n with
    | O => None
    | S n => match b with
             | None => Some (s, changed)
             | Some b => let '(s, c) := recompute_live_out b s in live_sweep n (next b) s (changed || c)
             end
    end.
  (* src/ssa.c:1762-1770 *)
  Fixpoint live_loop (fuel n : nat) (exit : nat) (s : live) : option live :=
    match n with
    | O => None
    | S n => match live_sweep fuel (Some exit) s false with
             | None => None
             | Some (s, true) => live_loop fuel n exit s
             | Some (s, false) => Some s
             end
    end.
  (* src/ssa.c:1739-1772 liveness_analysis, for one function; [params] = func->param_defs[i].subscripts[0] *)
  Definition liveness_analysis (fuel n : nat) (entry exit : nat) (params : list nat) (V : Z) (vis : nat -> Z) (s : live)
    : option (Z * (nat -> Z) * live) :=
    match traverse (succs g) bb_reset_live_kill_idx nop (V + 1) fuel entry (vis, s) with
    | None => None
    | Some (vis, s) =>
      let s := fold_left (fun s v => bb_add_killed_var entry v s) params s in
      match traverse (succs g) bb_solve_locals nop (V + 2) fuel entry (vis, s) with
      | None => None
      | Some (vis, s) => match live_loop fuel n exit s with
                         | None => None
                         | Some s => Some (V + 2, vis, s)
                         end
      end
    end.
End Live.
