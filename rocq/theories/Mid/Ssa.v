(** Model of the construction of SSA form, src/ssa.c:182-227, 452-875 and 1198-1218, for one function: the dominator tree, the variables
    shared between blocks, phi insertion, renaming, and the replacement of phi instructions by copies.
    The phi instructions, which src/ssa.c keeps at the head of the instruction list, are a list of their own here.
    The fixed arrays of 64 elements are not checked in the source: overrunning one is None here, as is abort() and error().
    Not modelled: the bound on the locals of a scope (require_var, src/parser.c:28-37, an error message), the bound of 800 on the variables a block
    kills (MAX_ANALYSIS_STACK_SIZE, unchecked), and dumping. *)
From Verif.Mid Require Export Dom Alloc.

(* src/defs.h:427-428 dom_next, dom_prev *)
Record dtree := mkdt { d_next : nat -> list nat; d_prev : nat -> option nat }.
(* src/ssa.c:182-203 dom_connect *)
Definition dom_connect (pred succ : nat) (t : dtree) : option (dtree * bool) :=
  match d_prev t succ with
  | Some _ => Some (t, false)
  | None =>
      if mem succ (d_next t pred) then Some (t, false)
      else if (length (d_next t pred) <? 64)%nat
      then Some (mkdt (upd (d_next t) pred (d_next t pred ++ [succ])) (upd (d_prev t) succ (Some pred)), true)
      else None
  end.
(* src/ssa.c:205-213 bb_build_dom *)
Fixpoint dom_chain (n : nat) (T : tree) (entry curr : nat) (t : dtree) : option dtree :=
  match n with
  | O => None
  | S n =>
      if Nat.eqb curr entry then Some t
      else match T curr with
           | None => None
           | Some p => match dom_connect p curr t with
                       | Some (t, true) => dom_chain n T entry p t
                       | Some (t, false) => Some t
                       | None => None
                       end
           end
  end.
Definition bb_build_dom (n : nat) (T : tree) (entry bb : nat) (t : option dtree) : option dtree :=
  match t with Some t => dom_chain n T entry bb t | None => None end.
(* src/ssa.c:215-227 build_dom *)
Definition build_dom (fuel : nat) (g : cfg) (T : tree) (entry : nat) (V : Z) (vis : nat -> Z) : option (Z * (nat -> Z) * dtree) :=
  match traverse (succs g) (bb_build_dom fuel T entry) nop (V + 1) fuel entry (vis, Some (mkdt (fun _ => []) (fun _ => None))) with
  | Some (vis, Some t) => Some (V + 1, vis, t)
  | _ => None
  end.

(** fn->global_sym_list and var->ref_block_list *)
Record shared := mksh { h_names : list nat; h_refs : nat -> list nat }.
Definition ref_add (v b : nat) (h : shared) : shared := mksh (h_names h) (upd (h_refs h) v (add b (h_refs h v))).
(* src/ssa.c:525-541 bb_solve_globals, with 452-523; [k] = bb->live_kill, empty before (each block is met once) *)
Definition see_rs (o : option nat) (k : list nat) (h : shared) : shared :=
  match o with Some v => if mem v k then h else mksh (add v (h_names h)) (h_refs h) | None => h end.
Fixpoint see_insns (b : nat) (l : list rinsn) (k : list nat) (h : shared) : shared :=
  match l with
  | [] => h
  | i :: r =>
      let h := see_rs (i_rs2 (r_insn i)) k (see_rs (i_rs1 (r_insn i)) k h) in
      match i_rd (r_insn i) with
      | Some d => see_insns b r (add d k) (ref_add d b h)
      | None => see_insns b r k h
      end
  end.
Definition bb_solve_globals (code : nat -> list rinsn) (b : nat) (h : shared) : shared := see_insns b (code b) [] h.
(* src/ssa.c:543-555 solve_globals; the parameters are killed in the entry since src/parser.c:3156 *)
Definition solve_globals (fuel : nat) (g : cfg) (code : nat -> list rinsn) (params : list nat) (entry : nat) (V : Z) (vis : nat -> Z)
  : option (Z * (nat -> Z) * shared) :=
  match traverse (succs g) nop (bb_solve_globals code) (V + 1) fuel entry
          (vis, fold_left (fun h v => ref_add v entry h) params (mksh [] (fun _ => []))) with
  | Some (vis, h) => Some (V + 1, vis, h)
  | None => None
  end.

(* src/globals.c:713, 817: the scope of a block is the one it was created with, then the one of the last instruction added *)
Definition bb_scope {scope : Type} (created : scope) (added : list scope) : scope := last added created.
(* src/ssa.c:557-576 var_check_in_scope; [chain]: the locals of the scope, of the one around it, and so on *)
Definition var_check_in_scope (params : list nat) (chain : list (list nat)) (x : nat) : bool := existsb (mem x) chain || mem x params.

(** a phi instruction: its target, and its operands with the blocks they come from *)
Record phi := mkphi { ph_rd : nat; ph_ops : list (nat * nat) }.
Section Insert.
  Variable V : vars.
  Variable in_scope : nat -> nat -> bool.          (* var_check_in_scope(var, bb->scope), src/ssa.c:557-576 *)
  Variable declared : nat -> list nat.             (* bb->symbol_list *)
  Variable temp : nat -> bool.                     (* is_ternary_ret || is_logical_ret *)
  Variable exit : nat.
  Variable df : nat -> list nat.                   (* DF *)
  (* src/ssa.c:624-642 *)
  Definition allowed (x b : nat) : bool := in_scope x b && negb (mem x (declared b)) && negb (Nat.eqb b exit) && negb (v_global V x).
  (* src/ssa.c:578-605 insert_phi_insn: is there one already? *)
  Definition has_phi (x : nat) (l : list phi) : bool := existsb (fun f => Nat.eqb (ph_rd f) x) l.
  (* src/ssa.c:622-665 *)
  Fixpoint insert_at (x : nat) (dfs : list nat) (wl : list nat) (ph : nat -> list phi) : option (list nat * (nat -> list phi)) :=
    match dfs with
    | [] => Some (wl, ph)
    | b :: r =>
        if negb (allowed x b) || has_phi x (ph b) then insert_at x r wl ph
        else let ph := upd ph b (mkphi x [] :: ph b) in
             if temp x || mem b wl then insert_at x r wl ph
             else if (length wl <? 64)%nat then insert_at x r (wl ++ [b]) ph else None
    end.
  (* src/ssa.c:620-666: for (i = 0; i < work_list_idx; i++) *)
  Fixpoint work (n : nat) (x : nat) (i : nat) (wl : list nat) (ph : nat -> list phi) : option (nat -> list phi) :=
    match n with
    | O => None
    | S n => match nth_error wl i with
             | None => Some ph
             | Some b => match insert_at x (df b) wl ph with Some (wl, ph) => work n x (S i) wl ph | None => None end
             end
    end.
  (* src/ssa.c:607-669 solve_phi_insertion *)
  Fixpoint solve_phi_insertion (refs : nat -> list nat) (names : list nat) (ph : nat -> list phi) : option (nat -> list phi) :=
    match names with
    | [] => Some ph
    | x :: r => if (length (refs x) <=? 64)%nat
                then match work 65 x 0 (refs x) ph with Some ph => solve_phi_insertion refs r ph | None => None end
                else None
    end.
End Insert.

(** the versions made so far: the next free variable; var->rename.counter, var->rename.stack (top first), var->subscripts (each
    with its number), var->base *)
Record rn := mkrn { r_num : nat; r_cnt : nat -> nat; r_stack : nat -> list nat; r_subs : nat -> list (nat * nat); r_base : nat -> nat }.
Record sst := mksst { s_rn : rn; s_phis : nat -> list phi; s_code : nat -> list rinsn }.
Section Rename.
  Variable V : vars.
  (* src/ssa.c:673-689 new_name; [i]: the number given to the version (a parameter's first version has 0, 797-803) *)
  Definition new_version (x i : nat) (r : rn) : option (nat * rn) :=
    if (length (r_stack r x) <? 64)%nat && (length (r_subs r x) <? 64)%nat
    then Some (r_num r, mkrn (S (r_num r)) (upd (r_cnt r) x (S (r_cnt r x))) (upd (r_stack r) x (r_cnt r x :: r_stack r x))
                          (upd (r_subs r) x (r_subs r x ++ [(i, r_num r)])) (upd (r_base r) (r_num r) x))
    else None.
  Definition new_name (x : nat) (r : rn) : option (nat * rn) :=
    if v_global V x then Some (x, r) else new_version x (r_cnt r x) r.
  (* src/ssa.c:691-703 get_stack_top_subscript_var; [x] = var->base *)
  Definition top (x : nat) (r : rn) : option nat :=
    match r_stack r x with
    | [] => None
    | i :: _ => match find (fun p => Nat.eqb (fst p) i) (r_subs r x) with Some (_, d) => Some d | None => None end
    end.
  (* src/ssa.c:705-714 rename_var *)
  Definition rename_var (x : nat) (r : rn) : option nat := if v_global V x then Some x else top (r_base r x) r.
  (* src/ssa.c:716-721 pop_name *)
  Definition pop_name (x : nat) (r : rn) : rn :=
    if v_global V (r_base r x) then r
    else mkrn (r_num r) (r_cnt r) (upd (r_stack r) (r_base r x) (tl (r_stack r (r_base r x)))) (r_subs r) (r_base r).
  Definition rename_opt (f : nat -> bool) (o : option nat) (r : rn) : option (option nat) :=
    match o with
    | None => Some None
    | Some x => if f x then Some (Some x) else match rename_var x r with Some d => Some (Some d) | None => None end
    end.
  Definition is_func (x : nat) : bool := match v_func V x with Some _ => true | None => false end.
  (* src/ssa.c:744-750 *)
  Definition rename_insn (i : rinsn) (r : rn) : option (rinsn * rn) :=
    let n := r_insn i in
    match rename_opt (fun _ => false) (i_rs1 n) r with
    | None => None
    | Some a =>
        match rename_opt is_func (i_rs2 n) r with
        | None => None
        | Some b =>
            match i_rd n with
            | None => Some (mkr (mkinsn (i_op n) None a b) (r_sz i) (r_str i), r)
            | Some d => match new_name d r with
                        | Some (d, r) => Some (mkr (mkinsn (i_op n) (Some d) a b) (r_sz i) (r_str i), r)
                        | None => None
                        end
            end
        end
    end.
  Fixpoint rename_insns (l : list rinsn) (r : rn) : option (list rinsn * rn) :=
    match l with
    | [] => Some ([], r)
    | i :: l => match rename_insn i r with
                | None => None
                | Some (i, r) => match rename_insns l r with Some (l, r) => Some (i :: l, r) | None => None end
                end
    end.
  (* src/ssa.c:741-742 *)
  Fixpoint rename_phis (l : list phi) (r : rn) : option (list phi * rn) :=
    match l with
    | [] => Some ([], r)
    | f :: l => match new_name (ph_rd f) r with
                | None => None
                | Some (d, r) => match rename_phis l r with Some (l, r) => Some (mkphi d (ph_ops f) :: l, r) | None => None end
                end
    end.
  (* src/ssa.c:723-736 append_phi_operand, 754-775: the operands coming from [b] *)
  Fixpoint add_operands (b : nat) (l : list phi) (r : rn) : option (list phi) :=
    match l with
    | [] => Some []
    | f :: l => match top (r_base r (ph_rd f)) r with
                | None => None
                | Some d => match add_operands b l r with Some l => Some (mkphi (ph_rd f) (ph_ops f ++ [(b, d)]) :: l) | None => None end
                end
    end.
  Definition feed (b : nat) (c : option nat) (s : sst) : option sst :=
    match c with
    | None => Some s
    | Some c => match add_operands b (s_phis s c) (s_rn s) with
                | Some l => Some (mksst (s_rn s) (upd (s_phis s) c l) (s_code s))
                | None => None
                end
    end.
  Definition pop_all (l : list nat) (r : rn) : rn := fold_left (fun r x => pop_name x r) l r.
  Definition targets (l : list rinsn) : list nat := flat_map (fun i => opt_list (i_rd (r_insn i))) l.
  Variable g : cfg.
  Variable kids : nat -> list nat.                 (* dom_next *)
  (* src/ssa.c:738-789 bb_solve_phi_params *)
  Definition solve_start (b : nat) (s : sst) : option sst :=
    match rename_phis (s_phis s b) (s_rn s) with
    | None => None
    | Some (ps, r) =>
        match rename_insns (s_code s b) r with
        | None => None
        | Some (l, r) =>
            match feed b (g_next g b) (mksst r (upd (s_phis s) b ps) (upd (s_code s) b l)) with
            | None => None
            | Some s => match feed b (g_then g b) s with None => None | Some s => feed b (g_else g b) s end
            end
        end
    end.
  Definition solve_end (b : nat) (s : sst) : sst :=
    mksst (pop_all (map ph_rd (s_phis s b) ++ targets (s_code s b)) (s_rn s)) (s_phis s) (s_code s).
  Fixpoint solve_block (n : nat) (b : nat) (s : sst) : option sst :=
    match n with
    | O => None
    | S n =>
        match solve_start b s with
        | None => None
        | Some s =>
            match (fix each (l : list nat) (s : sst) : option sst :=
                     match l with
                     | [] => Some s
                     | c :: r => match solve_block n c s with Some s => each r s | None => None end
                     end) (kids b) s with
            | None => None
            | Some s => Some (solve_end b s)
            end
        end
    end.
  (* src/ssa.c:791-809 solve_phi_params *)
  Fixpoint start_params (ps : list nat) (r : rn) : option (list nat * rn) :=
    match ps with
    | [] => Some ([], r)
    | x :: ps => match new_version x 0 r with
                 | None => None
                 | Some (d, r) => match start_params ps r with Some (l, r) => Some (d :: l, r) | None => None end
                 end
    end.
  Definition solve_phi_params (fuel : nat) (entry : nat) (params : list nat) (nvars : nat) (ph : nat -> list phi) (code : nat -> list rinsn)
    : option (list nat * sst) :=
    match start_params params (mkrn nvars (fun _ => 0%nat) (fun _ => []) (fun _ => []) (fun x => x)) with
    | None => None
    | Some (l, r) => match solve_block fuel entry (mksst r ph code) with Some s => Some (l, s) | None => None end
    end.
End Rename.

(* src/ssa.c:811-839 append_unwound_phi_insn *)
Definition is_branch (i : rinsn) : bool := op_is (r_insn i) OP_branch.
Definition copy (d x : nat) : rinsn := mkr (mkinsn OP_unwound_phi (Some d) (Some x) None) 0 0.
Fixpoint append_copy (l : list rinsn) (c : rinsn) : list rinsn :=
  match l with
  | [] => [c]
  | [i] => if is_branch i then [c; i] else [i; c]
  | i :: r => i :: append_copy r c
  end.
(* src/ssa.c:841-861 bb_unwind_phi *)
Definition unwind_ops (d : nat) (ops : list (nat * nat)) (code : nat -> list rinsn) : nat -> list rinsn :=
  fold_left (fun code o => upd code (fst o) (append_copy (code (fst o)) (copy d (snd o)))) ops code.
Definition bb_unwind_phi (phis : nat -> list phi) (b : nat) (code : nat -> list rinsn) : nat -> list rinsn :=
  fold_left (fun code f => unwind_ops (ph_rd f) (ph_ops f) code) (phis b) code.
(* src/ssa.c:863-875 unwind_phi *)
Definition unwind_phi (fuel : nat) (g : cfg) (phis : nat -> list phi) (entry : nat) (V : Z) (vis : nat -> Z) (code : nat -> list rinsn)
  : option (nat -> list rinsn) :=
  match traverse (succs g) (bb_unwind_phi phis) nop (V + 1) fuel entry (vis, code) with
  | Some (_, code) => Some code
  | None => None
  end.

(** the code with versions, the variable each version is one of, and the first versions of the parameters *)
Record ssa := mkssa { ss_code : nat -> list rinsn; ss_base : nat -> nat; ss_params : list nat }.
(* src/ssa.c:1198-1218 ssa_build, for one function; [n] bounds the sweeps of build_idom *)
Definition ssa_build (fuel n : nat) (V : vars) (in_scope : nat -> nat -> bool) (declared : nat -> list nat) (temp : nat -> bool)
    (g : cfg) (entry exit : nat) (params : list nat) (nvars : nat) (code : nat -> list rinsn) : option ssa :=
  match build_rpo fuel g entry 0 (fun _ => 0) (mkorder (fun _ => 0) (fun _ => None) 0) with
  | None => None
  | Some (v, vis, o) =>
  match build_idom fuel n g o entry (fun _ => None) with
  | None => None
  | Some T =>
  match build_dom fuel g T entry v vis with
  | None => None
  | Some (v, vis, t) =>
  match build_df fuel g T entry v vis (fun _ => []) with
  | None => None
  | Some (v, vis, df) =>
  match solve_globals fuel g code params entry v vis with
  | None => None
  | Some (v, vis, h) =>
  match solve_phi_insertion V in_scope declared temp exit df (h_refs h) (h_names h) (fun _ => []) with
  | None => None
  | Some ph =>
  match solve_phi_params V g (d_next t) fuel entry params nvars ph code with
  | None => None
  | Some (ps, s) =>
  match unwind_phi fuel g (s_phis s) entry v vis (s_code s) with
  | None => None
  | Some code => Some (mkssa code (r_base (s_rn s)) ps)
  end end end end end end end end.
