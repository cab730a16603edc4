(** Model of the dominator computation of src/ssa.c.
    A tree (the idom or r_idom fields) maps a block to its parent; None is NULL.  Reading a field of NULL or an
    uninitialised variable, and running out of steps, are the result None. *)
From Verif.Mid Require Export Cfg.

Definition tree := nat -> option nat.

Section Idom.
  Variable rpo : nat -> Z.                 (* rpo or rpo_r *)
  Variable next : nat -> option nat.       (* rpo_next or rpo_r_next *)
  Variable pl : nat -> list nat.           (* the neighbours tried, NULL entries left out *)
  Variable fuel : nat.

  (* src/ssa.c:124-125, 126-127; 269-270, 271-272: while (x->rpo > lim) x = x->idom *)
  Fixpoint climb (n : nat) (T : tree) (x : nat) (lim : Z) : option nat :=
    match n with
    | O => None
    | S n => if lim <? rpo x then match T x with Some y => climb n T y lim | None => None end else Some x
    end.
  (* src/ssa.c:121-130 intersect, 266-275 reverse_intersect *)
  Fixpoint intersect (n : nat) (T : tree) (i j : nat) : option nat :=
    match n with
    | O => None
    | S n =>
      if Nat.eqb i j then Some i
      else match climb fuel T i (rpo j) with
           | None => None
           | Some i => match climb fuel T j (rpo i) with
                       | None => None
                       | Some j => intersect n T i j
                       end
           end
    end.
  (* src/ssa.c:155-163, 290-296: pick one predecessor; None: [pred] stays uninitialised *)
  Fixpoint pick (T : tree) (ps : list nat) : option nat :=
    match ps with
    | [] => None
    | p :: r => match T p with Some _ => Some p | None => pick T r end
    end.
  (* src/ssa.c:165-172, 298-306 *)
  Fixpoint meet_all (T : tree) (ps : list nat) (pred : nat) : option nat :=
    match ps with
    | [] => Some pred
    | p :: r => if Nat.eqb p pred then meet_all T r pred
                else match T p with
                     | None => meet_all T r pred
                     | Some _ => match intersect fuel T p pred with Some q => meet_all T r q | None => None end
                     end
    end.
  Definition new_idom (T : tree) (b : nat) : option nat :=
    match pick T (pl b) with None => None | Some p => meet_all T (pl b) p end.
  (* src/ssa.c:173-176, 307-310 *)
  Definition set_idom (T : tree) (changed : bool) (b pred : nat) : tree * bool :=
    match T b with
    | Some q => if Nat.eqb q pred then (T, changed) else (upd T b (Some pred), true)
    | None => (upd T b (Some pred), true)
    end.
  (* src/ssa.c:152-177, 286-311: the for loop along the chain *)
  Fixpoint sweep (n : nat) (b : option nat) (T : tree) (changed : bool) : option (tree * bool) :=
    match n with
    | O => None
    | S n => match b with
             | None => Some (T, changed)
             | Some b => match new_idom T b with
                         | None => None
                         | Some p => let '(T, changed) := set_idom T changed b p in sweep n (next b) T changed
                         end
             end
    end.
  (* src/ssa.c:149-178, 283-312: do ... while (changed) *)
  Fixpoint iterate (n : nat) (head : nat) (T : tree) : option tree :=
    match n with
    | O => None
    | S n => match sweep fuel (next head) T false with
             | None => None
             | Some (T, true) => iterate n head T
             | Some (T, false) => Some T
             end
    end.
  (* one function of src/ssa.c:143-180 build_idom, 277-314 build_r_idom *)
  Definition dominators (n : nat) (head : nat) (T : tree) : option tree := iterate n head (upd T head (Some head)).
End Idom.

Definition build_idom (fuel n : nat) (g : cfg) (o : order) (entry : nat) (T : tree) : option tree :=
  dominators (o_rpo o) (o_next o) (preds g) fuel n entry T.
(* src/ssa.c:290-306: next, else_, then_ *)
Definition rev_list (g : cfg) (b : nat) : list nat := opt_list (g_next g b) ++ opt_list (g_else g b) ++ opt_list (g_then g b).
Definition build_r_idom (fuel n : nat) (g : cfg) (o : order) (exit : nat) (T : tree) : option tree :=
  dominators (o_rpo o) (o_next o) (rev_list g) fuel n exit T.

(** dominance frontiers.  [df] = the arrays DF (or RDF) with the index df_idx (or rdf_idx), of unbounded length here *)
Definition opt_eqb (a b : option nat) : bool :=
  match a, b with Some a, Some b => Nat.eqb a b | None, None => true | _, _ => false end.
(* src/ssa.c:242-244, 376-378, 381-383, 386-388: the innermost loop; None: a field of NULL is written *)
Fixpoint df_walk (n : nat) (T : tree) (bb : nat) (curr : option nat) (df : nat -> list nat) : option (nat -> list nat) :=
  match n with
  | O => None
  | S n => if opt_eqb curr (T bb) then Some df
           else match curr with
                | Some c => df_walk n T bb (T c) (upd df c (df c ++ [bb]))
                | None => None
                end
  end.
(* src/ssa.c:229-247 bb_build_df, 360-390 bb_build_rdf (the early return on no neighbours changes nothing) *)
Fixpoint df_all (n : nat) (T : tree) (bb : nat) (ps : list nat) (df : nat -> list nat) : option (nat -> list nat) :=
  match ps with
  | [] => Some df
  | p :: r => match df_walk n T bb (Some p) df with Some df => df_all n T bb r df | None => None end
  end.
Definition bb_build_df (n : nat) (T : tree) (pl : nat -> list nat) (bb : nat) (df : option (nat -> list nat)) : option (nat -> list nat) :=
  match df with None => None | Some df => df_all n T bb (pl bb) df end.
(* src/ssa.c:249-264 build_df, 392-406 build_rdf, one function *)
Definition frontiers (fuel : nat) (succ pl : nat -> list nat) (T : tree) (head : nat) (V : Z) (vis : nat -> Z) (df : nat -> list nat)
  : option (Z * (nat -> Z) * (nat -> list nat)) :=
  match traverse succ nop (bb_build_df fuel T pl) (V + 1) fuel head (vis, Some df) with
  | Some (vis, Some df) => Some (V + 1, vis, df)
  | _ => None
  end.
Definition build_df (fuel : nat) (g : cfg) := frontiers fuel (succs g) (preds g).
Definition build_rdf (fuel : nat) (g : cfg) := frontiers fuel (preds g) (rev_list g).
