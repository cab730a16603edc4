(** Specification: the two directions of the connections between blocks agree. *)
From Verif.Mid Require Export Edges.

Definition slots_preds (l : list (option (nat * conn))) : list nat := flat_map opt_list (map (option_map fst) l).
(** The two directions agree: a block lists exactly the connections that lead to it, and a pair of blocks has at most one. *)
Record linked (g : egraph) : Prop := mklinked {
  k_both : forall b t c, edge g t b = Some c <-> In (Some (b, t)) (e_prev g c);
  k_one : forall c, NoDup (slots_preds (e_prev g c)) }.

