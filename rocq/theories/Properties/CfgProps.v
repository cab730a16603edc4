(** C37: the order of basic blocks. *)
From Verif.Mid Require Import Cfg Graph CfgProofs OrderProofs.

(** build_rpo: [g] any graph whose blocks reachable from the entry are among the finite list [blocks]; all of them visited
    [V] times before (the fields start at 0) and not yet chained. *)
Theorem C37_block_order g entry blocks vis V o fuel :
  (forall b, reach (succs g) entry b -> In b blocks) ->
  (forall b, reach (succs g) entry b -> vis b = V /\ o_next o b = None) ->
  o_cnt o = 0 ->
  (length blocks <= fuel)%nat ->
  exists vis' o' order,
    build_rpo fuel g entry V vis o = Some (V + 3, vis', o') /\
    chain (o_next o') (Some entry) order /\
    NoDup order /\
    (forall b, In b order <-> reach (succs g) entry b) /\
    (forall i b, nth_error order i = Some b -> o_rpo o' b = Z.of_nat i + 1) /\
    o_cnt o' = Z.of_nat (length order) /\
    (forall u v, In u order -> In v (succs g u) -> o_rpo o' u < o_rpo o' v \/ reach (succs g) v u) /\
    (forall b, In b order -> b <> entry -> exists u, In u order /\ In b (succs g u) /\ o_rpo o' u < o_rpo o' b) /\
    (forall b, reach (succs g) entry b -> vis' b = V + 3).
Proof.
  intros HU H Hc F. destruct (order_blocks_ok (succs g) entry blocks vis V o fuel HU (fun x R => proj1 (H x R)) (fun x R => proj2 (H x R)) Hc F)
    as (v & o' & L & E & [G1 G2 G3 G4 G5 G6 G7] & Hv & _).
  exists v, o', L. repeat split; try assumption; apply G3.
Qed.
Print Assumptions C37_block_order.

(** build_reversed_rpo: the same from the exit against the edges, for a graph in which prev is the inverse of next/then/else *)
Lemma reach_inverse g : (forall a b, In a (preds g b) <-> In b (succs g a)) ->
  forall a b, reach (preds g) a b <-> reach (succs g) b a.
Proof.
  intros H a b. split; intros R.
  - induction R as [a|a b c R IH E]; [apply reach_refl|]. apply reach_front with (b := b); [apply H; exact E|exact IH].
  - induction R as [a|b a c R IH E]; [apply reach_refl|]. apply reach_front with (b := a); [apply H; exact E|exact IH].
Qed.
Theorem C37_reversed_order g exit blocks vis V o fuel :
  (forall a b, In a (preds g b) <-> In b (succs g a)) ->
  (forall b, reach (succs g) b exit -> In b blocks) ->
  (forall b, reach (succs g) b exit -> vis b = V /\ o_next o b = None) ->
  o_cnt o = 0 ->
  (length blocks <= fuel)%nat ->
  exists vis' o' order,
    build_reversed_rpo fuel g exit V vis o = Some (V + 3, vis', o') /\
    chain (o_next o') (Some exit) order /\
    NoDup order /\
    (forall b, In b order <-> reach (succs g) b exit) /\
    (forall i b, nth_error order i = Some b -> o_rpo o' b = Z.of_nat i + 1) /\
    o_cnt o' = Z.of_nat (length order) /\
    (forall u v, In v order -> In v (succs g u) -> o_rpo o' v < o_rpo o' u \/ reach (succs g) v u) /\
    (forall b, In b order -> b <> exit -> exists u, In u order /\ In u (succs g b) /\ o_rpo o' u < o_rpo o' b) /\
    (forall b, reach (succs g) b exit -> vis' b = V + 3).
Proof.
  intros I HU H Hc F. pose proof (reach_inverse g I) as RI.
  destruct (order_blocks_ok (preds g) exit blocks vis V o fuel) as (v & o' & L & E & [G1 G2 G3 G4 G5 G6 G7] & Hv & _); try assumption.
  - intros x R. apply HU, RI, R.
  - intros x R. apply H, RI, R.
  - intros x R. apply H, RI, R.
  - exists v, o', L. repeat split; try assumption.
    + intros J. apply RI, G3, J.
    + intros R. apply G3, RI, R.
    + intros a b Ib Eb. destruct (G6 b a Ib) as [Q|Q]; [apply I; exact Eb|left; exact Q|right]. apply RI in Q. exact Q.
    + intros b Ib Nb. destruct (G7 b Ib Nb) as (u & ? & E' & ?). exists u. repeat split; try assumption. apply I. exact E'.
    + intros b R. apply Hv, RI, R.
Qed.
Print Assumptions C37_reversed_order.

(** A loop with a branch in its body: 0 -> 1; 1 -> 2 (then), 6 (else); 2 -> 3 (then), 4 (else); 3 -> 5; 4 -> 5; 5 -> 1 *)
Definition of_edges (l : list (nat * (option nat * option nat * option nat))) : cfg :=
  let find b := fold_right (fun '(x, e) acc => if Nat.eqb x b then e else acc) (None, None, None) l in
  mkcfg (fun b => fst (fst (find b))) (fun b => snd (fst (find b))) (fun b => snd (find b))
        (fun b => flat_map (fun '(x, (n, t, e)) =>
                    map (fun _ => Some x) (filter (Nat.eqb b) (opt_list n ++ opt_list t ++ opt_list e))) l).
Definition loop_graph : cfg := of_edges
  [ (0, (Some 1, None, None)); (1, (None, Some 2, Some 6)); (2, (None, Some 3, Some 4));
    (3, (Some 5, None, None)); (4, (Some 5, None, None)); (5, (Some 1, None, None)) ]%nat.
Definition no_order : order := mkorder (fun _ => 0) (fun _ => None) 0.
Definition links (start : nat) (r : option (Z * (nat -> Z) * order)) : list (nat * Z) :=
  match r with
  | None => []
  | Some (_, _, o) =>
    (fix go n b := match n with O => [] | S n => match b with None => [] | Some b => (b, o_rpo o b) :: go n (o_next o b) end end) 20%nat (Some start)
  end.
Example C37_loop : links 0 (build_rpo 7 loop_graph 0 0 (fun _ => 0) no_order) =
  [(0%nat, 1); (1%nat, 2); (6%nat, 3); (2%nat, 4); (4%nat, 5); (3%nat, 6); (5%nat, 7)].
Proof. vm_compute. reflexivity. Qed.
Example C37_loop_reversed : links 6 (build_reversed_rpo 7 loop_graph 6 3 (fun _ => 3) no_order) =
  [(6%nat, 1); (1%nat, 2); (5%nat, 3); (4%nat, 4); (3%nat, 5); (2%nat, 6); (0%nat, 7)].
Proof. vm_compute. reflexivity. Qed.
Example C37_premises :
  (forall b, reach (succs loop_graph) 0 b -> In b [0; 1; 2; 3; 4; 5; 6]%nat) /\
  (forall a b, In a (preds loop_graph b) <-> In b (succs loop_graph a)).
Proof.
  split.
  - intros b R. assert (H : forall a, reach (succs loop_graph) a b -> In a [0; 1; 2; 3; 4; 5; 6]%nat -> In b [0; 1; 2; 3; 4; 5; 6]%nat).
    { clear. intros a R. induction R as [a|a b c R IH E]; [auto|]. intros I. specialize (IH I).
      repeat destruct IH as [<-|IH]; try contradiction; vm_compute in E; repeat destruct E as [<-|E]; try contradiction; cbn; tauto. }
    apply (H 0%nat R). cbn. tauto.
  - intros a b. do 7 (destruct a as [|a]; [do 7 (destruct b as [|b]; [vm_compute; intuition congruence|]); vm_compute; intuition congruence|]).
    cbn. split; [|intros []]. do 7 (destruct b as [|b]; [vm_compute; intuition congruence|]). vm_compute. tauto.
Qed.

