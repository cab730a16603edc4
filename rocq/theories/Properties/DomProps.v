(** C38: immediate dominators (and post-dominators), dominance frontiers. *)
From Verif.Mid Require Import Cfg Graph CfgProofs OrderProofs Dom DomProofs DomOrder.
From Verif.Properties Require Import CfgProps.

(** build_rpo followed by build_idom.  [size] bounds the number of reachable blocks; the fuel given for the walks and the
    number of sweeps allowed are polynomial in it. *)
Theorem C38_immediate_dominators g entry blocks vis o T fuel n :
  (forall b, reach (succs g) entry b -> In b blocks) ->
  (forall b, reach (succs g) entry b -> vis b = 0 /\ o_next o b = None) ->
  o_cnt o = 0 ->
  (forall b, T b = None) ->
  (forall a b, reach (succs g) entry a -> reach (succs g) entry b -> (In a (preds g b) <-> In b (succs g a))) ->
  let size := length blocks in
  (2 * size <= fuel)%nat -> (size * (size + 1) < n)%nat ->
  exists V vis' o' T',
    build_rpo fuel g entry 0 vis o = Some (V, vis', o') /\
    build_idom fuel n g o' entry T = Some T' /\
    T' entry = Some entry /\
    (forall b, ~ reach (succs g) entry b -> T' b = None) /\
    (forall b, reach (succs g) entry b -> b <> entry ->
       exists d, T' b = Some d /\ reach (succs g) entry d /\ immediate_dominator (succs g) entry d b).
Proof.
  intros HU H Hc HT I size F1 F2.
  destruct (order_blocks_ok (succs g) entry blocks vis 0 o fuel HU (fun x R => proj1 (H x R)) (fun x R => proj2 (H x R)) Hc ltac:(lia))
    as (v & o' & L & E & G & _ & _).
  assert (LL : (length L <= size)%nat).
  { apply NoDup_incl_length; [apply (go_nodup _ _ _ _ _ _ G)|]. intros x Ix. apply HU. apply (go_all _ _ _ _ _ _ G). exact Ix. }
  destruct (ord_solved (succs g) (preds g) entry _ _ _ L G I fuel n T HT) as (T' & E' & S); [lia|lia|nia|].
  exists (0 + 3), v, o', T'. split; [exact E|]. split; [exact E'|].
  eapply ord_immediate; eassumption.
Qed.
Print Assumptions C38_immediate_dominators.

(** build_reversed_rpo followed by build_r_idom: the same against the edges, from the exit *)
Theorem C38_immediate_post_dominators g exit blocks V vis o T fuel n :
  (forall b, reach (preds g) exit b -> In b blocks) ->
  (forall b, reach (preds g) exit b -> vis b = V /\ o_next o b = None) ->
  o_cnt o = 0 ->
  (forall b, T b = None) ->
  (forall a b, In a (preds g b) <-> In b (succs g a)) ->
  let size := length blocks in
  (2 * size <= fuel)%nat -> (size * (size + 1) < n)%nat ->
  exists vis' o' T',
    build_reversed_rpo fuel g exit V vis o = Some (V + 3, vis', o') /\
    build_r_idom fuel n g o' exit T = Some T' /\
    T' exit = Some exit /\
    (forall b, ~ reach (preds g) exit b -> T' b = None) /\
    (forall b, reach (preds g) exit b -> b <> exit ->
       exists d, T' b = Some d /\ reach (preds g) exit d /\ immediate_dominator (preds g) exit d b).
Proof.
  intros HU H Hc HT I size F1 F2.
  destruct (order_blocks_ok (preds g) exit blocks vis V o fuel HU (fun x R => proj1 (H x R)) (fun x R => proj2 (H x R)) Hc ltac:(lia))
    as (v & o' & L & E & G & _ & _).
  assert (LL : (length L <= size)%nat).
  { apply NoDup_incl_length; [apply (go_nodup _ _ _ _ _ _ G)|]. intros x Ix. apply HU. apply (go_all _ _ _ _ _ _ G). exact Ix. }
  assert (I' : forall a b, reach (preds g) exit a -> reach (preds g) exit b -> (In a (rev_list g b) <-> In b (preds g a))).
  { intros a b _ _. rewrite I. unfold rev_list, succs. rewrite !in_app_iff. tauto. }
  destruct (ord_solved (preds g) (rev_list g) exit _ _ _ L G I' fuel n T HT) as (T' & E' & S); [lia|lia|nia|].
  exists v, o', T'. split; [exact E|]. split; [exact E'|].
  eapply ord_immediate; eassumption.
Qed.
Print Assumptions C38_immediate_post_dominators.

(** the frontier of x: the blocks with a predecessor that x dominates and that x does not strictly dominate *)
Definition frontier (succ : nat -> list nat) (entry x b : nat) : Prop :=
  (exists p, reach succ entry p /\ In b (succ p) /\ dominates succ entry x p) /\
  ~ (dominates succ entry x b /\ x <> b).

(** build_rpo, build_idom, build_df, for a graph whose entry has no predecessor and in which every predecessor of a
    reachable block is reachable.  (The lists are unbounded: the code has room for 64 entries.) *)
Theorem C38_frontiers g entry blocks vis o T fuel n :
  (forall b, reach (succs g) entry b -> In b blocks) ->
  (forall b, reach (succs g) entry b -> vis b = 0 /\ o_next o b = None) ->
  o_cnt o = 0 ->
  (forall b, T b = None) ->
  (forall a b, reach (succs g) entry b -> (In a (preds g b) <-> reach (succs g) entry a /\ In b (succs g a))) ->
  preds g entry = [] ->
  let size := length blocks in
  (2 * size < fuel)%nat -> (size * (size + 1) < n)%nat ->
  exists V vis' o' T' vis'' df,
    build_rpo fuel g entry 0 vis o = Some (V, vis', o') /\
    build_idom fuel n g o' entry T = Some T' /\
    build_df fuel g T' entry V vis' (fun _ => []) = Some (V + 1, vis'', df) /\
    (forall x b, In b (df x) <-> frontier (succs g) entry x b).
Proof.
  intros HU H Hc HT I Ie size F1 F2.
  assert (I2 : forall a b, reach (succs g) entry a -> reach (succs g) entry b -> (In a (preds g b) <-> In b (succs g a))).
  { intros a b Ra Rb. rewrite (I a b Rb). tauto. }
  destruct (order_blocks_ok (succs g) entry blocks vis 0 o fuel HU (fun x R => proj1 (H x R)) (fun x R => proj2 (H x R)) Hc ltac:(lia))
    as (v & o' & L & E & G & Hv & _).
  assert (LL : (length L <= size)%nat).
  { apply NoDup_incl_length; [apply (go_nodup _ _ _ _ _ _ G)|]. intros x Ix. apply HU. apply (go_all _ _ _ _ _ _ G). exact Ix. }
  destruct (ord_solved (succs g) (preds g) entry _ _ _ L G I2 fuel n T HT) as (T' & E' & S); [lia|lia|nia|].
  assert (C : forall b p, reach (succs g) entry b -> In p (preds g b) -> reach (succs g) entry p) by (intros b p Rb Ip; apply (I p b Rb), Ip).
  destruct (frontiers_spec (succs g) (preds g) entry _ _ _ L G I2 T' S C fuel 3 v (fun _ => [])) as (v2 & df & E2 & _ & Hd); [lia|exact Hv|].
  exists (0 + 3), v, o', T', v2, df. split; [exact E|]. split; [exact E'|]. split; [exact E2|].
  intros x b. rewrite Hd. unfold member, frontier. cbn [In].
  pose proof (ord_dominates (succs g) (preds g) entry _ I2 T' S) as Dm. pose proof (fr_wf _ _ _ _ _ S) as W.
  split.
  - intros [[]|(Rb & d & p & Ed & Ip & A & NA)]. destruct (proj1 (I p b Rb) Ip) as [Rp Ep]. split.
    + exists p. split; [exact Rp|]. split; [exact Ep|]. apply Dm; assumption.
    + intros [D Nx]. apply NA. apply (Dm x b Rb) in D. eapply anc_up_inv; eauto.
  - intros [(p & Rp & Ep & D) ND]. right. assert (Rb : reach (succs g) entry b) by (eapply reach_step; eassumption).
    split; [exact Rb|]. assert (Ip : In p (preds g b)) by (apply (I p b Rb); auto).
    destruct (Nat.eq_dec b entry) as [->|Nb]; [rewrite Ie in Ip; destruct Ip|].
    destruct (T' b) as [d|] eqn:Ed; [|destruct (fr_some _ _ _ _ _ S b Rb Ed)].
    exists d, p. split; [reflexivity|]. split; [exact Ip|]. split; [apply Dm; assumption|].
    intros A. apply ND. split.
    + apply (Dm x b Rb). eapply anc_up; eauto.
    + intros ->. destruct (w_up _ _ _ _ W _ _ Nb Ed) as (_ & Lt & _). pose proof (anc_le _ _ _ T' W _ _ A). lia.
Qed.
Print Assumptions C38_frontiers.

(** build_reversed_rpo, build_r_idom, build_rdf: the post-dominators and the frontiers against the edges, for a graph in
    which every block leading to the exit has only successors leading to the exit *)
Theorem C38_reverse_frontiers g exit blocks V vis o T fuel n :
  (forall b, reach (preds g) exit b -> In b blocks) ->
  (forall b, reach (preds g) exit b -> vis b = V /\ o_next o b = None) ->
  o_cnt o = 0 ->
  (forall b, T b = None) ->
  (forall a b, In a (preds g b) <-> In b (succs g a)) ->
  (forall a b, reach (preds g) exit a -> In b (succs g a) -> reach (preds g) exit b) ->
  succs g exit = [] ->
  let size := length blocks in
  (2 * size < fuel)%nat -> (size * (size + 1) < n)%nat ->
  exists vis' o' T' vis'' rdf,
    build_reversed_rpo fuel g exit V vis o = Some (V + 3, vis', o') /\
    build_r_idom fuel n g o' exit T = Some T' /\
    build_rdf fuel g T' exit (V + 3) vis' (fun _ => []) = Some (V + 4, vis'', rdf) /\
    T' exit = Some exit /\
    (forall b, reach (preds g) exit b -> b <> exit ->
       exists d, T' b = Some d /\ reach (preds g) exit d /\ immediate_dominator (preds g) exit d b) /\
    (forall x b, In b (rdf x) <-> frontier (preds g) exit x b) /\
    (forall b, reach (preds g) exit b -> vis'' b = V + 4).
Proof.
  intros HU H Hc HT I C0 Ie size F1 F2.
  destruct (order_blocks_ok (preds g) exit blocks vis V o fuel HU (fun x R => proj1 (H x R)) (fun x R => proj2 (H x R)) Hc ltac:(lia))
    as (v & o' & L & E & G & Hv & _).
  assert (LL : (length L <= size)%nat).
  { apply NoDup_incl_length; [apply (go_nodup _ _ _ _ _ _ G)|]. intros x Ix. apply HU. apply (go_all _ _ _ _ _ _ G). exact Ix. }
  assert (Irev : forall a b, In a (rev_list g b) <-> In a (succs g b)) by (intros a b; unfold rev_list, succs; rewrite !in_app_iff; tauto).
  assert (I' : forall a b, reach (preds g) exit a -> reach (preds g) exit b -> (In a (rev_list g b) <-> In b (preds g a))).
  { intros a b _ _. rewrite I. apply Irev. }
  destruct (ord_solved (preds g) (rev_list g) exit _ _ _ L G I' fuel n T HT) as (T' & E' & S); [lia|lia|nia|].
  assert (C : forall b p, reach (preds g) exit b -> In p (rev_list g b) -> reach (preds g) exit p).
  { intros b p Rb Ip. apply Irev in Ip. eapply C0; eassumption. }
  destruct (frontiers_spec (preds g) (rev_list g) exit _ _ _ L G I' T' S C fuel (V + 3) v (fun _ => [])) as (v2 & df & E2 & Hv2 & Hd); [lia|exact Hv|].
  replace (V + 3 + 1) with (V + 4) in * by lia.
  exists v, o', T', v2, df. split; [exact E|]. split; [exact E'|]. split; [exact E2|].
  assert (Q : T' exit = Some exit /\ (forall b, ~ reach (preds g) exit b -> T' b = None) /\
    (forall b, reach (preds g) exit b -> b <> exit -> exists d, T' b = Some d /\ reach (preds g) exit d /\ immediate_dominator (preds g) exit d b))
    by (eapply ord_immediate; eassumption).
  destruct Q as (Q1 & _ & Q2). split; [exact Q1|]. split; [exact Q2|]. split; [|exact Hv2].
  intros x b. rewrite Hd. unfold member, frontier. cbn [In].
  pose proof (ord_dominates (preds g) (rev_list g) exit _ I' T' S) as Dm. pose proof (fr_wf _ _ _ _ _ S) as W.
  split.
  - intros [[]|(Rb & d & p & Ed & Ip & A & NA)]. pose proof (C b p Rb Ip) as Rp.
    assert (Ep : In b (preds g p)) by (apply I, Irev, Ip). split.
    + exists p. split; [exact Rp|]. split; [exact Ep|]. apply Dm; assumption.
    + intros [D Nx]. apply NA. apply (Dm x b Rb) in D. eapply anc_up_inv; eauto.
  - intros [(p & Rp & Ep & D) ND]. right. assert (Rb : reach (preds g) exit b) by (eapply reach_step; eassumption).
    split; [exact Rb|]. assert (Ip : In p (rev_list g b)) by (apply Irev, I, Ep).
    destruct (Nat.eq_dec b exit) as [->|Nb]; [apply Irev in Ip; rewrite Ie in Ip; destruct Ip|].
    destruct (T' b) as [d|] eqn:Ed; [|destruct (fr_some _ _ _ _ _ S b Rb Ed)].
    exists d, p. split; [reflexivity|]. split; [exact Ip|]. split; [apply Dm; assumption|].
    intros A. apply ND. split.
    + apply (Dm x b Rb). eapply anc_up; eauto.
    + intros ->. destruct (w_up _ _ _ _ W _ _ Nb Ed) as (_ & Lt & _). pose proof (anc_le _ _ _ T' W _ _ A). lia.
Qed.
Print Assumptions C38_reverse_frontiers.

(** the loop of C37_loop: immediate dominators and frontiers *)
Definition dom_table (g : cfg) (entry : nat) (ids : list nat) : list (nat * option nat * list nat) :=
  match build_rpo 40 g entry 0 (fun _ => 0) no_order with
  | Some (V, vis, o) =>
    match build_idom 40 100 g o entry (fun _ => None) with
    | Some T => match build_df 40 g T entry V vis (fun _ => []) with
                | Some (_, _, df) => map (fun b => (b, T b, df b)) ids
                | None => []
                end
    | None => []
    end
  | None => []
  end.
Example C38_loop : dom_table loop_graph 0 [0; 1; 2; 3; 4; 5; 6]%nat =
  [(0, Some 0, []); (1, Some 0, [1]); (2, Some 1, [1]); (3, Some 2, [5]); (4, Some 2, [5]); (5, Some 2, [1]); (6, Some 1, [])]%nat.
Proof. vm_compute. reflexivity. Qed.
(** a graph that is not reducible (two loops entered in the middle) needs several sweeps *)
Definition irreducible : cfg := of_edges
  [ (0, (None, Some 1, Some 2)); (1, (Some 5, None, None)); (2, (None, Some 4, Some 3)); (3, (None, Some 4, None)); (4, (None, Some 3, Some 5)); (5, (Some 4, None, None)) ]%nat.
Example C38_irreducible : map (fun x => (fst (fst x), snd (fst x))) (dom_table irreducible 0 [0; 1; 2; 3; 4; 5]%nat) =
  [(0, Some 0); (1, Some 0); (2, Some 0); (3, Some 0); (4, Some 0); (5, Some 0)]%nat.
Proof. vm_compute. reflexivity. Qed.

(** With an unreachable predecessor build_df reads through a null pointer.  The graph is the one made for
      for (setup; condition; increment) { break; }
    (src/parser.c:2767-2945): 0 setup, 1 condition (then 2 the body, else 4 the end), 2 leaves to 4, 3 the increment, which
    is connected to the condition although nothing leads to it (src/parser.c:2919-2921). *)
Definition for_break : cfg := of_edges
  [ (0, (Some 1, None, None)); (1, (None, Some 2, Some 4)); (2, (Some 4, None, None)); (3, (Some 1, None, None)) ]%nat.
Theorem C38_unreachable_predecessor_refuted : forall fuel,
  match build_rpo 10 for_break 0 0 (fun _ => 0) no_order with
  | Some (V, vis, o) =>
    match build_idom 10 40 for_break o 0 (fun _ => None) with
    | Some T => T 3%nat = None /\ bb_build_df fuel T (preds for_break) 1 (Some (fun _ => [])) = None
    | None => False
    end
  | None => False
  end.
Proof.
  intros fuel.
  match goal with |- match ?x with _ => _ end => let y := eval vm_compute in (match x with Some (V, vis, o) => match build_idom 10 40 for_break o 0 (fun _ => None) with Some T => Some (map T [0;1;2;3;4]%nat) | None => None end | None => None end) in
    assert (E : match x with Some (V, vis, o) => match build_idom 10 40 for_break o 0 (fun _ => None) with Some T => Some (map T [0;1;2;3;4]%nat) | None => None end | None => None end = y) by (vm_compute; reflexivity) end.
  destruct (build_rpo 10 for_break 0 0 (fun _ => 0) no_order) as [[[V vis] o]|]; [|discriminate].
  destruct (build_idom 10 40 for_break o 0 (fun _ => None)) as [T|]; [|discriminate].
  injection E as E0 E1 E2 E3 E4. split; [exact E3|].
  unfold bb_build_df. replace (preds for_break 1) with [0; 3]%nat by (vm_compute; reflexivity). cbn [df_all].
  assert (A : forall df, df_walk fuel T 1 (Some 3%nat) df = None).
  { destruct fuel as [|fuel]; [reflexivity|]. intros df. cbn [df_walk]. rewrite E1. cbn [opt_eqb Nat.eqb]. rewrite E3.
    destruct fuel as [|fuel]; [reflexivity|]. cbn [df_walk]. rewrite E1. reflexivity. }
  destruct (df_walk fuel T 1 (Some 0%nat) (fun _ => [])) as [df|]; [|reflexivity]. rewrite A. reflexivity.
Qed.
(** the hypotheses of the three theorems hold of the loop *)
Example C38_premises :
  (forall b, reach (succs loop_graph) 0 b -> In b [0; 1; 2; 3; 4; 5; 6]%nat) /\
  (forall b, reach (preds loop_graph) 6 b -> In b [0; 1; 2; 3; 4; 5; 6]%nat) /\
  (forall a b, In a (preds loop_graph b) <-> In b (succs loop_graph a)) /\
  (forall a b, reach (succs loop_graph) 0 b -> (In a (preds loop_graph b) <-> reach (succs loop_graph) 0 a /\ In b (succs loop_graph a))) /\
  preds loop_graph 0 = [].
Proof.
  destruct C37_premises as [H1 H2]. split; [exact H1|]. split; [|split; [exact H2|split; [|reflexivity]]].
  - intros b R. assert (H : forall a, reach (preds loop_graph) a b -> In a [0; 1; 2; 3; 4; 5; 6]%nat -> In b [0; 1; 2; 3; 4; 5; 6]%nat).
    { clear. intros a R. induction R as [a|a b c R IH E]; [auto|]. intros I. specialize (IH I).
      repeat destruct IH as [<-|IH]; try contradiction; vm_compute in E; repeat destruct E as [<-|E]; try contradiction; cbn; tauto. }
    apply (H 6%nat R). cbn. tauto.
  - intros a b R. rewrite H2. split; [|tauto]. intros E. split; [|exact E].
    assert (R0 : reach (succs loop_graph) 0 0) by apply reach_refl.
    assert (R1 : reach (succs loop_graph) 0 1) by (eapply reach_step; [exact R0|vm_compute; tauto]).
    assert (R2 : reach (succs loop_graph) 0 2) by (eapply reach_step; [exact R1|vm_compute; tauto]).
    assert (R3 : reach (succs loop_graph) 0 3) by (eapply reach_step; [exact R2|vm_compute; tauto]).
    assert (R4 : reach (succs loop_graph) 0 4) by (eapply reach_step; [exact R2|vm_compute; tauto]).
    assert (R5 : reach (succs loop_graph) 0 5) by (eapply reach_step; [exact R3|vm_compute; tauto]).
    do 6 (destruct a as [|a]; [assumption|]). destruct a as [|a]; vm_compute in E; contradiction.
Qed.
