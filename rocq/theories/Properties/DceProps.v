(** C41: dead code elimination. *)
From Verif.Mid Require Import Insn Edges EdgesSpec EdgesProofs Graph Cfg CfgProofs Dom Dce DceSpec DceProofs DceSweep DceGraph DceSim LiveSpec DceFacts DceTotal.
From Verif.Properties Require Import CfgProps DomProps.

(** the state the passes start in: marks, orders and trees as the earlier passes leave them, and enough steps *)
Definition ready (g : cfg) (exit : nat) (blocks : list nat) (V : Z) (vis : nat -> Z) (o : Cfg.order) (T : tree) (fuel sweeps : nat) : Prop :=
  (forall b, reach (preds g) exit b -> In b blocks) /\
  (forall b, reach (preds g) exit b -> vis b = V /\ o_next o b = None) /\
  o_cnt o = 0 /\ (forall b, T b = None) /\
  (2 * length blocks < fuel)%nat /\ (length blocks * (length blocks + 1) < sweeps)%nat.

Lemma walk_suffix S e l x : walk S e l x -> forall d, In d l -> reach S d x.
Proof.
  intros W. induction W as [a|a l b c W IH E]; intros d I.
  - destruct I as [<-|[]]. apply reach_refl.
  - apply in_app_iff in I as [I|[<-|[]]]; [|apply reach_refl]. eapply reach_step; [apply IH; exact I|exact E].
Qed.
Lemma reach_closed S (P : nat -> Prop) : (forall a, P a -> forall b, In b (S a) -> P b) -> forall a b, reach S a b -> P a -> P b.
Proof. intros H a b W. induction W as [a|a x y W IH I]; [auto|]. intros Pa. exact (H x (IH Pa) y I). Qed.
Section Eliminate.
  Variable ins : nat -> insn.
  Variable own : nat -> nat.
  Variable code : nat -> list nat.
  Variable g : egraph.
  Variables entry exit : nat.
  Variables is_global in_memory : nat -> bool.
  Hypothesis F : function_ok ins own code g entry exit is_global in_memory.
  (* a block that leads to the exit has only successors that lead to it *)
  Hypothesis C : forall a b, reach (succs (to_cfg g)) a exit -> In b (succs (to_cfg g) a) -> reach (succs (to_cfg g)) b exit.
  Variable order : list nat.
  Hypothesis Ho : forall b, In b order <-> reach (succs (to_cfg g)) entry b.
  Hypothesis Hnd : NoDup order.
  Variables (blocks : list nat) (V : Z) (vis : nat -> Z) (o : Cfg.order) (T : tree) (fuel sweeps steps hops : nat).
  Hypothesis R : ready (to_cfg g) exit blocks V vis o T fuel sweeps.

  Lemma rev_reach a b : reach (preds (to_cfg g)) b a <-> reach (succs (to_cfg g)) a b.
  Proof.
    assert (K := fun x y => linked_edges g x y (f_links _ _ _ _ _ _ _ _ F)). split.
    - intros W. induction W as [x|x y z W IH E]; [apply reach_refl|]. eapply reach_front; [apply K; exact E|exact IH].
    - apply (fs_reverse _ _ _ _ _ _ _ _ F).
  Qed.
  Lemma eliminate_parts : exists T' rdf,
    (forall b, reach (preds (to_cfg g)) exit b -> b <> exit ->
      exists d, T' b = Some d /\ reach (preds (to_cfg g)) exit d /\ immediate_dominator (preds (to_cfg g)) exit d b) /\
    (forall x b, In b (rdf x) <-> decides (to_cfg g) exit b x) /\
    eliminate fuel sweeps steps hops ins own code is_global order g exit V vis o T =
      (do s <- dce_blocks ins own code is_global (record_assign ins code order (fun _ => None)) rdf steps order
                  (mkdce (fun _ => false) (fun _ => false) []);
       dce_sweep ins T' exit hops s order g code).
  Proof.
    destruct R as (R1 & R2 & R3 & R4 & R5 & R6).
    assert (K := fun x y => linked_edges g x y (f_links _ _ _ _ _ _ _ _ F)).
    destruct (C38_reverse_frontiers (to_cfg g) exit blocks V vis o T fuel sweeps R1 R2 R3 R4 K) as (vis' & o' & T' & vis'' & rdf & E1 & E2 & E3 & _ & HT & Hf & _).
    - intros a b Ra I. rewrite rev_reach in *. eapply C; eassumption.
    - exact (proj1 (f_exit _ _ _ _ _ _ _ _ F)).
    - exact R5.
    - exact R6.
    - exists T', rdf. split; [exact HT|]. split.
      + intros x b. rewrite Hf. unfold frontier, decides, post_dominates. split.
        * intros [(p & Rp & I & D) N]. split; [|exact N]. exists p. split; [exact Rp|]. split; [apply K; exact I|exact D].
        * intros [(p & Rp & I & D) N]. split; [|exact N]. exists p. split; [exact Rp|]. split; [apply K; exact I|exact D].
      + unfold eliminate. rewrite E1, E2, E3. reflexivity.
  Qed.

  Section Result.
    Variables (g' : egraph) (code' : nat -> list nat).
    Hypothesis E : eliminate fuel sweeps steps hops ins own code is_global order g exit V vis o T = Done (g', code').
    Lemma result_parts : exists T' rdf s,
      (forall b, reach (preds (to_cfg g)) exit b -> b <> exit ->
        exists d, T' b = Some d /\ reach (preds (to_cfg g)) exit d /\ immediate_dominator (preds (to_cfg g)) exit d b) /\
      (forall x b, In b (rdf x) <-> decides (to_cfg g) exit b x) /\
      dce_blocks ins own code is_global (record_assign ins code order (fun _ => None)) rdf steps order
                    (mkdce (fun _ => false) (fun _ => false) []) = Done s /\
      dce_sweep ins T' exit hops s order g code = Done (g', code').
    Proof.
      destruct eliminate_parts as (T' & rdf & H1 & H2 & H3). rewrite H3 in E.
      destruct (dce_blocks _ _ _ _ _ _ _ _ _) as [s| | | |] eqn:Es; try discriminate. exists T', rdf, s. auto.
    Qed.

    (** Of every block, the instructions that matter stay, in their order. *)
    Theorem C41_never_removed b : reach (succs (to_cfg g)) entry b ->
      exists keep, code' b = filter keep (code b) /\
        forall i, matters ins code (to_cfg g) entry exit is_global i -> keep i = true.
    Proof.
      intros L. destruct result_parts as (T' & rdf & s & H1 & H2 & H3 & H4).
      destruct (fs_sweep _ _ _ _ _ _ _ _ F order Ho T' hops s Hnd g' code' H4) as (_ & S1 & _).
      exists (d_useful s). split; [apply S1; exact L|]. intros i M. exact (fs_matters _ _ _ _ _ _ _ _ F order Ho rdf H2 steps s H3 i M).
    Qed.
    (** For any meaning of the instructions: from any state, if the function ends and leaves the world w, so does the result. *)
    Theorem C41_same_effects (val world : Type) (truth : val -> bool) (get : world -> nat -> val) (put : world -> nat -> val -> world)
      (effect : nat -> option val -> option val -> world -> world) (result : nat -> option val -> option val -> world -> val)
      (st : (nat -> val) * world) (k : nat) (w : world) :
      runs truth get put effect result in_memory ins g code k entry st w ->
      exists k', runs truth get put effect result in_memory ins g' code' k' entry st w.
    Proof.
      intros Q. destruct result_parts as (T' & rdf & s & H1 & H2 & H3 & H4).
      exact (fs_simulation _ _ _ _ _ _ _ _ F order Ho rdf H2 T' H1 steps hops s H3 Hnd g' code' H4 truth get put effect result k entry st w Q (reach_refl _ _)).
    Qed.
    (** When every block that leads directly to the exit ends with a return instruction, no reachable block is left without
        a successor; the connections agree in both directions and lead to reachable blocks. *)
    Theorem C41_no_dangling :
      (forall b, reach (succs (to_cfg g)) entry b -> In exit (succs (to_cfg g) b) ->
         exists l i, code b = l ++ [i] /\ i_op (ins i) = OP_return) ->
      linked g' /\
      (forall b, reach (succs (to_cfg g)) entry b -> b <> exit -> succs (to_cfg g') b <> []) /\
      (forall b, reach (succs (to_cfg g')) entry b -> reach (succs (to_cfg g)) entry b).
    Proof.
      intros HR. destruct result_parts as (T' & rdf & s & H1 & H2 & H3 & H4).
      destruct (fs_sweep _ _ _ _ _ _ _ _ F order Ho T' hops s Hnd g' code' H4) as (K' & S1 & S2 & S3).
      destruct (fs_all _ _ _ _ _ _ _ _ F order Ho rdf steps s H3) as (VI & INIT).
      assert (K := fun x y => linked_edges g x y (f_links _ _ _ _ _ _ _ _ F)).
      assert (Dec : forall b, drops ins s code b \/ ~ drops ins s code b).
      { intros b. unfold drops. destruct (final (code b)) as [i|]; [|right; intros (i & Q & _); discriminate].
        destruct (opcode_eq_dec (op ins i) OP_branch) as [Bi|Bi]; [|right; intros (j & Q & Bj & _); injection Q as <-; contradiction].
        destruct (d_useful s i) eqn:U; [right; intros (j & Q & _ & Uj); injection Q as <-; congruence|left; eauto]. }
      assert (NX : forall b, reach (succs (to_cfg g)) entry b -> drops ins s code b -> forall j d, T' b = Some j -> nearest T' exit s j d -> d <> exit).
      { intros b Lb Db j d Ej Nd Ed. subst d.
        destruct (reach_walk _ _ _ (f_leads _ _ _ _ _ _ _ _ F b Lb)) as (l & W).
        assert (Bx : b <> exit).
        { intros ->. destruct Db as (i & Fi & _). rewrite (proj2 (f_exit _ _ _ _ _ _ _ _ F)) in Fi. discriminate. }
        assert (TR : forall l x, walk (succs (to_cfg g)) b l x -> x <> exit -> exists t, trail g b exit t x).
        { clear l W. intros l x W. assert (NS : forall c, In c (succs (to_cfg g) exit) -> False).
          { rewrite (proj1 (f_exit _ _ _ _ _ _ _ _ F)). intros c []. }
          remember b as b0. revert Heqb0. induction W as [a|a l y z W IH I]; intros -> Nz.
          - eexists. apply trail_start.
          - destruct (Nat.eq_dec y exit) as [->|Ny]; [destruct (NS _ I)|]. destruct (IH Lb Db Ej Bx eq_refl Ny) as (t & Ht).
            eexists. eapply trail_step; [exact Ht|exact Ny|exact I]. }
        assert (PX : forall l, walk (succs (to_cfg g)) b l exit -> exists l' x, walk (succs (to_cfg g)) b l' x /\ In exit (succs (to_cfg g) x)).
        { intros l' W'. inversion W' as [|a l2 y z W2 I]; subst; [contradiction|eauto]. }
        destruct (PX l W) as (l' & x & W' & I).
        assert (Nx : x <> exit). { intros ->. rewrite (proj1 (f_exit _ _ _ _ _ _ _ _ F)) in I. exact I. }
        destruct (TR l' x W' Nx) as (t & Ht).
        assert (Lx : reach (succs (to_cfg g)) entry x) by (eapply reach_trans; [exact Lb|eapply walk_reach; exact W']).
        destruct (HR x Lx I) as (lc & i & Ec & Oi).
        assert (Ii : In i (code x)) by (rewrite Ec; apply in_or_app; right; left; reflexivity).
        assert (Ui : d_useful s i = true).
        { destruct (INIT x lc i [] Lx Ec) as (A & _). apply A. unfold op. rewrite Oi. cbn. tauto. }
        assert (Ux : d_block s x = true). { rewrite <- (f_own _ _ _ _ _ _ _ _ F x i Ii). apply (v_block _ _ _ _ _ _ _ _ VI). exact Ui. }
        destruct (trail_clean ins own code g exit T' rdf s K H1 H2 (proj1 (f_exit _ _ _ _ _ _ _ _ F)) (f_own _ _ _ _ _ _ _ _ F)
          (fun i U => match v_ctrl _ _ _ _ _ _ _ _ VI i U with or_introl (ex_intro _ j (conj f _)) => False_ind _ f | or_intror q => q end)
          (v_block _ _ _ _ _ _ _ _ VI) (v_insn _ _ _ _ _ _ _ _ VI)
          (fun b => reach (succs (to_cfg g)) entry b)
          (fun x c Rx Ic => reach_step _ _ _ _ Rx Ic)
          (fun x Rx => proj2 (rev_reach x exit) (f_leads _ _ _ _ _ _ _ _ F x Rx))
          (f_shape _ _ _ _ _ _ _ _ F) b j exit Lb Db Ej Nd t x Ht) as [CL _].
        assert (It : In x t) by (destruct Ht; left; reflexivity).
        destruct (CL x It) as [->|[Q|Q]]; [|contradiction|congruence].
        destruct Db as (i' & Fi & Bi & Ui'). unfold final in Fi. rewrite Ec, rev_app_distr in Fi. cbn in Fi. injection Fi as <-. congruence. }
      assert (SU : forall b, reach (succs (to_cfg g)) entry b -> forall c, In c (succs (to_cfg g') b) -> reach (succs (to_cfg g)) entry c).
      { intros b Lb c Ic. destruct (Dec b) as [Db|Db].
        - destruct (S2 b Lb Db) as (j & d & Ej & Nd & Et & Ee & En). pose proof (NX b Lb Db j d Ej Nd) as Nx.
          apply Nat.eqb_neq in Nx. rewrite Nx in En. unfold succs in Ic. cbn in Ic. rewrite Et, Ee, En in Ic. destruct Ic as [<-|[]].
          destruct (d_dom ins code g exit T' s H1 (proj1 (f_exit _ _ _ _ _ _ _ _ F)) (fun b => reach (succs (to_cfg g)) entry b)
            (fun x Rx => proj2 (rev_reach x exit) (f_leads _ _ _ _ _ _ _ _ F x Rx)) (f_shape _ _ _ _ _ _ _ _ F) b j d Lb Db Ej Nd) as [Dd _].
          destruct (reach_walk _ _ _ (proj2 (rev_reach b exit) (f_leads _ _ _ _ _ _ _ _ F b Lb))) as (l & W).
          eapply reach_trans; [exact Lb|]. apply rev_reach. eapply walk_suffix; [exact W|apply Dd; exact W].
        - assert (Q := S3 b ltac:(tauto)). eapply reach_step; [exact Lb|]. unfold succs in *. cbn in *.
          rewrite (Q NEXT : e_next g' b = e_next g b), (Q THEN : e_then g' b = e_then g b), (Q ELSE : e_else g' b = e_else g b) in Ic. exact Ic. }
      split; [exact K'|]. split.
      - intros b Lb Nb. destruct (Dec b) as [Db|Db].
        + destruct (S2 b Lb Db) as (j & d & Ej & Nd & Et & Ee & En). pose proof (NX b Lb Db j d Ej Nd) as Nx.
          apply Nat.eqb_neq in Nx. rewrite Nx in En. unfold succs. cbn. rewrite Et, Ee, En. discriminate.
        + assert (Q := S3 b ltac:(tauto)). assert (NE : succs (to_cfg g) b <> []).
          { intros Z. pose proof (f_leads _ _ _ _ _ _ _ _ F b Lb) as Rb. clear -Z Rb Nb. apply reach_walk in Rb as (l & W).
            remember (succs (to_cfg g)) as Sc. assert (forall x, walk Sc b l x -> x = b); [|apply Nb; symmetry; auto].
            clear W. intros x W. induction W as [a|a l y z W IH I]; [reflexivity|]. rewrite (IH Nb Z) in I. rewrite Z in I. destruct I. }
          unfold succs in *. cbn in *.
          rewrite (Q NEXT : e_next g' b = e_next g b), (Q THEN : e_then g' b = e_then g b), (Q ELSE : e_else g' b = e_else g b). exact NE.
      - intros b Rb. exact (reach_closed _ (fun b => reach (succs (to_cfg g)) entry b) SU entry b Rb (reach_refl _ _)).
    Qed.
  End Result.

  (** It ends normally when the instructions fit the work list (2048 entries) and the blocks the predecessor tables. *)
  Theorem C41_completes (insns : list nat) :
    (forall b i, In i (code b) -> In i insns) ->
    (forall b, (2 * length (code b) + length insns <= 2047)%nat) ->
    (forall b, reach (succs (to_cfg g)) b exit -> shape ins code g b) ->
    (forall b t c, edge g t b = Some c -> In b blocks) -> (forall c, (length blocks < length (e_prev g c))%nat) ->
    (2047 < steps)%nat -> (length blocks < hops)%nat ->
    exists g' code', eliminate fuel sweeps steps hops ins own code is_global order g exit V vis o T = Done (g', code').
  Proof.
    intros I1 I2 Sh B1 B2 Ls Lh. destruct eliminate_parts as (T' & rdf & H1 & H2 & ->).
    assert (K := fun x y => linked_edges g x y (f_links _ _ _ _ _ _ _ _ F)).
    destruct (blocks_total ins own code is_global (record_assign ins code order (fun _ => None)) rdf insns) with (n := steps) (order := order)
      (s := mkdce (fun _ => false) (fun _ => false) []) as (s & Es).
    - intros v j E. destruct (record_assign_spec ins code order (fun _ => None) v) as [Q _].
      destruct (Q j E) as [(b & _ & Ij & _)|Q']; [eapply I1; exact Ij|discriminate].
    - exact I1.
    - intros x r Ir Ec. apply H2 in Ir as D. pose proof D as [(c & Rc & Ic & _) _]. apply rev_reach in Rc.
      destruct (Sh r (reach_front _ _ _ _ Ic Rc)) as [En Et Ee _|z En Et Ee _|t e l i v En Et Ee El _ _ _].
      + unfold succs in Ic. cbn in Ic. rewrite En, Et, Ee in Ic. destruct Ic.
      + apply (single_not_decides g exit T' rdf K H1 H2 (proj1 (f_exit _ _ _ _ _ _ _ _ F)) r z x En Et Ee); [|exact D].
        unfold succs in Ic. cbn in Ic. rewrite En, Et, Ee in Ic. destruct Ic as [<-|[]]. apply rev_reach. exact Rc.
      + rewrite Ec in El. destruct l; discriminate.
    - exact Ls.
    - intros b _. apply I2.
    - rewrite Es. cbn [bind]. destruct R as (R1 & _).
      destruct (sweep_total ins code (preds (to_cfg g)) exit T' s blocks H1 R1 hops Lh order g code Hnd (f_links _ _ _ _ _ _ _ _ F)) as (g' & c' & E').
      + split; assumption.
      + intros b Ib. apply Ho in Ib. split; [reflexivity|]. split; [apply (fs_branch_shape _ _ _ _ _ _ _ _ F b Ib)|].
        split; [apply rev_reach; exact (f_leads _ _ _ _ _ _ _ _ F b Ib)|]. intros ->. exact (proj2 (f_exit _ _ _ _ _ _ _ _ F)).
      + exists g', c'. exact E'.
  Qed.
End Eliminate.
Print Assumptions C41_never_removed.
Print Assumptions C41_same_effects.
Print Assumptions C41_no_dangling.
Print Assumptions C41_completes.

(** Functions for the examples: connections are made one by one, as the parser does. *)
Fixpoint connect_all (l : list (nat * conn * nat)) (g : egraph) : option egraph :=
  match l with
  | [] => Some g
  | (b, t, c) :: r =>
    match edge g t b with
    | Some _ => None
    | None => if existsb (fun u => match edge g u b with Some x => Nat.eqb x c | None => false end) [NEXT; THEN; ELSE] then None
              else match bb_connect g (Some b) (Some c) t with Some g => connect_all r g | None => None end
    end
  end.
Definition no_edges : egraph := mkegraph (fun _ => None) (fun _ => None) (fun _ => None) (fun _ => repeat None 128).
Lemma no_edges_linked : linked no_edges.
Proof.
  split.
  - intros b t c. split; [destruct t; discriminate|]. intros I. apply repeat_spec in I. discriminate.
  - intros c. vm_compute. constructor.
Qed.
Lemma connect_all_linked : forall l g g', linked g -> connect_all l g = Some g' -> linked g'.
Proof.
  induction l as [|[[b t] c] r IH]; intros g g' K E; cbn [connect_all] in E; [injection E as <-; exact K|].
  destruct (edge g t b) eqn:E0; [discriminate|]. destruct (existsb _ _) eqn:Ex; [discriminate|].
  destruct (bb_connect g (Some b) (Some c) t) as [g1|] eqn:E1; [|discriminate]. apply (IH g1 g'); [|exact E].
  apply (bb_connect_linked g b t c g1 K E0); [|exact E1]. intros u Eu.
  assert (existsb (fun u => match edge g u b with Some x => Nat.eqb x c | None => false end) [NEXT; THEN; ELSE] = true); [|congruence].
  apply existsb_exists. exists u. split; [destruct u; cbn; tauto|]. rewrite Eu. apply Nat.eqb_refl.
Qed.
Definition made (l : list (nat * conn * nat)) : egraph := match connect_all l no_edges with Some g => g | None => no_edges end.
Lemma made_linked l : linked (made l).
Proof.
  unfold made. destruct (connect_all l no_edges) as [g|] eqn:E; [|exact no_edges_linked]. exact (connect_all_linked l _ g no_edges_linked E).
Qed.

(** int f(int n) { int d; d = n + n; if (n) d = d + n; return n; }   0: d1 = n + n; branch n   1: d2 = d1 + n   3: return n *)
Definition ex_graph : egraph := made [(0, THEN, 1); (0, ELSE, 2); (1, NEXT, 3); (2, NEXT, 3); (3, NEXT, 4)]%nat.
Definition ex_ins (i : nat) : insn :=
  match i with
  | 0 => mkinsn OP_add (Some 1) (Some 0) (Some 0)
  | 1 => mkinsn OP_branch None (Some 0) None
  | 2 => mkinsn OP_add (Some 2) (Some 1) (Some 0)
  | _ => mkinsn OP_return None (Some 0) None
  end%nat.
Definition ex_code (b : nat) : list nat := match b with 0 => [0; 1] | 1 => [2] | 3 => [3] | _ => [] end%nat.
Definition ex_own (i : nat) : nat := match i with 0 | 1 => 0 | 2 => 1 | _ => 3 end%nat.
Definition ex_order : list nat := [0; 2; 1; 3; 4]%nat.
Definition none : nat -> bool := fun _ => false.
Definition show (r : outcome (egraph * (nat -> list nat))) (l : list nat) : option (list (list nat * list nat)) :=
  match r with Done (g, c) => Some (map (fun b => (c b, succs (to_cfg g) b)) l) | _ => None end.
Definition ex_result := eliminate 12 40 2048 12 ex_ins ex_own ex_code none ex_order ex_graph 4 7 (fun _ => 7) (mkorder (fun _ => 0) (fun _ => None) 0) (fun _ => None).
Example C41_example : show ex_result [0; 1; 2; 3; 4]%nat = Some [([], [3]); ([], [3]); ([], [3]); ([3], [4]); ([], [])]%nat.
Proof. vm_compute. reflexivity. Qed.

Lemma ex_edges a b : In b (succs (to_cfg ex_graph) a) -> In (a, b) [(0, 1); (0, 2); (1, 3); (2, 3); (3, 4)]%nat.
Proof. do 5 (destruct a as [|a]; [vm_compute; intuition (subst; tauto)|]). vm_compute. tauto. Qed.
Lemma ex_reach b : reach (succs (to_cfg ex_graph)) 0 b <-> In b ex_order.
Proof.
  split.
  - intros W. apply (reach_closed (succs (to_cfg ex_graph)) (fun b => In b ex_order)) with (2 := W); [|cbn; tauto].
    intros a _ c I. apply ex_edges in I. cbn in *. intuition congruence.
  - assert (R0 : reach (succs (to_cfg ex_graph)) 0 0) by apply reach_refl.
    assert (R1 : reach (succs (to_cfg ex_graph)) 0 1) by (eapply reach_step; [exact R0|vm_compute; tauto]).
    assert (R2 : reach (succs (to_cfg ex_graph)) 0 2) by (eapply reach_step; [exact R0|vm_compute; tauto]).
    assert (R3 : reach (succs (to_cfg ex_graph)) 0 3) by (eapply reach_step; [exact R1|vm_compute; tauto]).
    assert (R4 : reach (succs (to_cfg ex_graph)) 0 4) by (eapply reach_step; [exact R3|vm_compute; tauto]).
    cbn. intuition (subst; assumption).
Qed.
Lemma ex_exit b : In b ex_order -> reach (succs (to_cfg ex_graph)) b 4.
Proof.
  assert (R4 : reach (succs (to_cfg ex_graph)) 4 4) by apply reach_refl.
  assert (R3 : reach (succs (to_cfg ex_graph)) 3 4) by (eapply reach_front; [|exact R4]; vm_compute; tauto).
  assert (R2 : reach (succs (to_cfg ex_graph)) 2 4) by (eapply reach_front; [|exact R3]; vm_compute; tauto).
  assert (R1 : reach (succs (to_cfg ex_graph)) 1 4) by (eapply reach_front; [|exact R3]; vm_compute; tauto).
  assert (R0 : reach (succs (to_cfg ex_graph)) 0 4) by (eapply reach_front; [|exact R1]; vm_compute; tauto).
  cbn. intuition (subst; assumption).
Qed.
Lemma ex_shape b : shape ex_ins ex_code ex_graph b.
Proof.
  destruct b as [|[|[|[|b]]]].
  - apply (shape_branch _ _ _ _ 1 2 [0%nat] 1 0); try reflexivity. intros j [<-|[]]. discriminate.
  - apply (shape_next _ _ _ _ 3); try reflexivity. intros j [<-|[]]. discriminate.
  - apply (shape_next _ _ _ _ 3); try reflexivity. intros j [].
  - apply (shape_next _ _ _ _ 4); try reflexivity. intros j [<-|[]]. discriminate.
  - apply shape_end; try reflexivity. intros j [].
Qed.
(** the hypotheses of the theorems hold of it *)
Example C41_premises :
  function_ok ex_ins ex_own ex_code ex_graph 0 4 none none /\
  (forall a b, reach (succs (to_cfg ex_graph)) a 4 -> In b (succs (to_cfg ex_graph) a) -> reach (succs (to_cfg ex_graph)) b 4) /\
  (forall b, In b ex_order <-> reach (succs (to_cfg ex_graph)) 0 b) /\ NoDup ex_order /\
  ready (to_cfg ex_graph) 4 ex_order 7 (fun _ => 7) (mkorder (fun _ => 0) (fun _ => None) 0) (fun _ => None) 12 40 /\
  (forall b, reach (succs (to_cfg ex_graph)) 0 b -> In 4%nat (succs (to_cfg ex_graph) b) ->
     exists l i, ex_code b = l ++ [i] /\ i_op (ex_ins i) = OP_return) /\
  (forall b i, In i (ex_code b) -> In i [0; 1; 2; 3]%nat) /\
  (forall b t c, edge ex_graph t b = Some c -> In b ex_order) /\ (forall c, (length ex_order < length (e_prev ex_graph c))%nat).
Proof.
  assert (K : linked ex_graph) by apply made_linked.
  assert (P : forall b, reach (preds (to_cfg ex_graph)) 4 b -> In b ex_order).
  { intros b W. apply (reach_closed (preds (to_cfg ex_graph)) (fun b => In b ex_order)) with (2 := W); [|cbn; tauto].
    intros a _ c I. apply (linked_edges ex_graph c a K) in I. apply ex_edges in I. cbn in *. intuition congruence. }
  split; [|split; [|split; [|split; [|split; [|split; [|split; [|split]]]]]]].
  - constructor.
    + exact K.
    + split; reflexivity.
    + intros b W. apply ex_exit, ex_reach, W.
    + intros b _. apply ex_shape.
    + intros b i I. destruct b as [|[|[|[|b]]]]; cbn in I; intuition (subst; reflexivity).
    + intros b c i j v _ _ I J Wi Wj _. left.
      assert (Qi : In i [0; 1; 2; 3]%nat) by (destruct b as [|[|[|[|b]]]]; cbn in I |- *; tauto).
      assert (Qj : In j [0; 1; 2; 3]%nat) by (destruct c as [|[|[|[|c]]]]; cbn in J |- *; tauto).
      cbn in Qi, Qj. intuition (subst; cbn in Wi, Wj; congruence).
    + intros b l1 p l2 _ Ec Op. assert (I : In p (ex_code b)) by (rewrite Ec; apply in_or_app; right; left; reflexivity).
      destruct b as [|[|[|[|b]]]]; cbn in I; intuition (subst; discriminate).
    + intros [|[|[|i]]] Op; discriminate.
    + intros v M. discriminate.
  - intros a b _ I. apply ex_edges in I. apply ex_exit. cbn in *. intuition congruence.
  - intros b. symmetry. apply ex_reach.
  - repeat constructor; cbn; intuition congruence.
  - split; [exact P|]. split; [auto|]. split; [reflexivity|]. split; [reflexivity|]. cbn. lia.
  - intros b _ I. apply ex_edges in I. exists [], 3%nat. assert (b = 3%nat) by (cbn in I; intuition congruence). subst b. split; reflexivity.
  - intros b i I. destruct b as [|[|[|[|b]]]]; cbn in I |- *; tauto.
  - intros b t c I. assert (Q : In c (succs (to_cfg ex_graph) b)).
    { unfold succs. cbn. rewrite !in_app_iff. destruct t; cbn in I; rewrite I; cbn; tauto. }
    apply ex_edges in Q. cbn in *. intuition congruence.
  - intros c. do 5 (destruct c as [|c]; [vm_compute; lia|]). vm_compute. lia.
Qed.

(** void f(int n) { while (n) { if (n == 3) break; else continue; } }
    0: setup   1: while: branch n to 2 or 5   2: t = 3; c = n == t; branch c to 3 or 4   3: break   4: continue   5: end   6: exit.
    Nothing here has an effect, and block 1 has no useful block before the exit: it loses its successors, and so does 2. *)
Definition loop_edges : egraph := made
  [(0, NEXT, 1); (1, THEN, 2); (1, ELSE, 5); (2, THEN, 3); (2, ELSE, 4); (3, NEXT, 5); (4, NEXT, 1); (5, NEXT, 6)]%nat.
Definition loop_ins (i : nat) : insn :=
  match i with
  | 0 => mkinsn OP_branch None (Some 0) None
  | 1 => mkinsn OP_load_constant (Some 1) None None
  | 2 => mkinsn OP_eq (Some 2) (Some 0) (Some 1)
  | _ => mkinsn OP_branch None (Some 2) None
  end%nat.
Definition loop_code (b : nat) : list nat := match b with 1 => [0] | 2 => [1; 2; 3] | _ => [] end%nat.
Definition loop_own (i : nat) : nat := match i with 0 => 1 | _ => 2 end%nat.
Definition loop_order : list nat := [0; 1; 2; 4; 3; 5; 6]%nat.
Definition loop_result := eliminate 16 60 2048 12 loop_ins loop_own loop_code none loop_order loop_edges 6 7 (fun _ => 7) (mkorder (fun _ => 0) (fun _ => None) 0) (fun _ => None).
(** The blocks are laid out in the order of the chain rpo_next and nothing is emitted for a block without instructions
    and successors, except in a predecessor of the exit (src/reg-alloc.c:599-637): execution goes on with the next block. *)
Fixpoint following (l : list nat) (b : nat) : option nat :=
  match l with x :: (y :: _) as r => if Nat.eqb x b then Some y else following r b | _ => None end.
Definition proceeds (g : egraph) (l : list nat) (b : nat) : option nat :=
  match succs (to_cfg g) b with [] => following l b | [c] => Some c | _ => None end.
Theorem C41_void_loop_refuted :
  (* with n = 0 the function ends after blocks 0, 1, 5, 6 *)
  (forall (val world : Type) (truth : val -> bool) get put effect result (st : (nat -> val) * world), truth (fst st 0%nat) = false ->
     runs truth get put effect result none loop_ins loop_edges loop_code 3 0 st (snd st)) /\
  (* after elimination blocks 1, 2, 4 are empty and lead to one another forever *)
  exists g' code', loop_result = Done (g', code') /\
    (forall b, In b [0; 1; 2; 4]%nat -> code' b = []) /\
    succs (to_cfg g') 1 = [] /\ succs (to_cfg g') 2 = [] /\
    proceeds g' loop_order 0 = Some 1%nat /\ proceeds g' loop_order 1 = Some 2%nat /\
    proceeds g' loop_order 2 = Some 4%nat /\ proceeds g' loop_order 4 = Some 1%nat.
Proof.
  split.
  - intros val world truth get put effect result st H0. 
    eapply runs_step with (c := 1%nat); [reflexivity|]. eapply runs_step with (c := 5%nat).
    + unfold next_block. cbn. unfold value. cbn. rewrite H0. reflexivity.
    + eapply runs_step with (c := 6%nat); [reflexivity|].
      assert (Q : forall st, steps get put effect result none loop_ins (loop_code 0) st = st) by reflexivity.
      assert (Q1 : forall st, steps get put effect result none loop_ins (loop_code 1) st = st) by (intros [x y]; reflexivity).
      destruct st as [x y]. apply (runs_end truth get put effect result none loop_ins loop_edges loop_code 6 (x, y)). reflexivity.
  - assert (E : show loop_result [0; 1; 2; 3; 4; 5; 6]%nat = Some [([], [1]); ([], []); ([], []); ([], [5]); ([], [1]); ([], [6]); ([], [])]%nat)
      by (vm_compute; reflexivity).
    unfold show in E. destruct loop_result as [[g' code']| | | |]; try discriminate. exists g', code'. split; [reflexivity|].
    remember (succs (to_cfg g')) as Sg. cbn [map] in E. injection E as E1 E2 E3 E4 E5 E6 E7 E8 E9 E10 E11 E12 E13 E14.
    split; [intros b I; cbn in I; intuition (subst; assumption)|]. subst Sg. unfold proceeds. rewrite E2, E4, E6, E10. repeat split; reflexivity.
Qed.
Print Assumptions C41_void_loop_refuted.
