From Verif.Base Require Import Int32.
From Verif.Ir Require Import Ph2Sem.
From Verif.Mid Require Import Insn Edges EdgesProofs Graph Dom Fold DceSpec FoldSpec FoldProofs CfgProofs LiveSpec.

Section Sim.
  Variable ins : nat -> insn.
  Variable own : nat -> nat.
  Variable code : nat -> list nat.
  Variable g : egraph.
  Variables entry exit : nat.
  Variables is_global in_memory : nat -> bool.
  Variable init : nat -> Z.
  Hypothesis F : function_ok ins own code g entry exit is_global in_memory.
  Let live b := reach (succs (to_cfg g)) entry b.
  Hypothesis Hstrict : strict ins code (to_cfg g) entry is_global.
  Hypothesis Hlocal : forall b i v, live b -> In i (code b) -> i_rd (ins i) = Some v -> plain (i_op (ins i)) = true -> i_op (ins i) <> OP_assign -> is_global v = false.
  Hypothesis Hmem : forall b i v, live b -> In i (code b) -> i_rd (ins i) = Some v -> plain (i_op (ins i)) = true -> is_global v = false -> in_memory v = false.
  Variable s : folding.
  Hypothesis V : inv ins code is_global live init s.

  Context {world : Type}.
  Variable truth : Z -> bool.
  Variable get : world -> nat -> Z.
  Variable put : world -> nat -> Z -> world.
  Variable effect : nat -> option Z -> option Z -> world -> world.
  Variable other : nat -> option Z -> option Z -> world -> Z.
  Let step1 := step get put effect (computes other ins init) in_memory ins.
  Let step2 := step get put effect (computes other (fo_ins s) (fo_init s)) in_memory (fo_ins s).
  Let Here := here code live.

  Lemma sm_single i j v : Here i -> Here j -> i_rd (ins i) = Some v -> i_rd (ins j) = Some v -> is_global v = false ->
    i = j \/ i_op (ins i) = OP_unwound_phi /\ i_op (ins j) = OP_unwound_phi.
  Proof. intros (b & Lb & Ib) (c & Lc & Ic). exact (f_single _ _ _ _ _ _ _ _ F b c i j v Lb Lc Ib Ic). Qed.
  Lemma sm_one i j v : Here i -> Here j -> i_rd (ins i) = Some v -> i_rd (ins j) = Some v -> is_global v = false -> plain (i_op (ins i)) = true -> i = j.
  Proof. apply (one_def ins code is_global live sm_single). Qed.

  Definition good (X : nat -> Prop) (st : state (val := Z) (world := world)) : Prop :=
    forall v i, fo_const s v = true -> Here i -> i_rd (ins i) = Some v -> plain (i_op (ins i)) = true -> X i -> fst st v = fo_init s v.
  Lemma good_value X st v : good X st -> fo_const s v = true ->
    (forall j, Here j -> i_rd (ins j) = Some v -> plain (i_op (ins j)) = true -> is_global v = false -> X j) -> value get in_memory st v = fo_init s v.
  Proof.
    intros G C H. destruct (v_const _ _ _ _ _ _ V v C) as (Gl & j & Hj & Rj & Pj & _). unfold value.
    destruct Hj as (b & Lb & Ib) eqn:E. rewrite (Hmem b j v Lb Ib Rj Pj Gl). apply (G v j C Hj Rj Pj). apply H; assumption.
  Qed.
  Lemma step_same X i st : Here i -> good X st ->
    (forall v j, reads (ins i) v -> Here j -> i_rd (ins j) = Some v -> plain (i_op (ins j)) = true -> is_global v = false -> X j) ->
    step2 i st = step1 i st /\ good (fun j => X j \/ j = i) (step1 i st).
  Proof.
    intros Hi G U.
    assert (E : step2 i st = step1 i st).
    { unfold step1, step2, step. destruct (v_fate _ _ _ _ _ _ V i) as [E H|d a _ Op Rd Gd R1 E Ca Ed|d a b v _ Op Rd R1 R2 E Ca Cb Bv Ed].
      - rewrite E. destruct (i_rd (ins i)) as [d|] eqn:Rd; [|reflexivity].
        assert (Q : forall x y w, computes other (fo_ins s) (fo_init s) i x y w = computes other ins init i x y w); [|rewrite Q; reflexivity].
        intros x y w. unfold computes. rewrite E, Rd. destruct (i_op (ins i)) eqn:Op; try reflexivity. apply H; auto.
      - rewrite E, Op, Rd, R1. cbn [i_op i_rd i_rs1 i_rs2 has_effect option_map].
        assert (Q : computes other (fo_ins s) (fo_init s) i None (option_map (value get in_memory st) (i_rs2 (ins i))) (snd st) =
                    computes other ins init i (Some (value get in_memory st a)) (option_map (value get in_memory st) (i_rs2 (ins i))) (snd st)).
        { unfold computes. rewrite E, Op. cbn [i_op i_rd]. rewrite Ed. symmetry. apply (good_value X); [exact G|exact Ca|].
          intros j. apply U. left. exact R1. }
        rewrite Q. reflexivity.
      - assert (NE : has_effect (i_op (ins i)) = false) by (destruct Op as [Q|[Q|[Q|[Q|Q]]]]; rewrite Q; reflexivity).
        rewrite E, NE, Rd, R1, R2. cbn [i_op i_rd i_rs1 i_rs2 has_effect option_map].
        assert (Q : computes other (fo_ins s) (fo_init s) i None None (snd st) =
                    computes other ins init i (Some (value get in_memory st a)) (Some (value get in_memory st b)) (snd st)).
        { assert (Va : value get in_memory st a = fo_init s a) by (apply (good_value X); [exact G|exact Ca|intros j; apply U; left; exact R1]).
          assert (Vb : value get in_memory st b = fo_init s b) by (apply (good_value X); [exact G|exact Cb|intros j; apply U; right; exact R2]).
          rewrite Va, Vb. unfold computes. rewrite E. cbn [i_op i_rd]. rewrite Ed.
          destruct Op as [Q|[Q|[Q|[Q|Q]]]]; rewrite Q in Bv |- *; rewrite Bv; reflexivity. }
        rewrite Q. reflexivity. }
    split; [exact E|]. intros v j C Hj Rj Pj Xj.
    destruct (v_const _ _ _ _ _ _ V v C) as (Gl & k & Hk & Rk & Pk & Ok).
    assert (k = j) by (apply (sm_one k j v); assumption). subst k.
    destruct (Nat.eq_dec i j) as [Q|N].
    - subst j. rewrite <- E. unfold step2, step. rewrite Ok. cbn [has_effect].
      pose proof (fate_rd _ _ _ _ _ _ _ (v_fate _ _ _ _ _ _ V i)) as Q. rewrite Rj in Q. rewrite Q.
      destruct Hi as (b & Lb & Ib). rewrite (Hmem b i v Lb Ib Rj Pj Gl). cbn [fst]. rewrite upd_same.
      unfold computes. rewrite Ok, Q. reflexivity.
    - destruct Xj as [Xj|Xj]; [|congruence]. unfold step1, step. destruct (i_rd (ins i)) as [e|] eqn:Re; [|exact (G v j C Hj Rj Pj Xj)].
      destruct (in_memory e); cbn [fst]; [exact (G v j C Hj Rj Pj Xj)|].
      rewrite upd_other; [exact (G v j C Hj Rj Pj Xj)|]. intros Q. subst e. apply N. symmetry. apply (sm_one j i v); assumption.
  Qed.

  Definition seen (l : list nat) (l1 : list nat) (j : nat) : Prop := In j l1 \/ exists c, In c l /\ In j (code c).
  Lemma steps_same b l : live b -> walk (succs (to_cfg g)) entry (l ++ [b]) b -> forall l2 l1 st, code b = l1 ++ l2 -> good (seen l l1) st ->
    fold_left (fun st i => step2 i st) l2 st = fold_left (fun st i => step1 i st) l2 st /\ good (seen l (code b)) (fold_left (fun st i => step1 i st) l2 st).
  Proof.
    intros Lb W. induction l2 as [|i l2 IH]; intros l1 st Ec G; cbn [fold_left].
    - split; [reflexivity|]. rewrite Ec, app_nil_r. exact G.
    - assert (Ii : In i (code b)) by (rewrite Ec; apply in_or_app; right; left; reflexivity).
      destruct (step_same (seen l l1) i st) as [E G'].
      + exists b. split; [exact Lb|exact Ii].
      + exact G.
      + intros v j Rv (c & Lc & Ic) Rj Pj Gl. exact (Hstrict b c i j v Lb Lc Ii Ic Gl Rv Rj Pj b l1 l2 l Ec W).
      + rewrite E. apply (IH (l1 ++ [i])); [rewrite <- app_assoc; exact Ec|].
        intros v j C Hj Rj Pj [Xj|Xj]; apply (G' v j C Hj Rj Pj).
        * apply in_app_iff in Xj as [Xj|[Xj|[]]]; [left; left; exact Xj|right; congruence].
        * left. right. exact Xj.
  Qed.
  Lemma block_same b l st : live b -> walk (succs (to_cfg g)) entry (l ++ [b]) b -> good (seen l []) st ->
    steps get put effect (computes other (fo_ins s) (fo_init s)) in_memory (fo_ins s) (code b) st = steps get put effect (computes other ins init) in_memory ins (code b) st /\
    good (seen (l ++ [b]) []) (steps get put effect (computes other ins init) in_memory ins (code b) st).
  Proof.
    intros Lb W G. destruct (steps_same b l Lb W (code b) [] st eq_refl G) as [E G']. split; [exact E|].
    intros v j C Hj Rj Pj [[]|(c & Ic & Ij)]. apply (G' v j C Hj Rj Pj). apply in_app_iff in Ic as [Ic|[<-|[]]]; [right; eauto|left; exact Ij].
  Qed.
  Lemma next_same b st : live b -> next_block truth get in_memory (fo_ins s) g code b st = next_block truth get in_memory ins g code b st.
  Proof.
    intros Lb. unfold next_block. destruct (f_shape _ _ _ _ _ _ _ _ F b Lb) as [En Et Ee _|c En Et Ee _|t e l i v En Et Ee Ec B R _].
    - rewrite En, Et. reflexivity.
    - rewrite En. reflexivity.
    - rewrite En, Et, Ee. unfold final. rewrite Ec, rev_app_distr. cbn [rev app hd_error].
      destruct (v_fate _ _ _ _ _ _ V i) as [E _|d a _ Op _ _ _ _ _ _|d a' b' v' _ Op _ _ _ _ _ _ _ _].
      + rewrite E. reflexivity.
      + rewrite Op in B. discriminate.
      + rewrite B in Op. unfold arith_op in Op. intuition discriminate.
  Qed.
  Theorem fold_runs k b l st w : live b -> walk (succs (to_cfg g)) entry (l ++ [b]) b -> good (seen l []) st ->
    (runs truth get put effect (computes other ins init) in_memory ins g code k b st w <->
     runs truth get put effect (computes other (fo_ins s) (fo_init s)) in_memory (fo_ins s) g code k b st w).
  Proof.
    assert (NX : forall b c st, next_block truth get in_memory ins g code b st = Some c -> In c (succs (to_cfg g) b)).
    { clear. intros b c st. unfold next_block, succs. cbn. rewrite !in_app_iff. destruct (e_next g b) as [n|]; [intros E; injection E as <-; cbn; tauto|].
      destruct (e_then g b) as [t|]; [|discriminate]. destruct (e_else g b) as [e|]; [|discriminate]. destruct (final (code b)) as [i|]; [|discriminate].
      destruct (i_rs1 (ins i)); [|discriminate]. destruct (truth _); intros E; injection E as <-; cbn; tauto. }
    revert b l st. induction k as [|k IH]; intros b l st Lb W G; destruct (block_same b l st Lb W G) as [E G'].
    - split; intros R; inversion R as [b' st' N|]; subst.
      + rewrite <- E. apply runs_end. rewrite E, next_same by exact Lb. exact N.
      + rewrite E. apply runs_end. rewrite E, next_same in N by exact Lb. exact N.
    - split; intros R; inversion R as [|k' b' c st' w' N R']; subst.
      + eapply runs_step; [rewrite E, next_same by exact Lb; exact N|]. rewrite E. apply (IH c (l ++ [b])); [| |exact G'|exact R'].
        * eapply reach_step; [exact Lb|]. eapply NX; exact N.
        * eapply walk_step; [exact W|]. eapply NX; exact N.
      + rewrite E in N, R'. rewrite next_same in N by exact Lb. eapply runs_step; [exact N|]. apply (IH c (l ++ [b])); [| |exact G'|exact R'].
        * eapply reach_step; [exact Lb|]. eapply NX; exact N.
        * eapply walk_step; [exact W|]. eapply NX; exact N.
  Qed.
End Sim.
