From Verif.Base Require Import Int32.
From Verif.Ir Require Import Ph2Sem.
From Verif.Mid Require Import Insn Edges EdgesProofs Graph Dom Fold DceSpec FoldSpec CfgProofs LiveSpec.

Lemma fold_arith_spec o l r z : fold_arith o l r = Some (Some z) ->
  (o = OP_add \/ o = OP_sub \/ o = OP_mul \/ o = OP_div \/ o = OP_mod) /\ exists v, c_binop o l r = Some v /\ z = s32 v.
Proof.
  unfold fold_arith, iadd, isub, imul, wrap. destruct o; intros E; try discriminate; (split; [tauto|]); cbn [c_binop];
    try (injection E as <-; eauto).
  - destruct (r =? 0); cbn in E; [discriminate|]. destruct (_ && _); cbn in E; [discriminate|]. injection E as <-. eauto.
  - destruct (r =? 0); cbn in E; [discriminate|]. destruct (_ && _); cbn in E; [discriminate|]. injection E as <-. eauto.
Qed.
Definition arith_op (o : opcode) : Prop := o = OP_add \/ o = OP_sub \/ o = OP_mul \/ o = OP_div \/ o = OP_mod.
Lemma arith_plain o : arith_op o -> plain o = true.
Proof. unfold arith_op. intuition (subst; reflexivity). Qed.

Section Static.
  Variable ins : nat -> insn.
  Variable code : nat -> list nat.
  Variable is_global : nat -> bool.
  Variable live : nat -> Prop.
  Variable init : nat -> Z.
  Definition here (i : nat) : Prop := exists b, live b /\ In i (code b).
  Hypothesis Hsingle : forall i j v, here i -> here j -> i_rd (ins i) = Some v -> i_rd (ins j) = Some v -> is_global v = false ->
    i = j \/ i_op (ins i) = OP_unwound_phi /\ i_op (ins j) = OP_unwound_phi.
  (* constants and results of arithmetic go to temporaries *)
  Hypothesis Hlocal : forall i v, here i -> i_rd (ins i) = Some v -> plain (i_op (ins i)) = true -> i_op (ins i) <> OP_assign -> is_global v = false.

  (** what has become of instruction i: nothing, or a constant with its reason *)
  Inductive fate (s : folding) (i : nat) : Prop :=
  | f_same : fo_ins s i = ins i ->
      (forall d, here i -> i_op (ins i) = OP_load_constant -> i_rd (ins i) = Some d -> fo_init s d = init d) -> fate s i
  | f_copy d a : here i -> i_op (ins i) = OP_assign -> i_rd (ins i) = Some d -> is_global d = false -> i_rs1 (ins i) = Some a ->
      fo_ins s i = mkinsn OP_load_constant (Some d) None (i_rs2 (ins i)) -> fo_const s a = true -> fo_init s d = fo_init s a -> fate s i
  | f_arith d a b v : here i -> arith_op (i_op (ins i)) -> i_rd (ins i) = Some d -> i_rs1 (ins i) = Some a -> i_rs2 (ins i) = Some b ->
      fo_ins s i = mkinsn OP_load_constant (Some d) None None -> fo_const s a = true -> fo_const s b = true ->
      c_binop (i_op (ins i)) (fo_init s a) (fo_init s b) = Some v -> fo_init s d = s32 v -> fate s i.
  Record inv (s : folding) : Prop := mkinv {
    v_fate : forall i, fate s i;
    v_const : forall d, fo_const s d = true -> is_global d = false /\ exists i, here i /\ i_rd (ins i) = Some d /\ plain (i_op (ins i)) = true /\ i_op (fo_ins s i) = OP_load_constant }.

  Lemma fate_rd s i : fate s i -> i_rd (fo_ins s i) = i_rd (ins i).
  Proof. intros [E _|d a _ _ R _ _ E _ _|d a b v _ _ R _ _ E _ _ _ _]; rewrite E; [reflexivity|symmetry; exact R|symmetry; exact R]. Qed.
  Lemma one_def i j v : here i -> here j -> i_rd (ins i) = Some v -> i_rd (ins j) = Some v -> is_global v = false -> plain (i_op (ins i)) = true -> i = j.
  Proof. intros A B C D E F. destruct (Hsingle i j v A B C D E) as [Q|[Q _]]; [exact Q|]. rewrite Q in F. discriminate. Qed.

  (* marking more variables keeps the fates *)
  Lemma fate_mark s i c : (forall v, fo_const s v = true -> c v = true) -> fate s i -> fate (mkfold (fo_ins s) c (fo_init s)) i.
  Proof.
    intros M [E H|d a A1 A2 A3 A4 A5 A6 A7 A8|d a b v A1 A2 A3 A4 A5 A6 A7 A8 A9 A10].
    - apply f_same; assumption.
    - eapply f_copy; eauto.
    - eapply f_arith; eauto.
  Qed.
  (* instruction i, the only definition of d, becomes a constant *)
  Lemma inv_fold s i d z x : inv s -> here i -> i_rd (ins i) = Some d -> is_global d = false -> plain (i_op (ins i)) = true ->
    i_op x = OP_load_constant ->
    fo_ins s i = ins i -> i_op (ins i) <> OP_load_constant ->
    fate (mkfold (upd (fo_ins s) i x) (upd (fo_const s) d true) (upd (fo_init s) d z)) i ->
    inv (mkfold (upd (fo_ins s) i x) (upd (fo_const s) d true) (upd (fo_init s) d z)).
  Proof.
    intros V Hi Rd G P Ox Same NL Fi. set (s' := mkfold _ _ _) in *.
    (* d was not a constant yet *)
    assert (ND : fo_const s d = false).
    { destruct (fo_const s d) eqn:C; [|reflexivity]. destruct (v_const s V d C) as (_ & j & Hj & Rj & _ & Oj).
      rewrite <- (one_def i j d Hi Hj Rd Rj G P), Same in Oj. contradiction. }
    assert (U : forall v, fo_const s v = true -> v <> d) by (intros v C ->; congruence).
    assert (M : forall v, fo_const s v = true -> upd (fo_const s) d true v = true).
    { intros v C. unfold upd. destruct (Nat.eqb v d); [reflexivity|exact C]. }
    split.
    - intros j. destruct (Nat.eq_dec j i) as [->|N]; [exact Fi|].
      assert (RD : forall e, here j -> i_rd (ins j) = Some e -> e <> d).
      { intros e Hj Rj ->. apply N. symmetry. exact (one_def i j d Hi Hj Rd Rj G P). }
      destruct (v_fate s V j) as [E H|e a A1 A2 A3 A4 A5 A6 A7 A8|e a b v A1 A2 A3 A4 A5 A6 A7 A8 A9 A10].
      + apply f_same; cbn; [rewrite upd_other by exact N; exact E|]. intros e Hj Oe Re.
        rewrite upd_other by (apply RD; assumption). apply H; assumption.
      + pose proof (RD e A1 A3). pose proof (U a A7). refine (f_copy s' j e a A1 A2 A3 A4 A5 _ _ _); cbn; rewrite ?upd_other by assumption; auto.
      + pose proof (RD e A1 A3). pose proof (U a A7). pose proof (U b A8).
        refine (f_arith s' j e a b v A1 A2 A3 A4 A5 _ _ _ _ _); cbn; rewrite ?upd_other by assumption; auto.
    - intros v C. cbn in C. unfold upd in C. destruct (Nat.eqb_spec v d) as [Ev|N].
      + subst v. split; [exact G|]. exists i. cbn. rewrite upd_same. auto.
      + destruct (v_const s V v C) as (Gv & j & Hj & Rj & Pj & Oj). split; [exact Gv|]. exists j. split; [exact Hj|]. split; [exact Rj|]. split; [exact Pj|].
        cbn. rewrite upd_other; [exact Oj|]. intros ->. congruence.
  Qed.
  Theorem const_folding_inv p i s r s' : inv s ->
    (forall q d, p = Some q -> i_op (fo_ins s q) = OP_load_constant -> i_rd (fo_ins s q) = Some d -> fo_const s d = true) -> here i ->
    const_folding is_global p i s = Folded r s' -> inv s'.
  Proof.
    intros V Hp Hi E. unfold const_folding in E.
    assert (A : forall r s', eval_const_arithmetic i s = Folded r s' -> inv s').
    { clear E r s'. intros r s' E. unfold eval_const_arithmetic in E.
      destruct (i_rs1 (fo_ins s i)) as [a|] eqn:E1; [|injection E as _ <-; exact V].
      destruct (i_rs2 (fo_ins s i)) as [b|] eqn:E2; [|injection E as _ <-; exact V].
      destruct (fo_const s a) eqn:Ca; [|injection E as _ <-; exact V]. destruct (fo_const s b) eqn:Cb; [|injection E as _ <-; exact V]. cbn [andb] in E.
      destruct (fold_arith _ _ _) as [[z|]|] eqn:Ef; [|discriminate|injection E as _ <-; exact V].
      destruct (i_rd (fo_ins s i)) as [d|] eqn:Rd; [|discriminate]. injection E as _ <-.
      apply fold_arith_spec in Ef as (Op & v & Bv & Ez).
      assert (Same : fo_ins s i = ins i).
      { destruct (v_fate s V i) as [Q _|d' a' _ _ _ _ _ Q _ _|d' a' b' v' _ _ _ _ _ Q _ _ _ _]; [exact Q| |]; rewrite Q in E1; discriminate. }
      rewrite Same in *. pose proof (arith_plain _ Op) as P.
      assert (NA : i_op (ins i) <> OP_assign) by (intros Q; rewrite Q in Op; intuition discriminate).
      assert (NL : i_op (ins i) <> OP_load_constant) by (intros Q; rewrite Q in Op; intuition discriminate).
      pose proof (Hlocal i d Hi Rd P NA) as G.
      assert (ND : fo_const s d = true -> False).
      { intros C. destruct (v_const s V d C) as (_ & j & Hj & Rj & _ & Oj).
        rewrite <- (one_def i j d Hi Hj Rd Rj G P), Same in Oj. contradiction. }
      apply inv_fold; try assumption; try reflexivity.
      assert (Na : a <> d) by (intros ->; auto). assert (Nb : b <> d) by (intros ->; auto).
      refine (f_arith _ i d a b v Hi Op Rd E1 E2 _ _ _ _ _); cbn; rewrite ?upd_same, ?upd_other by assumption; auto. }
    assert (B : forall c, (forall v, fo_const s v = true -> c v = true) ->
       (forall d, c d = true -> fo_const s d = true \/ (is_global d = false /\ exists i, here i /\ i_rd (ins i) = Some d /\ plain (i_op (ins i)) = true /\ i_op (fo_ins s i) = OP_load_constant)) ->
       inv (mkfold (fo_ins s) c (fo_init s))).
    { intros c M H. split; [intros j; apply fate_mark; [exact M|exact (v_fate s V j)]|]. intros d C. cbn in C |- *.
      destruct (H d C) as [Q|Q]; [exact (v_const s V d Q)|exact Q]. }
    unfold mark_const in E. destruct (i_op (fo_ins s i)) eqn:Op; try (exact (A r s' E)).
    - (* assign *)
      destruct (i_rd (fo_ins s i)) as [d|] eqn:Rd; [|discriminate]. destruct (is_global d) eqn:G; [exact (A r s' E)|].
      destruct (i_rs1 (fo_ins s i)) as [a|] eqn:E1; [|discriminate].
      destruct (_ || _) eqn:C; [|exact (A r s' E)]. injection E as _ <-.
      assert (Same : fo_ins s i = ins i).
      { destruct (v_fate s V i) as [Q _|d' a' _ _ _ _ _ Q _ _|d' a' b' v' _ _ _ _ _ Q _ _ _ _]; [exact Q| |]; rewrite Q in Op; discriminate. }
      rewrite Same in *. assert (P : plain (i_op (ins i)) = true) by (rewrite Op; reflexivity).
      assert (NL : i_op (ins i) <> OP_load_constant) by (rewrite Op; discriminate).
      assert (Ca : fo_const s a = true).
      { apply orb_true_iff in C as [C|C]; [exact C|]. destruct p as [q|]; [|discriminate]. apply andb_true_iff in C as [C1 C2].
        destruct (i_rd (fo_ins s q)) as [e|] eqn:Re; [|discriminate]. apply Nat.eqb_eq in C2. subst e. apply (Hp q a eq_refl); [|exact Re].
        unfold op_is in C1. destruct (opcode_eq_dec _ _); [assumption|discriminate]. }
      assert (ND : a <> d).
      { intros ->. destruct (v_const s V d Ca) as (_ & j & Hj & Rj & _ & Oj).
        rewrite <- (one_def i j d Hi Hj Rd Rj G P), Same in Oj. contradiction. }
      apply inv_fold; try assumption; try reflexivity.
      refine (f_copy _ i d a Hi Op Rd G E1 _ _ _); cbn; rewrite ?upd_same, ?upd_other by assumption; auto.
    - (* load_constant *)
      destruct (i_rd (fo_ins s i)) as [d|] eqn:Rd; [|discriminate].
      assert (Es : s' = mkfold (fo_ins s) (upd (fo_const s) d true) (fo_init s)).
      { unfold eval_const_arithmetic in E. cbn [fo_ins fo_const fo_init] in E. rewrite Op in E. cbn [fold_arith] in E.
        destruct (i_rs1 (fo_ins s i)), (i_rs2 (fo_ins s i)); try destruct (_ && _); congruence. }
      rewrite Es. apply B.
      + intros v C. unfold upd. destruct (Nat.eqb v d); [reflexivity|exact C].
      + intros v C. unfold upd in C. destruct (Nat.eqb_spec v d) as [Ev|N]; [|auto]. subst v. right.
        pose proof (fate_rd s i (v_fate s V i)) as Q. rewrite Rd in Q. symmetry in Q.
        assert (K : is_global d = false /\ plain (i_op (ins i)) = true).
        { destruct (v_fate s V i) as [Sm _|d' a' _ Oa R' G' _ _ _ _|d' a' b' v' _ Oa R' _ _ _ _ _ _ _].
          - rewrite Sm in Op. assert (P : plain (i_op (ins i)) = true) by (rewrite Op; reflexivity). split; [|exact P].
            apply (Hlocal i d Hi Q P). rewrite Op. discriminate.
          - split; [congruence|rewrite Oa; reflexivity].
          - pose proof (arith_plain _ Oa) as P. split; [|exact P]. apply (Hlocal i d Hi Q P). intros Z. rewrite Z in Oa. unfold arith_op in Oa. intuition discriminate. }
        destruct K as [K1 K2]. split; [exact K1|]. exists i. auto.
  Qed.
  Lemma const_folding_marks p i s r s' d : const_folding is_global p i s = Folded r s' ->
    i_op (fo_ins s' i) = OP_load_constant -> i_rd (fo_ins s' i) = Some d -> fo_const s' d = true.
  Proof.
    unfold const_folding. intros E.
    assert (A : forall s r s', (forall d, i_op (fo_ins s i) = OP_load_constant -> i_rd (fo_ins s i) = Some d -> fo_const s d = true) ->
       eval_const_arithmetic i s = Folded r s' -> i_op (fo_ins s' i) = OP_load_constant -> i_rd (fo_ins s' i) = Some d -> fo_const s' d = true).
    { clear. intros s r s' H E Op Rd. unfold eval_const_arithmetic in E.
      destruct (i_rs1 (fo_ins s i)) as [a|]; [|injection E as _ <-; auto]. destruct (i_rs2 (fo_ins s i)) as [b|]; [|injection E as _ <-; auto].
      destruct (_ && _); [|injection E as _ <-; auto]. destruct (fold_arith _ _ _) as [[z|]|]; [|discriminate|injection E as _ <-; auto].
      destruct (i_rd (fo_ins s i)) as [e|]; [|discriminate]. injection E as _ <-. cbn in *. rewrite upd_same in Rd. injection Rd as <-. apply upd_same. }
    unfold mark_const in E. destruct (i_op (fo_ins s i)) eqn:Op; try (apply (A s r s'); [congruence|exact E]).
    - destruct (i_rd (fo_ins s i)) as [e|] eqn:Re; [|discriminate]. destruct (is_global e); [apply (A s r s'); [congruence|exact E]|].
      destruct (i_rs1 (fo_ins s i)) as [a|]; [|discriminate]. destruct (_ || _); [|apply (A s r s'); [congruence|exact E]].
      injection E as _ <-. cbn. rewrite upd_same. intros _ Rd. injection Rd as <-. apply upd_same.
    - destruct (i_rd (fo_ins s i)) as [e|] eqn:Re; [|discriminate]. revert E. apply A. cbn. intros d' _ Rd. rewrite Re in Rd. injection Rd as <-. apply upd_same.
  Qed.
  Lemma fold_block_inv : forall l p s r s', inv s ->
    (forall q d, p = Some q -> i_op (fo_ins s q) = OP_load_constant -> i_rd (fo_ins s q) = Some d -> fo_const s d = true) ->
    (forall i, In i l -> here i) -> fold_block is_global p l s = Folded r s' -> inv s'.
  Proof.
    induction l as [|i l IH]; intros p s r s' V Hp Hl E; cbn [fold_block] in E; [injection E as _ <-; exact V|].
    destruct (const_folding is_global p i s) as [c s1| |] eqn:E1; try discriminate.
    apply (IH (Some i) s1 r s').
    - eapply const_folding_inv; [exact V|exact Hp|apply Hl; left; reflexivity|exact E1].
    - intros q d Q. injection Q as <-. eapply const_folding_marks; exact E1.
    - intros j I. apply Hl. right. exact I.
    - exact E.
  Qed.
  Theorem fold_blocks_inv : forall order s r s', inv s -> (forall b, In b order -> live b) -> fold_blocks is_global code order s = Folded r s' -> inv s'.
  Proof.
    induction order as [|b order IH]; intros s r s' V Hl E; cbn [fold_blocks] in E; [injection E as _ <-; exact V|].
    destruct (fold_block is_global None (code b) s) as [c s1| |] eqn:E1; try discriminate. apply (IH s1 r s'); [|intros x I; apply Hl; right; exact I|exact E].
    eapply (fold_block_inv (code b) None s c s1 V); [intros q d Q; discriminate| |exact E1]. intros i I. exists b. split; [apply Hl; left; reflexivity|exact I].
  Qed.
  Lemma inv_start : inv (mkfold ins (fun _ => false) init).
  Proof. split; [intros i; apply f_same; [reflexivity|intros; reflexivity]|intros d C; discriminate]. Qed.
End Static.
