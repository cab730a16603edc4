From Verif.Mid Require Import Insn Edges EdgesProofs Dom Dce DceSpec CfgProofs DceProofs.

Section Sweep.
  Variable ins : nat -> insn.
  Variable ridom : nat -> option nat.
  Variable exit : nat.
  Variable s : dce.

  (** following r_idom from j, the first useful block, or the exit *)
  Inductive nearest : nat -> nat -> Prop :=
  | near_exit : nearest exit exit
  | near_here j : j <> exit -> d_block s j = true -> nearest j j
  | near_up j k d : j <> exit -> d_block s j = false -> ridom j = Some k -> nearest k d -> nearest j d.

  Lemma redirect_spec b : forall n jump g g', redirect ridom exit n (d_block s) b jump g = Done g' ->
    exists j d, jump = Some j /\ nearest j d /\ (d = exit /\ g' = g \/ d <> exit /\ bb_connect g (Some b) (Some d) NEXT = Some g').
  Proof.
    induction n as [|n IH]; intros jump g g' H; [discriminate|]. cbn [redirect] in H. destruct jump as [j|]; [|discriminate].
    destruct (Nat.eqb_spec j exit) as [E|N].
    - subst j. injection H as <-. exists exit, exit. split; [reflexivity|]. split; [apply near_exit|auto].
    - destruct (d_block s j) eqn:U.
      + destruct (bb_connect g (Some b) (Some j) NEXT) as [g1|] eqn:Ec; [|discriminate]. injection H as <-.
        exists j, j. split; [reflexivity|]. split; [apply near_here; assumption|auto].
      + destruct (IH _ _ _ H) as (k & d & E & Nr & Q). exists j, d. split; [reflexivity|]. split; [|exact Q]. eapply near_up; eassumption.
  Qed.
  (** what happens to the edges of a block whose branch is dropped *)
  Definition redirected (g g' : egraph) (b : nat) : Prop :=
    exists j d, ridom b = Some j /\ nearest j d /\ e_then g' b = None /\ e_else g' b = None /\
      e_next g' b = if Nat.eqb d exit then None else Some d.
  Definition same_edges (g g' : egraph) (b : nat) : Prop := forall t, edge g' t b = edge g t b.
  Lemma drop_branch_spec n b g g' t e : linked g -> e_next g b = None -> e_then g b = Some t -> e_else g b = Some e ->
    drop_branch ridom exit n (d_block s) b g = Done g' ->
    linked g' /\ redirected g g' b /\ forall c, c <> b -> same_edges g g' c.
  Proof.
    intros K En Et Ee H. unfold drop_branch in H. rewrite Et in H.
    destruct (bb_disconnect_linked g b THEN t K Et) as (g1 & D1 & K1 & T1 & O1 & _). rewrite D1 in H.
    assert (Ee1 : e_else g1 b = Some e) by (rewrite <- Ee; apply (O1 ELSE b); congruence). rewrite Ee1 in H.
    destruct (bb_disconnect_linked g1 b ELSE e K1 Ee1) as (g2 & D2 & K2 & T2 & O2 & _). rewrite D2 in H.
    assert (En2 : e_next g2 b = None).
    { rewrite <- En. transitivity (e_next g1 b); [apply (O2 NEXT b)|apply (O1 NEXT b)]; congruence. }
    assert (Et2 : e_then g2 b = None) by (rewrite <- T1; apply (O2 THEN b); congruence).
    assert (Same : forall c, c <> b -> same_edges g g2 c).
    { intros c N u. rewrite O2, O1; congruence. }
    destruct (redirect_spec b n (ridom b) g2 g' H) as (j & d & Ej & Nr & [[-> ->]|[Nd Ec]]).
    - split; [exact K2|]. split; [|exact Same]. exists j, exit. rewrite Nat.eqb_refl. auto.
    - destruct (bb_connect_linked g2 b NEXT d g' K2 En2) as (K3 & T3 & O3); [|exact Ec|].
      { intros u. destruct u; cbn; [rewrite En2|rewrite Et2|cbn in T2; rewrite T2]; discriminate. }
      split; [exact K3|]. split.
      + exists j, d. split; [exact Ej|]. split; [exact Nr|]. destruct (Nat.eqb_spec d exit) as [|_]; [contradiction|].
        split; [rewrite <- Et2; apply (O3 THEN b); congruence|]. split; [rewrite <- T2; apply (O3 ELSE b); congruence|exact T3].
      + intros c N u. rewrite O3 by congruence. apply Same. exact N.
  Qed.

  Lemma sweep_insns_code n b : forall l g g' k, sweep_insns ins ridom exit n s b l g = Done (g', k) -> k = filter (d_useful s) l.
  Proof.
    induction l as [|i r IH]; intros g g' k H; cbn [sweep_insns] in H.
    - injection H as _ <-. reflexivity.
    - cbn [filter]. destruct (d_useful s i).
      + apply bind_done in H as ([g1 k1] & E & H). injection H as <- <-. f_equal. eapply IH. exact E.
      + apply bind_done in H as (g1 & E & H). eapply IH. exact H.
  Qed.
  Lemma sweep_insns_keep n b : forall l g g' k, sweep_insns ins ridom exit n s b l g = Done (g', k) ->
    (forall i, In i l -> op ins i = OP_branch -> d_useful s i = true) -> g' = g.
  Proof.
    induction l as [|i r IH]; intros g g' k H A; cbn [sweep_insns] in H.
    - injection H as <- _. reflexivity.
    - destruct (d_useful s i) eqn:U.
      + apply bind_done in H as ([g1 k1] & E & H). injection H as <- _. eapply IH; [exact E|]. intros j I. apply A. right. exact I.
      + destruct (opcode_eq_dec (op ins i) OP_branch) as [B|B]; [rewrite (A i (or_introl eq_refl) B) in U; discriminate|].
        cbn [bind] in H. eapply IH; [exact H|]. intros j I. apply A. right. exact I.
  Qed.
  Lemma sweep_insns_drop n b : forall l i g g' k, sweep_insns ins ridom exit n s b (l ++ [i]) g = Done (g', k) ->
    (forall j, In j l -> op ins j <> OP_branch) -> op ins i = OP_branch -> d_useful s i = false ->
    drop_branch ridom exit n (d_block s) b g = Done g'.
  Proof.
    induction l as [|x l IH]; intros i g g' k H A B U; cbn [sweep_insns app] in H.
    - rewrite U in H. destruct (opcode_eq_dec (op ins i) OP_branch); [|contradiction]. apply bind_done in H as (g1 & E & H).
      injection H as <- _. exact E.
    - destruct (d_useful s x).
      + apply bind_done in H as ([g1 k1] & E & H). injection H as <- _. eapply IH; [exact E| |exact B|exact U]. intros j I. apply A. right. exact I.
      + destruct (opcode_eq_dec (op ins x) OP_branch) as [Bx|Bx]; [destruct (A x (or_introl eq_refl) Bx)|].
        cbn [bind] in H. eapply IH; [exact H| |exact B|exact U]. intros j I. apply A. right. exact I.
  Qed.

  Variable code : nat -> list nat.
  (** a branch ends its block, which then has exactly the edges then_ and else_ *)
  Definition branch_shape (g : egraph) (b : nat) : Prop := forall l1 i l2, code b = l1 ++ i :: l2 -> op ins i = OP_branch ->
    l2 = [] /\ e_next g b = None /\ exists t e, e_then g b = Some t /\ e_else g b = Some e.
  Definition drops (b : nat) : Prop := exists i, final (code b) = Some i /\ op ins i = OP_branch /\ d_useful s i = false.
  Lemma drops_dec b g : branch_shape g b -> drops b \/ (forall i, In i (code b) -> op ins i = OP_branch -> d_useful s i = true).
  Proof.
    intros W. destruct (final (code b)) as [i|] eqn:F.
    - destruct (opcode_eq_dec (op ins i) OP_branch) as [B|B].
      + destruct (d_useful s i) eqn:U.
        * right. intros j I Bj. apply in_split in I as (l1 & l2 & E). destruct (W l1 j l2 E Bj) as (-> & _).
          rewrite E in F. unfold final in F. rewrite rev_app_distr in F. injection F as <-. exact U.
        * left. exists i. auto.
      + right. intros j I Bj. apply in_split in I as (l1 & l2 & E). destruct (W l1 j l2 E Bj) as (-> & _).
        rewrite E in F. unfold final in F. rewrite rev_app_distr in F. injection F as <-. contradiction.
    - right. intros j I. destruct (code b) as [|x l _] using rev_ind; [destruct I|]. unfold final in F. rewrite rev_app_distr in F. discriminate.
  Qed.
  Theorem dce_sweep_spec n : forall order g c g' c', dce_sweep ins ridom exit n s order g c = Done (g', c') ->
    NoDup order -> linked g -> (forall b, In b order -> c b = code b /\ branch_shape g b) ->
    linked g' /\
    (forall b, In b order -> c' b = filter (d_useful s) (code b)) /\ (forall b, ~ In b order -> c' b = c b) /\
    (forall b, In b order -> drops b -> redirected g g' b) /\ (forall b, ~ (In b order /\ drops b) -> same_edges g g' b).
  Proof.
    induction order as [|b r IH]; intros g c g' c' H N K Hc; cbn [dce_sweep] in H.
    - injection H as <- <-. split; [exact K|]. split; [intros ? []|]. split; [reflexivity|]. split; [intros ? []|]. intros ? _ ?. reflexivity.
    - apply bind_done in H as ([g1 k] & E & H). inversion N as [|? ? Nb Nr]; subst.
      destruct (Hc b (or_introl eq_refl)) as [Ec W]. rewrite Ec in E.
      assert (Ek := sweep_insns_code _ _ _ _ _ _ E).
      assert (S1 : linked g1 /\ (drops b -> redirected g g1 b) /\ (~ drops b -> same_edges g g1 b) /\ (forall x, x <> b -> same_edges g g1 x)).
      { destruct (drops_dec b g W) as [D|A].
        - pose proof D as (i & F & B & U). destruct (final_split _ _ F) as (l & El). rewrite El in E.
          destruct (W l i [] El B) as (_ & En & t & e & Et & Ee).
          assert (NB : forall j, In j l -> op ins j <> OP_branch).
          { intros j I Bj. apply in_split in I as (l1 & l2 & Q). destruct (W l1 j (l2 ++ [i])) as (Q' & _);
              [rewrite El, Q, <- app_assoc; reflexivity|exact Bj|]. destruct l2; discriminate. }
          assert (Q := sweep_insns_drop _ _ _ _ _ _ _ E NB B U).
          destruct (drop_branch_spec n b g g1 t e K En Et Ee Q) as (K1 & R1 & O1). split; [exact K1|]. split; [auto|]. split; [contradiction|exact O1].
        - assert (Q := sweep_insns_keep _ _ _ _ _ _ E A). subst g1. split; [exact K|]. split; [|split; intros; intros t; reflexivity].
          intros (i & F & B & U). rewrite (A i (final_In _ _ F) B) in U. discriminate. }
      destruct S1 as (K1 & S2 & S3 & S4).
      destruct (IH g1 (upd c b k) g' c' H Nr K1) as (K2 & H1 & H2 & H3 & H4).
      { intros x Ix. assert (x <> b) by congruence. destruct (Hc x (or_intror Ix)) as [Ex Wx]. split; [rewrite upd_other; assumption|].
        intros l1 i l2 El B. destruct (Wx l1 i l2 El B) as (Q1 & Q2 & t & e & Q3 & Q4). pose proof (S4 x H0) as Sx.
        rewrite (Sx NEXT : e_next g1 x = e_next g x), (Sx THEN : e_then g1 x = e_then g x), (Sx ELSE : e_else g1 x = e_else g x).
        split; [exact Q1|]. split; [exact Q2|]. eauto. }
      assert (Sb : same_edges g1 g' b) by (apply H4; tauto).
      split; [exact K2|]. split; [|split; [|split]].
      + intros x [<-|Ix]; [|apply H1; exact Ix]. rewrite H2 by exact Nb. rewrite upd_same. exact Ek.
      + intros x Nx. rewrite H2 by (intros Ix; apply Nx; right; exact Ix). apply upd_other. intros ->. apply Nx. left. reflexivity.
      + intros x [<-|Ix] D.
        * destruct (S2 D) as (j & d & Q1 & Q2 & Q3 & Q4 & Q5). exists j, d.
          rewrite (Sb NEXT : e_next g' b = e_next g1 b), (Sb THEN : e_then g' b = e_then g1 b), (Sb ELSE : e_else g' b = e_else g1 b). auto.
        * destruct (H3 x Ix D) as (j & d & Q). exists j, d. exact Q.
      + intros x Nx t. destruct (Nat.eq_dec x b) as [->|Ne].
        * rewrite Sb. apply S3. intros D. apply Nx. split; [left; reflexivity|exact D].
        * rewrite (H4 x) by (intros [I D]; apply Nx; split; [right; exact I|exact D]). apply S4. exact Ne.
  Qed.
End Sweep.
