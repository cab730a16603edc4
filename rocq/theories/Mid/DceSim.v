(** The swept function has the same effects. *)
From Verif.Mid Require Import Insn Edges EdgesProofs Graph Dom Dce DceSpec CfgProofs DceProofs DceSweep DceGraph LiveSpec.

Section Sim.
  Context {val world : Type}.
  Variable truth : val -> bool.
  Variable get : world -> nat -> val.
  Variable put : world -> nat -> val -> world.
  Variable effect : nat -> option val -> option val -> world -> world.
  Variable result : nat -> option val -> option val -> world -> val.
  Variable in_memory : nat -> bool.
  Variable ins : nat -> insn.
  Notation value := (value get in_memory).
  Notation step := (step get put effect result in_memory ins).
  Notation steps := (steps get put effect result in_memory ins).
  Notation next_block := (next_block truth get in_memory ins).
  Notation runs := (runs truth get put effect result in_memory ins).
  Notation state := (@state val world).

  Variable u : nat -> bool.
  Variable relevant : nat -> Prop.
  Definition agree (st st' : state) : Prop := snd st = snd st' /\ forall v, relevant v -> in_memory v = false -> fst st v = fst st' v.
  Lemma agree_value st st' v : agree st st' -> relevant v -> value st v = value st' v.
  Proof. intros [W F] R. unfold value. destruct (in_memory v) eqn:M; [congruence|apply F; assumption]. Qed.
  Definition good_insn (i : nat) : Prop :=
    (u i = true -> forall v, reads (ins i) v -> relevant v) /\
    (u i = false -> has_effect (i_op (ins i)) = false /\ forall v, i_rd (ins i) = Some v -> ~ relevant v /\ in_memory v = false).
  Lemma step_kept i st st' : good_insn i -> u i = true -> agree st st' -> agree (step i st) (step i st').
  Proof.
    intros [G _] U A. specialize (G U). unfold step. pose proof A as [W F].
    assert (E1 : option_map (value st) (i_rs1 (ins i)) = option_map (value st') (i_rs1 (ins i))).
    { destruct (i_rs1 (ins i)) as [v|] eqn:E; [|reflexivity]. cbn. f_equal. apply agree_value; [exact A|]. apply G. left. exact E. }
    assert (E2 : option_map (value st) (i_rs2 (ins i)) = option_map (value st') (i_rs2 (ins i))).
    { destruct (i_rs2 (ins i)) as [v|] eqn:E; [|reflexivity]. cbn. f_equal. apply agree_value; [exact A|]. apply G. right. exact E. }
    rewrite E1, E2, W. destruct (i_rd (ins i)) as [v|]; [|split; [reflexivity|exact F]].
    destruct (in_memory v) eqn:M; [split; [reflexivity|exact F]|]. split; [reflexivity|]. cbn. intros x R Mx. unfold upd.
    destruct (Nat.eqb x v); [reflexivity|]. apply F; assumption.
  Qed.
  Lemma step_dropped i st st' : good_insn i -> u i = false -> agree st st' -> agree (step i st) st'.
  Proof.
    intros [_ G] U [W F]. destruct (G U) as [E D]. unfold step. rewrite E. destruct (i_rd (ins i)) as [v|]; [|split; assumption].
    destruct (D v eq_refl) as [NR M]. rewrite M. split; [exact W|]. cbn. intros x R Mx. rewrite upd_other by (intros ->; contradiction). apply F; assumption.
  Qed.
  Lemma steps_agree : forall l st st', (forall i, In i l -> good_insn i) -> agree st st' -> agree (steps l st) (steps (filter u l) st').
  Proof.
    induction l as [|i l IH]; intros st st' G A; [exact A|]. cbn [filter]. unfold steps. cbn [fold_left].
    fold (steps l (step i st)). assert (Gi := G i (or_introl eq_refl)). assert (Gl : forall j, In j l -> good_insn j) by (intros j I; apply G; right; exact I).
    destruct (u i) eqn:U.
    - cbn [fold_left]. apply (IH (step i st) (step i st') Gl). apply step_kept; assumption.
    - apply (IH (step i st) st' Gl). apply step_dropped; assumption.
  Qed.

  Variables (g g' : egraph) (code code' : nat -> list nat).
  Variable own : nat -> nat.
  Variables entry exit : nat.
  Variable ridom : nat -> option nat.
  Variable rdf : nat -> list nat.
  Variable s : dce.
  Let Sc := succs (to_cfg g).
  Let Pr := preds (to_cfg g).
  Hypothesis Hu : u = d_useful s.
  Hypothesis Hrev : forall a b, In a (Pr b) <-> In b (Sc a).
  Hypothesis Hidom : forall b, reach Pr exit b -> b <> exit ->
    exists d, ridom b = Some d /\ reach Pr exit d /\ immediate_dominator Pr exit d b.
  Hypothesis Hrdf : forall x b, In b (rdf x) <-> decides (to_cfg g) exit b x.
  Hypothesis Hexit : Sc exit = [].
  Hypothesis Hcode_exit : code exit = [].
  Hypothesis Hown : forall b i, In i (code b) -> own i = b.
  Hypothesis Hctrl : forall i, d_useful s i = true -> closedC ins code rdf (d_useful s) (own i).
  Hypothesis Hblock : forall i, d_useful s i = true -> d_block s (own i) = true.
  Hypothesis Hinsn : forall b, d_block s b = true -> exists i, d_useful s i = true /\ own i = b.
  Let ok x := reach Sc entry x.
  Hypothesis Hok_exit : forall x, ok x -> reach Pr exit x.
  Hypothesis Hok_shape : forall x, ok x -> shape ins code g x.
  Hypothesis Hgood : forall b i, ok b -> In i (code b) -> good_insn i.
  Hypothesis Hcode' : forall b, ok b -> code' b = filter u (code b).
  Hypothesis Hdrop : forall b, ok b -> drops ins s code b -> redirected ridom exit s g g' b.
  Hypothesis Hsame : forall b, ok b -> ~ drops ins s code b -> same_edges g g' b.

  Lemma idle b st st' : ok b -> d_block s b = false -> agree st st' -> agree (steps (code b) st) st'.
  Proof.
    intros O U A. pose proof (steps_agree (code b) st st' (fun i => Hgood b i O) A) as Q.
    replace (filter u (code b)) with (@nil nat) in Q; [exact Q|]. symmetry.
    assert (H : forall l, incl l (code b) -> filter u l = []).
    { induction l as [|i l IH]; intros I; [reflexivity|]. cbn. destruct (u i) eqn:Ui.
      - rewrite Hu in Ui. pose proof (Hblock i Ui) as Q1. rewrite (Hown b i (I i (or_introl eq_refl))) in Q1. congruence.
      - apply IH. intros x Ix. apply I. right. exact Ix. }
    apply H, incl_refl.
  Qed.
  Lemma next_in b st c : ok b -> next_block g code b st = Some c -> In c (Sc b).
  Proof.
    intros O. unfold next_block, Sc, succs. cbn. destruct (Hok_shape b O) as [En Et Ee _|c' En Et Ee _|t e l i v En Et Ee Ec B R _];
      rewrite En, Et, Ee; try discriminate.
    - intros [= ->]. left. reflexivity.
    - rewrite Ec. unfold final. rewrite rev_app_distr. cbn. rewrite R. destruct (truth _); intros [= <-]; cbn; auto.
  Qed.
  Lemma next_none b st : ok b -> next_block g code b st = None -> b = exit.
  Proof.
    intros O. unfold next_block. destruct (Hok_shape b O) as [En Et Ee _|c' En Et Ee _|t e l i v En Et Ee Ec B R _];
      rewrite ?En, ?Et, ?Ee; try discriminate.
    - intros _. destruct (Nat.eq_dec b exit) as [E|N]; [exact E|]. assert (Q := Hok_exit b O). inversion Q as [|a z c Rz I]; subst; [contradiction|]. apply Hrev in I. unfold Sc in I.
      unfold succs in I. cbn in I. rewrite En, Et, Ee in I. destruct I.
    - rewrite Ec. unfold final. rewrite rev_app_distr. cbn. rewrite R. discriminate.
  Qed.

  Section Skip.
    Variables (b j d : nat).
    Hypothesis Hb : ok b.
    Hypothesis Hbr : drops ins s code b.
    Hypothesis Hj : ridom b = Some j.
    Hypothesis Hd : nearest ridom exit s j d.
    Lemma catch_up : forall n x st w, runs g code n x st w -> forall l p st', trail g b d l p -> p <> d -> In x (Sc p) -> agree st st' ->
      exists m st2, (m <= n)%nat /\ ok d /\ runs g code m d st2 w /\ agree st2 st'.
    Proof.
      intros n x st w R. induction R as [x st E|n x c st w E R IH]; intros l p st' T Np I A.
      - assert (Ox : ok x) by (eapply reach_step; [eapply trail_ok; [|exact Hb|exact T]; intros y z Oy Iy; eapply reach_step; eassumption|exact I]).
        pose proof (trail_step g b d l p x T Np I) as T'. pose proof (next_none x _ Ox E) as Ex. subst x.
        assert (d = exit).
        { exact (trail_exit ins code g exit ridom s Hrev Hidom Hexit ok Hok_exit Hok_shape b j d Hb Hbr Hj Hd _ T'). }
        subst d. exists 0%nat, st. split; [lia|]. split; [exact Ox|]. split; [apply runs_end; exact E|exact A].
      - assert (Ox : ok x) by (eapply reach_step; [eapply trail_ok; [|exact Hb|exact T]; intros y z Oy Iy; eapply reach_step; eassumption|exact I]).
        destruct (Nat.eq_dec x d) as [Ed|Nd].
        + subst x. exists (S n), st. split; [lia|]. split; [exact Ox|]. split; [eapply runs_step; eassumption|exact A].
        + assert (U : d_block s x = false).
          { exact (proj2 (trail_clean ins own code g exit ridom rdf s Hrev Hidom Hrdf Hexit Hown Hctrl Hblock Hinsn ok (fun x c O I => reach_step _ _ _ _ O I) Hok_exit Hok_shape b j d Hb Hbr Hj Hd l p T) Np x I Nd). }
          pose proof (idle x st st' Ox U A) as A'. pose proof (next_in x _ c Ox E) as Ic.
          destruct (IH (x :: l) x st' (trail_step g b d l p x T Np I) Nd Ic A') as (m & st2 & Lm & Od & R2 & A2).
          exists m, st2. split; [lia|]. auto.
    Qed.
  End Skip.

  Lemma final_filter l i : u i = true -> final (filter u (l ++ [i])) = Some i.
  Proof. intros U. rewrite filter_app. cbn. rewrite U. unfold final. rewrite rev_app_distr. reflexivity. Qed.
  Theorem simulation : forall n b st w, runs g code n b st w -> ok b -> forall st', agree st st' -> exists n', runs g' code' n' b st' w.
  Proof.
    induction n as [n IH] using lt_wf_ind. intros b st w R O st' A.
    pose proof (steps_agree (code b) st st' (fun i => Hgood b i O) A) as A1. rewrite <- (Hcode' b O) in A1.
    assert (SE : ~ drops ins s code b -> e_next g' b = e_next g b /\ e_then g' b = e_then g b /\ e_else g' b = e_else g b).
    { intros N. pose proof (Hsame b O N) as Q. split; [exact (Q NEXT)|]. split; [exact (Q THEN)|exact (Q ELSE)]. }
    assert (Go : forall c, n <> 0%nat -> next_block g' code' b (steps (code' b) st') = Some c -> runs g code (Nat.pred n) c (steps (code b) st) w -> ok c ->
      exists n', runs g' code' n' b st' w).
    { intros c Nn E R' Oc. destruct (IH (Nat.pred n) ltac:(lia) c _ w R' Oc _ A1) as (n' & R2). exists (S n'). eapply runs_step; eassumption. }
    inversion R as [b0 st0 E|n0 b0 c st0 w0 E R']; subst.
    - pose proof (next_none b _ O E) as Ex. subst b.
      assert (ND : ~ drops ins s code exit) by (intros (i & F & _); rewrite Hcode_exit in F; discriminate).
      destruct (SE ND) as (E1 & E2 & E3). exists 0%nat. rewrite (proj1 A1). apply runs_end. unfold next_block. rewrite E1, E2, E3.
      unfold Sc, succs in Hexit. cbn in Hexit. destruct (e_next g exit); [discriminate|]. destruct (e_then g exit); [discriminate|reflexivity].
    - cbn [Nat.pred] in Go. pose proof (next_in b _ c O E) as Ic. assert (Oc : ok c) by (eapply reach_step; eassumption).
      destruct (Hok_shape b O) as [En Et Ee _|c' En Et Ee NB|t e l i v En Et Ee Ec B Rs NB].
      + unfold Sc, succs in Ic. cbn in Ic. rewrite En, Et, Ee in Ic. destruct Ic.
      + assert (ND : ~ drops ins s code b) by (intros (i & F & Bi & _); exact (NB i (final_In _ _ F) Bi)).
        destruct (SE ND) as (E1 & E2 & E3). apply (Go c ltac:(discriminate)); [|exact R'|exact Oc].
        unfold next_block in *. rewrite E1, En in *. exact E.
      + destruct (u i) eqn:U.
        * assert (ND : ~ drops ins s code b).
          { intros (i' & F & _ & U'). rewrite Ec in F. unfold final in F. rewrite rev_app_distr in F. injection F as <-. congruence. }
          destruct (SE ND) as (E1 & E2 & E3). apply (Go c ltac:(discriminate)); [|exact R'|exact Oc].
          unfold next_block in E |- *. rewrite E1, E2, E3, En, Et, Ee in *. replace (final (code' b)) with (Some i).
          -- rewrite Rs. rewrite Ec in E at 1. unfold final in E. rewrite rev_app_distr in E. cbn in E. rewrite Rs in E.
             rewrite <- (agree_value _ _ v A1); [exact E|]. destruct (Hgood b i O) as [G _]; [rewrite Ec; apply in_or_app; right; left; reflexivity|].
             apply (G U). left. exact Rs.
          -- rewrite (Hcode' b O), Ec. symmetry. apply final_filter. exact U.
        * assert (D : drops ins s code b).
          { exists i. rewrite Ec. split; [unfold final; rewrite rev_app_distr; reflexivity|]. split; [exact B|]. congruence. }
          destruct (Hdrop b O D) as (j & d & Ej & Nr & E2 & E3 & E1).
          assert (Nd : d <> b).
          { exact (d_not_b ins code g exit ridom s Hidom Hexit ok Hok_exit Hok_shape b j d O D Ej Nr). }
          destruct (catch_up b j d O D Ej Nr _ _ _ _ R' [b] b _ (trail_start g b d) (fun Q => Nd (eq_sym Q)) Ic A1) as (m & st2 & Lm & Od & R2 & A2).
          destruct (Nat.eqb_spec d exit) as [Ed|Ned].
          -- subst d. exists 0%nat. assert (Q : w = snd (steps (code' b) st')).
             { rewrite <- (proj1 A2). inversion R2 as [b1 st1 E4|n1 b1 c1 st1 w1 E4 R3]; subst.
               - rewrite Hcode_exit. reflexivity.
               - pose proof (next_in exit _ c1 Od E4) as I. fold Sc in Hexit. rewrite Hexit in I. destruct I. }
             rewrite Q. apply runs_end. unfold next_block. rewrite E1, E2. reflexivity.
          -- destruct (IH m ltac:(lia) d st2 w R2 Od _ A2) as (n' & R3). exists (S n'). eapply runs_step; [|exact R3].
             unfold next_block. rewrite E1. reflexivity.
  Qed.
End Sim.
