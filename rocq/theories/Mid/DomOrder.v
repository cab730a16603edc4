(** The dominator computation on the order produced by order_blocks, and the frontiers. *)
From Verif.Mid Require Import Cfg Graph CfgProofs OrderProofs Dom DomProofs.

Section Ord.
  Variable succ pl : nat -> list nat.
  Variable head : nat.
  Variables (r : nat -> Z) (next : nat -> option nat) (cnt : Z) (L : list nat).
  Hypothesis G : good_order succ head r next cnt L.
  Hypothesis Hpl : forall a b, reach succ head a -> reach succ head b -> (In a (pl b) <-> In b (succ a)).
  Let N := Z.of_nat (length L).

  Lemma ord_range x : reach succ head x -> 0 < r x <= N.
  Proof.
    intros R. apply (go_all _ _ _ _ _ _ G) in R. apply In_nth_error in R as (i & E). rewrite (go_rpo _ _ _ _ _ _ G i x E).
    assert (i < length L)%nat by (apply nth_error_Some; congruence). unfold N. lia.
  Qed.
  Lemma ord_inj x y : reach succ head x -> reach succ head y -> r x = r y -> x = y.
  Proof.
    intros Rx Ry E. apply (go_all _ _ _ _ _ _ G) in Rx, Ry. apply In_nth_error in Rx as (i & Ei). apply In_nth_error in Ry as (j & Ej).
    rewrite (go_rpo _ _ _ _ _ _ G i x Ei), (go_rpo _ _ _ _ _ _ G j y Ej) in E. assert (i = j) by lia. subst. congruence.
  Qed.
  Lemma ord_par b : reach succ head b -> b <> head -> exists u, reach succ head u /\ In b (succ u) /\ r u < r b.
  Proof.
    intros R Nb. apply (go_all _ _ _ _ _ _ G) in R. destruct (go_parent _ _ _ _ _ _ G b R Nb) as (u & Iu & E & Lt).
    exists u. split; [apply (go_all _ _ _ _ _ _ G); exact Iu|]. auto.
  Qed.
  Lemma ord_inc_gen : forall l k, (forall i b, nth_error l i = Some b -> r b = Z.of_nat (k + i) + 1) -> increasing r l.
  Proof.
    induction l as [|b l IH]; intros k H; cbn; [trivial|]. split.
    - intros y I. apply In_nth_error in I as (i & E). rewrite (H 0%nat b eq_refl), (H (S i) y E). lia.
    - apply (IH (S k)). intros i c E. rewrite (H (S i) c E). lia.
  Qed.
  Lemma ord_rest : exists rest, L = head :: rest /\ chain next (next head) rest.
  Proof. pose proof (go_chain _ _ _ _ _ _ G) as C. inversion C; subst. eauto. Qed.

  Theorem ord_solved fuel n T : (forall x, T x = None) -> 2 * N <= Z.of_nat fuel -> (length L <= fuel)%nat -> N * (N + 1) < Z.of_nat n ->
    exists T', dominators r next pl fuel n head T = Some T' /\ solved succ head r pl T'.
  Proof.
    intros H F1 F2 F3. destruct ord_rest as (rest & E & C).
    refine (dominators_spec succ head r pl N ord_range ord_inj Hpl ord_par next fuel F1 L _ _ rest E C _ F2 n T H F3).
    - intros x. apply (go_all _ _ _ _ _ _ G).
    - apply (go_nodup _ _ _ _ _ _ G).
    - apply (ord_inc_gen L 0). intros i b Eb. rewrite (go_rpo _ _ _ _ _ _ G i b Eb). lia.
  Qed.
  Lemma ord_dominates T : solved succ head r pl T -> forall a x, reach succ head x -> (anc head T a x <-> dominates succ head a x).
  Proof. intros S a x R. apply (solved_dominates succ head r pl Hpl T S a x R). Qed.

  (** the parent in the tree is the immediate dominator *)
  Lemma ord_immediate T : solved succ head r pl T -> T head = Some head /\
    (forall b, ~ reach succ head b -> T b = None) /\
    (forall b, reach succ head b -> b <> head -> exists d, T b = Some d /\ reach succ head d /\ immediate_dominator succ head d b).
  Proof.
    intros S. pose proof S as ([W K J F] & D & M). split; [apply (w_entry _ _ _ _ W)|]. split.
    - intros b NR. destruct (T b) eqn:E; [|reflexivity]. destruct NR. apply (w_reach _ _ _ _ W). congruence.
    - intros b R Nb. destruct (M b R Nb) as (d & E & _). exists d. split; [exact E|].
      destruct (w_up _ _ _ _ W _ _ Nb E) as (Ed & Ld & _). assert (Rd := w_reach _ _ _ _ W d Ed). split; [exact Rd|].
      assert (A : anc head T d b) by (eapply anc_up; [exact Nb|exact E|apply anc_refl]).
      split; [intros ->; lia|]. split; [apply (ord_dominates T S d b R); exact A|].
      intros a Na Da. apply (ord_dominates T S a b R) in Da. apply (ord_dominates T S a d Rd).
      eapply anc_up_inv; eauto.
  Qed.

  (** ** frontiers *)
  Section Frontier.
    Variable T : tree.
    Hypothesis S : solved succ head r pl T.
    Hypothesis Hclosed : forall b p, reach succ head b -> In p (pl b) -> reach succ head p.
    Lemma fr_wf : wf succ head r T.
    Proof. apply S. Qed.
    Lemma fr_some x : reach succ head x -> T x <> None.
    Proof. apply S. Qed.

    Lemma df_walk_spec bb d : reach succ head bb -> T bb = Some d -> forall n p df,
      reach succ head p -> anc head T d p -> r p < Z.of_nat n ->
      exists df', df_walk n T bb (Some p) df = Some df' /\
        forall x b, In b (df' x) <-> In b (df x) \/ (b = bb /\ anc head T x p /\ ~ anc head T x d).
    Proof.
      intros Rb Ed. induction n as [|n IH]; intros p df Rp A Ln; [pose proof (ord_range p Rp); lia|].
      cbn [df_walk]. rewrite Ed. cbn [opt_eqb]. destruct (Nat.eqb_spec p d) as [->|Np].
      - exists df. split; [reflexivity|]. intros x b. split; [auto|]. intros [H|(_ & H1 & H2)]; [exact H|contradiction].
      - destruct (Nat.eq_dec p head) as [->|Nh].
        { destruct Np. symmetry. exact (anc_entry_inv head T d A). }
        destruct (T p) as [y|] eqn:Ep; [|destruct (fr_some p Rp Ep)].
        destruct (w_up _ _ _ _ fr_wf _ _ Nh Ep) as (Ey & Ly & _).
        assert (Ay : anc head T d y) by (eapply anc_up_inv; eauto).
        destruct (IH y (upd df p (df p ++ [bb])) (w_reach _ _ _ _ fr_wf y Ey) Ay ltac:(lia)) as (df' & E & H).
        exists df'. split; [exact E|]. intros x b. rewrite H. unfold upd. destruct (Nat.eqb_spec x p) as [->|Nx].
        + rewrite in_app_iff. cbn [In]. split.
          * intros [[I|[->|[]]]|(-> & Q1 & Q2)]; auto.
            -- right. split; [reflexivity|]. split; [apply anc_refl|]. intros Q. pose proof (anc_le _ _ _ T fr_wf _ _ Q).
               pose proof (anc_le _ _ _ T fr_wf _ _ Ay). lia.
            -- right. split; [reflexivity|]. split; [apply anc_refl|exact Q2].
          * intros [I|(-> & _ & _)]; auto.
        + split; (intros [I|(-> & Q1 & Q2)]; [auto|right; split; [reflexivity|split; [|exact Q2]]]).
          * eapply anc_up; eauto.
          * eapply anc_up_inv; eauto.
    Qed.
    Lemma df_all_spec bb d n : reach succ head bb -> T bb = Some d -> N < Z.of_nat n -> forall ps df,
      (forall p, In p ps -> reach succ head p /\ anc head T d p) ->
      exists df', df_all n T bb ps df = Some df' /\
        forall x b, In b (df' x) <-> In b (df x) \/ (b = bb /\ exists p, In p ps /\ anc head T x p /\ ~ anc head T x d).
    Proof.
      intros Rb Ed Ln. induction ps as [|p ps IH]; intros df H; cbn [df_all].
      - exists df. split; [reflexivity|]. intros x b. split; [auto|]. intros [Q|(_ & p & [] & _)]. exact Q.
      - destruct (H p (or_introl eq_refl)) as [Rp Ap]. pose proof (ord_range p Rp).
        destruct (df_walk_spec bb d Rb Ed n p df Rp Ap ltac:(lia)) as (df1 & -> & H1).
        destruct (IH df1 (fun q I => H q (or_intror I))) as (df2 & -> & H2). exists df2. split; [reflexivity|].
        intros x b. rewrite H2, H1. split.
        + intros [[I|(-> & Q)]|(-> & q & I & Q)]; [auto| |]; right; (split; [reflexivity|]).
          * exists p. split; [left; reflexivity|exact Q].
          * exists q. split; [right; exact I|exact Q].
        + intros [I|(-> & q & [<-|I] & Q)]; [auto|auto|]. right. split; [reflexivity|]. exists q. auto.
    Qed.
    (** the idom of bb is above all its predecessors *)
    Lemma fr_above bb d p : reach succ head bb -> T bb = Some d -> In p (pl bb) -> anc head T d p.
    Proof.
      intros Rb Ed I. assert (Rp := Hclosed bb p Rb I). destruct (Nat.eq_dec bb head) as [->|Nb].
      - rewrite (w_entry _ _ _ _ fr_wf) in Ed. assert (d = head) by congruence. subst d. apply (anc_root succ head r N ord_range T fr_wf). apply fr_some, Rp.
      - destruct (proj2 (proj2 S) bb Rb Nb) as (c & Ec & M). assert (c = d) by congruence. subst c.
        apply (proj1 (M d)); [apply anc_refl|exact I|apply fr_some; exact Rp].
    Qed.
    Definition member (x bb : nat) : Prop := exists d p, T bb = Some d /\ In p (pl bb) /\ anc head T x p /\ ~ anc head T x d.
    Lemma fold_df n : N < Z.of_nat n -> forall P df, (forall b, In b P -> reach succ head b) ->
      exists df', fold (bb_build_df n T pl) P (Some df) = Some df' /\
        forall x b, In b (df' x) <-> In b (df x) \/ (In b P /\ member x b).
    Proof.
      intros Ln. induction P as [|bb P IH]; intros df H.
      - exists df. split; [reflexivity|]. intros x b. split; [auto|]. intros [Q|[[] _]]. exact Q.
      - change (fold (bb_build_df n T pl) (bb :: P) (Some df)) with (fold (bb_build_df n T pl) P (df_all n T bb (pl bb) df)).
        assert (Rb := H bb (or_introl eq_refl)). destruct (T bb) as [d|] eqn:Ed; [|destruct (fr_some bb Rb Ed)].
        destruct (df_all_spec bb d n Rb Ed Ln (pl bb) df) as (df1 & -> & H1).
        { intros p I. split; [apply (Hclosed bb); assumption|apply (fr_above bb); assumption]. }
        destruct (IH df1 (fun b I => H b (or_intror I))) as (df2 & -> & H2). exists df2. split; [reflexivity|].
        intros x b. rewrite H2, H1. split.
        + intros [[I|(-> & p & I & Q)]|[I Q]]; [auto| |].
          * right. split; [left; reflexivity|]. exists d, p. auto.
          * right. split; [right; exact I|exact Q].
        + intros [I|[[<-|I] Q]]; [auto| |auto]. left. right. split; [reflexivity|].
          destruct Q as (d' & p & Ed' & I & Q). assert (d' = d) by congruence. subst d'. exists p. auto.
    Qed.
    Theorem frontiers_spec fuel V vis df : (length L < fuel)%nat -> (forall x, reach succ head x -> vis x = V) ->
      exists vis' df', frontiers fuel succ pl T head V vis df = Some (V + 1, vis', df') /\
        (forall x, reach succ head x -> vis' x = V + 1) /\
        forall x b, In b (df' x) <-> In b (df x) \/ (reach succ head b /\ member x b).
    Proof.
      intros F Hv.
      assert (HU : forall x, reach succ head x -> In x L) by (intros x; apply (go_all _ _ _ _ _ _ G)).
      destruct (dfs succ (V + 1) head L HU fuel head vis []) as (v1 & P & T1 & K1).
      - apply reach_refl.
      - intros x Rx. left. rewrite (Hv x Rx). lia.
      - unfold white. rewrite (Hv head (reach_refl _ _)). lia.
      - unfold wcount. transitivity (length L); [|lia].
        pose proof (filter_le (fun _ => true) (white (V + 1) vis) L (fun _ _ _ => eq_refl)) as Q.
        replace (filter (fun _ => true) L) with L in Q; [exact Q|]. clear. induction L; cbn; congruence.
      - cbn [app] in T1. set (Q := P ++ [head]) in *.
        assert (AllP : forall b, In b Q <-> reach succ head b).
        { intros b. split.
          - intros I. destruct (k_reach _ _ _ _ _ _ K1 b I) as (c & [<-|[]] & Rc). exact Rc.
          - intros Rc. induction Rc as [a|a b c Rc IH E]; [apply in_or_app; right; left; reflexivity|].
            assert (Ib : In b Q) by (apply IH; auto).
            destruct (k_closed _ _ _ _ _ _ K1 b c Ib E) as [I|W]; [exact I|].
            unfold white in W. rewrite (Hv c (reach_step _ _ _ _ Rc E)) in W. lia. }
        destruct (traverse_fold succ (bb_build_df fuel T pl) _ _ _ _ _ _ _ (Some df) T1) as (P1 & E1 & A1). cbn [app] in E1. subst P1.
        destruct (fold_df fuel ltac:(unfold N; lia) Q df (fun b I => proj1 (AllP b) I)) as (df' & E & H).
        exists v1, df'. unfold frontiers. rewrite A1, E. split; [reflexivity|]. split.
        + intros x Rx. rewrite (k_vis _ _ _ _ _ _ K1 x), (Hv x Rx). destruct (in_dec Nat.eq_dec x Q) as [|NQ]; [reflexivity|].
          destruct NQ. apply AllP, Rx.
        + intros x b. rewrite H, AllP. reflexivity.
    Qed.
  End Frontier.
End Ord.
