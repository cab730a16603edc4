(** The dominator tree that build_dom makes, the names solve_globals finds, the phi instructions solve_phi_insertion places. *)
From Verif.Mid Require Import CfgProofs OrderProofs DomProofs DomOrder LiveProofs.
From Verif.Mid Require Export Ssa SsaSpec.

Section Tree.
  Variable succ : nat -> list nat.
  Variable entry : nat.
  Variable r : nat -> Z.
  Variable T : tree.
  Hypothesis W : wf succ entry r T.
  Notation R := (reach succ entry).
  Hypothesis Ts : forall x, R x -> T x <> None.
  (* what holds while the tree is being built *)
  Record part (t : dtree) : Prop := mkpart {
    pa_prev : forall c p, d_prev t c = Some p <-> In c (d_next t p);
    pa_idom : forall c p, d_prev t c = Some p -> c <> entry /\ T c = Some p;
    pa_nodup : forall p, NoDup (d_next t p);
    pa_up : forall c p, d_prev t c = Some p -> p <> entry -> d_prev t p <> None \/ True }.
  Lemma connect_part p c t t' ok : part t -> c <> entry -> T c = Some p -> dom_connect p c t = Some (t', ok) ->
    part t' /\ (forall x, d_prev t x <> None -> d_prev t' x <> None) /\ d_prev t' c <> None.
  Proof.
    intros P Nc E H. unfold dom_connect in H. destruct (d_prev t c) as [q|] eqn:Ep.
    - injection H as <- <-. split; [exact P|]. split; [auto|congruence].
    - destruct (mem c (d_next t p)) eqn:Em.
      + apply mem_In, (pa_prev _ P) in Em. congruence.
      + destruct (_ <? 64)%nat; [|discriminate]. injection H as <- <-. apply mem_not in Em. split; [|split]; cbn [d_prev].
        * constructor; cbn [d_prev d_next]; unfold upd.
          -- intros x q. destruct (Nat.eqb_spec x c) as [->|Nx]; destruct (Nat.eqb_spec q p) as [->|Nq].
             ++ rewrite in_app_iff. cbn [In]. split; auto.
             ++ split; [congruence|]. intros I. apply (pa_prev _ P) in I. congruence.
             ++ rewrite in_app_iff. cbn [In]. rewrite <- (pa_prev _ P). split; [auto|]. intros [I|[I|[]]]; [exact I|congruence].
             ++ apply (pa_prev _ P).
          -- intros x q. destruct (Nat.eqb_spec x c) as [->|Nx]; [intros Q; injection Q as <-; auto|apply (pa_idom _ P)].
          -- intros q. destruct (Nat.eqb_spec q p) as [->|Nq]; [|apply (pa_nodup _ P)].
             apply NoDup_Add with (a := c) (l := d_next t p); [|split; [apply (pa_nodup _ P)|exact Em]].
             rewrite <- (app_nil_r (d_next t p)) at 1. apply Add_app.
          -- auto.
        * intros x. unfold upd. destruct (Nat.eqb x c); [discriminate|auto].
        * rewrite upd_same. discriminate.
  Qed.
  Lemma chain_part n : forall c t t', part t -> R c -> dom_chain n T entry c t = Some t' ->
    part t' /\ (forall x, d_prev t x <> None -> d_prev t' x <> None) /\ (c <> entry -> d_prev t' c <> None).
  Proof.
    induction n as [|n IH]; intros c t t' P Rc H; [discriminate|]. cbn [dom_chain] in H. destruct (Nat.eqb_spec c entry) as [->|Nc].
    - injection H as <-. split; [exact P|]. split; [auto|congruence].
    - destruct (T c) as [p|] eqn:E; [|discriminate]. destruct (dom_connect p c t) as [[t1 ok]|] eqn:E1; [|discriminate].
      destruct (connect_part _ _ _ _ _ P Nc E E1) as (P1 & M1 & C1). destruct ok.
      + destruct (w_up _ _ _ _ W _ _ Nc E) as (Ey & _). destruct (IH _ _ _ P1 (w_reach _ _ _ _ W _ Ey) H) as (P2 & M2 & _).
        split; [exact P2|]. split; [auto|]. intros _. apply M2. exact C1.
      + injection H as <-. split; [exact P1|]. split; [exact M1|]. auto.
  Qed.
  Lemma fold_part n D : (forall b, In b D -> R b) -> forall t t', part t -> fold (bb_build_dom n T entry) D (Some t) = Some t' ->
    part t' /\ (forall x, d_prev t x <> None -> d_prev t' x <> None) /\ (forall b, In b D -> b <> entry -> d_prev t' b <> None).
  Proof.
    induction D as [|b D IH]; intros HD t t' P H.
    - injection H as <-. split; [exact P|]. split; [auto|]. intros b [].
    - unfold fold in H. cbn [fold_left] in H. unfold bb_build_dom at 2 in H. destruct (dom_chain n T entry b t) as [t1|] eqn:E.
      + destruct (chain_part _ _ _ _ P (HD b (or_introl eq_refl)) E) as (P1 & M1 & C1).
        destruct (IH (fun c I => HD c (or_intror I)) _ _ P1 H) as (P2 & M2 & C2). split; [exact P2|]. split; [auto|].
        intros c [<-|I] Nc; auto.
      + exfalso. clear - H. induction D as [|c D IH]; [discriminate|]. exact (IH H).
  Qed.
  Lemma build_dom_ok U fuel g (Hg : succs g = succ) v vis v' vis' t :
    (forall x, R x -> In x U) -> (forall x, R x -> vis x = v) -> (length U <= fuel)%nat ->
    build_dom fuel g T entry v vis = Some (v', vis', t) ->
    v' = v + 1 /\ (forall x, R x -> vis' x = v') /\ (forall p, NoDup (d_next t p)) /\
    forall c p, In c (d_next t p) <-> R c /\ c <> entry /\ T c = Some p.
  Proof.
    intros HU Hv F H. unfold build_dom in H. rewrite Hg in H.
    destruct (traverse_pre_all succ entry U vis v fuel (bb_build_dom fuel T entry) (Some (mkdt (fun _ => []) (fun _ => None))) HU Hv F) as (w & D & E & ND & HD & Hw).
    rewrite E in H. clear E. destruct (fold _ D _) as [t1|] eqn:E; [|discriminate]. injection H as <- <- <-.
    assert (P0 : part (mkdt (fun _ => []) (fun _ => None))).
    { constructor; cbn; auto; [|discriminate|constructor]. intros c p. split; [discriminate|intros []]. }
    destruct (fold_part fuel D (fun b I => proj1 (HD b) I) _ _ P0 E) as (P & _ & C).
    split; [reflexivity|]. split; [exact Hw|]. split; [apply (pa_nodup _ P)|]. intros c p. rewrite <- (pa_prev _ P). split.
    - intros Q. destruct (pa_idom _ P _ _ Q) as [Nc Tc]. split; [|auto]. apply (w_reach _ _ _ _ W). congruence.
    - intros (Rc & Nc & Tc). destruct (d_prev t1 c) as [q|] eqn:Q; [|destruct (C c (proj2 (HD c) Rc) Nc Q)].
      destruct (pa_idom _ P _ _ Q) as [_ Tc']. congruence.
  Qed.
End Tree.

(** ** the shared names and the blocks that write them *)
Section Shared.
  Variable code : nat -> list rinsn.
  Notation plain := (plain_code code).
  Lemma see_rs_names o k h : h_refs (see_rs o k h) = h_refs h /\
    forall x, In x (h_names (see_rs o k h)) <-> In x (h_names h) \/ o = Some x /\ ~ In x k.
  Proof.
    destruct o as [v|]; cbn [see_rs]; [|split; [reflexivity|]; intros x; split; [auto|intros [I|[Q _]]; [auto|discriminate]]].
    destruct (mem v k) eqn:E; cbn [h_names h_refs].
    - apply mem_In in E. split; [reflexivity|]. intros x. split; [auto|]. intros [I|[Q N]]; [auto|]. injection Q as ->. contradiction.
    - apply mem_not in E. split; [reflexivity|]. intros x. rewrite add_In. split; [intros [->|I]; auto|intros [I|[Q _]]; [auto|injection Q as ->; auto]].
  Qed.
  (** reading before writing, not counting the variables in k *)
  Definition exposed' (l : list insn) (k : list nat) (x : nat) : Prop :=
    exists l1 i l2, l = l1 ++ i :: l2 /\ reads i x /\ ~ In x k /\ forall j, In j l1 -> i_rd j <> Some x.
  Lemma see_insns_ok b l : forall k h, 
    (forall x, In x (h_names (see_insns b l k h)) <-> In x (h_names h) \/ exposed' (map r_insn l) k x) /\
    (forall x c, In c (h_refs (see_insns b l k h) x) <-> In c (h_refs h x) \/ c = b /\ exists i, In i (map r_insn l) /\ i_rd i = Some x).
  Proof.
    induction l as [|i l IH]; intros k h; cbn [see_insns map].
    { split; [intros x|intros x c]; split; auto.
      - intros [I|(l1 & j & l2 & Q & _)]; [exact I|]. destruct l1; discriminate.
      - intros [I|(_ & j & [] & _)]. exact I. }
    set (h1 := see_rs _ _ _). assert (H1 : h_refs h1 = h_refs h /\ forall x, In x (h_names h1) <-> In x (h_names h) \/ reads (r_insn i) x /\ ~ In x k).
    { unfold h1. destruct (see_rs_names (i_rs1 (r_insn i)) k h) as [A1 A2]. destruct (see_rs_names (i_rs2 (r_insn i)) k (see_rs (i_rs1 (r_insn i)) k h)) as [B1 B2].
      split; [congruence|]. intros x. rewrite B2, A2. unfold reads. tauto. }
    clearbody h1. destruct H1 as [F1 N1].
    assert (X : forall x, exposed' (r_insn i :: map r_insn l) k x <-> reads (r_insn i) x /\ ~ In x k \/ i_rd (r_insn i) <> Some x /\ exposed' (map r_insn l) k x).
    { intros x. split.
      - intros (l1 & j & l2 & Q & Rd & Nk & U). destruct l1 as [|a l1]; cbn [app] in Q; injection Q as -> ->; [left; auto|].
        right. split; [apply U; left; reflexivity|]. exists l1, j, l2. repeat split; auto. intros m I. apply U. right. exact I.
      - intros [[Rd Nk]|(Nd & l1 & j & l2 & -> & Rd & Nk & U)]; [exists [], (r_insn i), (map r_insn l); repeat split; auto; intros j []|].
        exists (r_insn i :: l1), j, l2. repeat split; auto. intros m [<-|I]; auto. }
    destruct (i_rd (r_insn i)) as [d|] eqn:Ed.
    - destruct (IH (add d k) (ref_add d b h1)) as [I1 I2]. split.
      + intros x. rewrite I1, X. cbn [ref_add h_names]. rewrite N1.
        assert (Y : exposed' (map r_insn l) (add d k) x <-> Some d <> Some x /\ exposed' (map r_insn l) k x).
        { unfold exposed'. setoid_rewrite add_In. split.
          - intros (l1 & j & l2 & Q & Rd & Nk & U). split; [intros Q'; injection Q' as ->; tauto|]. exists l1, j, l2. tauto.
          - intros (Nd & l1 & j & l2 & Q & Rd & Nk & U). exists l1, j, l2. repeat split; auto. intros [->|I]; tauto. }
        rewrite Y. tauto.
      + intros x c. rewrite I2. cbn [ref_add h_refs]. rewrite F1. unfold upd. destruct (Nat.eqb_spec x d) as [->|Nx].
        * rewrite add_In. split.
          -- intros [[->|I]|(-> & j & I & Q)]; [right; split; [reflexivity|]; exists (r_insn i); split; [left; reflexivity|exact Ed]|auto|right; split; [reflexivity|]; exists j; split; [right; exact I|exact Q]].
          -- intros [I|(-> & _)]; auto.
        * split; (intros [I|(-> & j & I & Q)]; [auto|]); right; (split; [reflexivity|]).
          -- exists j. split; [right; exact I|exact Q].
          -- destruct I as [<-|I]; [congruence|]. exists j. auto.
    - destruct (IH k h1) as [I1 I2]. split.
      + intros x. rewrite I1, X, N1. assert (None <> Some x) by discriminate. tauto.
      + intros x c. rewrite I2, F1. split; (intros [I|(-> & j & I & Q)]; [auto|]); right; (split; [reflexivity|]).
        * exists j. split; [right; exact I|exact Q].
        * destruct I as [<-|I]; [congruence|]. exists j. auto.
  Qed.
  Lemma see_nodup b l : forall k h, NoDup (h_names h) -> NoDup (h_names (see_insns b l k h)).
  Proof.
    assert (S : forall o k h, NoDup (h_names h) -> NoDup (h_names (see_rs o k h))) by (intros [v|] k h H; cbn [see_rs]; [destruct (mem v k); [exact H|apply add_NoDup; exact H]|exact H]).
    induction l as [|i l IH]; intros k h H; cbn [see_insns]; [exact H|].
    destruct (i_rd (r_insn i)); apply IH; cbn [ref_add h_names]; apply S, S; exact H.
  Qed.
  Lemma solve_globals_ok U fuel g params entry v vis v' vis' h :
    let R := reach (succs g) entry in
    (forall x, R x -> In x U) -> (forall x, R x -> vis x = v) -> (length U <= fuel)%nat ->
    (forall b i, R b -> In i (plain b) -> i_op i <> OP_unwound_phi) ->
    solve_globals fuel g code params entry v vis = Some (v', vis', h) ->
    v' = v + 1 /\ (forall x, R x -> vis' x = v') /\ NoDup (h_names h) /\
    (forall x, In x (h_names h) <-> exists b, R b /\ exposed (plain b) x) /\
    (forall x b, R b -> defines code b x -> In b (h_refs h x)) /\
    (forall x b, In b (h_refs h x) -> R b /\ defines code b x \/ b = entry /\ In x params).
  Proof.
    intros R HU Hv F Pl H. unfold solve_globals in H. set (h0 := fold_left _ _ _) in H.
    assert (H0 : h_names h0 = [] /\ forall x b, In b (h_refs h0 x) <-> b = entry /\ In x params).
    { unfold h0. assert (A : forall ps h, h_names (fold_left (fun h v => ref_add v entry h) ps h) = h_names h /\
        forall x b, In b (h_refs (fold_left (fun h v => ref_add v entry h) ps h) x) <-> In b (h_refs h x) \/ b = entry /\ In x ps).
      { induction ps as [|p ps IH]; intros h1; cbn [fold_left]; [split; [reflexivity|]; intros x b; split; [auto|intros [I|[_ []]]; exact I]|].
        destruct (IH (ref_add p entry h1)) as [I1 I2]. split; [exact I1|]. intros x b. rewrite I2. cbn [ref_add h_refs In]. unfold upd.
        destruct (Nat.eqb_spec x p) as [->|Nx]; [rewrite add_In|].
        - split; [intros [[->|I]|[-> I]]; auto|intros [I|[-> I]]; auto].
        - split; [intros [I|[-> I]]; auto|intros [I|[-> [->|I]]]; auto; congruence]. }
      destruct (A params (mksh [] (fun _ => []))) as [A1 A2]. split; [exact A1|]. intros x b. rewrite A2. cbn. tauto. }
    destruct (traverse_post_all (succs g) entry U vis v fuel (bb_solve_globals code) h0 HU Hv F) as (w & D & E & ND & HD & Hw).
    rewrite E in H. injection H as <- <- <-. clear E. destruct H0 as [H1 H2].
    assert (A : forall D h, NoDup (h_names h) -> NoDup (h_names (fold (bb_solve_globals code) D h)) /\
      (forall x, In x (h_names (fold (bb_solve_globals code) D h)) <-> In x (h_names h) \/ exists b, In b D /\ exposed' (plain b) [] x) /\
      (forall x c, In c (h_refs (fold (bb_solve_globals code) D h) x) <-> In c (h_refs h x) \/ In c D /\ defines code c x)).
    { clear. induction D as [|b D IH]; intros h N.
      - cbn. split; [exact N|]. split; [intros x; split; [auto|intros [I|(b & [] & _)]; exact I]|intros x c; split; [auto|intros [I|([] & _)]; exact I]].
      - unfold fold. cbn [fold_left]. change (fold_left (fun s b => bb_solve_globals code b s) D ?x) with (fold (bb_solve_globals code) D x).
        unfold bb_solve_globals at 2 4 6. destruct (IH (see_insns b (code b) [] h) (see_nodup _ _ _ _ N)) as (I0 & I1 & I2). split; [exact I0|].
        destruct (see_insns_ok b (code b) [] h) as [S1 S2]. split.
        + intros x. rewrite I1, S1. split.
          * intros [[I|X]|(c & I & X)]; [auto|right; exists b; split; [left; reflexivity|exact X]|right; exists c; split; [right; exact I|exact X]].
          * intros [I|(c & [<-|I] & X)]; [auto|auto|right; eauto].
        + intros x c. rewrite I2, S2. split.
          * intros [[I|(-> & X)]|(I & X)]; [auto|right; split; [left; reflexivity|exact X]|right; split; [right; exact I|exact X]].
          * intros [I|([<-|I] & X)]; [auto|left; right; split; [reflexivity|exact X]|auto]. }
    destruct (A D h0) as (A0 & A1 & A2); [rewrite H1; constructor|]. split; [reflexivity|]. split; [exact Hw|]. split; [exact A0|].
    assert (X : forall b x, R b -> (exposed' (plain b) [] x <-> exposed (plain b) x)).
    { intros b x Rb. split; intros (l1 & i & l2 & E & Rd & U1).
      - exists l1, i, l2. repeat split; auto. intros j I [W _]. exact (proj2 U1 j I W).
      - exists l1, i, l2. repeat split; auto. intros j I W. apply (U1 j I). split; [exact W|]. apply (Pl b); [exact Rb|]. rewrite E. apply in_or_app. auto. }
    split; [|split].
    - intros x. rewrite A1, H1. split.
      + intros [[]|(b & I & Q)]. apply HD in I. exists b. split; [exact I|]. apply X; assumption.
      + intros (b & Rb & Q). right. exists b. split; [apply HD; exact Rb|]. apply X; assumption.
    - intros x b Rb Q. rewrite A2. right. split; [apply HD; exact Rb|exact Q].
    - intros x b I. rewrite A2, H2 in I. destruct I as [I|[I Q]]; [right; exact I|left]. split; [apply HD; exact I|exact Q].
  Qed.
End Shared.

(** ** phi insertion *)
Section Place.
  Variable V : vars.
  Variable in_scope : nat -> nat -> bool.
  Variable declared : nat -> list nat.
  Variable temp : nat -> bool.
  Variable exit : nat.
  Variable df : nat -> list nat.
  Notation ok := (allowed V in_scope declared exit).
  Notation insert_at := (insert_at V in_scope declared temp exit).
  Notation work := (work V in_scope declared temp exit df).
  Definition phi_at (ph : nat -> list phi) (b x : nat) : Prop := In x (map ph_rd (ph b)).
  Lemma has_phi_In x l : has_phi x l = true <-> In x (map ph_rd l).
  Proof. unfold has_phi. rewrite existsb_exists, in_map_iff. split; intros (f & A & B); exists f; [apply Nat.eqb_eq in B|rewrite Nat.eqb_eq]; auto. Qed.
  (** what stays true: phi instructions without operands, one per variable, where allowed *)
  Record placed (ph : nat -> list phi) : Prop := mkpl {
    pl_ops : forall b f, In f (ph b) -> ph_ops f = [];
    pl_nodup : forall b, NoDup (map ph_rd (ph b));
    pl_ok : forall b x, phi_at ph b x -> ok x b = true }.
  Lemma insert_at_ok x : forall dfs wl ph wl' ph', placed ph -> insert_at x dfs wl ph = Some (wl', ph') ->
    placed ph' /\ (exists l, wl' = wl ++ l) /\
    (forall b y, y <> x -> (phi_at ph' b y <-> phi_at ph b y)) /\
    (forall b, phi_at ph b x -> phi_at ph' b x) /\
    (forall b, In b dfs -> ok x b = true -> phi_at ph' b x) /\
    (forall b, phi_at ph' b x -> phi_at ph b x \/ temp x = true \/ In b wl') /\
    (forall b, phi_at ph' b x -> phi_at ph b x \/ In b dfs).
  Proof.
    induction dfs as [|c dfs IH]; intros wl ph wl' ph' P H; cbn [Ssa.insert_at] in H.
    - injection H as <- <-. split; [exact P|]. split; [exists []; symmetry; apply app_nil_r|]. repeat split; auto. intros b [].
    - destruct (negb (ok x c) || has_phi x (ph c)) eqn:E0.
      + destruct (IH _ _ _ _ P H) as (P' & L & O & K & A & B & C). split; [exact P'|]. split; [exact L|]. split; [exact O|]. split; [exact K|].
        split; [|split; [exact B|intros b Q; destruct (C b Q); [auto|right; right; assumption]]].
        intros b [<-|I] Q; [|auto]. apply orb_prop in E0 as [E0|E0]; [rewrite Q in E0; discriminate|]. apply K. apply has_phi_In. exact E0.
      + apply orb_false_iff in E0 as [E1 E2]. apply negb_false_iff in E1. set (ph1 := upd ph c _) in H.
        assert (N : ~ phi_at ph c x) by (intros Q; apply has_phi_In in Q; congruence).
        assert (P1 : placed ph1).
        { constructor; unfold ph1, phi_at; intros b; unfold upd; destruct (Nat.eqb_spec b c) as [->|Nb]; try apply P.
          - intros f [<-|I]; [reflexivity|]. eapply (pl_ops _ P); eauto.
          - cbn [map ph_rd]. constructor; [exact N|apply P].
          - intros y [Q|Q]; [cbn in Q; subst y; exact E1|apply (pl_ok _ P); exact Q]. }
        assert (S1 : phi_at ph1 c x) by (unfold ph1, phi_at; rewrite upd_same; left; reflexivity).
        assert (S2 : forall b y, phi_at ph b y -> phi_at ph1 b y) by (intros b y Q; unfold ph1, phi_at, upd; destruct (Nat.eqb_spec b c) as [->|Nb]; [right; exact Q|exact Q]).
        assert (S3 : forall b y, phi_at ph1 b y -> phi_at ph b y \/ b = c /\ y = x).
        { intros b y. unfold ph1, phi_at, upd. destruct (Nat.eqb_spec b c) as [->|Nb]; [|auto]. intros [Q|Q]; [cbn in Q; auto|auto]. }
        clearbody ph1.
        assert (G : forall wl1, (exists l, wl1 = wl ++ l) -> (temp x = true \/ In c wl1) -> insert_at x dfs wl1 ph1 = Some (wl', ph') ->
          placed ph' /\ (exists l, wl' = wl ++ l) /\
          (forall b y, y <> x -> (phi_at ph' b y <-> phi_at ph b y)) /\
          (forall b, phi_at ph b x -> phi_at ph' b x) /\
          (forall b, In b (c :: dfs) -> ok x b = true -> phi_at ph' b x) /\
          (forall b, phi_at ph' b x -> phi_at ph b x \/ temp x = true \/ In b wl') /\
          (forall b, phi_at ph' b x -> phi_at ph b x \/ In b (c :: dfs))).
        { intros wl1 [l1 ->] C1 H1. destruct (IH _ _ _ _ P1 H1) as (P' & [l ->] & O & K & A & B & C).
          split; [exact P'|]. split; [exists (l1 ++ l); rewrite app_assoc; reflexivity|]. split; [|split; [|split; [|split]]].
          - intros b y Ny. rewrite (O b y Ny). split; [|apply S2]. intros Q. destruct (S3 _ _ Q) as [Q'|[_ Q']]; [exact Q'|contradiction].
          - intros b Q. apply K, S2, Q.
          - intros b [<-|I] Q; [apply K; exact S1|auto].
          - intros b Q. destruct (B b Q) as [Q'|Q']; [|auto]. destruct (S3 _ _ Q') as [Q2|[-> _]]; [auto|]. right. destruct C1 as [C1|C1]; [auto|right; apply in_or_app; left; exact C1].
          - intros b Q. destruct (C b Q) as [Q'|Q']; [|right; right; exact Q']. destruct (S3 _ _ Q') as [Q2|[-> _]]; [auto|right; left; reflexivity]. }
        destruct (temp x || mem c wl) eqn:E3.
        * apply (G wl); [exists []; symmetry; apply app_nil_r| |exact H]. apply orb_prop in E3 as [E3|E3]; [auto|right; apply mem_In; exact E3].
        * destruct (Nat.ltb_spec (length wl) 64) as [L|L]; [|discriminate].
          apply (G (wl ++ [c])); [eexists; reflexivity|right; apply in_or_app; right; left; reflexivity|exact H].
  Qed.
  Lemma work_ok x : forall n i wl ph ph', placed ph -> work n x i wl ph = Some ph' ->
    (forall b, In b (firstn i wl) -> forall c, In c (df b) -> ok x c = true -> phi_at ph c x) ->
    (forall b, phi_at ph b x -> temp x = true \/ In b wl) ->
    placed ph' /\ (forall b y, y <> x -> (phi_at ph' b y <-> phi_at ph b y)) /\
    (forall b, phi_at ph b x -> phi_at ph' b x) /\
    (forall b, In b wl -> forall c, In c (df b) -> ok x c = true -> phi_at ph' c x) /\
    (temp x = false -> forall b, phi_at ph' b x -> forall c, In c (df b) -> ok x c = true -> phi_at ph' c x) /\
    (temp x = true -> forall b, phi_at ph' b x -> phi_at ph b x \/ exists a, In a wl /\ In b (df a)) /\
    (forall b, phi_at ph' b x -> phi_at ph b x \/ exists a, In b (df a)).
  Proof.
    induction n as [|n IH]; intros i wl ph ph' P H Hd Hw; [discriminate|]. cbn [Ssa.work] in H.
    destruct (nth_error wl i) as [b|] eqn:E.
    - destruct (insert_at x (df b) wl ph) as [[wl1 ph1]|] eqn:E1; [|discriminate].
      destruct (insert_at_ok _ _ _ _ _ _ P E1) as (P1 & [l ->] & O & K & A & B & C).
      assert (Li : (i < length wl)%nat) by (apply nth_error_Some; congruence).
      assert (Fi : firstn (S i) (wl ++ l) = firstn i wl ++ [b]).
      { rewrite firstn_app. replace (S i - length wl)%nat with 0%nat by lia. cbn [firstn]. rewrite app_nil_r.
        clear - E. revert i E. induction wl as [|a wl IHl]; intros [|i] E; try discriminate; cbn in *; [congruence|]. f_equal. apply IHl. exact E. }
      destruct (IH (S i) (wl ++ l) ph1 ph' P1 H) as (P2 & O2 & K2 & A2 & B2 & C2 & E2).
      + intros a I c Ic Q. rewrite Fi in I. apply in_app_or in I as [I|[<-|[]]]; [apply K; eapply Hd; eauto|apply A; assumption].
      + intros a Q. destruct (B a Q) as [Q'|[Q'|Q']]; auto. destruct (Hw a Q'); auto. right. apply in_or_app. auto.
      + split; [exact P2|]. split; [intros a y Ny; rewrite (O2 a y Ny); apply O; exact Ny|]. split; [auto|].
        split; [intros a I; apply A2; apply in_or_app; auto|]. split; [exact B2|].
        split; [|intros a Q; destruct (E2 a Q) as [Q'|Q']; [destruct (C a Q'); eauto|eauto]].
        intros Tx. assert (Wl : l = []). { destruct l as [|a l]; [reflexivity|]. exfalso. revert E1 Tx. clear. intros E1 Tx.
          assert (G : forall dfs wl ph wl' ph', insert_at x dfs wl ph = Some (wl', ph') -> wl' = wl).
          { induction dfs as [|c dfs IH]; intros w p w' p' E; cbn [Ssa.insert_at] in E; [injection E as <- <-; reflexivity|].
            destruct (negb _ || _); [eapply IH; eauto|]. rewrite Tx in E. cbn [orb] in E. eapply IH; eauto. }
          apply G in E1. apply (f_equal (@length nat)) in E1. rewrite app_length in E1. cbn in E1. lia. }
        subst l. rewrite app_nil_r in *. intros a Q. destruct (C2 Tx a Q) as [Q'|Q']; [|auto]. destruct (C a Q') as [Q2|Q2]; [auto|].
        right. exists b. split; [eapply nth_error_In; eauto|exact Q2].
    - injection H as <-. assert (Fi : firstn i wl = wl) by (apply firstn_all2, nth_error_None; exact E). rewrite Fi in Hd.
      split; [exact P|]. split; [tauto|]. split; [auto|]. split; [exact Hd|]. split; [|auto].
      intros Tx b Q. destruct (Hw b Q) as [Q'|Q']; [congruence|]. exact (Hd b Q').
  Qed.
  Theorem insertion_ok refs names : NoDup names -> forall ph ph', placed ph -> 
    (forall x b, In x names -> ~ phi_at ph b x) ->
    solve_phi_insertion V in_scope declared temp exit df refs names ph = Some ph' ->
    placed ph' /\ (forall b x, ~ In x names -> (phi_at ph' b x <-> phi_at ph b x)) /\
    forall x, In x names ->
      (forall b, In b (refs x) -> forall c, In c (df b) -> ok x c = true -> phi_at ph' c x) /\
      (temp x = false -> forall b, phi_at ph' b x -> forall c, In c (df b) -> ok x c = true -> phi_at ph' c x) /\
      (temp x = true -> forall b, phi_at ph' b x -> exists a, In a (refs x) /\ In b (df a)) /\
      (forall b, phi_at ph' b x -> exists a, In b (df a)).
  Proof.
    induction names as [|x names IH]; intros ND ph ph' P Hn H; cbn [solve_phi_insertion] in H.
    - injection H as <-. split; [exact P|]. split; [tauto|]. intros x [].
    - destruct (_ <=? 64)%nat; [|discriminate]. destruct (work 65 x 0 (refs x) ph) as [ph1|] eqn:E; [|discriminate].
      apply NoDup_cons_iff in ND as [Nx ND].
      destruct (work_ok x 65 0 (refs x) ph ph1 P E) as (P1 & O & K & A & B & C & D).
      { intros b []. } { intros b Q. destruct (Hn x b (or_introl eq_refl) Q). }
      destruct (IH ND ph1 ph' P1) as (P2 & O2 & D2).
      { intros y b I Q. assert (Ny : y <> x) by congruence. apply (O b y Ny) in Q. exact (Hn y b (or_intror I) Q). } { exact H. }
      split; [exact P2|]. split.
      + intros b y Ny. rewrite O2 by (intros I; apply Ny; right; exact I). apply O. intros ->. apply Ny. left. reflexivity.
      + intros y [<-|I]; [|exact (D2 y I)]. split; [|split; [|split]].
        * intros b I c Ic Q. apply O2; [exact Nx|]. eapply A; eauto.
        * intros Tx b Q c Ic Qc. apply O2; [exact Nx|]. apply O2 in Q; [|exact Nx]. eapply B; eauto.
        * intros Tx b Q. apply O2 in Q; [|exact Nx]. destruct (C Tx b Q) as [Q'|Q']; [|exact Q']. destruct (Hn x b (or_introl eq_refl) Q').
        * intros b Q. apply O2 in Q; [|exact Nx]. destruct (D b Q) as [Q'|Q']; [|exact Q']. destruct (Hn x b (or_introl eq_refl) Q').
  Qed.
End Place.
