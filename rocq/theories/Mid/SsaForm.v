(** ssa_build puts a function in the form of SsaSim. *)
From Verif.Mid Require Import CfgProofs OrderProofs DomProofs DomOrder SsaTree SsaWalk.
From Verif.Mid Require Export SsaSim.

(** ** unwinding *)
Lemma append_last l i c : append_copy (l ++ [i]) c = if is_branch i then l ++ [c; i] else l ++ [i; c].
Proof.
  induction l as [|a l IH]; [cbn; destruct (is_branch i); reflexivity|]. cbn [app append_copy]. destruct (l ++ [i]) as [|b m] eqn:E; [destruct l; discriminate|].
  rewrite IH. destruct (is_branch i); reflexivity.
Qed.
Definition ended (l before after : list rinsn) : Prop :=
  l = before ++ after /\ (after = [] /\ (forall l1 i, before = l1 ++ [i] -> is_branch i = false) \/ exists i, after = [i] /\ is_branch i = true).
Lemma ended_ex l : exists before after, ended l before after.
Proof.
  destruct l as [|i l _] using rev_ind.
  - exists [], []. split; [reflexivity|]. left. split; [reflexivity|]. intros [|? ?] i Q; discriminate.
  - destruct (is_branch i) eqn:E; [exists l, [i]|exists (l ++ [i]), []].
    + split; [reflexivity|]. right. eauto.
    + split; [symmetry; apply app_nil_r|]. left. split; [reflexivity|]. intros l1 j Q. apply app_inj_tail in Q as [_ <-]. exact E.
Qed.
Lemma append_ended l before after d n : ended l before after -> ended (append_copy l (copy d n)) (before ++ [copy d n]) after.
Proof.
  intros [-> H]. destruct H as [[-> H]|(i & -> & Bi)].
  - rewrite app_nil_r. destruct before as [|i l _] using rev_ind.
    + split; [reflexivity|]. left. split; [reflexivity|]. intros [|? [|? ?]] i Q; try discriminate. injection Q as <-. reflexivity.
    + rewrite append_last, (H l i eq_refl). split; [rewrite app_nil_r, <- app_assoc; reflexivity|]. left. split; [reflexivity|].
      intros l1 j Q. apply app_inj_tail in Q as [_ <-]. reflexivity.
  - rewrite append_last, Bi. split; [rewrite <- app_assoc; reflexivity|]. right. eauto.
Qed.
(** the copies, in the order they are made: block, target, source *)
Definition one_copy (code : nat -> list rinsn) (q : nat * (nat * nat)) : nat -> list rinsn :=
  upd code (fst q) (append_copy (code (fst q)) (copy (fst (snd q)) (snd (snd q)))).
Definition ops_of (f : phi) : list (nat * (nat * nat)) := map (fun o => (fst o, (ph_rd f, snd o))) (ph_ops f).
Definition all_ops (phis : nat -> list phi) (D : list nat) : list (nat * (nat * nat)) := flat_map (fun b => flat_map ops_of (phis b)) D.
Lemma unwind_fold phis D : forall code, fold (bb_unwind_phi phis) D code = fold_left one_copy (all_ops phis D) code.
Proof.
  assert (A : forall f code, unwind_ops (ph_rd f) (ph_ops f) code = fold_left one_copy (ops_of f) code).
  { intros f. unfold unwind_ops, ops_of. induction (ph_ops f) as [|o l IH]; intros code; [reflexivity|]. cbn [map fold_left]. rewrite IH. reflexivity. }
  assert (Bl : forall l code, fold_left (fun code f => unwind_ops (ph_rd f) (ph_ops f) code) l code = fold_left one_copy (flat_map ops_of l) code).
  { induction l as [|f l IH]; intros code; [reflexivity|]. cbn [flat_map fold_left]. rewrite IH, A, fold_left_app. reflexivity. }
  unfold fold, all_ops. induction D as [|b D IH]; intros code; [reflexivity|]. cbn [flat_map fold_left]. rewrite IH, fold_left_app. unfold bb_unwind_phi. rewrite Bl. reflexivity.
Qed.
Definition copies_at (p : nat) (l : list (nat * (nat * nat))) : list (nat * nat) := map snd (filter (fun q => Nat.eqb (fst q) p) l).
Lemma unwound_ok l : forall code p before after, ended (code p) before after ->
  ended (fold_left one_copy l code p) (before ++ map (fun e => copy (fst e) (snd e)) (copies_at p l)) after.
Proof.
  induction l as [|[b [d n]] l IH]; intros code p before after H.
  - cbn. rewrite app_nil_r. exact H.
  - cbn [fold_left]. unfold copies_at. cbn [filter fst]. destruct (Nat.eqb_spec b p) as [->|Nb].
    + cbn [map fst snd]. specialize (IH (one_copy code (p, (d, n))) p (before ++ [copy d n]) after). rewrite <- app_assoc in IH. apply IH.
      unfold one_copy. cbn [fst snd]. rewrite upd_same. apply append_ended. exact H.
    + apply IH. unfold one_copy. cbn [fst]. rewrite upd_other by congruence. exact H.
Qed.
Lemma copies_In p d n phis D : In (d, n) (copies_at p (all_ops phis D)) <-> exists c f, In c D /\ In f (phis c) /\ ph_rd f = d /\ In (p, n) (ph_ops f).
Proof.
  unfold copies_at, all_ops, ops_of. rewrite in_map_iff. split.
  - intros ([b [d' n']] & Q & J). cbn in Q. injection Q as -> ->. apply filter_In in J as [J E]. cbn in E. apply Nat.eqb_eq in E. subst b.
    apply in_flat_map in J as (c & Jc & J). apply in_flat_map in J as (f & Jf & J). apply in_map_iff in J as ([b e] & Q & J). cbn in Q. injection Q as -> <- ->. exists c, f. auto.
  - intros (c & f & Jc & Jf & <- & J). exists (p, (ph_rd f, n)). split; [reflexivity|]. apply filter_In. split; [|cbn; apply Nat.eqb_refl].
    apply in_flat_map. exists c. split; [exact Jc|]. apply in_flat_map. exists f. split; [exact Jf|]. apply in_map_iff. exists (p, n). auto.
Qed.

(** ** parameters *)
Lemma start_params_ok V nvars : forall ps r l r', good nvars r -> NoDup ps -> (forall x, In x ps -> r_cnt r x = 0%nat) -> start_params ps r = Some (l, r') ->
  good nvars r' /\ ext r r' /\ (newly V nvars r r' l /\ forall d, In d l -> (nvars <= d)%nat) /\
  forall x d, top x r' = Some d -> top x r = Some d /\ ~ In x ps \/ exists j, nth_error ps j = Some x /\ nth_error l j = Some d.
Proof.
  induction ps as [|x ps IH]; intros r l r' G Nd C H; cbn [start_params] in H.
  - injection H as <- <-. split; [exact G|]. split; [constructor; auto|]. split; [split; [apply newly_nil|intros d []]|]. intros x d Q. left. auto.
  - destruct (new_version x 0 r) as [[d r1]|] eqn:E; [|discriminate]. destruct (start_params ps r1) as [[l1 r2]|] eqn:E2; [|discriminate]. injection H as <- <-.
    apply NoDup_cons_iff in Nd as [Nx Nd].
    destruct (new_version_ok V nvars x 0 r d r1 G (eq_sym (C x (or_introl eq_refl))) E) as (G1 & X1 & [L1 Nw] & B1 & Gt & _).
    assert (Lo : (nvars <= d)%nat). { clear - E G. unfold new_version in E. destruct (_ && _); [|discriminate]. injection E as <- _. apply (g_low _ _ G). }
    assert (C1 : forall y, In y ps -> r_cnt r1 y = 0%nat).
    { intros y J. unfold new_version in E. destruct (_ && _); [|discriminate]. injection E as _ <-. cbn [r_cnt]. rewrite upd_other by congruence. apply C. right. exact J. }
    destruct (IH _ _ _ G1 Nd C1 E2) as (G2 & X2 & [N2 Lo2] & T2). split; [exact G2|]. split; [refine (ext_trans nvars _ _ _ _ _); eassumption|].
    split; [split; [apply (newly_app V nvars r r1 r2 [d]); [apply (e_num _ _ X1)|apply (e_num _ _ X2)|exact Nw|exact N2]|intros e [<-|J]; auto]|].
    intros y e Q. destruct (T2 y e Q) as [[Q1 Q2]|(j & Q1 & Q2)]; [|right; exists (S j); auto].
    specialize (Gt y). unfold tops in Gt. rewrite Q1 in Gt. destruct (Nat.eqb_spec y x) as [->|Ny].
    + right. exists 0%nat. cbn. split; [reflexivity|congruence].
    + left. split; [congruence|]. intros [Z|Z]; congruence.
Qed.

(** more about the form: versions are made once, the names of a block are those at the end of a dominator *)
Section More.
  Variable V : vars.
  Variable g : cfg.
  Variable entry : nat.
  Variable nvars : nat.
  Variable code : nat -> list rinsn.
  Notation R := (reach (succs g) entry).
  Variable B : nat -> nat.
  Variable code' : nat -> list rinsn.
  Variable ps : list nat.
  Variables Nin Nout : nat -> names.
  Variables O P : nat -> list nat.
  Variable cs : nat -> list (nat * nat).
  Variable ren_code : nat -> list rinsn.           (* the code before the copies are added *)
  Variable L : list nat.
  Record more : Prop := mkmore {
    mo_list : forall c, In c L <-> R c;
    mo_new : NoDup (ps ++ filter (fun d => (nvars <=? d)%nat) (flat_map (fun c => P c ++ targets (ren_code c)) L));
    mo_version : forall d, In d ps \/ (exists c, R c /\ In d (P c)) -> (nvars <= d)%nat;
    mo_low : forall c d, R c -> In d (targets (ren_code c)) -> (d < nvars)%nat -> v_global V d = true;
    mo_ind : forall Q : nat -> Prop, Q entry ->
      (forall c p, R c -> c <> entry -> R p -> p <> c -> dominates (succs g) entry p c -> keeps (Nout p) (Nin c) -> Q p -> Q c) -> forall c, R c -> Q c;
    mo_block : forall c, R c -> exists m1 before after, renp B (Nin c) (O c) (P c) m1 /\ ren V B m1 (code c) (ren_code c) (Nout c) /\
      ren_code c = before ++ after /\ code' c = before ++ map (fun e => copy (fst e) (snd e)) (cs c) ++ after /\ (after = [] \/ exists i, after = [i] /\ is_branch i = true);
    mo_copy : forall p d n, R p -> In (d, n) (cs p) -> exists c, In c (succs g p) /\ In d (P c) }.
End More.

Section Form.
  Variable V : vars.
  Variable in_scope : nat -> nat -> bool.
  Variable declared : nat -> list nat.
  Variable temp : nat -> bool.
  Variable g : cfg.
  Variables entry exit : nat.
  Variable params : list nat.
  Variable nvars : nat.
  Variable code : nat -> list rinsn.
  Notation R := (reach (succs g) entry).
  Notation plain := (plain_code code).
  Notation live_in := (live_in g code).
  Hypothesis I : ssa_shape V g entry exit params nvars code.
  Variable blocks : list nat.
  Hypothesis HU : forall b, R b -> In b blocks.

  Lemma live_exposed x b : R b -> live_in x b -> exists c, R c /\ exposed (plain c) x.
  Proof.
    intros Rb [H|[_ H]]; [eauto|]. induction H as [b c E X|b c E U H IH]; [exists c; split; [eapply reach_step; eassumption|exact X]|].
    apply IH. eapply reach_step; eassumption.
  Qed.
  Lemma plain_end b l1 l2 i : R b -> code b = l1 ++ i :: l2 -> is_branch i = true -> l2 = [].
  Proof.
    intros Rb E Bi. apply branch_op in Bi. pose proof (si_branch _ _ _ _ _ _ _ I b (map r_insn l1) (r_insn i) (map r_insn l2) Rb) as H.
    unfold plain_code in H. rewrite E, map_app in H. specialize (H eq_refl Bi). destruct l2; [reflexivity|discriminate].
  Qed.
  Lemma ren_branch B m l l' m' : ren V B m l l' m' -> map is_branch l' = map is_branch l.
  Proof. induction 1 as [|m i i' m1 l l' m2 H1 H2 IH]; [reflexivity|]. cbn. rewrite IH. f_equal. unfold is_branch, op_is. rewrite (n_op _ _ _ _ _ _ H1). reflexivity. Qed.
  Lemma ren_named B m l l' m' : ren V B m l l' m' -> named B m -> named B m'.
  Proof.
    induction 1 as [m m' K|m i i' m1 l l' m2 H1 H2 IH]; intros Nm; [intros x d; rewrite K; apply Nm|]. apply IH. pose proof (n_rd _ _ _ _ _ _ H1) as D.
    destruct (i_rd (r_insn i)) as [x|]; [destruct (v_global V x)|].
    - destruct D as [_ K]. intros y d. rewrite K. apply Nm.
    - destruct D as (e & _ & Be & K). intros y d. rewrite K. destruct (Nat.eqb_spec y x); [congruence|apply Nm].
    - destruct D as [_ K]. intros y d. rewrite K. apply Nm.
  Qed.
  Lemma ren_keeps B m l l' m' x : ren V B m l l' m' -> (forall i, In i (map r_insn l) -> i_rd i <> Some x) -> m' x = m x.
  Proof.
    induction 1 as [m m' K|m i i' m1 l l' m2 H1 H2 IH]; intros Nd; [apply K|]. rewrite IH by (intros j J; apply Nd; right; exact J).
    pose proof (n_rd _ _ _ _ _ _ H1) as D. pose proof (Nd (r_insn i) (or_introl eq_refl)) as Nx.
    destruct (i_rd (r_insn i)) as [y|]; [destruct (v_global V y)|].
    - apply D.
    - destruct D as (e & _ & _ & K). rewrite K. destruct (Nat.eqb_spec x y); [congruence|reflexivity].
    - apply D.
  Qed.
  Lemma renp_keeps B m l l' m' x : renp B m l l' m' -> ~ In x l -> m' x = m x.
  Proof.
    induction 1 as [m m' K|m y d m1 l l' m2 H0 H1 H2 IH]; intros Nx; [apply K|]. rewrite IH by (intros J; apply Nx; right; exact J).
    rewrite H1. destruct (Nat.eqb_spec x y) as [->|]; [destruct Nx; left; reflexivity|reflexivity].
  Qed.
  Theorem build_form fuel n a : (2 * length blocks < fuel)%nat -> (length blocks * (length blocks + 1) < n)%nat ->
    ssa_build fuel n V in_scope declared temp g entry exit params nvars code = Some a ->
    exists Nin Nout O P cs, form0 V g entry params nvars code (ss_base a) (ss_code a) (ss_params a) Nin Nout O P cs /\
      (ssa_input V in_scope declared temp g entry exit params nvars code -> form V g entry params nvars code (ss_base a) (ss_code a) (ss_params a) Nin Nout O P cs) /\
      exists S L, more V g entry nvars code (ss_base a) (ss_code a) (ss_params a) Nin Nout O P cs S L.
  Proof.
    intros F1 F2 H. unfold ssa_build in H.
    pose proof (si_preds _ _ _ _ _ _ _ I) as Ip. pose proof (si_entry _ _ _ _ _ _ _ I) as Ie.
    assert (I2 : forall a b, R a -> R b -> (In a (preds g b) <-> In b (succs g a))) by (intros p b Ra Rb; rewrite (Ip p b Rb); tauto).
    (* the order, the dominators *)
    destruct (order_blocks_ok (succs g) entry blocks (fun _ => 0) 0 (mkorder (fun _ => 0) (fun _ => None) 0) fuel HU (fun _ _ => eq_refl) (fun _ _ => eq_refl) eq_refl ltac:(lia))
      as (v & o & L & E & G & Hv & _).
    assert (LL : (length L <= length blocks)%nat).
    { apply NoDup_incl_length; [apply (go_nodup _ _ _ _ _ _ G)|]. intros x Ix. apply HU. apply (go_all _ _ _ _ _ _ G). exact Ix. }
    change (order_blocks fuel (succs g) entry 0 (fun _ => 0) (mkorder (fun _ => 0) (fun _ => None) 0)) with (build_rpo fuel g entry 0 (fun _ => 0) (mkorder (fun _ => 0) (fun _ => None) 0)) in E.
    rewrite E in H. clear E.
    destruct (ord_solved (succs g) (preds g) entry _ _ _ L G I2 fuel n (fun _ => None) (fun _ => eq_refl)) as (T & E & S); [lia|lia|nia|].
    change (build_idom fuel n g o entry (fun _ => None) = Some T) in E. rewrite E in H. clear E.
    assert (Cl : forall b p, R b -> In p (preds g b) -> R p) by (intros b p Rb Jp; apply (Ip p b Rb), Jp).
    pose proof (fr_wf _ _ _ _ _ S) as W. pose proof (fr_some _ _ _ _ _ S) as Ts.
    pose proof (ord_dominates (succs g) (preds g) entry _ I2 T S) as Dm.
    pose proof (ord_range (succs g) entry _ _ _ L G) as Rg.
    destruct (build_dom fuel g T entry (0 + 3) v) as [[[v2 vis2] t]|] eqn:E2; [|discriminate].
    destruct (build_dom_ok (succs g) entry (Cfg.o_rpo o) T W blocks fuel g eq_refl (0 + 3) v v2 vis2 t HU Hv ltac:(lia) E2) as (-> & Hv2 & Nk & Kids). clear E2.
    destruct (frontiers_spec (succs g) (preds g) entry _ _ _ L G I2 T S Cl fuel (0 + 3 + 1) vis2 (fun _ => [])) as (vis3 & df & E & Hv3 & Hd); [lia|exact Hv2|].
    change (build_df fuel g T entry (0 + 3 + 1) vis2 (fun _ => []) = Some (0 + 3 + 1 + 1, vis3, df)) in E. rewrite E in H. clear E.
    assert (Df : forall x b, In b (df x) <-> frontier (succs g) entry x b).
    { intros x b. rewrite Hd. unfold member, frontier. cbn [In]. split.
      - intros [[]|(Rb & d & p & Ed & Jp & A & NA)]. destruct (proj1 (Ip p b Rb) Jp) as [Rp Ep]. split.
        + exists p. split; [exact Rp|]. split; [exact Ep|]. apply Dm; assumption.
        + intros [D Nx]. apply NA. apply (Dm x b Rb) in D. eapply anc_up_inv; eauto.
      - intros [(p & Rp & Ep & D) ND]. right. assert (Rb : R b) by (eapply reach_step; eassumption).
        split; [exact Rb|]. assert (Jp : In p (preds g b)) by (apply (Ip p b Rb); auto).
        destruct (Nat.eq_dec b entry) as [->|Nb]; [rewrite Ie in Jp; destruct Jp|].
        destruct (T b) as [d|] eqn:Ed; [|destruct (Ts b Rb Ed)].
        exists d, p. split; [reflexivity|]. split; [exact Jp|]. split; [apply Dm; assumption|].
        intros A. apply ND. split.
        + apply (Dm x b Rb). eapply anc_up; eauto.
        + intros ->. destruct (w_up _ _ _ _ W _ _ Nb Ed) as (_ & Lt & _). pose proof (anc_le _ _ _ T W _ _ A). lia. }
    assert (De : forall x, ~ In entry (df x)).
    { intros x J. rewrite Hd in J. destruct J as [[]|(_ & d & p & _ & Jp & _)]. rewrite Ie in Jp. destruct Jp. }
    (* the shared names *)
    destruct (solve_globals fuel g code params entry (0 + 3 + 1 + 1) vis3) as [[[v4 vis4] h]|] eqn:E4; [|discriminate].
    destruct (solve_globals_ok code blocks fuel g params entry (0 + 3 + 1 + 1) vis3 v4 vis4 h HU Hv3 ltac:(lia) (si_plain _ _ _ _ _ _ _ I) E4) as (-> & Hv4 & Nn & Hnames & Refs1 & Refs2). clear E4.
    destruct (solve_phi_insertion V in_scope declared temp exit df (h_refs h) (h_names h) (fun _ => [])) as [ph|] eqn:E5; [|discriminate].
    destruct (insertion_ok V in_scope declared temp exit df (h_refs h) (h_names h) Nn (fun _ => []) ph) as (Pl & Pout & Pin); [constructor; [intros b f []|intros b; constructor|intros b x []]|intros x b _ []|exact E5|]. clear E5.
    set (O := fun c => map ph_rd (ph c)).
    assert (On : forall c x, In x (O c) -> In x (h_names h)).
    { intros c x J. destruct (in_dec Nat.eq_dec x (h_names h)) as [Q|Q]; [exact Q|]. destruct (proj1 (Pout c x Q) J). }
    assert (HO : forall c x, In x (O c) -> (x < nvars)%nat /\ v_global V x = false).
    { intros c x J. split.
      - apply On, Hnames in J as (b & Rb & (l1 & i & l2 & Q & Rd & _)). apply (si_vars _ _ _ _ _ _ _ I b i x Rb); [rewrite Q; apply in_or_app; right; left; reflexivity|auto].
      - pose proof (pl_ok _ _ _ _ _ Pl c x J) as Q. unfold allowed in Q. apply andb_prop in Q as [_ Q]. destruct (v_global V x); [discriminate|reflexivity]. }
    (* renaming *)
    unfold solve_phi_params in H. set (r0 := mkrn nvars (fun _ => 0%nat) (fun _ => []) (fun _ => []) (fun x => x)) in H.
    destruct (start_params params r0) as [[ps r1]|] eqn:E6; [|discriminate].
    assert (G0 : good nvars r0) by (constructor; cbn; [intros x i d []|intros; constructor|intros x i []|auto]).
    destruct (start_params_ok V nvars params r0 ps r1 G0 (proj1 (si_params _ _ _ _ _ _ _ I)) (fun _ _ => eq_refl) E6) as (G1 & X1 & [Np Lp] & Tp). clear E6.
    destruct (solve_block V g (d_next t) fuel entry (mksst r1 ph code)) as [s|] eqn:E7; [|discriminate].
    assert (Pv : pvars O (mksst r1 ph code)).
    { intros c. cbn [s_rn s_phis]. destruct (g_low _ _ G1) as [Q1 Q2]. split.
      - apply map_ext_in. intros f J. apply Q2. apply (HO c). apply in_map. exact J.
      - intros f J. assert (ph_rd f < nvars)%nat by (apply (HO c); apply in_map; exact J). lia. }
    destruct (solve_block_ok V g (d_next t) T entry (Cfg.o_rpo o) W Kids Nk nvars O code (fun c i x Rc J => si_vars _ _ _ _ _ _ _ I c i x Rc J) HO fuel entry (mksst r1 ph code) s
      (reach_refl _ _) (Ts entry (reach_refl _ _)) G1 Pv (fun c _ _ => conj eq_refl eq_refl) E7) as (L1 & Nin & Nout & Wk). clear E7.
    assert (HL : forall c, In c L1 <-> R c).
    { intros c. split.
      - intros J. apply (w_reach _ _ _ _ W). eapply wk_reach; eassumption.
      - intros Rc. apply (wk_all _ _ _ _ _ _ _ _ _ _ _ _ _ Wk); [apply Ts; exact Rc|]. apply (anc_root (succs g) entry (Cfg.o_rpo o) _ Rg T W). apply Ts. exact Rc. }
    pose proof (wk_delta _ _ _ _ _ _ _ _ _ _ _ _ _ Wk) as Dl.
    set (B := r_base (s_rn s)) in *.
    assert (Ag : agree B (s_rn s)) by (intros d _; reflexivity).
    assert (Bd : forall c, R c -> exists m1, renp B (Nin c) (O c) (map ph_rd (s_phis s c)) m1 /\ ren V B m1 (code c) (s_code s c) (Nout c)).
    { intros c Rc. exact (wk_done _ _ _ _ _ _ _ _ _ _ _ _ _ Wk B Ag c (proj2 (HL c) Rc)). }
    assert (Up : forall c p, R c -> c <> entry -> T c = Some p -> R p /\ keeps (Nout p) (Nin c)).
    { intros c p Rc Nc Ec. destruct (wk_up _ _ _ _ _ _ _ _ _ _ _ _ _ Wk c p (proj2 (HL c) Rc) Nc Ec) as [Q1 Q2]. split; [apply HL; exact Q1|exact Q2]. }
    assert (Ob : forall c, map (fun f => B (ph_rd f)) (s_phis s c) = O c) by (intros c; apply (dl_pv _ _ _ _ _ _ _ _ Dl c)).
    assert (Ops : forall c f, In f (s_phis s c) -> In (B (ph_rd f)) (O c) /\
      (forall p n, In (p, n) (ph_ops f) -> R p /\ In c (succs g p) /\ Nout p (B (ph_rd f)) = Some n) /\
      (forall p, R p -> In c (succs g p) -> exists n, In (p, n) (ph_ops f))).
    { intros c f Jf. split; [rewrite <- Ob; apply (in_map (fun f => B (ph_rd f))); exact Jf|]. apply In_nth_error in Jf as (k & Ek).
      destruct (dl_ops _ _ _ _ _ _ _ _ Dl c k f Ek) as (f0 & x & new & E0 & Ex & Eo & U1 & U2). cbn [s_phis] in E0.
      assert (Bx : B (ph_rd f) = x). { pose proof (map_nth_error (fun f => B (ph_rd f)) k _ Ek) as Z. rewrite Ob, Ex in Z. congruence. }
      rewrite (pl_ops _ _ _ _ _ Pl c f0 (nth_error_In _ _ E0)) in Eo. cbn [app] in Eo. rewrite Eo, Bx. split.
      - intros p d J. destruct (U1 p d J) as (Q1 & Q2 & Q3). split; [apply HL; exact Q1|auto].
      - intros p Rp Jc. apply (U2 p (proj2 (HL p) Rp) Jc). }
    (* unwinding *)
    unfold unwind_phi in H.
    destruct (traverse_pre_all (succs g) entry blocks vis4 (0 + 3 + 1 + 1 + 1) fuel (bb_unwind_phi (s_phis s)) (s_code s) HU Hv4 ltac:(lia)) as (w & D & E & _ & HD & _).
    rewrite E in H. clear E. injection H as <-. cbn [ss_base ss_code ss_params]. fold B. rewrite unwind_fold.
    exists Nin, Nout, O, (fun c => map ph_rd (s_phis s c)), (fun p => copies_at p (all_ops (s_phis s) D)).
    match goal with |- ?A /\ _ => assert (FZ : A) end.
    { constructor.
    - intros x Lx. apply (proj2 (g_low _ _ (dl_good _ _ _ _ _ _ _ _ Dl)) x Lx).
    - intros x d Q. rewrite (wk_root _ _ _ _ _ _ _ _ _ _ _ _ _ Wk) in Q. cbn [s_rn] in Q. destruct (Tp x d Q) as [[Z _]|Z]; [discriminate Z|exact Z].
    - intros c Rc. apply (DomProofs.tree_ind (succs g) entry (Cfg.o_rpo o) _ Rg T W (fun c => named B (Nin c))); [| |apply Ts; exact Rc].
      + intros _ x d Q. rewrite (wk_root _ _ _ _ _ _ _ _ _ _ _ _ _ Wk) in Q. cbn [s_rn] in Q. destruct (top_base nvars r1 x d G1 Q) as [Q1 Q2].
        unfold B. rewrite (e_base _ _ (dl_ext _ _ _ _ _ _ _ _ Dl)) by exact Q2. exact Q1.
      + intros x y Nx Ex Ny. assert (Rx : R x) by (apply (w_reach _ _ _ _ W); congruence). destruct (Up x y Rx Nx Ex) as [Ry K].
        destruct (Bd y Ry) as (m1 & Q1 & Q2). intros z d. rewrite K. apply (ren_named B _ _ _ _ Q2). apply (renp_named B _ _ _ _ Q1). exact Ny.
    - intros c x J. apply (HO c x J).
    - destruct (O entry) as [|x l] eqn:Eo; [reflexivity|exfalso]. assert (J : In x (O entry)) by (rewrite Eo; left; reflexivity).
      destruct (Pin x (On entry x J)) as (_ & _ & _ & Q). destruct (Q entry J) as [b Jb]. exact (De b Jb).
    - intros c Rc. destruct (Bd c Rc) as (m1 & Q1 & Q2). destruct (ended_ex (s_code s c)) as (before & after & En).
      pose proof (unwound_ok (all_ops (s_phis s) D) (s_code s) c before after En) as [Ec _]. destruct En as [E0 En].
      exists m1, before, after. split; [exact Q1|]. split; [rewrite <- E0; exact Q2|]. split; [rewrite Ec, <- app_assoc; reflexivity|]. split.
      + intros i Ji. destruct (is_branch i) eqn:Bi; [exfalso|reflexivity]. apply in_split in Ji as (l1 & l2 & ->).
        pose proof (ren_branch _ _ _ _ _ Q2) as Mb. rewrite E0 in Mb.
        assert (X : exists k1 j k2, code c = k1 ++ j :: k2 /\ is_branch j = true /\ length k2 = length (l2 ++ after)).
        { revert Mb. rewrite <- app_assoc. cbn [app]. generalize (code c). clear - Bi. induction l1 as [|a l1 IH]; intros [|b l] Mb; try discriminate; cbn [app map] in Mb; injection Mb as Z1 Z2.
          - exists [], b, l. split; [reflexivity|]. split; [congruence|]. apply (f_equal (@length bool)) in Z2. rewrite !map_length in Z2. auto.
          - destruct (IH l Z2) as (k1 & j & k2 & -> & Z3 & Z4). exists (b :: k1), j, k2. auto. }
        destruct X as (k1 & j & k2 & Y1 & Y2 & Y3). rewrite (plain_end c k1 k2 j Rc Y1 Y2) in Y3. destruct l2; [|discriminate]. destruct after; [|discriminate].
        destruct En as [[_ En]|(i0 & En & _)]; [|discriminate]. rewrite (En l1 i eq_refl) in Bi. discriminate.
      + destruct En as [[En _]|En]; auto.
    - intros p d m Rp J. apply copies_In in J as (c & f & Jc & Jf & <- & J). destruct (Ops c f Jf) as (Q1 & Q2 & _). split; [apply (Q2 p m J)|apply (HO c _ Q1)].
    - intros p c Rp Jc. rewrite <- Ob. assert (X : forall f, In f (s_phis s c) -> exists m, In (ph_rd f, m) (copies_at p (all_ops (s_phis s) D)) /\ Nout p (B (ph_rd f)) = Some m).
      { intros f Jf. destruct (Ops c f Jf) as (_ & Q2 & Q3). destruct (Q3 p Rp Jc) as [m J]. exists m. split; [|apply (Q2 p m J)].
        apply copies_In. exists c, f. split; [apply HD; eapply reach_step; eassumption|auto]. }
      revert X. clear. generalize (s_phis s c). induction l as [|f l IH]; intros X; cbn [map]; constructor; [apply X; left; reflexivity|apply IH; intros h J; apply X; right; exact J].
    }
    split; [exact FZ|]. split; cycle 1.
    { exists (s_code s), L1. destruct (dl_new _ _ _ _ _ _ _ _ Dl) as [Nw Lw]. constructor.
      - exact HL.
      - pose proof (newly_app V nvars r0 r1 (s_rn s) ps _ (e_num _ _ X1) (e_num _ _ (dl_ext _ _ _ _ _ _ _ _ Dl)) Np Nw) as [Z _ _ _]. rewrite filter_app in Z.
        replace (filter (fun d => (nvars <=? d)%nat) ps) with ps in Z; [exact Z|]. clear - Lp. induction ps as [|d ps IH]; [reflexivity|]. cbn [filter].
        rewrite (proj2 (Nat.leb_le _ _) (Lp d (or_introl eq_refl))). f_equal. apply IH. intros e J. apply Lp. right. exact J.
      - intros d [J|(c & Rc & J)]; [exact (Lp d J)|]. apply in_map_iff in J as (f & <- & J). exact (Lw c f (proj2 (HL c) Rc) J).
      - intros c d Rc J. apply (nw_global _ _ _ _ _ Nw). apply in_flat_map. exists c. split; [apply HL; exact Rc|]. unfold made. apply in_or_app. right. exact J.
      - intros Q Qe Qs c Rc. apply (DomProofs.tree_ind (succs g) entry (Cfg.o_rpo o) _ Rg T W Q); [intros _; exact Qe| |apply Ts; exact Rc].
        intros x y Nx Ex Qy. assert (Rx : R x) by (apply (w_reach _ _ _ _ W); congruence). destruct (Up x y Rx Nx Ex) as [Ry K].
        destruct (w_up _ _ _ _ W _ _ Nx Ex) as (_ & Lt & _).
        apply (Qs x y Rx Nx Ry); [intros ->; lia| |exact K|exact Qy]. apply (Dm y x Rx). eapply anc_up; [exact Nx|exact Ex|apply anc_refl].
      - intros c Rc. destruct (Bd c Rc) as (m1 & Q1 & Q2). destruct (ended_ex (s_code s c)) as (before & after & En).
        pose proof (unwound_ok (all_ops (s_phis s) D) (s_code s) c before after En) as [Ec _]. destruct En as [E0 En].
        exists m1, before, after. split; [exact Q1|]. split; [exact Q2|]. split; [exact E0|]. split; [rewrite Ec, <- app_assoc; reflexivity|]. destruct En as [[En _]|En]; auto.
      - intros p d m Rp J. apply copies_In in J as (c & f & Jc & Jf & <- & J). destruct (Ops c f Jf) as (_ & Q2 & _). exists c. split; [apply (Q2 p m J)|apply in_map; exact Jf]. }
    intros I'. constructor; [exact FZ|].
    - intros p c x Rp Jc Gx Lx No. assert (Rc : R c) by (eapply reach_step; eassumption). assert (Jp : In p (preds g c)) by (apply (Ip p c Rc); auto).
      assert (Nc : c <> entry) by (intros ->; rewrite Ie in Jp; destruct Jp).
      assert (Ok : allowed V in_scope declared exit x c = true).
      { unfold allowed. rewrite (si_scope _ _ _ _ _ _ _ _ _ _ I' c x Rc Nc Gx Lx), Gx. cbn [andb negb].
        rewrite (proj2 (mem_not x (declared c)) (si_declared _ _ _ _ _ _ _ _ _ _ I' c x Rc Nc Gx Lx)). cbn [negb andb].
        destruct (Nat.eqb_spec c exit) as [->|]; [exfalso|reflexivity]. destruct (si_exit _ _ _ _ _ _ _ I) as [Y1 Y2]. unfold SsaSpec.live_in, plain_code in Lx. rewrite Y1 in Lx.
        destruct Lx as [(l1 & i & l2 & Q & _)|[_ Q]]; [destruct l1; discriminate|]. inversion Q; subst; rewrite Y2 in *; contradiction. }
      assert (Jn : In x (h_names h)) by (apply Hnames; apply (live_exposed x c Rc Lx)). destruct (Pin x Jn) as (Pi1 & Pi2 & Pi3 & _).
      destruct (T c) as [d|] eqn:Ed; [|destruct (Ts c Rc Ed)]. destruct (Up c d Rc Nc Ed) as [Rd Kd]. rewrite Kd.
      pose proof (fr_above (succs g) (preds g) entry _ _ _ L G T S Cl c d p Rc Ed Jp) as Ad.
      assert (Chain : forall y, anc entry T d y -> anc entry T y p -> Nout y x = Nout d x).
      { intros y Ay. remember d as dd eqn:Edd in Ay. induction Ay as [|a y y' Ny Ey Ay IH]; intros Ap; subst; [reflexivity|].
        assert (Ry : R y) by (apply (w_reach _ _ _ _ W); congruence). destruct (Up y y' Ry Ny Ey) as [Ry' Ky].
        rewrite <- (IH eq_refl); [|eapply anc_trans; [|exact Ap]; eapply anc_up; [exact Ny|exact Ey|apply anc_refl]].
        destruct (w_up _ _ _ _ W _ _ Ny Ey) as (_ & Ly & _). pose proof (anc_le _ _ _ T W _ _ Ay) as Ld.
        assert (Nd : ~ anc entry T y d) by (intros Z; pose proof (anc_le _ _ _ T W _ _ Z); lia).
        assert (Jf : In c (df y)) by (apply Hd; right; split; [exact Rc|]; exists d, p; auto).
        destruct (Bd y Ry) as (m1 & Q1 & Q2). rewrite (ren_keeps B _ _ _ _ x Q2).
        - rewrite (renp_keeps B _ _ _ _ x Q1); [apply Ky|]. intros Jo. apply No. destruct (temp x) eqn:Tx; [|exact (Pi2 eq_refl y Jo c Jf Ok)].
          destruct (Pi3 eq_refl y Jo) as (a & Ja & Jy). destruct (Refs2 x a Ja) as [[Ra Da]|[-> _]].
          + apply Df in Jy. apply Df in Jf. destruct (si_temp _ _ _ _ _ _ _ _ _ _ I' a y c x Rc Tx Da Jy Jf Lx) as (a' & Ra' & Da' & Fa'). exact (Pi1 a' (Refs1 x a' Ra' Da') c (proj2 (Df a' c) Fa') Ok).
          + apply Df in Jy as [_ Jy]. destruct Jy. split; [intros l Wl; apply (walk_start _ _ _ _ Wl)|congruence].
        - intros i Ji Q. apply No. apply (Pi1 y); [apply Refs1; [exact Ry|exists i; auto]|exact Jf|exact Ok]. }
      symmetry. apply Chain; [exact Ad|apply anc_refl].
  Qed.
End Form.
