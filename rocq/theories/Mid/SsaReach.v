(** A block that cannot be reached but leads to one that can has no immediate dominator; build_df follows that null pointer. *)
From Verif.Mid Require Import CfgProofs OrderProofs DomProofs DomOrder SsaTree.
From Verif.Mid Require Export Ssa SsaSpec.

Section Reach.
  Variable g : cfg.
  Variable entry : nat.
  Notation R := (reach (succs g) entry).
  Lemma df_walk_dead n T bb p d df : T bb = Some d -> T d <> None -> T p = None -> df_walk n T bb (Some p) df = None.
  Proof.
    intros Ed Nd Ep. destruct n as [|n]; [reflexivity|]. cbn [df_walk]. rewrite Ed. cbn [opt_eqb]. destruct (Nat.eqb_spec p d) as [->|_]; [contradiction|].
    rewrite Ep. destruct n; [reflexivity|]. cbn [df_walk]. rewrite Ed. reflexivity.
  Qed.
  Lemma df_all_dead n T bb p d : T bb = Some d -> T d <> None -> T p = None -> forall ps df, In p ps -> df_all n T bb ps df = None.
  Proof.
    intros Ed Nd Ep. induction ps as [|q ps IH]; intros df J; [destruct J|]. cbn [df_all]. destruct J as [->|J].
    - rewrite (df_walk_dead n T bb p d df Ed Nd Ep). reflexivity.
    - destruct (df_walk n T bb (Some q) df); [apply IH; exact J|reflexivity].
  Qed.
  Lemma fold_none n T pl l : CfgProofs.fold (bb_build_df n T pl) l None = None.
  Proof. induction l as [|b l IH]; [reflexivity|exact IH]. Qed.
  Lemma fold_some n T pl b : forall l df, In b l -> CfgProofs.fold (bb_build_df n T pl) l df <> None -> exists df0, df_all n T b (pl b) df0 <> None.
  Proof.
    induction l as [|c l IH]; intros df J H; [destruct J|]. change (CfgProofs.fold (bb_build_df n T pl) (c :: l) df) with (CfgProofs.fold (bb_build_df n T pl) l (bb_build_df n T pl c df)) in H.
    destruct J as [->|J]; [|apply (IH _ J H)]. destruct df as [df|]; [|cbn in H; rewrite fold_none in H; destruct (H eq_refl)].
    exists df. intros E. cbn [bb_build_df] in H. rewrite E, fold_none in H. destruct (H eq_refl).
  Qed.
  (** if ssa_build comes to an end, the predecessors of the blocks it reaches can be reached *)
  Theorem build_reach V in_scope declared temp exit params nvars code blocks fuel n a :
    (forall a b, R a -> R b -> (In a (preds g b) <-> In b (succs g a))) -> (forall b, R b -> In b blocks) ->
    (2 * length blocks < fuel)%nat -> (length blocks * (length blocks + 1) < n)%nat ->
    ssa_build fuel n V in_scope declared temp g entry exit params nvars code = Some a ->
    forall b p, R b -> In p (preds g b) -> R p.
  Proof.
    intros I2 HU F1 F2 H b p Rb Jp. unfold ssa_build in H.
    destruct (order_blocks_ok (succs g) entry blocks (fun _ => 0) 0 (mkorder (fun _ => 0) (fun _ => None) 0) fuel HU (fun _ _ => eq_refl) (fun _ _ => eq_refl) eq_refl ltac:(lia))
      as (v & o & L & E & G & Hv & _).
    assert (LL : (length L <= length blocks)%nat).
    { apply NoDup_incl_length; [apply (go_nodup _ _ _ _ _ _ G)|]. intros x Ix. apply HU. apply (go_all _ _ _ _ _ _ G). exact Ix. }
    change (order_blocks fuel (succs g) entry 0 (fun _ => 0) (mkorder (fun _ => 0) (fun _ => None) 0)) with (build_rpo fuel g entry 0 (fun _ => 0) (mkorder (fun _ => 0) (fun _ => None) 0)) in E.
    rewrite E in H. clear E.
    destruct (ord_solved (succs g) (preds g) entry _ _ _ L G I2 fuel n (fun _ => None) (fun _ => eq_refl)) as (T & E & S); [lia|lia|nia|].
    change (build_idom fuel n g o entry (fun _ => None) = Some T) in E. rewrite E in H. clear E.
    pose proof (fr_wf _ _ _ _ _ S) as W. pose proof (fr_some _ _ _ _ _ S) as Ts.
    destruct (build_dom fuel g T entry (0 + 3) v) as [[[v2 vis2] t]|] eqn:E2; [|discriminate].
    destruct (build_dom_ok (succs g) entry (Cfg.o_rpo o) T W blocks fuel g eq_refl (0 + 3) v v2 vis2 t HU Hv ltac:(lia) E2) as (-> & Hv2 & _ & _). clear E2.
    destruct (build_df fuel g T entry (0 + 3 + 1) vis2 (fun _ => [])) as [[[v3 vis3] df]|] eqn:E3; [|discriminate]. clear H. unfold build_df, frontiers in E3.
    destruct (traverse_post_all (succs g) entry blocks vis2 (0 + 3 + 1) fuel (bb_build_df fuel T (preds g)) (Some (fun _ => [])) HU Hv2 ltac:(lia)) as (vis' & D & E & _ & HD & _).
    rewrite E in E3. destruct (CfgProofs.fold (bb_build_df fuel T (preds g)) D (Some (fun _ => []))) as [df'|] eqn:E4; [|discriminate].
    destruct (fold_some fuel T (preds g) b D (Some (fun _ => []))) as (df0 & Q); [apply HD; exact Rb|rewrite E4; discriminate|].
    destruct (T p) as [x|] eqn:Ep; [apply (w_reach _ _ _ _ W); rewrite Ep; discriminate|].
    destruct (T b) as [d|] eqn:Eb; [|destruct (Ts b Rb Eb)].
    assert (Nd : T d <> None). { destruct (Nat.eq_dec b entry) as [->|Nb]; [rewrite (w_entry _ _ _ _ W) in Eb; assert (d = entry) by congruence; subst d; rewrite (w_entry _ _ _ _ W); discriminate|apply (w_up _ _ _ _ W _ _ Nb Eb)]. }
    destruct Q. apply (df_all_dead fuel T b p d Eb Nd Ep). exact Jp.
  Qed.
End Reach.
