From Verif.Mid Require Import Insn Edges EdgesProofs Graph Dom Dce DceSpec CfgProofs DceProofs DceSweep DceGraph DceSim LiveSpec.

Lemma record_block_spec ins : forall l last v,
  (forall j, record_block ins l last v = Some j -> (In j l /\ i_rd (ins j) = Some v) \/ last v = Some j) /\
  ((exists j, In j l /\ i_rd (ins j) = Some v) \/ last v <> None -> record_block ins l last v <> None).
Proof.
  induction l as [|i l IH]; intros last v; unfold record_block; cbn [fold_left].
  - split; [auto|]. intros [(j & [] & _)|H]; exact H.
  - set (last1 := match i_rd (ins i) with Some v => upd last v (Some i) | None => last end). destruct (IH last1 v) as [H1 H2].
    assert (Q : (i_rd (ins i) = Some v /\ last1 v = Some i) \/ (i_rd (ins i) <> Some v /\ last1 v = last v)).
    { unfold last1. destruct (i_rd (ins i)) as [w|] eqn:E; [|right; split; [discriminate|reflexivity]].
      destruct (Nat.eq_dec v w) as [->|N]; [left; split; [reflexivity|apply upd_same]|right; split; [congruence|apply upd_other; exact N]]. }
    split.
    + intros j E. destruct (H1 j E) as [[I R]|E1]; [left; split; [right; exact I|exact R]|].
      destruct Q as [[R Q]|[R Q]]; rewrite Q in E1; [|right; exact E1]. injection E1 as <-. left. split; [left; reflexivity|exact R].
    + intros H. apply H2. destruct Q as [[R Q]|[R Q]]; [right; congruence|]. destruct H as [(j & [<-|I] & Rj)|H]; [contradiction|left; eauto|].
      right. congruence.
Qed.
Lemma record_assign_spec ins code : forall order last v,
  (forall j, record_assign ins code order last v = Some j -> (exists b, In b order /\ In j (code b) /\ i_rd (ins j) = Some v) \/ last v = Some j) /\
  ((exists b j, In b order /\ In j (code b) /\ i_rd (ins j) = Some v) \/ last v <> None -> record_assign ins code order last v <> None).
Proof.
  induction order as [|b order IH]; intros last v; unfold record_assign; cbn [fold_left].
  - split; [auto|]. intros [(b & j & [] & _)|H]; exact H.
  - destruct (IH (record_block ins (code b) last) v) as [H1 H2]. destruct (record_block_spec ins (code b) last v) as [H3 H4]. split.
    + intros j E. destruct (H1 j E) as [(c & I & Q)|E1]; [left; exists c; split; [right; exact I|exact Q]|].
      destruct (H3 j E1) as [[I R]|E2]; [left; exists b; split; [left; reflexivity|auto]|right; exact E2].
    + intros H. apply H2. destruct H as [(c & j & [<-|I] & Q)|H]; [right; apply H4; left; eauto|left; eauto|right; apply H4; right; exact H].
Qed.

Section Facts.
  Variable ins : nat -> insn.
  Variable own : nat -> nat.
  Variable code : nat -> list nat.
  Variable g : egraph.
  Variables entry exit : nat.
  Variables is_global in_memory : nat -> bool.
  Hypothesis F : function_ok ins own code g entry exit is_global in_memory.
  Variable order : list nat.
  Hypothesis Ho : forall b, In b order <-> reach (succs (to_cfg g)) entry b.
  Variable rdf : nat -> list nat.
  Hypothesis Hrdf : forall x b, In b (rdf x) <-> decides (to_cfg g) exit b x.
  Variable ridom : nat -> option nat.
  Hypothesis Hidom : forall b, reach (preds (to_cfg g)) exit b -> b <> exit ->
    exists d, ridom b = Some d /\ reach (preds (to_cfg g)) exit d /\ immediate_dominator (preds (to_cfg g)) exit d b.
  Let last := record_assign ins code order (fun _ => None).
  Variables (n m : nat) (s : dce).
  Hypothesis Hs : dce_blocks ins own code is_global last rdf n order (mkdce (fun _ => false) (fun _ => false) []) = Done s.
  Let u := d_useful s.
  Let live b := reach (succs (to_cfg g)) entry b.

  Lemma fs_ret i v : op ins i = OP_func_ret -> ~ reads (ins i) v.
  Proof. intros E [R|R]; destruct (f_ret _ _ _ _ _ _ _ _ F i E); congruence. Qed.
  Lemma fs_all : inv ins own code last rdf u (d_block s) [] /\
    (forall b l1 i l2, live b -> code b = l1 ++ i :: l2 -> init_useful ins is_global (rev l1) i l2 u).
  Proof.
    destruct (dce_blocks_spec ins own code is_global last rdf (f_own _ _ _ _ _ _ _ _ F) fs_ret n order _ s Hs) as (V & _ & U).
    - split; cbn; discriminate.
    - split; [exact V|]. intros b l1 i l2 L. apply U. apply Ho. exact L.
  Qed.
  Lemma fs_init b i : live b -> In i (code b) ->
    (In (op ins i) [OP_return; OP_write; OP_address_of; OP_unwound_phi; OP_allocat; OP_call; OP_indirect] -> u i = true) /\
    (forall v, i_rd (ins i) = Some v -> is_global v = true -> u i = true).
  Proof.
    intros L I. apply in_split in I as (l1 & l2 & E). destruct (proj2 fs_all b l1 i l2 L E) as (A & B & _). auto.
  Qed.
  Lemma fs_data i v b j : u i = true -> reads (ins i) v -> live b -> In j (code b) -> i_rd (ins j) = Some v -> u j = true.
  Proof.
    intros U R L I W. destruct (is_global v) eqn:G; [apply (proj2 (fs_init b j L I) v W G)|].
    destruct (record_assign_spec ins code order (fun _ => None) v) as [H1 H2]. fold last in H1, H2.
    destruct (last v) as [k|] eqn:E; [|destruct (H2 (or_introl (ex_intro _ b (ex_intro _ j (conj (proj2 (Ho b) L) (conj I W))))) eq_refl)].
    assert (Uk : u k = true). { destruct (v_data _ _ _ _ _ _ _ _ (proj1 fs_all) i U) as [[]|C]. exact (C v k R E). }
    destruct (H1 k eq_refl) as [(c & Ic & Ik & Wk)|Q]; [|discriminate].
    destruct (f_single _ _ _ _ _ _ _ _ F b c j k v L (proj1 (Ho c) Ic) I Ik W Wk G) as [->|[P _]]; [exact Uk|].
    apply (fs_init b j L I). unfold op. rewrite P. cbn. tauto.
  Qed.
  Lemma fs_push b l1 p ps c l2 : live b -> code b = l1 ++ p :: ps ++ c :: l2 ->
    (forall q, In q (p :: ps) -> op ins q = OP_push) -> is_call (op ins c) = true -> u p = true.
  Proof.
    intros L E A C. replace (l1 ++ p :: ps ++ c :: l2) with ((l1 ++ p :: ps) ++ c :: l2) in E by (rewrite <- app_assoc; reflexivity).
    destruct (proj2 fs_all b _ c l2 L E) as (_ & _ & Q). destruct (Q C) as [_ Q2]. apply (Q2 p (rev ps) (rev l1)).
    - rewrite rev_app_distr. cbn [rev]. rewrite <- app_assoc. reflexivity.
    - intros q I. apply A. apply in_app_iff in I as [I|[<-|[]]]; [right; apply in_rev; exact I|left; reflexivity].
  Qed.
  Theorem fs_matters i : matters ins code (to_cfg g) entry exit is_global i -> u i = true.
  Proof.
    induction 1 as [b i L I O|b l1 p ps c l2 L E A C|b l1 c r l2 L E C R|i v b j M IH R L I W|i b a j M IH L I D Fj B].
    - destruct (fs_init b i L I) as [A B]. destruct O as [O|(v & W & G)]; [|eapply B; eassumption].
      apply A. unfold op. cbn in *. intuition.
    - eapply fs_push; eassumption.
    - destruct (proj2 fs_all b l1 c (r :: l2) L E) as (_ & _ & Q). destruct (Q C) as [Q1 _]. exact (Q1 r l2 eq_refl R).
    - eapply fs_data; eassumption.
    - destruct (v_ctrl _ _ _ _ _ _ _ _ (proj1 fs_all) i IH) as [(k & [] & _)|C].
      apply (C a j); [rewrite (f_own _ _ _ _ _ _ _ _ F b i I); apply Hrdf; exact D|rewrite tail_final; exact Fj|exact B].
  Qed.

  Definition relevant (v : nat) : Prop := forall b j, live b -> In j (code b) -> i_rd (ins j) = Some v -> u j = true.
  Lemma fs_memory v : in_memory v = true -> relevant v.
  Proof.
    intros M b j L I W. destruct (f_memory _ _ _ _ _ _ _ _ F v M) as [G|(c & i & Lc & Ic & A & R)]; [apply (proj2 (fs_init b j L I) v W G)|].
    eapply fs_data; [|left; exact R|exact L|exact I|exact W]. apply (fs_init c i Lc Ic). unfold op. rewrite A. cbn. tauto.
  Qed.
  Lemma fs_good b i : live b -> In i (code b) -> good_insn in_memory ins u relevant i.
  Proof.
    intros L I. split.
    - intros U v R c j Lc Ij W. eapply fs_data; eassumption.
    - intros U. destruct (fs_init b i L I) as [A _]. split.
      + unfold op in A. destruct (i_op (ins i)) eqn:E; cbn; try reflexivity; try (rewrite A in U by (cbn; tauto); discriminate).
        apply in_split in I as (l1 & l2 & Ec). destruct (f_push _ _ _ _ _ _ _ _ F b l1 i l2 L Ec E) as (ps & c & l3 & -> & P & C).
        rewrite (fs_push b l1 i ps c l3 L Ec) in U; [discriminate| |exact C]. intros q [<-|Iq]; [exact E|apply P; exact Iq].
      + intros v W. assert (NR : ~ relevant v) by (intros R; rewrite (R b i L I W) in U; discriminate). split; [exact NR|].
        destruct (in_memory v) eqn:M; [|reflexivity]. destruct (NR (fs_memory v M)).
  Qed.
  Lemma fs_branch_shape b : live b -> branch_shape ins code g b.
  Proof.
    intros L l1 i l2 E B. assert (I : In i (code b)) by (rewrite E; apply in_or_app; right; left; reflexivity).
    destruct (f_shape _ _ _ _ _ _ _ _ F b L) as [_ _ _ N|c _ _ _ N|t e l k v En Et Ee Ec Bk _ N]; try (destruct (N i I B)).
    split; [|eauto]. rewrite Ec in E. destruct l2 as [|x l2' _] using rev_ind; [reflexivity|]. exfalso.
    replace (l1 ++ i :: l2' ++ [x]) with ((l1 ++ i :: l2') ++ [x]) in E by (rewrite <- app_assoc; reflexivity).
    apply app_inj_tail in E as [E _]. apply (N i); [rewrite E; apply in_or_app; right; left; reflexivity|exact B].
  Qed.
  Hypothesis Hnd : NoDup order.
  Variables (g' : egraph) (code' : nat -> list nat).
  Hypothesis Hsw : dce_sweep ins ridom exit m s order g code = Done (g', code').
  Lemma fs_sweep : linked g' /\ (forall b, live b -> code' b = filter u (code b)) /\
    (forall b, live b -> drops ins s code b -> redirected ridom exit s g g' b) /\ (forall b, ~ (live b /\ drops ins s code b) -> same_edges g g' b).
  Proof.
    destruct (dce_sweep_spec ins ridom exit s code m order g code g' code' Hsw Hnd (f_links _ _ _ _ _ _ _ _ F)) as (K & A & _ & C & D).
    - intros b I. split; [reflexivity|]. apply fs_branch_shape. apply Ho. exact I.
    - split; [exact K|]. split; [intros b L; apply A, Ho, L|]. split; [intros b L; apply C, Ho, L|].
      intros b N. apply D. intros [I Q]. apply N. split; [apply Ho; exact I|exact Q].
  Qed.
  Lemma fs_reverse a b : reach (succs (to_cfg g)) a b -> reach (preds (to_cfg g)) b a.
  Proof.
    intros R. induction R as [x|x y z R IH E]; [apply reach_refl|]. eapply reach_front; [|exact IH].
    apply (linked_edges g y z (f_links _ _ _ _ _ _ _ _ F)). exact E.
  Qed.

  Lemma fs_simulation {val world : Type} (truth : val -> bool) get put effect result k b st (w : world) :
    runs truth get put effect result in_memory ins g code k b st w -> live b ->
    exists k', runs truth get put effect result in_memory ins g' code' k' b st w.
  Proof.
    intros R L. destruct fs_sweep as (_ & S1 & S2 & S3). destruct fs_all as [V _].
    eapply (simulation truth get put effect result in_memory ins u relevant g g' code code' own entry exit ridom rdf s eq_refl).
    - intros x y. apply linked_edges. exact (f_links _ _ _ _ _ _ _ _ F).
    - exact Hidom.
    - exact Hrdf.
    - exact (proj1 (f_exit _ _ _ _ _ _ _ _ F)).
    - exact (proj2 (f_exit _ _ _ _ _ _ _ _ F)).
    - exact (f_own _ _ _ _ _ _ _ _ F).
    - intros i U. destruct (v_ctrl _ _ _ _ _ _ _ _ V i U) as [(j & [] & _)|C]. exact C.
    - exact (v_block _ _ _ _ _ _ _ _ V).
    - exact (v_insn _ _ _ _ _ _ _ _ V).
    - intros x Lx. apply fs_reverse. exact (f_leads _ _ _ _ _ _ _ _ F x Lx).
    - exact (f_shape _ _ _ _ _ _ _ _ F).
    - exact fs_good.
    - exact S1.
    - exact S2.
    - intros x Lx N. apply S3. tauto.
    - exact R.
    - exact L.
    - split; [reflexivity|intros; reflexivity].
  Qed.
End Facts.
