From Verif.Mid Require Import Edges CfgProofs Insn.
From Verif.Mid Require Export EdgesSpec.

Lemma slots_In l p : In p (slots_preds l) <-> exists t, In (Some (p, t)) l.
Proof.
  unfold slots_preds. rewrite in_flat_map. split.
  - intros (o & I & Q). apply in_map_iff in I as (s & <- & I). destruct s as [[q t]|]; cbn in Q; [|destruct Q].
    destruct Q as [<-|[]]. eauto.
  - intros (t & I). exists (Some p). split; [|left; reflexivity]. apply in_map_iff. exists (Some (p, t)). auto.
Qed.
Lemma slots_cons_some p t l : slots_preds (Some (p, t) :: l) = p :: slots_preds l.
Proof. reflexivity. Qed.
Lemma slots_cons_none l : slots_preds (None :: l) = slots_preds l.
Proof. reflexivity. Qed.

Lemma clear_slot_spec p t l : In (Some (p, t)) l -> NoDup (slots_preds l) ->
  exists l', clear_slot l p = Some (l', t) /\ NoDup (slots_preds l') /\ (forall x, In (Some x) l' <-> In (Some x) l /\ x <> (p, t)) /\
    length l' = length l.
Proof.
  induction l as [|[[q u]|] l IH]; [intros []| |].
  - rewrite slots_cons_some. intros I N. inversion N as [|? ? Nq Nl]; subst. cbn [clear_slot].
    destruct (Nat.eqb_spec q p) as [->|Ne].
    + assert (U : u = t). { destruct I as [E|I]; [congruence|]. destruct Nq. apply slots_In. eauto. }
      subst u. exists (None :: l). split; [reflexivity|]. split; [exact Nl|]. split; [|reflexivity]. intros x. cbn [In]. split.
      * intros [E|Ix]; [discriminate|]. split; [auto|]. intros ->. apply Nq. apply slots_In. eauto.
      * intros [[E|Ix] Nx]; [congruence|]. right. exact Ix.
    + destruct I as [E|I]; [congruence|]. destruct (IH I Nl) as (l' & E & N' & H & Len). rewrite E.
      exists (Some (q, u) :: l'). split; [reflexivity|]. rewrite slots_cons_some. split; [|split].
      * constructor; [|exact N']. intros Iq. apply slots_In in Iq as (w & Iq). apply H in Iq as [Iq _]. apply Nq. apply slots_In. eauto.
      * intros x. cbn [In]. rewrite H. split; [intros [E1|[Ix Nx]]; [split; [auto|congruence]|auto]|]. intros [[E1|Ix] Nx]; auto.
      * cbn [length]. congruence.
  - rewrite slots_cons_none. intros [E|I] N; [discriminate|]. destruct (IH I N) as (l' & E & N' & H & Len). cbn [clear_slot]. rewrite E.
    exists (None :: l'). split; [reflexivity|]. split; [exact N'|]. split; [|cbn [length]; congruence]. intros x. cbn [In]. rewrite H.
    split; [intros [Q|[Ix Nx]]; [discriminate|auto]|]. intros [[Q|Ix] Nx]; [discriminate|auto].
Qed.
Lemma fill_slot_spec x l l' : fill_slot l x = Some l' ->
  (forall y, In (Some y) l' <-> y = x \/ In (Some y) l) /\ (~ In (fst x) (slots_preds l) -> NoDup (slots_preds l) -> NoDup (slots_preds l')) /\
  length l' = length l.
Proof.
  revert l'. induction l as [|[[q u]|] l IH]; intros l' E; cbn [fill_slot] in E; [discriminate| |].
  - destruct (fill_slot l x) as [r|] eqn:Er; [|discriminate]. injection E as <-. destruct (IH r eq_refl) as (H1 & H2 & H3). split; [|split].
    + intros y. cbn [In]. rewrite H1. tauto.
    + rewrite !slots_cons_some. intros Nx N. inversion N as [|? ? Nq Nl]; subst. constructor.
      * intros Iq. apply slots_In in Iq as (t & Iq). apply H1 in Iq as [Q|Iq]; [|apply Nq; apply slots_In; eauto].
        apply Nx. left. rewrite <- Q. reflexivity.
      * apply H2; [|exact Nl]. intros I. apply Nx. right. exact I.
    + cbn [length]. congruence.
  - injection E as <-. split; [|split].
    + intros y. cbn [In]. split; [intros [Q|I]; [left; congruence|auto]|]. intros [->|[Q|I]]; [auto|discriminate|auto].
    + rewrite slots_cons_none. intros Nx N. destruct x as [p t]. rewrite slots_cons_some. constructor; assumption.
    + reflexivity.
Qed.
Lemma fill_slot_full x l : fill_slot l x = None <-> ~ In None l.
Proof.
  induction l as [|[y|] l IH]; cbn [fill_slot In]; [tauto| |split; [discriminate|intros H; destruct H; auto]].
  destruct (fill_slot l x) as [r|]; split; try discriminate.
  - intros H. assert (Q : ~ In None l) by tauto. apply IH in Q. discriminate.
  - intros _ [Q|I]; [discriminate|]. exact (proj1 IH eq_refl I).
  - reflexivity.
Qed.

Lemma edge_set g t b c u x : edge (set_edge g t b c) u x = if conn_eq_dec u t then (if Nat.eqb x b then c else edge g u x) else edge g u x.
Proof. destruct t, u; cbn; reflexivity. Qed.
Lemma edge_set_prev g b l u x : edge (set_prev g b l) u x = edge g u x.
Proof. destruct u; reflexivity. Qed.
Lemma prev_set_edge g t b c : e_prev (set_edge g t b c) = e_prev g.
Proof. destruct t; reflexivity. Qed.

Lemma bb_disconnect_linked g b t c : linked g -> edge g t b = Some c ->
  exists g', bb_disconnect g b (Some c) = Some g' /\ linked g' /\ edge g' t b = None /\
    (forall u x, (u, x) <> (t, b) -> edge g' u x = edge g u x) /\ (forall x, length (e_prev g' x) = length (e_prev g x)).
Proof.
  intros [K1 K2] E. pose proof (proj1 (K1 b t c) E) as I. destruct (clear_slot_spec b t (e_prev g c) I (K2 c)) as (l & El & N & H & Len).
  cbn [bb_disconnect]. rewrite El. eexists. split; [reflexivity|]. split; [split|split; [|split]].
  - intros x u d. rewrite edge_set, edge_set_prev, prev_set_edge. cbn [set_prev e_prev].
    destruct (Nat.eq_dec d c) as [->|Nd].
    + rewrite upd_same, H, <- K1. destruct (conn_eq_dec u t) as [->|Nu]; [|intuition congruence].
      destruct (Nat.eqb_spec x b) as [->|Nx]; [|intuition congruence]. split; [discriminate|intros [_ Q]; congruence].
    + rewrite upd_other by exact Nd. rewrite <- K1. destruct (conn_eq_dec u t) as [->|Nu]; [|tauto].
      destruct (Nat.eqb_spec x b) as [->|Nx]; [|tauto]. rewrite E. split; [discriminate|intros [=]; congruence].
  - intros d. rewrite prev_set_edge. cbn [set_prev e_prev]. destruct (Nat.eq_dec d c) as [->|Nd]; [rewrite upd_same; exact N|].
    rewrite upd_other by exact Nd. apply K2.
  - rewrite edge_set. destruct (conn_eq_dec t t); [|congruence]. rewrite Nat.eqb_refl. reflexivity.
  - intros u x Nx. rewrite edge_set, edge_set_prev. destruct (conn_eq_dec u t) as [->|Nu]; [|reflexivity].
    destruct (Nat.eqb_spec x b) as [->|Nb]; [congruence|reflexivity].
  - intros x. rewrite prev_set_edge. cbn [set_prev e_prev]. destruct (Nat.eq_dec x c) as [->|Nd]; [rewrite upd_same; exact Len|].
    rewrite upd_other by exact Nd. reflexivity.
Qed.
Lemma bb_connect_linked g b t c g' : linked g -> edge g t b = None -> (forall u, edge g u b <> Some c) ->
  bb_connect g (Some b) (Some c) t = Some g' ->
  linked g' /\ edge g' t b = Some c /\ (forall u x, (u, x) <> (t, b) -> edge g' u x = edge g u x).
Proof.
  intros [K1 K2] E0 NE E. cbn [bb_connect] in E. destruct (fill_slot (e_prev g c) (b, t)) as [l|] eqn:El; [|discriminate]. injection E as <-.
  destruct (fill_slot_spec _ _ _ El) as (H & N & _). split; [split|split].
  - intros x u d. rewrite edge_set, edge_set_prev, prev_set_edge. cbn [set_prev e_prev].
    destruct (Nat.eq_dec d c) as [->|Nd].
    + rewrite upd_same, H, <- K1. destruct (conn_eq_dec u t) as [->|Nu]; [|intuition congruence].
      destruct (Nat.eqb_spec x b) as [->|Nx]; [|intuition congruence]. split; auto.
    + rewrite upd_other by exact Nd. rewrite <- K1. destruct (conn_eq_dec u t) as [->|Nu]; [|tauto].
      destruct (Nat.eqb_spec x b) as [->|Nx]; [|tauto]. split; [intros [=]; congruence|congruence].
  - intros d. rewrite prev_set_edge. cbn [set_prev e_prev]. destruct (Nat.eq_dec d c) as [->|Nd]; [|rewrite upd_other by exact Nd; apply K2].
    rewrite upd_same. apply N; [|apply K2]. cbn [fst]. intros I. apply slots_In in I as (u & I). apply K1 in I. exact (NE u I).
  - rewrite edge_set. destruct (conn_eq_dec t t); [|congruence]. rewrite Nat.eqb_refl. reflexivity.
  - intros u x Nx. rewrite edge_set, edge_set_prev. destruct (conn_eq_dec u t) as [->|Nu]; [|reflexivity].
    destruct (Nat.eqb_spec x b) as [->|Nb]; [congruence|reflexivity].
Qed.

(** so the lists the passes read are converse to each other *)
Lemma linked_edges g a b : linked g -> (In a (preds (to_cfg g) b) <-> In b (succs (to_cfg g) a)).
Proof.
  intros [K1 K2]. change (preds (to_cfg g) b) with (slots_preds (e_prev g b)). rewrite slots_In.
  unfold succs. cbn [to_cfg g_next g_then g_else]. rewrite !in_app_iff. split.
  - intros (t & I). apply K1 in I. destruct t; cbn in I; rewrite I; cbn; auto.
  - assert (O : forall o, In b (opt_list o) -> o = Some b) by (intros [x|] Q; cbn in Q; [destruct Q as [->|[]]; reflexivity|destruct Q]).
    intros [I|[I|I]]; apply O in I; [exists NEXT|exists THEN|exists ELSE]; apply K1; exact I.
Qed.
