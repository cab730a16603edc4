From Verif.Mid Require Import Cfg Graph CfgProofs Insn Live LiveSpec.

Lemma fold_add_In l : forall acc x, In x (fold_left (fun acc v => add v acc) l acc) <-> In x l \/ In x acc.
Proof. induction l as [|v l IH]; intros acc x; cbn [fold_left In]; [tauto|]. rewrite IH, add_In. intuition congruence. Qed.
Lemma fold_add_NoDup l : forall acc, NoDup acc -> NoDup (fold_left (fun acc v => add v acc) l acc).
Proof. induction l as [|v l IH]; intros acc H; cbn [fold_left]; [exact H|]. apply IH, add_NoDup, H. Qed.
Lemma fold_filter_In (p : nat -> bool) l : forall acc x,
  In x (fold_left (fun acc v => if p v then acc else add v acc) l acc) <-> (In x l /\ p x = false) \/ In x acc.
Proof.
  induction l as [|v l IH]; intros acc x; cbn [fold_left In]; [tauto|]. rewrite IH. destruct (p v) eqn:E; [|rewrite add_In];
  intuition (subst; try congruence); auto.
Qed.

Section Proofs.
  Variable g : cfg.
  Variable code : nat -> list insn.
  Variable is_global : nat -> bool.

  (** ** locals of one block *)
  Record stepped (b : nat) (k : list nat) (r : list nat) (s s' : live) : Prop := {
    st_gen_other : forall c, c <> b -> l_gen s' c = l_gen s c;
    st_kill_other : forall c, c <> b -> l_kill s' c = l_kill s c;
    st_in : l_in s' = l_in s;
    st_out : l_out s' = l_out s;
    st_gen_mono : forall v, In v (l_gen s b) -> In v (l_gen s' b);
    st_gen_from : forall v, In v (l_gen s' b) -> In v (l_gen s b) \/ (In v r /\ is_global v = false);
    st_kill : forall v, In v (l_kill s' b) <-> In v (l_kill s b) \/ In v k;
    st_cons : forall v, l_cons s v <= l_cons s' v }.
  Lemma stepped_refl b s : stepped b [] [] s s.
  Proof. split; intros; try reflexivity; try (left; assumption); try lia; cbn; tauto. Qed.
  Lemma stepped_trans b k1 r1 k2 r2 s1 s2 s3 : stepped b k1 r1 s1 s2 -> stepped b k2 r2 s2 s3 -> stepped b (k1 ++ k2) (r1 ++ r2) s1 s3.
  Proof.
    intros [A1 A2 A3 A4 A5 A6 A7 A8] [B1 B2 B3 B4 B5 B6 B7 B8]. split.
    - intros c N. rewrite B1, A1; auto.
    - intros c N. rewrite B2, A2; auto.
    - congruence.
    - congruence.
    - auto.
    - intros v I. apply B6 in I as [I|[I G]]; [apply A6 in I as [I|[I G]]; [auto|]|]; right; split; try assumption; apply in_or_app; auto.
    - intros v. rewrite B7, A7, in_app_iff. tauto.
    - intros v. specialize (A8 v). specialize (B8 v). lia.
  Qed.
  Lemma use_stepped b idx o s : stepped b [] (opt_list o) s (use_operand is_global b idx o s) /\
    (forall v, o = Some v -> idx <= l_cons (use_operand is_global b idx o s) v) /\
    (forall v, o = Some v -> is_global v = false -> ~ In v (l_kill s b) -> In v (l_gen (use_operand is_global b idx o s) b)) /\
    (forall v, In v (l_gen (use_operand is_global b idx o s) b) -> In v (l_gen s b) \/ (o = Some v /\ ~ In v (l_kill s b))).
  Proof.
    destruct o as [v|]; cbn [use_operand opt_list].
    2: { split; [apply stepped_refl|]. split; [intros ? [=]|]. split; [intros ? [=]|auto]. }
    set (s1 := if var_check_killed v b s then s else add_live_gen is_global b v s).
    assert (H1 : stepped b [] [v] s s1).
    { unfold s1. destruct (var_check_killed v b s); [|unfold add_live_gen; destruct (is_global v) eqn:Gv];
        try (split; intros; try reflexivity; try (left; assumption); try lia; cbn; tauto).
      split; cbn; intros; try reflexivity; try lia; try tauto.
      - apply upd_other. assumption.
      - rewrite upd_same. apply add_In. auto.
      - rewrite upd_same in H. apply add_In in H as [->|I]; auto. }
    assert (H2 : forall s0, stepped b [] [] s0 (update_consumed idx v s0) /\ idx <= l_cons (update_consumed idx v s0) v).
    { intros s0. unfold update_consumed. destruct (Z.ltb_spec (l_cons s0 v) idx) as [L|L].
      - split; [|cbn; rewrite upd_same; lia]. split; cbn; intros; try reflexivity; try tauto.
        unfold upd. destruct (Nat.eqb_spec v0 v) as [->|]; lia.
      - split; [apply stepped_refl|lia]. }
    destruct (H2 s1) as [H3 H4]. split; [apply (stepped_trans _ _ _ _ _ _ _ _ H1 H3)|]. split.
    - intros w [= <-]. exact H4.
    - split.
      2: { intros w I. apply (st_gen_from _ _ _ _ _ H3) in I as [I|[[] _]]. unfold s1, var_check_killed in I.
           destruct (mem v (l_kill s b)) eqn:M; [auto|]. apply mem_not in M. unfold add_live_gen in I. destruct (is_global v); [auto|].
           cbn in I. rewrite upd_same in I. apply add_In in I as [->|I]; auto. }
      intros w [= <-] Gw Nw. apply (st_gen_mono _ _ _ _ _ H3). unfold s1. unfold var_check_killed.
      destruct (mem v (l_kill s b)) eqn:M; [apply mem_In in M; contradiction|]. unfold add_live_gen. rewrite Gw. cbn. rewrite upd_same.
      apply add_In. auto.
  Qed.
  Definition killed (i : insn) : list nat := if op_is i OP_unwound_phi then [] else opt_list (i_rd i).
  Lemma killed_writes i v : In v (killed i) <-> writes i v.
  Proof.
    unfold killed, writes, op_is. destruct (opcode_eq_dec (i_op i) OP_unwound_phi) as [E|E].
    - split; [intros []|intros [_ H]; contradiction].
    - destruct (i_rd i) as [w|]; cbn; split.
      + intros [->|[]]. auto.
      + intros [[= ->] _]. auto.
      + intros [].
      + intros [[=] _].
  Qed.
  Definition used (i : insn) : list nat := opt_list (i_rs1 i) ++ opt_list (i_rs2 i).
  Lemma used_reads i v : In v (used i) <-> reads i v.
  Proof.
    unfold used, reads. rewrite in_app_iff. destruct (i_rs1 i), (i_rs2 i); cbn; intuition congruence.
  Qed.
  Lemma insn_stepped b idx i s : stepped b (killed i) (used i) s (solve_insn is_global b idx i s) /\
    (forall v, reads i v -> idx <= l_cons (solve_insn is_global b idx i s) v) /\
    (forall v, reads i v -> is_global v = false -> ~ In v (l_kill s b) -> In v (l_gen (solve_insn is_global b idx i s) b)) /\
    (forall v, In v (l_gen (solve_insn is_global b idx i s) b) -> In v (l_gen s b) \/ (reads i v /\ ~ In v (l_kill s b))).
  Proof.
    destruct (use_stepped b idx (i_rs1 i) s) as (S1 & C1 & G1 & X1).
    set (s1 := use_operand is_global b idx (i_rs1 i) s) in *.
    destruct (use_stepped b idx (i_rs2 i) s1) as (S2 & C2 & G2 & X2).
    set (s2 := use_operand is_global b idx (i_rs2 i) s1) in *.
    assert (S3 : stepped b (killed i) [] s2 (solve_insn is_global b idx i s)).
    { unfold solve_insn. fold s1. fold s2. unfold killed. destruct (i_rd i) as [w|]; [destruct (op_is i OP_unwound_phi)|destruct (op_is i OP_unwound_phi)]; try apply stepped_refl.
      split; cbn; intros; try reflexivity; try lia; try tauto.
      - apply upd_other. assumption.
      - rewrite upd_same, add_In. intuition congruence. }
    pose proof (stepped_trans _ _ _ _ _ _ _ _ S1 S2) as S12. cbn [app] in S12.
    pose proof (stepped_trans _ _ _ _ _ _ _ _ S12 S3) as S. cbn [app] in S. fold (used i) in S. rewrite app_nil_r in S.
    split; [exact S|]. split.
    - intros v [E|E].
      + specialize (C1 v E). pose proof (st_cons _ _ _ _ _ S2 v). pose proof (st_cons _ _ _ _ _ S3 v). lia.
      + specialize (C2 v E). pose proof (st_cons _ _ _ _ _ S3 v). lia.
    - split.
      2: { intros v I. apply (st_gen_from _ _ _ _ _ S3) in I as [I|[[] _]]. apply X2 in I as [I|[I Nk]].
           - apply X1 in I as [I|[I Nk]]; [auto|]. right. split; [left; exact I|exact Nk].
           - right. split; [right; exact I|]. rewrite (st_kill _ _ _ _ _ S1) in Nk. tauto. }
      intros v [E|E] Gv Nv; apply (st_gen_mono _ _ _ _ _ S3).
      + apply (st_gen_mono _ _ _ _ _ S2). apply G1; assumption.
      + apply G2; try assumption. rewrite (st_kill _ _ _ _ _ S1). cbn. tauto.
  Qed.
  Lemma insns_stepped b : forall l idx s, let s' := solve_insns is_global b idx l s in
    stepped b (flat_map killed l) (flat_map used l) s s' /\
    (forall n i v, nth_error l n = Some i -> reads i v -> idx + Z.of_nat n <= l_cons s' v) /\
    (forall v, exposed l v -> is_global v = false -> ~ In v (l_kill s b) -> In v (l_gen s' b)) /\
    (forall v, In v (l_gen s' b) -> In v (l_gen s b) \/ (exposed l v /\ ~ In v (l_kill s b))).
  Proof.
    induction l as [|i l IH]; intros idx s; cbn [solve_insns flat_map].
    - split; [apply stepped_refl|]. split; [|split].
      + intros [|n] i v E; discriminate.
      + intros v (l1 & i & l2 & E & _). destruct l1; discriminate.
      + auto.
    - destruct (insn_stepped b idx i s) as (S1 & C1 & G1 & X1). destruct (IH (idx + 1) (solve_insn is_global b idx i s)) as (S2 & C2 & G2 & X2).
      cbn zeta. split; [apply (stepped_trans _ _ _ _ _ _ _ _ S1 S2)|]. split.
      + intros [|n] j v E Rd.
        * inversion E; subst. specialize (C1 v Rd). pose proof (st_cons _ _ _ _ _ S2 v). lia.
        * specialize (C2 n j v E Rd). lia.
      + split.
        2: { intros v I. apply X2 in I as [I|[(l1 & j & l2 & -> & Rd & Un) Nk]].
             - apply X1 in I as [I|[I Nk]]; [auto|]. right. split; [|exact Nk]. exists [], i, l. repeat split; [exact I|intros x []].
             - rewrite (st_kill _ _ _ _ _ S1) in Nk. right. split; [|tauto]. exists (i :: l1), j, l2. repeat split; [exact Rd|].
               intros x [<-|Ix]; [|apply Un; exact Ix]. rewrite <- killed_writes. tauto. }
        intros v (l1 & j & l2 & E & Rd & Un) Gv Nv. destruct l1 as [|a l1]; cbn in E; injection E as -> ->.
        * apply (st_gen_mono _ _ _ _ _ S2). apply G1; assumption.
        * apply G2; [exists l1, j, l2; repeat split; [exact Rd|intros x Ix; apply Un; right; exact Ix]|exact Gv|].
          rewrite (st_kill _ _ _ _ _ S1). intros [I|I]; [contradiction|]. apply killed_writes in I. apply (Un a (or_introl eq_refl) I).
  Qed.

  (** ** all blocks *)
  Lemma fold_reset D : forall s, let s' := fold bb_reset_live_kill_idx D s in
    l_gen s' = l_gen s /\ l_in s' = l_in s /\ l_out s' = l_out s /\ l_cons s' = l_cons s /\ (forall b, In b D -> l_kill s' b = []) /\
    (forall b, ~ In b D -> l_kill s' b = l_kill s b).
  Proof.
    induction D as [|a D IH]; intros s; cbn zeta.
    - repeat split; intros; try reflexivity. destruct H.
    - change (fold bb_reset_live_kill_idx (a :: D) s) with (fold bb_reset_live_kill_idx D (bb_reset_live_kill_idx a s)).
      destruct (IH (bb_reset_live_kill_idx a s)) as (E1 & E2 & E3 & E4 & E5 & E6). cbn [bb_reset_live_kill_idx l_gen l_in l_out l_cons l_kill] in *.
      repeat split; try assumption.
      + intros b [->|I]; [|auto]. destruct (in_dec Nat.eq_dec b D) as [I|N]; [auto|]. rewrite E6 by exact N. apply upd_same.
      + intros b N. rewrite E6 by (intros I; apply N; right; exact I). apply upd_other. intros ->. apply N. left. reflexivity.
  Qed.
  Lemma fold_params b ps : forall s, let s' := fold_left (fun s v => bb_add_killed_var b v s) ps s in
    l_gen s' = l_gen s /\ l_in s' = l_in s /\ l_out s' = l_out s /\ l_cons s' = l_cons s /\
    (forall c, c <> b -> l_kill s' c = l_kill s c) /\ (forall v, In v (l_kill s' b) <-> In v (l_kill s b) \/ In v ps).
  Proof.
    induction ps as [|p ps IH]; intros s; cbn zeta; cbn [fold_left].
    - repeat split; intros; try reflexivity; cbn in *; tauto.
    - destruct (IH (bb_add_killed_var b p s)) as (E1 & E2 & E3 & E4 & E5 & E6). cbn [bb_add_killed_var l_gen l_in l_out l_cons l_kill] in *.
      repeat split; try assumption.
      + intros c N. rewrite E5 by exact N. apply upd_other. exact N.
      + intros I. apply E6 in I. rewrite upd_same, add_In in I. cbn. intuition congruence.
      + intros I. apply E6. rewrite upd_same, add_In. cbn in I. intuition congruence.
  Qed.
  Record solved_locals (D : list nat) (s s' : live) : Prop := {
    sl_in : l_in s' = l_in s;
    sl_out : l_out s' = l_out s;
    sl_other : forall b, ~ In b D -> l_gen s' b = l_gen s b /\ l_kill s' b = l_kill s b;
    sl_gen_from : forall b v, In b D -> In v (l_gen s' b) -> In v (l_gen s b) \/ (In v (flat_map used (code b)) /\ is_global v = false);
    sl_gen : forall b v, In b D -> exposed (code b) v -> is_global v = false -> ~ In v (l_kill s b) -> In v (l_gen s' b);
    sl_gen_exact : forall b v, In b D -> In v (l_gen s' b) -> In v (l_gen s b) \/ exposed (code b) v;
    sl_kill : forall b v, In b D -> (In v (l_kill s' b) <-> In v (l_kill s b) \/ exists i, In i (code b) /\ writes i v);
    sl_cons_mono : forall v, l_cons s v <= l_cons s' v;
    sl_cons : forall b n i v, In b D -> nth_error (code b) n = Some i -> reads i v -> Z.of_nat n <= l_cons s' v }.
  Lemma fold_locals D : NoDup D -> forall s, solved_locals D s (fold (bb_solve_locals code is_global) D s).
  Proof.
    induction D as [|a D IH]; intros Nd s.
    - split; cbn; intros; try reflexivity; try contradiction; try lia; auto.
    - inversion Nd as [|x l Na Nd' X]; subst.
      change (fold (bb_solve_locals code is_global) (a :: D) s) with (fold (bb_solve_locals code is_global) D (bb_solve_locals code is_global a s)).
      destruct (insns_stepped a (code a) 0 s) as (St & Cn & Gn & Xn). fold (bb_solve_locals code is_global a s) in St, Cn, Gn, Xn.
      set (s1 := bb_solve_locals code is_global a s) in *. destruct (IH Nd' s1) as [B1 B2 B3 B4 B5 B9 B6 B7 B8].
      destruct St as [A1 A2 A3 A4 A5 A6 A7 A8].
      set (s2 := fold (bb_solve_locals code is_global) D s1) in *.
      split.
      + congruence.
      + congruence.
      + intros b N. destruct (B3 b) as [E1 E2]; [intros I; apply N; right; exact I|].
        rewrite E1, E2. assert (b <> a) by (intros ->; apply N; left; reflexivity). rewrite A1, A2 by assumption. auto.
      + intros b v [<-|I] H.
        * rewrite (proj1 (B3 a Na)) in H. apply A6 in H. exact H.
        * apply (B4 b v I) in H as [H|H]; [|auto]. rewrite A1 in H by (intros ->; contradiction). auto.
      + intros b v [<-|I] Ex Gv Nv.
        * rewrite (proj1 (B3 a Na)). apply Gn; assumption.
        * apply B5; try assumption. rewrite A2 by (intros ->; contradiction). exact Nv.
      + intros b v [<-|I] H.
        * rewrite (proj1 (B3 a Na)) in H. apply Xn in H as [H|[H _]]; auto.
        * apply (B9 b v I) in H as [H|H]; [|auto]. rewrite A1 in H by (intros ->; contradiction). auto.
      + intros b v [<-|I].
        * rewrite (proj2 (B3 a Na)), A7, in_flat_map. split; (intros [H|(i & Ii & Ki)]; [auto|right; exists i; split; [exact Ii|apply killed_writes; exact Ki]]).
        * rewrite (B6 b v I), A2 by (intros ->; contradiction). reflexivity.
      + intros v. specialize (A8 v). specialize (B7 v). lia.
      + intros b n i v [<-|I] E Rd; [|apply (B8 b n i v I E Rd)]. specialize (Cn n i v E Rd). specialize (B7 v). lia.
  Qed.

  (** ** the fixpoint *)
  Definition flow (s : live) (b v : nat) : Prop :=
    exists c, In c (succs g b) /\ (In v (l_gen s c) \/ (In v (l_out s c) /\ ~ In v (l_kill s c))).

  Lemma merge_succ_spec o s acc : NoDup acc ->
    let p := merge_succ o (s, acc) in
    l_gen (fst p) = l_gen s /\ l_kill (fst p) = l_kill s /\ l_out (fst p) = l_out s /\ l_cons (fst p) = l_cons s /\ NoDup (snd p) /\
    forall v, In v (snd p) <-> In v acc \/ exists c, o = Some c /\ (In v (l_gen s c) \/ (In v (l_out s c) /\ ~ In v (l_kill s c))).
  Proof.
    intros Nd. destruct o as [c|]; cbn.
    - repeat split; try reflexivity.
      + unfold merge_live_in. apply fold_add_NoDup, Nd.
      + unfold merge_live_in. intros H. apply fold_add_In in H as [H|H]; [|auto]. cbn in H. rewrite upd_same in H.
        apply fold_add_In in H as [H|H]; [right; exists c; auto|]. apply fold_filter_In in H as [[H Q]|[]]. right. exists c.
        split; [reflexivity|]. right. split; [exact H|]. apply mem_not. exact Q.
      + unfold merge_live_in. intros H. apply fold_add_In. destruct H as [H|(c' & [= <-] & H)]; [auto|]. left. cbn. rewrite upd_same.
        apply fold_add_In. destruct H as [H|[H Q]]; [auto|]. right. apply fold_filter_In. left. split; [exact H|]. apply mem_not. exact Q.
    - repeat split; try reflexivity; try assumption; [auto|]. intros [H|(c & [=] & _)]. exact H.
  Qed.
  Lemma recompute_spec b s : exists new s0, NoDup new /\ (forall v, In v new <-> flow s b v) /\
    l_gen s0 = l_gen s /\ l_kill s0 = l_kill s /\ l_out s0 = l_out s /\ l_cons s0 = l_cons s /\
    recompute_live_out g b s =
      (let set := mklive (l_gen s0) (l_kill s0) (l_in s0) (upd (l_out s0) b new) (l_cons s0) in
       if negb (Nat.eqb (length (l_out s b)) (length new)) then (set, true)
       else if forallb (fun v => mem v (l_out s b)) new then (s0, false) else (set, true)).
  Proof.
    unfold recompute_live_out.
    destruct (merge_succ_spec (g_next g b) s [] (NoDup_nil _)) as (A1 & A2 & A3 & A4 & A5 & A6). destruct (merge_succ (g_next g b) (s, [])) as [s1 l1]. cbn [fst snd] in *.
    destruct (merge_succ_spec (g_then g b) s1 l1 A5) as (B1 & B2 & B3 & B4 & B5 & B6). destruct (merge_succ (g_then g b) (s1, l1)) as [s2 l2]. cbn [fst snd] in *.
    destruct (merge_succ_spec (g_else g b) s2 l2 B5) as (C1 & C2 & C3 & C4 & C5 & C6). destruct (merge_succ (g_else g b) (s2, l2)) as [s3 l3]. cbn [fst snd] in *.
    exists l3, s3. rewrite C3, B3, A3. repeat split; try congruence.
    - intros H. unfold flow, succs. rewrite C6, B6, A6 in H. rewrite C1 || idtac.
      rewrite B1, B2, B3, A1, A2, A3 in H.
      destruct H as [[[[]|(c & E & H)]|(c & E & H)]|(c & E & H)]; exists c; (split; [rewrite E, !in_app_iff; cbn; tauto|exact H]).
    - intros (c & I & H). rewrite C6, B6, A6, B1, B2, B3, A1, A2, A3. unfold succs in I. rewrite !in_app_iff in I.
      destruct I as [I|[I|I]].
      + left; left; right. exists c. destruct (g_next g b); cbn in I; [destruct I as [->|[]]; auto|destruct I].
      + left; right. exists c. destruct (g_then g b); cbn in I; [destruct I as [->|[]]; auto|destruct I].
      + right. exists c. destruct (g_else g b); cbn in I; [destruct I as [->|[]]; auto|destruct I].
  Qed.

  Variable vars : list nat.
  (** any solution of the flow equations is above what is computed *)
  Variable C : nat -> Prop.
  Variable P : nat -> nat -> Prop.
  Definition closed (s : live) := forall b v, C b -> (exists c, In c (succs g b) /\ (In v (l_gen s c) \/ (P c v /\ C c /\ ~ In v (l_kill s c)))) -> P b v.
  Hypothesis HC : forall b c, C b -> In c (succs g b) -> C c.

  Record good (s : live) : Prop := {
    gd_nodup : forall b, NoDup (l_out s b);
    gd_below : forall b v, In v (l_out s b) -> flow s b v;
    gd_vars : forall b v, In v (l_gen s b) -> In v vars;
    gd_least : forall b v, C b -> In v (l_out s b) -> P b v;
    gd_out_vars : forall b v, In v (l_out s b) -> In v vars }.
  Lemma flow_mono s s' b v : l_gen s' = l_gen s -> l_kill s' = l_kill s -> (forall c w, In w (l_out s c) -> In w (l_out s' c)) -> flow s b v -> flow s' b v.
  Proof.
    intros E1 E2 H (c & I & [Q|[Q N]]); exists c; rewrite E1, E2; (split; [exact I|]); [left; exact Q|right; split; [apply H; exact Q|exact N]].
  Qed.
  Lemma recompute_good b s : closed s -> good s -> let '(s', ch) := recompute_live_out g b s in
    good s' /\ l_gen s' = l_gen s /\ l_kill s' = l_kill s /\ l_cons s' = l_cons s /\ (forall c, c <> b -> l_out s' c = l_out s c) /\
    (ch = false -> l_out s' = l_out s /\ forall v, flow s b v -> In v (l_out s b)) /\
    (ch = true -> (length (l_out s b) < length (l_out s' b))%nat).
  Proof.
    intros Cl [G1 G2 G3 G5 G4]. destruct (recompute_spec b s) as (new & s0 & Nd & Hn & E1 & E2 & E3 & E4 & ->). cbn zeta.
    assert (Inc : incl (l_out s b) new) by (intros v I; apply Hn, G2, I).
    assert (Le : (length (l_out s b) <= length new)%nat) by (apply NoDup_incl_length; [apply G1|exact Inc]).
    assert (Set_ : good (mklive (l_gen s0) (l_kill s0) (l_in s0) (upd (l_out s0) b new) (l_cons s0))).
    { assert (Mo : forall c w, In w (l_out s c) -> In w (upd (l_out s0) b new c)).
      { intros c w I. rewrite E3. unfold upd. destruct (Nat.eqb_spec c b) as [->|]; [apply Inc, I|exact I]. }
      split; cbn.
      - intros c. rewrite E3. unfold upd. destruct (Nat.eqb_spec c b); [exact Nd|apply G1].
      - intros c v I. apply (flow_mono s); [exact E1|exact E2|exact Mo|]. rewrite E3 in I. unfold upd in I.
        destruct (Nat.eqb_spec c b) as [->|]; [apply Hn, I|apply G2, I].
      - rewrite E1. exact G3.
      - intros c v Cc I. rewrite E3 in I. unfold upd in I. destruct (Nat.eqb_spec c b) as [->|]; [|apply G5; assumption].
        apply Cl; [exact Cc|]. apply Hn in I as (d & Id & [I|[I Nk]]); exists d; (split; [exact Id|]); [auto|].
        right. pose proof (HC b d Cc Id) as Cd. repeat split; [apply G5; assumption|exact Cd|exact Nk].
      - intros c v I. rewrite E3 in I. unfold upd in I. destruct (Nat.eqb_spec c b) as [->|]; [|apply (G4 c), I].
        apply Hn in I as (d & _ & [I|[I _]]); [apply (G3 d), I|apply (G4 d), I]. }
    destruct (Nat.eqb_spec (length (l_out s b)) (length new)) as [Eq|Ne]; cbn [negb].
    - destruct (forallb (fun v => mem v (l_out s b)) new) eqn:Fa.
      + split; [|repeat split; try assumption].
        * split; intros; rewrite ?E3, ?E1 in *; eauto. apply (flow_mono s); auto. intros c w I. rewrite E3. exact I.
        * intros c _. rewrite E3. reflexivity.
        * intros v F. rewrite forallb_forall in Fa. apply mem_In. apply Fa. apply Hn. exact F.
        * discriminate.
      + exfalso. assert (incl new (l_out s b)) by (apply NoDup_length_incl; [apply G1|lia|exact Inc]).
        assert (forallb (fun v => mem v (l_out s b)) new = true) by (apply forallb_forall; intros v I; apply mem_In; auto). congruence.
    - split; [exact Set_|]. cbn. repeat split; try assumption; try discriminate.
      + intros c N. rewrite E3. apply upd_other. exact N.
      + intros _. rewrite E3, upd_same. lia.
  Qed.

  Variable next : nat -> option nat.
  Definition total_out (s : live) (L : list nat) : nat := fold_right (fun b n => (length (l_out s b) + n)%nat) O L.
  Lemma total_out_le s s' L : (forall b, (length (l_out s b) <= length (l_out s' b))%nat) -> (total_out s L <= total_out s' L)%nat.
  Proof. intros H. induction L as [|b L IH]; cbn; [lia|]. specialize (H b). fold (total_out s L) (total_out s' L). lia. Qed.
  Lemma total_out_lt s s' L b : (forall b, (length (l_out s b) <= length (l_out s' b))%nat) -> In b L ->
    (length (l_out s b) < length (l_out s' b))%nat -> (total_out s L < total_out s' L)%nat.
  Proof.
    intros H I Lt. induction L as [|a L IH]; [destruct I|]. cbn. fold (total_out s L) (total_out s' L).
    pose proof (total_out_le s s' L H). destruct I as [->|I]; [lia|]. specialize (IH I). specialize (H a). lia.
  Qed.
  Lemma total_out_bound s L : good s -> (total_out s L <= length L * length vars)%nat.
  Proof.
    intros G. induction L as [|b L IH]; cbn; [lia|]. fold (total_out s L).
    assert (length (l_out s b) <= length vars)%nat by (apply NoDup_incl_length; [apply (gd_nodup s G)|intros v; apply (gd_out_vars s G b)]). lia.
  Qed.

  Lemma sweep_good L : forall l n o s ch, chain next o l -> (length l < n)%nat -> incl l L -> closed s -> good s ->
    exists s' ch', live_sweep g next n o s ch = Some (s', ch') /\ good s' /\ l_gen s' = l_gen s /\ l_kill s' = l_kill s /\ l_cons s' = l_cons s /\
      (forall b, (length (l_out s b) <= length (l_out s' b))%nat) /\
      (ch' = false -> ch = false /\ l_out s' = l_out s /\ forall b v, In b l -> flow s b v -> In v (l_out s b)) /\
      (ch' = true -> ch = true \/ (total_out s L < total_out s' L)%nat).
  Proof.
    induction l as [|b l IH]; intros n o s ch Ch Ln In_ Cl G; inversion Ch; subst; (destruct n as [|n]; [cbn in Ln; lia|]); cbn [live_sweep].
    - exists s, ch. split; [reflexivity|]. split; [exact G|]. split; [reflexivity|]. split; [reflexivity|]. split; [reflexivity|]. split; [intros; lia|]. split.
      + intros ->. split; [reflexivity|]. split; [reflexivity|]. intros b v [].
      + auto.
    - pose proof (recompute_good b s Cl G) as Q. destruct (recompute_live_out g b s) as [s1 c1].
      destruct Q as (G1 & E1 & E2 & Ec & E3 & F1 & T1).
      assert (Up : forall d, (length (l_out s d) <= length (l_out s1 d))%nat).
      { intros d. destruct (Nat.eq_dec d b) as [->|N]; [|rewrite (E3 d N); lia]. destruct c1; [specialize (T1 eq_refl); lia|].
        destruct (F1 eq_refl) as [Q _]. rewrite Q. lia. }
      destruct (IH n (next b) s1 (ch || c1)%bool) as (s2 & ch2 & E & G2 & E4 & E5 & Ec2 & Up2 & F2 & T2); try assumption.
      { cbn in Ln. lia. }
      { intros x I. apply In_. right. exact I. }
      { unfold closed. rewrite E1, E2. exact Cl. }
      exists s2, ch2. split; [exact E|]. split; [exact G2|]. split; [congruence|]. split; [congruence|]. split; [congruence|].
      split; [intros d; specialize (Up d); specialize (Up2 d); lia|]. split.
      + intros Q. destruct (F2 Q) as (Q1 & Q2 & Q3). apply orb_false_iff in Q1 as [-> ->]. destruct (F1 eq_refl) as [Q4 Q5].
        split; [reflexivity|]. split; [congruence|]. intros d v [<-|I] Fl; [apply Q5, Fl|]. rewrite <- Q4. apply Q3; [exact I|].
        apply (flow_mono s); try assumption. intros c w. rewrite Q4. auto.
      + intros Q. destruct (T2 Q) as [Q1|Q1].
        * apply orb_true_iff in Q1 as [Q1| ->]; [auto|]. right.
          assert (total_out s L < total_out s1 L)%nat by (apply (total_out_lt s s1 L b Up); [apply In_; left; reflexivity|apply T1; reflexivity]).
          pose proof (total_out_le s1 s2 L Up2). lia.
        * right. pose proof (total_out_le s s1 L Up). lia.
  Qed.
  Lemma loop_good fuel exit L : chain next (Some exit) L -> (length L < fuel)%nat -> forall n s, closed s -> good s ->
    (length L * length vars < n + total_out s L)%nat ->
    exists s', live_loop g next fuel n exit s = Some s' /\ good s' /\ l_gen s' = l_gen s /\ l_kill s' = l_kill s /\ l_cons s' = l_cons s /\
      forall b v, In b L -> flow s' b v -> In v (l_out s' b).
  Proof.
    intros Ch F. induction n as [|n IH]; intros s Cl G Ln.
    { pose proof (total_out_bound s L G). lia. }
    cbn [live_loop]. destruct (sweep_good L L fuel (Some exit) s false Ch F (fun x I => I) Cl G) as (s1 & ch & E & G1 & E1 & E2 & E3 & _ & F1 & T1).
    rewrite E. destruct ch.
    - destruct (T1 eq_refl) as [Q|Q]; [discriminate|]. destruct (IH s1 ltac:(unfold closed; rewrite E1, E2; exact Cl) G1 ltac:(lia)) as (s2 & -> & G2 & Q1 & Q2 & Q4 & Q3). exists s2. split; [reflexivity|]. split; [exact G2|]. split; [congruence|]. split; [congruence|]. split; [congruence|]. exact Q3.
    - exists s1. split; [reflexivity|]. split; [exact G1|]. split; [exact E1|]. split; [exact E2|]. split; [exact E3|].
      destruct (F1 eq_refl) as (_ & Q1 & Q2). intros b v I Fl. rewrite Q1. apply Q2; [exact I|].
      apply (flow_mono s1); [congruence|congruence| |exact Fl]. intros c w. rewrite Q1. auto.
  Qed.
End Proofs.
