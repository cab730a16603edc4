(** The invariants of the allocator's state inside a block, and how its actions keep them. *)
From Verif.Mid Require Export AllocSpec AllocStatic.
From Coq Require Import Lia.

Section Inv.
  Variable V : vars.
  Variable g : cfg.
  Variable code : nat -> list rinsn.
  Variables entry exit : nat.
  Variable params : list nat.
  Variable order : list nat.
  Variable rpo : nat -> Z.
  Variable live_out : nat -> list nat.
  Variable killed : nat -> nat -> bool.
  Variable cons : nat -> Z.
  Variable arity : Z -> Z.
  Variable goff : nat -> Z.
  Hypothesis OK : allocatable V g code entry exit params order rpo live_out killed cons arity.
  Variable b : nat.
  Hypothesis Hb : In b order.
  Variable done : list nat.
  Hypothesis Hdone : incl done order /\ ~ In b done.
  Lemma L_needed : forall b v, In b order -> v_global V v = false -> needed (succs g) (plain_code code) v b -> In v (live_out b).
  Proof. exact (l_needed _ _ _ _ _ _ _ _ _ _ _ _ OK). Qed.
  Lemma L_consumed : forall b k i v, In b order -> nth_error (plain_code code b) k = Some i -> reads i v -> Z.of_nat k <= cons v.
  Proof. exact (l_consumed _ _ _ _ _ _ _ _ _ _ _ _ OK). Qed.
  Lemma L_killed i v : In i (plain_code code b) -> writes i v -> killed v b = true.
  Proof. exact (l_killed _ _ _ _ _ _ _ _ _ _ _ _ OK b i v Hb). Qed.
  Lemma L_params v : b = entry -> In v params -> killed v b = true.
  Proof. intros ->. apply (l_params _ _ _ _ _ _ _ _ _ _ _ _ OK). Qed.

  Definition isns (l : list rinsn) : list insn := map r_insn l.
  Definition local (v : nat) : Prop := v_global V v = false.
  (** the value of v is needed at this point of the block *)
  Definition live_at (rest : list rinsn) (v : nat) : Prop :=
    exposed (isns rest) v \/ (untouched (isns rest) v /\ needed (succs g) (plain_code code) v b).
  Definition kept (s : ra) (k : nat) (v : nat) : Prop := In v (live_out b) \/ Z.of_nat k <= a_cons s v.
  Definition written (pre : list rinsn) (v : nat) : Prop :=
    (exists i, In i (isns pre) /\ writes i v) \/ (b = entry /\ In v params).
  Definition given (pre : list rinsn) (v : nat) : Prop :=
    In v params \/ (exists c i, In c done /\ In i (plain_code code c) /\ i_rd i = Some v) \/
    exists i, In i (isns pre) /\ i_rd i = Some v.
  Definition full (s : ra) (k : nat) : Prop := forall i v, (i < 8)%nat -> a_var s i = Some v -> kept s k v.

  Lemma isns_app l1 l2 : isns (l1 ++ l2) = isns l1 ++ isns l2.
  Proof. apply map_app. Qed.
  Lemma exposed_read i r v : reads (r_insn i) v -> exposed (isns (i :: r)) v.
  Proof. intros H. exists [], (r_insn i), (isns r). split; [reflexivity|]. split; [exact H|]. intros j []. Qed.
  Lemma exposed_back i r v : exposed (isns r) v -> ~ writes (r_insn i) v -> exposed (isns (i :: r)) v.
  Proof.
    intros (l1 & j & l2 & E & R & U) W. exists (r_insn i :: l1), j, l2. split; [cbn; fold (isns r); rewrite E; reflexivity|].
    split; [exact R|]. intros x [<-|I]; [exact W|apply U; exact I].
  Qed.
  Lemma live_read i r v : reads (r_insn i) v -> live_at (i :: r) v.
  Proof. intros H. left. apply exposed_read. exact H. Qed.
  Lemma live_back i r v : live_at r v -> ~ writes (r_insn i) v -> live_at (i :: r) v.
  Proof.
    intros [E|[U N]] W.
    - left. apply exposed_back; assumption.
    - right. split; [|exact N]. intros x [<-|I]; [exact W|apply U; exact I].
  Qed.
  Lemma exposed_index pre rest v : code b = pre ++ rest -> exposed (isns rest) v -> exists k, (length pre <= k)%nat /\ Z.of_nat k <= cons v /\
    exists i, nth_error (plain_code code b) k = Some i /\ reads i v.
  Proof.
    intros C (l1 & i & l2 & E & R & U). exists (length pre + length l1)%nat.
    assert (N : nth_error (plain_code code b) (length pre + length l1) = Some i).
    { unfold plain_code. rewrite C, map_app, nth_error_app2 by (rewrite map_length; lia). rewrite map_length.
      replace (length pre + length l1 - length pre)%nat with (length l1) by lia.
      fold (isns rest). rewrite E. rewrite nth_error_app2 by lia. rewrite Nat.sub_diag. reflexivity. }
    split; [lia|]. split; [|eauto]. eapply L_consumed; eauto.
  Qed.
  Lemma live_cases pre rest v : code b = pre ++ rest -> local v -> live_at rest v ->
    In v (live_out b) \/ Z.of_nat (length pre) <= cons v.
  Proof.
    intros C L [E|[U N]]; [|left; apply L_needed; assumption].
    right. destruct (exposed_index _ _ _ C E) as (k & K1 & K2 & _). lia.
  Qed.
  (** a value that is still needed after this instruction *)
  Lemma live_later pre i rest v : code b = pre ++ i :: rest -> local v -> live_at rest v ->
    In v (live_out b) \/ Z.of_nat (length pre) < cons v.
  Proof.
    intros C L H. replace (pre ++ i :: rest) with ((pre ++ [i]) ++ rest) in C by (rewrite <- app_assoc; reflexivity).
    destruct (live_cases _ _ _ C L H) as [H1|H1]; [left; exact H1|right]. rewrite app_length in H1. cbn in H1. lia.
  Qed.

  Record base (pre : list rinsn) (s : ra) : Prop := mkbase {
    B_cons : forall v, cons v <= a_cons s v;
    B_up : forall v n, used_until code order cons v n -> a_cons s v <= n;
    B_size : 4 <= a_size s;
    B_off : forall v, local v -> a_off s v <> 0 -> 4 <= a_off s v /\ a_off s v + 4 <= a_size s;
    B_inj : forall u v, local u -> local v -> a_off s u = a_off s v -> a_off s u <> 0 -> u = v;
    B_goff : forall v, v_global V v = true -> a_off s v = goff v;
    B_pol : forall i v, (i < 8)%nat -> a_var s i = Some v -> a_pol s i = true -> local v /\ written pre v;
    B_given : forall v, local v -> a_off s v <> 0 -> given pre v }.

  Definition in_regs (s : ra) (v : nat) : Prop := exists i, (i < 8)%nat /\ a_var s i = Some v.
  (** between two calls; X: the variables that have been given a value *)
  Record normal (k : nat) (pre rest : list rinsn) (X : nat -> Prop) (s : ra) : Prop := mknormal {
    n_base : base pre s;
    n_inj : forall i j v, (i < 8)%nat -> (j < 8)%nat -> a_var s i = Some v -> a_var s j = Some v -> kept s k v -> i = j;
    n_slot : forall v, local v -> X v -> live_at rest v -> in_regs s v \/ a_off s v <> 0;
    n_clean : forall i v, (i < 8)%nat -> a_var s i = Some v -> a_pol s i = false -> local v -> X v -> live_at rest v -> a_off s v <> 0;
    n_push : a_push s = false; n_args : a_args s = 0%nat;
    n_last : forall p i, pre = p ++ [i] -> i_op (r_insn i) <> OP_push }.
  (** while arguments xs are being passed to a call at index K *)
  Record pushing (k K : nat) (pre rest : list rinsn) (X : nat -> Prop) (xs : list nat) (s : ra) : Prop := mkpushing {
    p_base : base pre s;
    p_args : forall j x, nth_error xs j = Some x -> (j < 8)%nat /\ a_var s j = Some x /\ a_pol s j = false /\ kept s K x;
    p_rest : forall i v, (length xs <= i < 8)%nat -> a_var s i = Some v -> kept s k v -> In v xs /\ a_pol s i = false;
    p_slot : forall v, local v -> X v -> live_at rest v -> a_off s v <> 0;
    p_push : a_push s = true; p_len : a_args s = length xs;
    p_pre : exists p0 ps, pre = p0 ++ ps /\ map (fun i => i_rs1 (r_insn i)) ps = map Some xs /\ forall i, In i ps -> i_op (r_insn i) = OP_push;
    p_next : exists p0 i, pre = p0 ++ [i] /\ i_op (r_insn i) = OP_push /\ Z.of_nat k + r_sz i = Z.of_nat K + 1 /\ (k <= K)%nat }.

  (** states that differ only in the code, in free registers' flags, ... *)
  Definition same (s s' : ra) : Prop :=
    (forall i, a_var s' i = a_var s i) /\ (forall i v, a_var s i = Some v -> a_pol s' i = a_pol s i) /\ (forall v, a_off s' v = a_off s v) /\
    a_size s' = a_size s /\ (forall v, a_cons s' v = a_cons s v) /\ a_push s' = a_push s /\ a_args s' = a_args s.
  Lemma same_emit p s : same s (emit p s).
  Proof. repeat split; reflexivity. Qed.
  Lemma same_kept s s' k v : same s s' -> kept s k v -> kept s' k v.
  Proof. intros (_ & _ & _ & _ & C & _) [H|H]; [left; exact H|right]. rewrite C. exact H. Qed.
  Lemma same_kept' s s' k v : same s s' -> kept s' k v -> kept s k v.
  Proof. intros (_ & _ & _ & _ & C & _) [H|H]; [left; exact H|right]. rewrite <- C. exact H. Qed.
  Lemma same_base pre s s' : same s s' -> base pre s -> base pre s'.
  Proof.
    intros (S1 & S2 & S3 & S4 & S5 & S6 & S7) [B1 B2 B3 B4 B5 B6 B7 B8]. split; intros.
    - rewrite S5. apply B1.
    - rewrite S5. apply B2; assumption.
    - rewrite S4. exact B3.
    - rewrite S3, S4 in *. apply B4; assumption.
    - rewrite !S3 in *. apply B5; assumption.
    - rewrite S3. apply B6; assumption.
    - rewrite S1 in *. rewrite (S2 _ _ H0) in *. eapply B7; eassumption.
    - rewrite S3 in *. apply B8; assumption.
  Qed.
  Lemma same_normal k pre rest X s s' : same s s' -> normal k pre rest X s -> normal k pre rest X s'.
  Proof.
    intros S [N1 N2 N3 N4 N5 N6 N7]. pose proof S as (S1 & S2 & S3 & S4 & S5 & S6 & S7). split.
    - eapply same_base; eassumption.
    - intros i j v Hi Hj. rewrite !S1. intros A1 A2 K. eapply N2; eauto. eapply same_kept'; eassumption.
    - intros v L Xv Lv. rewrite S3. destruct (N3 v L Xv Lv) as [(i & Hi & A)|O]; [left; exists i; rewrite S1; auto|right; exact O].
    - intros i v Hi. rewrite S1, S3. intros A P. rewrite (S2 _ _ A) in P. eapply N4; eassumption.
    - congruence.
    - congruence.
    - exact N7.
  Qed.
  Lemma same_pushing k K pre rest X xs s s' : same s s' -> pushing k K pre rest X xs s -> pushing k K pre rest X xs s'.
  Proof.
    intros S [N1 N2 N3 N4 N5 N6 N7 N8]. pose proof S as (S1 & S2 & S3 & S4 & S5 & S6 & S7). split.
    - eapply same_base; eassumption.
    - intros j x E. destruct (N2 j x E) as (H1 & H2 & H3 & H4). rewrite S1, (S2 _ _ H2). repeat split; auto. eapply same_kept; eassumption.
    - intros i v Hi. rewrite S1. intros A Kv. rewrite (S2 _ _ A). apply (N3 i v); auto. eapply same_kept'; eassumption.
    - intros v. rewrite S3. auto.
    - congruence.
    - congruence.
    - exact N7.
    - exact N8.
  Qed.

  (** *** giving up a register *)
  Lemma base_drop pre s i : base pre s -> base pre (set_reg i None false s).
  Proof.
    intros [B1 B2 B3 B4 B5 B6 B7 B8]. split; cbn; auto. intros j v Hj A P. apply upd_cases in A. destruct A as [[_ A]|[Nj A]]; [discriminate|].
    rewrite upd_other in P by exact Nj. eapply B7; eassumption.
  Qed.
  Lemma kept_drop s i o p k v : kept (set_reg i o p s) k v <-> kept s k v.
  Proof. reflexivity. Qed.
  Lemma given_written pre v : written pre v -> given pre v.
  Proof. intros [(i & I & W)|[_ H]]; [right; right; exists i; split; [exact I|apply W]|left; exact H]. Qed.
  Lemma base_slot pre s v : base pre s -> local v -> given pre v -> base pre (give_slot v s) /\ a_off (give_slot v s) v <> 0.
  Proof.
    intros HB Lv Gv. pose proof HB as [B1 B2 B3 B4 B5 B6 B7 B8]. unfold give_slot. destruct (Z.eqb_spec (a_off s v) 0) as [E|E]; [|auto].
    split; [|cbn; rewrite upd_same; lia]. split; cbn; auto.
    - lia.
    - intros u Lu O. unfold upd in *. destruct (Nat.eqb_spec u v) as [->|N]; [lia|]. specialize (B4 u Lu O). lia.
    - intros u w Lu Lw. unfold upd. destruct (Nat.eqb_spec u v) as [->|N1], (Nat.eqb_spec w v) as [->|N2]; intros E1 E2; auto.
      + assert (a_off s w <> 0) by lia. specialize (B4 w Lw H). lia.
      + specialize (B4 u Lu E2). lia.
    - intros u Gu. rewrite upd_other; [auto|]. intros ->. unfold local in Lv. congruence.
    - intros u Lu. unfold upd. destruct (Nat.eqb_spec u v) as [->|N]; auto.
  Qed.
  Lemma slot_mono v s u : a_off s u <> 0 -> a_off (give_slot v s) u = a_off s u.
  Proof.
    intros H. unfold give_slot. destruct (Z.eqb_spec (a_off s v) 0) as [E|E]; [|reflexivity]. cbn. apply upd_other. congruence.
  Qed.
  Lemma spill_mono u i s v : a_off s v <> 0 -> a_off (spill_var V u i s) v = a_off s v.
  Proof. intros H. unfold spill_var. destruct (negb (a_pol s i)); cbn; [reflexivity|]. apply slot_mono. exact H. Qed.
  Lemma spill_size u i s : a_size s <= a_size (spill_var V u i s).
  Proof.
    unfold spill_var, give_slot. destruct (negb (a_pol s i)); cbn; [lia|]. destruct (a_off s u =? 0); cbn; lia.
  Qed.
  Lemma base_spill pre s i u : base pre s -> (i < 8)%nat -> a_var s i = Some u -> base pre (spill_var V u i s).
  Proof.
    intros HB Hi A. unfold spill_var. destruct (a_pol s i) eqn:P; cbn [negb].
    - destruct (B_pol _ _ HB _ _ Hi A P) as [Lu Wu]. destruct (base_slot pre s u HB Lu (given_written _ _ Wu)) as [HB' _].
      apply base_drop. eapply same_base; [apply same_emit|exact HB'].
    - apply base_drop. exact HB.
  Qed.
  Lemma spill_off pre s i u : base pre s -> (i < 8)%nat -> a_var s i = Some u -> a_pol s i = true -> a_off (spill_var V u i s) u <> 0.
  Proof.
    intros HB Hi A P. unfold spill_var. rewrite P. cbn. destruct (B_pol _ _ HB _ _ Hi A P) as [Lu Wu].
    apply (base_slot pre s u HB Lu (given_written _ _ Wu)).
  Qed.
  Lemma normal_spill k pre rest X s i u : normal k pre rest X s -> (i < 8)%nat -> a_var s i = Some u -> normal k pre rest X (spill_var V u i s).
  Proof.
    intros HN Hi A. pose proof HN as [N1 N2 N3 N4 N5 N6 N7]. destruct (spill_push V u i s) as [P1 P2]. split; try congruence.
    - apply base_spill; assumption.
    - intros i1 i2 v H1 H2. rewrite !spill_regs. destruct (Nat.eqb i1 i); [discriminate|]. destruct (Nat.eqb i2 i); [discriminate|].
      intros A1 A2 Kv. eapply N2; eauto. unfold kept in *. rewrite spill_cons in Kv. exact Kv.
    - intros v Lv Xv Hv. destruct (N3 v Lv Xv Hv) as [(j & Hj & Aj)|O].
      + destruct (Nat.eq_dec j i) as [->|Nj].
        * assert (v = u) by congruence. subst v. right. destruct (a_pol s i) eqn:P; [eapply spill_off; eassumption|].
          rewrite spill_mono; eapply N4; eassumption.
        * left. exists j. split; [exact Hj|]. rewrite spill_regs. destruct (Nat.eqb_spec j i); [contradiction|exact Aj].
      + right. rewrite spill_mono; exact O.
    - intros j v Hj. rewrite spill_regs, spill_pols. destruct (Nat.eqb j i); [discriminate|]. intros Aj Pj Lv Xv Hv.
      rewrite spill_mono; eapply N4; eassumption.
    - exact N7.
  Qed.
  Lemma full_spill k s i u : full s k -> full (spill_var V u i s) k.
  Proof.
    intros F j v Hj. rewrite spill_regs. destruct (Nat.eqb j i); [discriminate|]. intros A. unfold kept. rewrite spill_cons. apply (F j v Hj A).
  Qed.
  Lemma normal_freed k pre rest X s i s1 : normal k pre rest X s -> (i < 8)%nat -> freed V i s s1 -> normal k pre rest X s1.
  Proof. intros HN Hi [[-> _]|(u & A & ->)]; [exact HN|apply normal_spill; assumption]. Qed.
  Lemma full_freed k s i s1 : full s k -> freed V i s s1 -> full s1 k.
  Proof. intros F [[-> _]|(u & A & ->)]; [exact F|apply full_spill; assumption]. Qed.
  Lemma freed_cons i s s1 : freed V i s s1 -> a_cons s1 = a_cons s.
  Proof. intros [[-> _]|(u & A & ->)]; [reflexivity|apply spill_cons]. Qed.
  Lemma freed_mono i s s1 v : freed V i s s1 -> a_off s v <> 0 -> a_off s1 v = a_off s v.
  Proof. intros [[-> _]|(u & A & ->)] H; [reflexivity|apply spill_mono; exact H]. Qed.

  (** *** loading *)
  Lemma base_load pre s i v : base pre s -> base pre (load_var V v i s).
  Proof.
    intros [B1 B2 B3 B4 B5 B6 B7 B8]. split; cbn; auto. intros j u Hj A P. apply upd_cases in A.
    destruct A as [[-> A]|[Nj A]]; [rewrite upd_same in P; discriminate|]. rewrite upd_other in P by exact Nj. eapply B7; eassumption.
  Qed.
  Lemma normal_load k pre rest X s i v : normal k pre rest X s -> (i < 8)%nat -> a_var s i = None ->
    (forall j, (j < 8)%nat -> a_var s j <> Some v) -> normal k pre rest X (load_var V v i s).
  Proof.
    intros HN Hi A NR. pose proof HN as [N1 N2 N3 N4 N5 N6 N7]. split; cbn; auto.
    - apply base_load. exact N1.
    - intros i1 i2 u H1 H2 A1 A2 Ku. apply upd_cases in A1. apply upd_cases in A2.
      destruct A1 as [[-> A1]|[M1 A1]], A2 as [[-> A2]|[M2 A2]]; auto.
      + exfalso. apply (NR i2 H2). congruence.
      + exfalso. apply (NR i1 H1). congruence.
      + eapply N2; eauto.
    - intros u Lu Xu Hu. destruct (N3 u Lu Xu Hu) as [(j & Hj & Aj)|O]; [|right; exact O]. left. exists j. split; [exact Hj|]. cbn.
      rewrite upd_other; [exact Aj|]. congruence.
    - intros j u Hj A1 P Lu Xu Hu. apply upd_cases in A1. destruct A1 as [[-> A1]|[M1 A1]].
      + injection A1 as <-. destruct (N3 v Lu Xu Hu) as [(j & Hj' & Aj)|O]; [|exact O]. exfalso. apply (NR j Hj' Aj).
      + rewrite upd_other in P by exact M1. eapply N4; eassumption.
  Qed.
  Lemma full_load k s i v : full s k -> kept s k v -> full (load_var V v i s) k.
  Proof.
    intros F Kv j u Hj A. cbn in A. apply upd_cases in A. destruct A as [[-> A]|[M A]]; [|apply (F j u Hj A)].
    injection A as <-. exact Kv.
  Qed.
  Lemma normal_operand k pre rest X s v o i s' : normal k pre rest X s -> full s k -> kept s k v ->
    prepare_operand V live_out b v o s = (i, s') ->
    normal k pre rest X s' /\ full s' k /\ (i < 8)%nat /\ a_var s' i = Some v /\ (forall w, a_off s w <> 0 -> a_off s' w = a_off s w) /\
    a_cons s' = a_cons s.
  Proof.
    intros HN F Kv E. destruct (operand_cases _ _ _ _ _ _ _ _ E) as [Hi [(A & -> & _)|(NR & s1 & Fr & ->)]]; [exact (conj HN (conj F (conj Hi (conj A (conj (fun w _ => eq_refl) eq_refl)))))|].
    assert (HN1 : normal k pre rest X s1) by (eapply normal_freed; eassumption).
    assert (F1 : full s1 k) by (eapply full_freed; eassumption).
    assert (NR1 : forall j, (j < 8)%nat -> a_var s1 j <> Some v).
    { intros j Hj. rewrite (freed_regs _ _ _ _ _ Fr). destruct (Nat.eqb j i); [discriminate|apply NR; exact Hj]. }
    split; [|split; [|split; [|split; [|split]]]].
    - apply normal_load; auto. eapply freed_none; eassumption.
    - apply full_load; auto. unfold kept in *. rewrite (freed_cons _ _ _ Fr). exact Kv.
    - exact Hi.
    - cbn. apply upd_same.
    - intros w Hw. cbn. eapply freed_mono; eassumption.
    - cbn. eapply freed_cons. exact Fr.
  Qed.

  (** *** the end of an instruction *)
  Definition after_insn (i : insn) (X : nat -> Prop) (v : nat) : Prop := gives V i v \/ (X v /\ ~ forgets V i v).
  Lemma kept_S s k v : kept s (S k) v -> kept s k v.
  Proof. intros [H|H]; [left; exact H|right; lia]. Qed.
  Lemma written_app pre i v : written pre v -> written (pre ++ [i]) v.
  Proof. intros [(j & J & W)|H]; [left; exists j; split; [rewrite isns_app; apply in_or_app; auto|exact W]|right; exact H]. Qed.
  Lemma given_app pre i v : given pre v -> given (pre ++ [i]) v.
  Proof.
    intros [H|[H|(j & J & W)]]; [left; exact H|right; left; exact H|]. right; right. exists j. split; [rewrite isns_app; apply in_or_app; auto|exact W].
  Qed.
  Lemma given_last pre i v : i_rd (r_insn i) = Some v -> given (pre ++ [i]) v.
  Proof. intros H. right; right. exists (r_insn i). split; [rewrite isns_app; apply in_or_app; right; left; reflexivity|exact H]. Qed.
  Lemma base_app pre i s : base pre s -> base (pre ++ [i]) s.
  Proof.
    intros [B1 B2 B3 B4 B5 B6 B7 B8]. split; auto.
    - intros j v Hj A P. destruct (B7 j v Hj A P) as [L W]. split; [exact L|apply written_app; exact W].
    - intros v L O. apply given_app. auto.
  Qed.
  (** nothing is assigned *)
  Lemma normal_next k pre i rest X s : normal k pre (i :: rest) X s -> i_op (r_insn i) <> OP_push -> i_rd (r_insn i) = None ->
    normal (S k) (pre ++ [i]) rest (after_insn (r_insn i) X) s.
  Proof.
    intros [N1 N2 N3 N4 N5 N6 N7] P R. assert (NW : forall v, ~ writes (r_insn i) v) by (intros v [W _]; congruence).
    assert (XX : forall v, after_insn (r_insn i) X v -> X v) by (intros v [[G _]|[H _]]; [congruence|exact H]). split; auto.
    - apply base_app. exact N1.
    - intros i1 i2 v H1 H2 A1 A2 Kv. eapply N2; eauto. apply kept_S. exact Kv.
    - intros v L Xv Hv. apply N3; auto. apply live_back; auto.
    - intros j v Hj A Pj L Xv Hv. eapply N4; eauto. apply live_back; auto.
    - intros p j E. apply app_inj_tail in E. destruct E as [_ <-]. exact P.
  Qed.
  (** d is assigned, in register r *)
  Lemma normal_define k pre i rest X s r d p : normal k pre (i :: rest) X s -> (r < 8)%nat -> i_op (r_insn i) <> OP_push ->
    writes (r_insn i) d -> (a_var s r = None \/ a_var s r = Some d) -> (forall j, (j < 8)%nat -> j <> r -> a_var s j <> Some d) ->
    p = negb (v_global V d) -> normal (S k) (pre ++ [i]) rest (after_insn (r_insn i) X) (set_reg r (Some d) p s).
  Proof.
    intros [N1 N2 N3 N4 N5 N6 N7] Hr P [W1 W2] Ar Ao Ep.
    assert (NW : forall v, v <> d -> ~ writes (r_insn i) v) by (intros v Nv [W _]; congruence).
    assert (XX : forall v, v <> d -> after_insn (r_insn i) X v -> X v) by (intros v Nv [[G _]|[H _]]; [congruence|exact H]). split; auto.
    - pose proof (base_app pre i s N1) as [B1 B2 B3 B4 B5 B6 B7 B8]. split; cbn; auto. intros j v Hj A Pj. apply upd_cases in A.
      destruct A as [[-> A]|[Nj A]].
      + rewrite upd_same in Pj. injection A as <-. split.
        * unfold local. destruct (v_global V d); [subst p; discriminate|reflexivity].
        * left. exists (r_insn i). split; [rewrite isns_app; apply in_or_app; right; left; reflexivity|split; assumption].
      + rewrite upd_other in Pj by exact Nj. eauto.
    - cbn. intros i1 i2 v H1 H2 A1 A2 Kv. apply upd_cases in A1. apply upd_cases in A2.
      destruct A1 as [[-> A1]|[M1 A1]], A2 as [[-> A2]|[M2 A2]]; auto.
      + exfalso. apply (Ao i2 H2 M2). congruence.
      + exfalso. apply (Ao i1 H1 M1). congruence.
      + eapply N2; eauto. apply kept_S. exact Kv.
    - intros v L Xv Hv. destruct (Nat.eq_dec v d) as [->|Nv]; [left; exists r; split; [exact Hr|cbn; apply upd_same]|].
      destruct (N3 v L (XX v Nv Xv) (live_back _ _ _ Hv (NW v Nv))) as [(j & Hj & Aj)|O]; [|right; exact O].
      left. exists j. split; [exact Hj|]. cbn. rewrite upd_other; [exact Aj|]. intros ->. destruct Ar; congruence.
    - cbn. intros j v Hj A Pj L Xv Hv. apply upd_cases in A. destruct A as [[-> A]|[Nj A]].
      + rewrite upd_same in Pj. injection A as <-. unfold local in L. rewrite L in Ep. subst p. discriminate.
      + rewrite upd_other in Pj by exact Nj. assert (Nv : v <> d) by (intros ->; apply (Ao j Hj Nj A)).
        eapply N4; eauto. apply live_back; auto.
    - intros p' j E. apply app_inj_tail in E. destruct E as [_ <-]. exact P.
  Qed.
  Lemma normal_dest k pre rest X s d o0 o1 r s' : normal k pre rest X s -> full s k ->
    prepare_dest V live_out b d o0 o1 s = (r, s') -> exists s1, (r < 8)%nat /\ s' = set_reg r (Some d) true s1 /\ normal k pre rest X s1 /\
      (a_var s1 r = None \/ a_var s1 r = Some d) /\ (forall j, (j < 8)%nat -> j <> r -> a_var s1 j <> Some d) /\
      (s1 = s \/ freed V r s s1) /\ (forall j, j <> r -> a_var s1 j = a_var s j).
  Proof.
    intros HN F E. destruct (dest_cases _ _ _ _ _ _ _ _ _ E) as [Hr (s1 & -> & [[-> A]|[Fr NR]])]; eexists; (split; [exact Hr|]).
    - split; [reflexivity|]. split; [exact HN|]. split; [right; exact A|]. split.
      + intros j Hj Nj Aj. apply Nj. eapply n_inj; eauto.
      + auto.
    - split; [reflexivity|]. split; [eapply normal_freed; eassumption|]. split; [left; eapply freed_none; eassumption|]. split; [|split; [right; exact Fr|]].
      + intros j Hj Nj. rewrite (freed_regs _ _ _ _ _ Fr). destruct (Nat.eqb j r); [discriminate|apply NR; exact Hj].
      + intros j Nj. rewrite (freed_regs _ _ _ _ _ Fr). destruct (Nat.eqb_spec j r); [contradiction|reflexivity].
  Qed.
  (** *** dropping dead variables *)
  Lemma normal_drop pre rest X s i v : code b = pre ++ rest -> normal (length pre) pre rest X s -> (i < 8)%nat -> a_var s i = Some v ->
    (local v -> X v -> live_at rest v -> a_off s v <> 0) -> normal (length pre) pre rest X (set_reg i None false s).
  Proof.
    intros C [N1 N2 N3 N4 N5 N6 N7] Hi A O. split; auto.
    - apply base_drop. exact N1.
    - cbn. intros i1 i2 u H1 H2 A1 A2 Ku. apply upd_cases in A1. apply upd_cases in A2.
      destruct A1 as [[_ A1]|[M1 A1]]; [discriminate|]. destruct A2 as [[_ A2]|[M2 A2]]; [discriminate|]. eapply N2; eauto.
    - intros u L Xu Hu. destruct (N3 u L Xu Hu) as [(j & Hj & Aj)|Ou]; [|right; exact Ou]. destruct (Nat.eq_dec j i) as [->|Nj].
      + right. assert (u = v) by congruence. subst u. auto.
      + left. exists j. split; [exact Hj|]. cbn. rewrite upd_other by exact Nj. exact Aj.
    - cbn. intros j u Hj A1 P L Xu Hu. apply upd_cases in A1. destruct A1 as [[_ A1]|[M1 A1]]; [discriminate|].
      rewrite upd_other in P by exact M1. eapply N4; eassumption.
  Qed.
  Lemma not_kept_not_live pre rest s v : code b = pre ++ rest -> base pre s -> ~ kept s (length pre) v -> local v -> ~ live_at rest v.
  Proof.
    intros C B K L Hv. apply K. destruct (live_cases _ _ _ C L Hv) as [H|H]; [left; exact H|right]. pose proof (B_cons _ _ B v). lia.
  Qed.
  Lemma refresh_reg_cases k s i : (refresh_reg live_out b (Z.of_nat k) s i = s /\ forall v, a_var s i = Some v -> kept s k v) \/
    (exists v, a_var s i = Some v /\ ~ kept s k v /\ refresh_reg live_out b (Z.of_nat k) s i = set_reg i None false s).
  Proof.
    unfold refresh_reg, check_live_out. destruct (a_var s i) as [v|] eqn:A; [|left; split; [reflexivity|discriminate]].
    destruct (mem v (live_out b)) eqn:E.
    { left. split; [reflexivity|]. intros u [= <-]. left. apply mem_In. exact E. }
    apply mem_not in E. destruct (Z.ltb_spec (a_cons s v) (Z.of_nat k)) as [H|H].
    - right. exists v. split; [reflexivity|]. split; [|reflexivity]. intros [K|K]; [contradiction|lia].
    - left. split; [reflexivity|]. intros u [= <-]. right. exact H.
  Qed.
  Lemma normal_refresh pre rest X s : code b = pre ++ rest -> normal (length pre) pre rest X s ->
    normal (length pre) pre rest X (refresh live_out b (Z.of_nat (length pre)) s) /\
    full (refresh live_out b (Z.of_nat (length pre)) s) (length pre).
  Proof.
    intros C HN. set (k := length pre) in *. split.
    - unfold refresh. apply fold_keep; [|exact HN]. intros s' i I HN'. apply regs_In in I.
      destruct (refresh_reg_cases k s' i) as [[-> _]|(v & A & NK & ->)]; [exact HN'|].
      eapply normal_drop; eauto. intros L _ Hv. exfalso. eapply not_kept_not_live; eauto. apply HN'.
    - intros i v Hi. unfold refresh.
      revert v. apply (fold_each (refresh_reg live_out b (Z.of_nat k)) (fun _ => True) (fun i s => forall v, a_var s i = Some v -> kept s k v)); auto.
      + intros s' j _ _ v A. destruct (refresh_reg_cases k s' j) as [[E H]|(u & Au & NK & E)]; rewrite E in *; [auto|].
        cbn in A. rewrite upd_same in A. discriminate.
      + intros s' j j' _ _ _ H v A. destruct (refresh_reg_cases k s' j') as [[E _]|(u & Au & NK & E)]; rewrite E in *; [auto|].
        cbn in A. apply upd_cases in A. destruct A as [[_ A]|[_ A]]; [discriminate|]. apply H in A. exact A.
      + apply regs_In. exact Hi.
  Qed.
  Lemma refresh_off k s v : a_off (refresh live_out b k s) v = a_off s v.
  Proof.
    unfold refresh. revert v. apply (fold_keep (refresh_reg live_out b k) (fun s' => forall v, a_off s' v = a_off s v)); [|auto].
    intros s' i _ H v. unfold refresh_reg. destruct (a_var s' i); [|auto]. destruct (check_live_out live_out b n); [auto|].
    destruct (a_cons s' n <? k); cbn; auto.
  Qed.
  Lemma pushing_drop k K pre rest X xs s i v : pushing k K pre rest X xs s -> a_var s i = Some v -> ~ kept s k v ->
    pushing k K pre rest X xs (set_reg i None false s).
  Proof.
    intros [N1 N2 N3 N4 N5 N6 N7 N8] A NK. split; auto.
    - apply base_drop. exact N1.
    - intros j x E. destruct (N2 j x E) as (H1 & H2 & H3 & H4). destruct (Nat.eq_dec j i) as [->|Nj].
      + exfalso. apply NK. assert (x = v) by congruence. subst x. destruct N8 as (_ & _ & _ & _ & _ & KK).
        destruct H4 as [H|H]; [left; exact H|right; lia].
      + cbn. rewrite !upd_other by exact Nj. auto.
    - cbn. intros j u Hj A1 Ku. apply upd_cases in A1. destruct A1 as [[_ A1]|[M1 A1]]; [discriminate|]. rewrite upd_other by exact M1. eauto.
  Qed.
  Lemma pushing_refresh pre K rest X xs s : pushing (length pre) K pre rest X xs s ->
    pushing (length pre) K pre rest X xs (refresh live_out b (Z.of_nat (length pre)) s) /\
    full (refresh live_out b (Z.of_nat (length pre)) s) (length pre).
  Proof.
    intros HN. set (k := length pre) in *. split.
    - unfold refresh. apply fold_keep; [|exact HN]. intros s' i I HN'.
      destruct (refresh_reg_cases k s' i) as [[-> _]|(v & A & NK & ->)]; [exact HN'|]. eapply pushing_drop; eauto.
    - intros i v Hi. unfold refresh.
      revert v. apply (fold_each (refresh_reg live_out b (Z.of_nat k)) (fun _ => True) (fun i s => forall v, a_var s i = Some v -> kept s k v)); auto.
      + intros s' j _ _ v A. destruct (refresh_reg_cases k s' j) as [[E H]|(u & Au & NK & E)]; rewrite E in *; [auto|].
        cbn in A. rewrite upd_same in A. discriminate.
      + intros s' j j' _ _ _ H v A. destruct (refresh_reg_cases k s' j') as [[E _]|(u & Au & NK & E)]; rewrite E in *; [auto|].
        cbn in A. apply upd_cases in A. destruct A as [[_ A]|[_ A]]; [discriminate|]. apply H in A. exact A.
      + apply regs_In. exact Hi.
  Qed.
  (** *** spill_alive *)
  Definition idle (s : ra) (k : nat) : Prop := forall i v, (i < 8)%nat -> a_var s i = Some v -> ~ In v (live_out b) /\ a_cons s v <= Z.of_nat k.
  Lemma spill_alive_cases k s i : (spill_alive_reg V live_out b (Z.of_nat k) s i = s /\
       forall v, a_var s i = Some v -> ~ In v (live_out b) /\ a_cons s v <= Z.of_nat k) \/
    (exists v, a_var s i = Some v /\ spill_alive_reg V live_out b (Z.of_nat k) s i = spill_var V v i s).
  Proof.
    unfold spill_alive_reg, check_live_out. destruct (a_var s i) as [v|] eqn:A; [|left; split; [reflexivity|discriminate]].
    destruct (mem v (live_out b)) eqn:E; [right; eauto|]. apply mem_not in E.
    destruct (Z.ltb_spec (Z.of_nat k) (a_cons s v)) as [H|H]; [right; eauto|]. left. split; [reflexivity|]. intros u [= <-]. auto.
  Qed.
  Lemma spill_alive_keep k s (P : ra -> Prop) : (forall s i v, (i < 8)%nat -> P s -> a_var s i = Some v -> P (spill_var V v i s)) -> P s ->
    P (spill_alive V live_out b (Z.of_nat k) s).
  Proof.
    intros H H0. unfold spill_alive. apply fold_keep; [|exact H0]. intros s' i I Hs. apply regs_In in I.
    destruct (spill_alive_cases k s' i) as [[-> _]|(v & A & ->)]; auto.
  Qed.
  Lemma spill_alive_idle k s : idle (spill_alive V live_out b (Z.of_nat k) s) k.
  Proof.
    intros i v Hi. unfold spill_alive. revert v.
    apply (fold_each (spill_alive_reg V live_out b (Z.of_nat k)) (fun _ => True)
             (fun i s => forall v, a_var s i = Some v -> ~ In v (live_out b) /\ a_cons s v <= Z.of_nat k)); auto.
    - intros s' j _ _ v A. destruct (spill_alive_cases k s' j) as [[E H]|(u & Au & E)]; rewrite E in *; [auto|].
      rewrite spill_regs, Nat.eqb_refl in A. discriminate.
    - intros s' j j' _ _ _ H v A. destruct (spill_alive_cases k s' j') as [[E _]|(u & Au & E)]; rewrite E in *; [auto|].
      rewrite spill_regs in A. destruct (Nat.eqb j j'); [discriminate|]. rewrite spill_cons. auto.
    - apply regs_In. exact Hi.
  Qed.
  Lemma normal_alive k pre rest X s : normal k pre rest X s -> full s k ->
    let s' := spill_alive V live_out b (Z.of_nat k) s in normal k pre rest X s' /\ full s' k /\ idle s' k /\ a_cons s' = a_cons s.
  Proof.
    intros HN F s'. split; [|split; [|split]].
    - apply spill_alive_keep; [|exact HN]. intros; apply normal_spill; assumption.
    - apply (spill_alive_keep k s (fun s => full s k)); [|exact F]. intros; apply full_spill; assumption.
    - apply spill_alive_idle.
    - apply (spill_alive_keep k s (fun s' => a_cons s' = a_cons s)); [|reflexivity]. intros. rewrite spill_cons. assumption.
  Qed.
  (** *** spill_live_out, at the end of a block *)
  Lemma written_killed pre rest v : code b = pre ++ rest -> written pre v -> killed v b = true.
  Proof.
    intros C [(i & I & W)|[E I]]; [|apply L_params; assumption]. eapply L_killed; eauto. unfold plain_code. rewrite C, map_app. apply in_or_app. left. exact I.
  Qed.
  Lemma spill_out_cases s i : (spill_out_reg V live_out killed b s i = s /\ a_var s i = None) \/
    (exists v, a_var s i = Some v /\ (~ In v (live_out b) \/ killed v b = false) /\ spill_out_reg V live_out killed b s i = set_reg i None false s) \/
    (exists v, a_var s i = Some v /\ In v (live_out b) /\ spill_out_reg V live_out killed b s i = spill_var V v i s).
  Proof.
    unfold spill_out_reg, check_live_out. destruct (a_var s i) as [v|] eqn:A; [|left; auto]. right.
    destruct (mem v (live_out b)) eqn:E; cbn [negb].
    - apply mem_In in E. destruct (killed v b) eqn:Kl; cbn [negb]; [right; eauto|left; eauto].
    - apply mem_not in E. left. eauto.
  Qed.
  Lemma live_end v : live_at [] v -> needed (succs g) (plain_code code) v b.
  Proof. intros [(l1 & i & l2 & E & _)|[_ N]]; [destruct l1; discriminate|exact N]. Qed.
  Lemma normal_out pre X s : code b = pre -> normal (length pre) pre [] X s ->
    let s' := spill_live_out V live_out killed b s in normal (length pre) pre [] X s' /\ (forall i, (i < 8)%nat -> a_var s' i = None).
  Proof.
    intros C HN s'. assert (C' : code b = pre ++ []) by (rewrite app_nil_r; exact C). split.
    - unfold s', spill_live_out. apply fold_keep; [|exact HN]. intros s1 i I HN1. apply regs_In in I.
      destruct (spill_out_cases s1 i) as [[-> _]|[(v & A & D & ->)|(v & A & _ & ->)]]; [exact HN1| |apply normal_spill; assumption].
      eapply normal_drop; eauto. intros L Xv Hv. destruct D as [D|D].
      + exfalso. apply D. apply L_needed; auto. apply live_end. exact Hv.
      + destruct (a_pol s1 i) eqn:P; [|eapply n_clean; eassumption].
        destruct (B_pol _ _ (n_base _ _ _ _ _ HN1) _ _ I A P) as [_ W]. pose proof (written_killed _ _ _ C' W). congruence.
    - intros i Hi. unfold s', spill_live_out.
      apply (fold_each (spill_out_reg V live_out killed b) (fun _ => True) (fun i s => a_var s i = None)); auto.
      + intros s1 j _ _. destruct (spill_out_cases s1 j) as [[-> A]|[(v & A & D & ->)|(v & A & _ & ->)]]; [exact A|cbn; apply upd_same|].
        rewrite spill_regs, Nat.eqb_refl. reflexivity.
      + intros s1 j j' _ _ _ A. destruct (spill_out_cases s1 j') as [[-> _]|[(v & _ & D & ->)|(v & _ & _ & ->)]]; [exact A| |].
        * cbn. unfold upd. destruct (Nat.eqb j j'); auto.
        * rewrite spill_regs. destruct (Nat.eqb j j'); auto.
      + apply regs_In. exact Hi.
  Qed.
  Definition mode (k : nat) (pre rest : list rinsn) (X : nat -> Prop) (s : ra) : Prop :=
    normal k pre rest X s \/ exists K xs, pushing k K pre rest X xs s.

  Lemma at_index pre i rest : code b = pre ++ i :: rest -> nth_error (code b) (length pre) = Some i.
  Proof. intros C. rewrite C, nth_error_app2, Nat.sub_diag by lia. reflexivity. Qed.
  Lemma in_plain pre i rest : code b = pre ++ i :: rest -> In (r_insn i) (plain_code code b).
  Proof. intros C. unfold plain_code. rewrite C. apply in_map. apply in_or_app. right; left; reflexivity. Qed.
  Lemma read_kept pre i rest s v : code b = pre ++ i :: rest -> base pre s -> reads (r_insn i) v -> kept s (length pre) v.
  Proof.
    intros C B R. right. pose proof (B_cons _ _ B v) as H.
    pose proof (L_consumed b (length pre) (r_insn i) v Hb) as L. unfold plain_code in L.
    rewrite (map_nth_error _ _ _ (at_index _ _ _ C)) in L. specialize (L eq_refl R). lia.
  Qed.
  Lemma base_incl pre pre' s : (forall j, In j pre -> In j pre') -> base pre s -> base pre' s.
  Proof.
    intros I [B1 B2 B3 B4 B5 B6 B7 B8].
    assert (I' : forall j, In j (isns pre) -> In j (isns pre')).
    { intros j J. apply in_map_iff in J. destruct J as (x & <- & J). apply in_map. auto. }
    split; auto.
    - intros i v Hi A P. destruct (B7 i v Hi A P) as [L [(j & J & W)|W]]; split; auto; [left; eauto|right; exact W].
    - intros v L O. destruct (B8 v L O) as [H|[H|(j & J & W)]]; [left; exact H|right; left; exact H|right; right; eauto].
  Qed.

  (** copies made from phi instructions *)
  Lemma normal_copy k pre i rest X s d : normal k pre (i :: rest) X s -> i_op (r_insn i) = OP_unwound_phi -> i_rd (r_insn i) = Some d -> local d ->
    normal (S k) (pre ++ [i]) rest (after_insn (r_insn i) X) (give_slot d s).
  Proof.
    intros [N1 N2 N3 N4 N5 N6 N7] P R L.
    assert (NW : forall v, ~ writes (r_insn i) v) by (intros v [_ W]; congruence).
    assert (B1 : base (pre ++ [i]) s) by (apply base_app; exact N1).
    assert (HS : base (pre ++ [i]) (give_slot d s) /\ a_off (give_slot d s) d <> 0) by (eapply base_slot; [exact B1|exact L|apply given_last; exact R]).
    destruct HS as [B2 Od].
    assert (E : a_var (give_slot d s) = a_var s /\ a_pol (give_slot d s) = a_pol s /\ a_cons (give_slot d s) = a_cons s /\
                a_push (give_slot d s) = a_push s /\ a_args (give_slot d s) = a_args s).
    { unfold give_slot. destruct (a_off s d =? 0); auto. }
    destruct E as (E1 & E2 & E3 & E4 & E5).
    assert (XX : forall v, v <> d -> after_insn (r_insn i) X v -> X v) by (intros v Nv [[G _]|[H _]]; [congruence|exact H]).
    split; try congruence.
    - intros i1 i2 v H1 H2. rewrite E1. intros A1 A2 Kv. eapply N2; eauto. apply kept_S. unfold kept in *. rewrite <- E3. exact Kv.
    - intros v Lv Xv Hv. destruct (Nat.eq_dec v d) as [->|Nv]; [right; exact Od|].
      destruct (N3 v Lv (XX v Nv Xv) (live_back _ _ _ Hv (NW v))) as [(j & Hj & A)|O].
      + left. exists j. rewrite E1. auto.
      + right. rewrite slot_mono; exact O.
    - intros j v Hj. rewrite E1, E2. intros A Pj Lv Xv Hv. destruct (Nat.eq_dec v d) as [->|Nv]; [exact Od|].
      assert (O : a_off s v <> 0) by (eapply N4; eauto; apply live_back; auto). rewrite slot_mono; exact O.
    - intros p j E. apply app_inj_tail in E. destruct E as [_ <-]. congruence.
  Qed.
  (** the declaration of a scalar *)
  Lemma normal_forget k pre i rest X s d : normal k pre (i :: rest) X s -> i_op (r_insn i) = OP_allocat -> i_rd (r_insn i) = Some d ->
    no_storage V d = true -> normal (S k) (pre ++ [i]) rest (after_insn (r_insn i) X) s.
  Proof.
    intros [N1 N2 N3 N4 N5 N6 N7] P R NS.
    assert (XX : forall v, after_insn (r_insn i) X v -> v <> d /\ X v).
    { intros v [[G1 G2]|[H F]]; [exfalso; apply G2; split; [exact P|congruence]|]. split; [|exact H]. intros ->. apply F. split; auto. }
    assert (NW : forall v, v <> d -> ~ writes (r_insn i) v) by (intros v Nv [W _]; congruence). split; auto.
    - apply base_app. exact N1.
    - intros i1 i2 v H1 H2 A1 A2 Kv. eapply N2; eauto. apply kept_S. exact Kv.
    - intros v L Xv Hv. destruct (XX v Xv) as [Nv Xv']. apply N3; auto. apply live_back; auto.
    - intros j v Hj A Pj L Xv Hv. destruct (XX v Xv) as [Nv Xv']. eapply N4; eauto. apply live_back; auto.
    - intros p j E. apply app_inj_tail in E. destruct E as [_ <-]. congruence.
  Qed.
  (** the value computed is never used: nothing is done *)
  Lemma normal_unused k pre i rest X s d : code b = pre ++ i :: rest -> normal k pre (i :: rest) X s -> i_op (r_insn i) <> OP_push -> writes (r_insn i) d ->
    local d -> (forall c n j, In c order -> nth_error (plain_code code c) n = Some j -> ~ reads j d) ->
    normal (S k) (pre ++ [i]) rest (after_insn (r_insn i) X) s.
  Proof.
    intros C [N1 N2 N3 N4 N5 N6 N7] P [R W2] L NR.
    assert (ND : ~ live_at rest d).
    { assert (ND' : forall c, In c order -> needed (succs g) (plain_code code) d c -> False).
      { intros c Ic Nd. induction Nd as [c c' S (l1 & j & l2 & E & Rj & _)|c c' S _ _ IH].
        - apply (NR c' (length l1) j); [eapply o_closed; eauto| |exact Rj]. rewrite E, nth_error_app2, Nat.sub_diag by lia. reflexivity.
        - apply IH. eapply o_closed; eauto. }
      intros [E|[_ Nd]]; [|eapply ND'; eauto].
      assert (C' : code b = (pre ++ [i]) ++ rest) by (rewrite <- app_assoc; exact C).
      destruct (exposed_index _ _ _ C' E) as (n & _ & _ & j & J & Rj). apply (NR b n j Hb J Rj). }
    assert (XX : forall v, v <> d -> after_insn (r_insn i) X v -> X v) by (intros v Nv [[G _]|[H _]]; [congruence|exact H]).
    assert (NW : forall v, v <> d -> ~ writes (r_insn i) v) by (intros v Nv [W _]; congruence). split; auto.
    - apply base_app. exact N1.
    - intros i1 i2 v H1 H2 A1 A2 Kv. eapply N2; eauto. apply kept_S. exact Kv.
    - intros v Lv Xv Hv. assert (Nv : v <> d) by (intros ->; contradiction). apply N3; auto. apply live_back; auto.
    - intros j v Hj A Pj Lv Xv Hv. assert (Nv : v <> d) by (intros ->; contradiction). eapply N4; eauto. apply live_back; auto.
    - intros p j E. apply app_inj_tail in E. destruct E as [_ <-]. exact P.
  Qed.
  Lemma same_store_global d r p s : same (set_reg r (Some d) (negb (v_global V d)) s) (store_global V d r (emit p (set_reg r (Some d) true s))).
  Proof.
    unfold store_global. destruct (v_global V d); cbn; repeat split; cbn; auto.
    - intros i. unfold upd. destruct (Nat.eqb_spec i r); [subst; rewrite Nat.eqb_refl|]; reflexivity.
    - intros i v _. unfold upd. destruct (Nat.eqb i r); reflexivity.
  Qed.
  Lemma same_trans s1 s2 s3 : same s1 s2 -> same s2 s3 -> same s1 s3.
  Proof.
    intros (A1 & A2 & A3 & A4 & A5 & A6 & A7) (C1 & C2 & C3 & C4 & C5 & C6 & C7). repeat split; try congruence.
    intros i v A. rewrite (C2 i v), (A2 i v); auto. rewrite A1. exact A.
  Qed.
  (** everything is in its slot *)
  Lemma idle_slots k pre i rest X s v : code b = pre ++ i :: rest -> k = length pre -> normal k pre (i :: rest) X s -> idle s k -> local v -> X v ->
    ~ writes (r_insn i) v -> live_at rest v -> a_off s v <> 0.
  Proof.
    intros C -> HN I L Xv W Hv. destruct (n_slot _ _ _ _ _ HN v L Xv (live_back _ _ _ Hv W)) as [(j & Hj & A)|O]; [|exact O].
    exfalso. destruct (I j v Hj A) as [I1 I2].
    destruct (live_later _ _ _ _ C L Hv) as [H|H]; [contradiction|].
    pose proof (B_cons _ _ (n_base _ _ _ _ _ HN) v). lia.
  Qed.
  Lemma idle_now k pre i rest X s v : code b = pre ++ i :: rest -> k = length pre -> normal k pre (i :: rest) X s -> idle s k -> local v -> X v ->
    ~ reads (r_insn i) v -> live_at (i :: rest) v -> a_off s v <> 0.
  Proof.
    intros C -> HN I L Xv R Hv. destruct (n_slot _ _ _ _ _ HN v L Xv Hv) as [(j & Hj & A)|O]; [|exact O].
    exfalso. destruct (I j v Hj A) as [I1 I2]. pose proof (B_cons _ _ (n_base _ _ _ _ _ HN) v) as BC.
    destruct Hv as [(l1 & j0 & l2 & E & Rj & U)|[U Nd]]; [|apply I1; apply L_needed; auto].
    destruct l1 as [|x l1]; cbn in E; injection E as E0 E1; subst; [contradiction|].
    assert (C' : code b = (pre ++ [i]) ++ rest) by (rewrite <- app_assoc; exact C).
    destruct (exposed_index (pre ++ [i]) rest v C') as (n & Hn & Hc & _).
    - exists l1, j0, l2. split; [exact E1|]. split; [exact Rj|]. intros y Y. apply U. right. exact Y.
    - rewrite app_length in Hn. cbn in Hn. lia.
  Qed.
  Lemma normal_cleared k pre i rest (X : nat -> Prop) s : base (pre ++ [i]) s -> i_op (r_insn i) <> OP_push -> a_push s = false -> a_args s = 0%nat ->
    (forall j v, (j < 8)%nat -> a_var s j = Some v -> ~ kept s (S k) v) ->
    (forall v, local v -> X v -> live_at rest v -> a_off s v <> 0) -> normal (S k) (pre ++ [i]) rest X s.
  Proof.
    intros B P P1 P2 NK O. split; auto.
    - intros i1 i2 v H1 H2 A1 A2 Kv. exfalso. eapply NK; eauto.
    - intros p j E. apply app_inj_tail in E. destruct E as [_ <-]. exact P.
  Qed.
  Lemma clear_regs s : let s' := fold_left (fun s i => set_reg i None (a_pol s i) s) regs s in
    (forall i, (i < 8)%nat -> a_var s' i = None) /\ a_off s' = a_off s /\ a_size s' = a_size s /\ a_cons s' = a_cons s /\
    a_push s' = a_push s /\ a_args s' = a_args s /\ a_code s' = a_code s.
  Proof.
    cbn. repeat split. intros i Hi. unfold upd. do 8 (destruct i as [|i]; [reflexivity|]). lia.
  Qed.
  Lemma base_clear pre s s' : base pre s -> (forall i, (i < 8)%nat -> a_var s' i = None) -> a_off s' = a_off s -> a_size s' = a_size s -> a_cons s' = a_cons s ->
    base pre s'.
  Proof.
    intros [B1 B2 B3 B4 B5 B6 B7 B8] A E1 E2 E3. split; rewrite ?E1, ?E2, ?E3; auto. intros i v Hi Av. rewrite A in Av by exact Hi. discriminate.
  Qed.

  (** *** passing arguments *)
  Lemma extend_base pre s x sz i rest : code b = pre ++ i :: rest -> i_op (r_insn i) = OP_push -> i_rs1 (r_insn i) = Some x -> r_sz i = sz ->
    base pre s -> let s' := extend_liveness live_out b (Z.of_nat (length pre)) x sz s in
    base pre s' /\ (forall v, a_cons s v <= a_cons s' v) /\ (In x (live_out b) \/ Z.of_nat (length pre) + sz <= a_cons s' x) /\
    a_var s' = a_var s /\ a_pol s' = a_pol s /\ a_off s' = a_off s /\ a_size s' = a_size s /\ a_push s' = a_push s /\ a_args s' = a_args s /\ a_code s' = a_code s.
  Proof.
    intros C P R Sz HB. unfold extend_liveness, check_live_out. destruct (mem x (live_out b)) eqn:M.
    { apply mem_In in M. split; [exact HB|]. split; [intros; lia|]. split; [left; exact M|]. repeat split. }
    destruct (Z.ltb_spec (a_cons s x) (Z.of_nat (length pre) + sz)) as [H|H]; [|split; [exact HB|]; split; [intros; lia|]; split; [right; lia|]; repeat split].
    pose proof HB as [B1 B2 B3 B4 B5 B6 B7 B8].
    assert (CC : forall v, a_cons s v <= upd (a_cons s) x (Z.of_nat (length pre) + sz) v).
    { intros v. unfold upd. destruct (Nat.eqb_spec v x); [subst|]; lia. }
    cbn. split; [|split; [exact CC|split; [|repeat split; reflexivity]]].
    - split; cbn; auto.
      + intros v. specialize (B1 v). specialize (CC v). lia.
      + intros v n U. unfold upd. destruct (Nat.eqb_spec v x) as [->|N]; [|apply B2; exact U]. destruct U as [_ U].
        specialize (U b (length pre) i Hb (at_index _ _ _ C) P R). rewrite Sz in U. exact U.
    - right. rewrite upd_same. lia.
  Qed.
  Lemma room_cases x o s r s' : has_room x s = true -> prepare_operand V live_out b x o s = (r, s') -> (r < 8)%nat /\
    ((a_var s r = Some x /\ s' = s) \/ ((forall j, (j < 8)%nat -> a_var s j <> Some x) /\ a_var s r = None /\ s' = load_var V x r s)).
  Proof.
    unfold has_room, prepare_operand. destruct (find_in_regs x s) as [j|] eqn:F.
    - intros _ [= <- <-]. apply find_regs_some in F. destruct F. auto.
    - destruct (find_free s) as [j|] eqn:Fr; [|discriminate]. intros _ [= <- <-]. apply find_free_some in Fr. destruct Fr.
      split; [assumption|]. right. split; [apply find_regs_none; exact F|]. auto.
  Qed.
  (** the argument has been loaded; it goes to register [length xs] *)
  Lemma push_state k K pre i rest (X : nat -> Prop) xs x s r s1 : k = length pre -> code b = pre ++ i :: rest -> i_op (r_insn i) = OP_push -> i_rs1 (r_insn i) = Some x ->
    i_rd (r_insn i) = None -> (k < K)%nat -> Z.of_nat k + r_sz i = Z.of_nat K ->
    base pre s ->
    (forall j y, nth_error xs j = Some y -> (j < 8)%nat /\ a_var s j = Some y /\ a_pol s j = false /\ kept s K y) ->
    (forall j v, (length xs <= j < 8)%nat -> a_var s j = Some v -> kept s (S k) v -> In v xs /\ a_pol s j = false) ->
    kept s K x ->
    (forall v, local v -> X v -> live_at rest v -> a_off s v <> 0) ->
    a_args s = length xs -> a_push s = true ->
    (exists p0 ps, pre = p0 ++ ps /\ map (fun i => i_rs1 (r_insn i)) ps = map Some xs /\ forall i, In i ps -> i_op (r_insn i) = OP_push) ->
    ((a_var s r = Some x /\ s1 = s) \/ ((forall j, (j < 8)%nat -> a_var s j <> Some x) /\ a_var s r = None /\ s1 = load_var V x r s)) ->
    (length xs < 8)%nat ->
    forall s2, s2 = set_reg (length xs) (Some x) false (set_args true (S (length xs)) (emit (ir OP_assign (zi r) 0 (zi (length xs))) s1)) ->
    pushing (S k) K (pre ++ [i]) rest (after_insn (r_insn i) X) (xs ++ [x]) s2.
  Proof.
    intros -> C P R D HK Sz HB HA HR Kx HS Ha Hp (p0 & ps & Ep & Em & Eo) Cs Lx s2 ->.
    assert (B1 : base pre s1) by (destruct Cs as [[_ ->]|(_ & _ & ->)]; [exact HB|apply base_load; exact HB]).
    assert (E1 : a_off s1 = a_off s /\ a_cons s1 = a_cons s) by (destruct Cs as [[_ ->]|(_ & _ & ->)]; auto). destruct E1 as [Eoff Ec].
    assert (KK : forall n v, kept s1 n v <-> kept s n v) by (intros; unfold kept; rewrite Ec; reflexivity).
    assert (V1 : forall j y, (j < length xs)%nat -> a_var s j = Some y -> a_pol s j = false -> a_var s1 j = Some y /\ a_pol s1 j = false).
    { intros j y Hj A Pj. destruct Cs as [[_ ->]|(_ & N & ->)]; [auto|]. cbn. rewrite !upd_other; [auto| |]; intros ->; congruence. }
    assert (XX : forall v, after_insn (r_insn i) X v -> X v) by (intros v [[G _]|[H _]]; [congruence|exact H]).
    assert (NW : forall v, ~ writes (r_insn i) v) by (intros v [W _]; congruence).
    split.
    - apply base_app. destruct B1 as [B1 B2 B3 B4 B5 B6 B7 B8]. split; cbn; auto. intros j v Hj A Pj. apply upd_cases in A.
      destruct A as [[-> A]|[Nj A]]; [rewrite upd_same in Pj; discriminate|]. rewrite upd_other in Pj by exact Nj. eauto.
    - intros j y E. destruct (Nat.lt_ge_cases j (length xs)) as [Hj|Hj].
      + rewrite nth_error_app1 in E by exact Hj. destruct (HA j y E) as (H1 & H2 & H3 & H4). destruct (V1 j y Hj H2 H3) as [H5 H6].
        split; [exact H1|]. cbn. rewrite !upd_other by lia. split; [exact H5|]. split; [exact H6|]. apply (KK K y). exact H4.
      + rewrite nth_error_app2 in E by exact Hj. destruct (j - length xs)%nat as [|n] eqn:Ej; [|destruct n; discriminate]. injection E as <-.
        assert (j = length xs) by lia. subst j. split; [exact Lx|]. cbn. rewrite !upd_same. split; [reflexivity|]. split; [reflexivity|]. apply (KK K x). exact Kx.
    - intros j v Hj A Kv. rewrite app_length in Hj. cbn in Hj. cbn in A |- *. rewrite !upd_other in * by lia.
      assert (Kv' : kept s (S (length pre)) v) by (apply KK; exact Kv).
      rewrite in_app_iff. destruct Cs as [[_ ->]|(NR & N & ->)].
      + destruct (HR j v) as [H1 H2]; auto; lia.
      + cbn in A |- *. apply upd_cases in A. destruct A as [[-> A]|[Nj A]].
        * rewrite upd_same. injection A as <-. split; [right; left; reflexivity|reflexivity].
        * rewrite upd_other by exact Nj. destruct (HR j v) as [H1 H2]; auto. lia.
    - intros v L Xv Hv. cbn. rewrite Eoff. apply HS; auto.
    - reflexivity.
    - cbn. rewrite app_length. cbn. lia.
    - exists p0, (ps ++ [i]). rewrite Ep, <- app_assoc. split; [reflexivity|]. split; [rewrite !map_app, Em; cbn; rewrite R; reflexivity|].
      intros j J. apply in_app_iff in J. destruct J as [J|[<-|[]]]; [auto|exact P].
    - exists pre, i. split; [reflexivity|]. split; [exact P|]. split; [lia|]. lia.
  Qed.

  (** ** Execution.  offF: the slots at the end of the allocation *)
  Context {val world : Type}.
  Variable M : meaning val world.
  Variable offF : nat -> Z.
  Hypothesis OFF_inj : forall u v, local u -> local v -> offF u = offF v -> offF u <> 0 -> u = v.
  Hypothesis LAW : separate_globals M V goff.

  Definition ext (s : ra) : Prop := forall v, local v -> a_off s v <> 0 -> offF v = a_off s v.
  Definition mono (s s' : ra) : Prop := forall v, a_off s v <> 0 -> a_off s' v = a_off s v.
  Lemma mono_refl s : mono s s.
  Proof. intros v _. reflexivity. Qed.
  Lemma mono_trans s1 s2 s3 : mono s1 s2 -> mono s2 s3 -> mono s1 s3.
  Proof. intros H1 H2 v O. rewrite H2; [apply H1; exact O|]. rewrite H1; exact O. Qed.
  Lemma mono_ext s s' : mono s s' -> ext s' -> ext s.
  Proof. intros H E v L O. rewrite (E v L), (H v O); [reflexivity|]. rewrite (H v O). exact O. Qed.
  Lemma mono_same s s' : (forall v, a_off s' v = a_off s v) -> mono s s'.
  Proof. intros H v _. apply H. Qed.

  Fixpoint exec (l : list ph2) (m : mstate) : option mstate :=
    match l with [] => Some m | p :: r => match mstep M p m with Some m' => exec r m' | None => None end end.
  Lemma exec_app l1 l2 m : exec (l1 ++ l2) m = match exec l1 m with Some m' => exec l2 m' | None => None end.
  Proof. revert m. induction l1 as [|p l IH]; intros m; cbn; [reflexivity|]. destruct (mstep M p m); [apply IH|reflexivity]. Qed.
  Lemma exec_block l l2 m m' : exec l m = Some m' -> mblock M (l ++ l2) m = mblock M l2 m'.
  Proof.
    revert m. induction l as [|p l IH]; intros m; cbn; [intros [= ->]; reflexivity|]. destruct (mstep M p m) as [m1|] eqn:E; [|discriminate].
    intros H. rewrite <- (IH _ H). destruct (p_op p) eqn:O; try reflexivity; unfold mstep in E; rewrite O in E; discriminate.
  Qed.
  Definition sim (s : ra) (m : mstate) (s' : ra) (m' : mstate) : Prop := exists l, a_code s' = a_code s ++ l /\ exec l m = Some m'.
  Lemma sim_refl s m s' : a_code s' = a_code s -> sim s m s' m.
  Proof. intros H. exists []. rewrite app_nil_r. auto. Qed.
  Lemma sim_trans s1 m1 s2 m2 s3 m3 : sim s1 m1 s2 m2 -> sim s2 m2 s3 m3 -> sim s1 m1 s3 m3.
  Proof.
    intros (l1 & C1 & E1) (l2 & C2 & E2). exists (l1 ++ l2). rewrite C2, C1, app_assoc. split; [reflexivity|]. rewrite exec_app, E1. exact E2.
  Qed.
  Lemma sim_emit s m p m' : mstep M p m = Some m' -> sim s m (emit p s) m'.
  Proof. intros H. exists [p]. cbn. rewrite H. auto. Qed.
  Lemma sim_code s m s1 m' s2 : sim s m s1 m' -> a_code s2 = a_code s1 -> sim s m s2 m'.
  Proof. intros (l & C & E) H. exists l. rewrite H. auto. Qed.

  Notation get := (get M V goff).
  Definition copied (pre : list rinsn) (d : nat) : Prop := exists i, In i (isns pre) /\ i_op i = OP_unwound_phi /\ i_rd i = Some d.
  Definition defined (v : nat) : Prop := In v params \/ exists c j, In c order /\ In j (plain_code code c) /\ gives V j v.
  (** the values of the variables are in their registers and slots *)
  Record DN (pre rest : list rinsn) (s : ra) (e : @senv val world) (m : @mstate val world) : Prop := mkDN {
    d_world : t_world m = s_world e;
    d_loc : forall i v a, (i < 8)%nat -> a_var s i = Some v -> local v -> s_env e v = Some a -> live_at rest v -> ~ copied pre v -> t_reg m i = a;
    d_glo : forall i v, (i < 8)%nat -> a_var s i = Some v -> v_global V v = true -> exposed (isns rest) v -> t_reg m i = m_gget M (s_world e) (goff v);
    d_slot : forall v a, local v -> s_env e v = Some a -> live_at rest v ->
      (exists i, (i < 8)%nat /\ a_var s i = Some v /\ a_pol s i = true) \/ (offF v <> 0 /\ t_slot m (offF v) = a);
    d_def : forall v a, s_env e v = Some a -> defined v }.

  Lemma DN_same pre rest s s' e m : same s s' -> DN pre rest s e m -> DN pre rest s' e m.
  Proof.
    intros (S1 & S2 & _) [D1 D2 D3 D4 D5]. split; auto.
    - intros i v a Hi. rewrite S1. apply D2. exact Hi.
    - intros i v Hi. rewrite S1. apply D3. exact Hi.
    - intros v a L E Hv. destruct (D4 v a L E Hv) as [(i & Hi & A & P)|H]; [|right; exact H]. left. exists i. rewrite S1, (S2 _ _ A). auto.
  Qed.
  Lemma DN_drop pre rest s i e m : DN pre rest s e m ->
    (forall v a, a_var s i = Some v -> a_pol s i = true -> local v -> s_env e v = Some a -> live_at rest v -> offF v <> 0 /\ t_slot m (offF v) = a) ->
    DN pre rest (set_reg i None false s) e m.
  Proof.
    intros [D1 D2 D3 D4 D5] H. split; auto.
    - cbn. intros j v a Hj A. apply upd_cases in A. destruct A as [[_ A]|[_ A]]; [discriminate|]. eapply D2; eauto.
    - cbn. intros j v Hj A. apply upd_cases in A. destruct A as [[_ A]|[_ A]]; [discriminate|]. eapply D3; eauto.
    - intros v a L E Hv. destruct (D4 v a L E Hv) as [(j & Hj & A & P)|O]; [|right; exact O]. destruct (Nat.eq_dec j i) as [->|N].
      + right. eapply H; eauto.
      + left. exists j. cbn. rewrite !upd_other by exact N. auto.
  Qed.
  Lemma written_not_copied pre rest v : code b = pre ++ rest -> written pre v -> ~ copied pre v.
  Proof.
    intros C W (i & I & P & R).
    assert (I' : In i (plain_code code b)) by (unfold plain_code; rewrite C, map_app; apply in_or_app; left; exact I).
    apply in_split in I'. destruct I' as (l1 & l2 & E).
    destruct (v_copies _ _ _ _ _ _ _ _ _ _ _ _ OK b l1 i l2 v Hb E P R) as (_ & _ & H1 & H2).
    destruct W as [(j & J & W)|[-> W]]; [|exact (H2 eq_refl W)]. apply (H1 j); [|exact W].
    unfold plain_code; rewrite C, map_app; apply in_or_app; left; exact J.
  Qed.
  Lemma read_not_copied pre i rest v : code b = pre ++ i :: rest -> reads (r_insn i) v -> ~ copied pre v.
  Proof.
    intros C R (j & J & P & D). apply in_split in J. destruct J as (l1 & l2 & E).
    assert (E' : plain_code code b = l1 ++ j :: l2 ++ r_insn i :: isns rest).
    { unfold plain_code. rewrite C, map_app. fold (isns pre). rewrite E, <- app_assoc. reflexivity. }
    destruct (v_copies _ _ _ _ _ _ _ _ _ _ _ _ OK b l1 j _ v Hb E' P D) as (_ & H & _). apply (H (r_insn i)); [|exact R].
    apply in_or_app. right. left. reflexivity.
  Qed.
  Lemma copied_app pre i v : i_op (r_insn i) <> OP_unwound_phi -> copied pre v -> copied (pre ++ [i]) v.
  Proof. intros _ (j & J & H). exists j. rewrite isns_app. split; [apply in_or_app; auto|exact H]. Qed.

  Lemma dyn_spill0 pre0 pre rest s i u e m : (forall v, written pre0 v -> ~ copied pre v) -> base pre0 s -> (i < 8)%nat -> a_var s i = Some u -> DN pre rest s e m ->
    ext (spill_var V u i s) -> exists m', sim s m (spill_var V u i s) m' /\ DN pre rest (spill_var V u i s) e m' /\
      t_reg m' = t_reg m /\ t_world m' = t_world m.
  Proof.
    intros C HB Hi A HD EX. destruct (a_pol s i) eqn:P.
    - destruct (B_pol _ _ HB _ _ Hi A P) as [Lu Wu]. pose proof (spill_off pre0 s i u HB Hi A P) as Ou. pose proof (EX u Lu Ou) as EU.
      assert (ES : spill_var V u i s = set_reg i None false (emit (ir OP_store (zi i) (a_off (give_slot u s) u) 0) (give_slot u s))).
      { unfold spill_var. rewrite P. cbn [negb]. unfold local in Lu. rewrite Lu. reflexivity. }
      set (o := a_off (give_slot u s) u) in *.
      assert (EO : a_off (spill_var V u i s) u = o) by (rewrite ES; reflexivity). rewrite EO in *.
      exists (mkm (t_reg m) (fun x => if x =? o then t_reg m i else t_slot m x) (t_world m) (t_latch m)).
      split; [|split; [|split; reflexivity]].
      + eapply sim_code; [eapply sim_trans; [apply (sim_refl s m (give_slot u s))|apply sim_emit]|rewrite ES; reflexivity].
        * unfold give_slot. destruct (a_off s u =? 0); reflexivity.
        * cbn. unfold rget, zi. cbn. rewrite Nat2Z.id. reflexivity.
      + rewrite ES. apply DN_drop.
        * assert (S' : same s (emit (ir OP_store (zi i) o 0) (give_slot u s)) \/ True) by auto. clear S'.
          destruct HD as [D1 D2 D3 D4 D5].
          assert (V1 : a_var (give_slot u s) = a_var s /\ a_pol (give_slot u s) = a_pol s) by (unfold give_slot; destruct (a_off s u =? 0); auto).
          destruct V1 as [V1 V2]. split; cbn; rewrite ?V1, ?V2; auto.
          intros v a L E Hv. destruct (D4 v a L E Hv) as [H|[O T]]; [left; exact H|]. right. split; [exact O|].
          destruct (Z.eqb_spec (offF v) o) as [X|X]; [|exact T]. rewrite <- EU in X. assert (v = u) by (apply OFF_inj; auto). subst v.
          eapply D2; eauto.
        * cbn. assert (V1 : a_var (give_slot u s) = a_var s) by (unfold give_slot; destruct (a_off s u =? 0); auto). rewrite V1.
          intros v a Av _ L E Hv. assert (v = u) by congruence. subst v. rewrite EU. split; [exact Ou|]. rewrite Z.eqb_refl.
          eapply d_loc; eauto.
    - exists m. assert (ES : spill_var V u i s = set_reg i None false s) by (unfold spill_var; rewrite P; reflexivity). rewrite ES.
      split; [apply sim_refl; reflexivity|]. split; [|auto]. apply DN_drop; [exact HD|]. congruence.
  Qed.
  Lemma dyn_freed0 pre0 pre rest s i s1 e m : (forall v, written pre0 v -> ~ copied pre v) -> base pre0 s -> (i < 8)%nat -> freed V i s s1 ->
    DN pre rest s e m -> ext s1 -> exists m', sim s m s1 m' /\ DN pre rest s1 e m' /\ t_reg m' = t_reg m /\ t_world m' = t_world m.
  Proof.
    intros C HB Hi [[-> _]|(u & A & ->)] HD EX; [|eapply dyn_spill0; eassumption]. exists m. split; [apply sim_refl; reflexivity|auto].
  Qed.
  Lemma dyn_spill pre rest s i u e m : code b = pre ++ rest -> base pre s -> (i < 8)%nat -> a_var s i = Some u -> DN pre rest s e m ->
    ext (spill_var V u i s) -> exists m', sim s m (spill_var V u i s) m' /\ DN pre rest (spill_var V u i s) e m' /\
      t_reg m' = t_reg m /\ t_world m' = t_world m.
  Proof. intros C. apply dyn_spill0. intros v. eapply written_not_copied. exact C. Qed.
  Lemma dyn_freed pre rest s i s1 e m : code b = pre ++ rest -> base pre s -> (i < 8)%nat -> freed V i s s1 -> DN pre rest s e m ->
    ext s1 -> exists m', sim s m s1 m' /\ DN pre rest s1 e m' /\ t_reg m' = t_reg m /\ t_world m' = t_world m.
  Proof. intros C. apply dyn_freed0. intros v. eapply written_not_copied. exact C. Qed.
  Lemma live_exposed pre i rest v : code b = pre ++ i :: rest -> reads (r_insn i) v -> live_at (i :: rest) v /\ exposed (isns (i :: rest)) v.
  Proof. intros C R. split; [apply live_read; exact R|apply exposed_read; exact R]. Qed.

  Lemma dyn_load pre rest s i v e m : (i < 8)%nat -> base pre s -> a_var s i = None -> (forall j, (j < 8)%nat -> a_var s j <> Some v) ->
    (local v -> s_env e v <> None -> a_off s v <> 0) -> live_at rest v -> ext s -> DN pre rest s e m ->
    exists m', sim s m (load_var V v i s) m' /\ DN pre rest (load_var V v i s) e m' /\ (forall a, get e v = Some a -> t_reg m' i = a) /\
      (forall j, j <> i -> t_reg m' j = t_reg m j) /\ t_world m' = t_world m /\ t_slot m' = t_slot m.
  Proof.
    intros Hi HB A NR O Hv EX HD. pose proof HD as [D1 D2 D3 D4 D5].
    set (y := if v_global V v then m_gget M (t_world m) (a_off s v) else t_slot m (a_off s v)).
    assert (HY : forall a, get e v = Some a -> y = a).
    { intros a. unfold AllocSpec.get, y. destruct (v_global V v) eqn:G.
      - intros [= <-]. rewrite D1, (B_goff _ _ HB v G). reflexivity.
      - intros E. destruct (D4 v a G E Hv) as [(j & Hj & Aj & _)|[Ov T]]; [exfalso; eapply NR; eauto|]. rewrite <- (EX v G); [exact T|].
        apply O; [exact G|congruence]. }
    exists (mkm (upd (t_reg m) i y) (t_slot m) (t_world m) (t_latch m)). split; [|split; [|split; [|split; [|split]]]].
    - unfold load_var. eapply sim_code; [apply sim_emit|reflexivity]. unfold y. destruct (v_global V v); cbn; unfold rset, zi; rewrite Nat2Z.id; reflexivity.
    - split; cbn; auto.
      + intros j u a Hj Aj L E Hu Cu. apply upd_cases in Aj. destruct Aj as [[-> Aj]|[Nj Aj]].
        * rewrite upd_same. injection Aj as <-. apply HY. unfold AllocSpec.get. unfold local in L. rewrite L. exact E.
        * rewrite upd_other by exact Nj. eapply D2; eauto.
      + intros j u Hj Aj G Eu. apply upd_cases in Aj. destruct Aj as [[-> Aj]|[Nj Aj]].
        * rewrite upd_same. injection Aj as <-. apply HY. unfold AllocSpec.get. rewrite G. reflexivity.
        * rewrite upd_other by exact Nj. eapply D3; eauto.
      + intros u a L E Hu. destruct (D4 u a L E Hu) as [(j & Hj & Aj & P)|H]; [|right; exact H]. left. exists j. split; [exact Hj|].
        assert (N : j <> i) by congruence. rewrite !upd_other by exact N. auto.
    - intros a E. cbn. rewrite upd_same. apply HY. exact E.
    - intros j N. cbn. apply upd_other. exact N.
    - reflexivity.
    - reflexivity.
  Qed.
  Lemma get_local_some e v a : get e v = Some a -> local v -> s_env e v = Some a.
  Proof. unfold AllocSpec.get, local. intros E L. rewrite L in E. exact E. Qed.
  Lemma dyn_found pre i rest s r v e m a : code b = pre ++ i :: rest -> reads (r_insn i) v -> (r < 8)%nat -> a_var s r = Some v ->
    DN pre (i :: rest) s e m -> get e v = Some a -> t_reg m r = a.
  Proof.
    intros C R Hr A [D1 D2 D3 D4 D5]. unfold AllocSpec.get. destruct (v_global V v) eqn:G; intros E.
    - injection E as <-. apply D3; auto. apply exposed_read. exact R.
    - eapply D2; eauto; [apply live_read; exact R|eapply read_not_copied; eauto].
  Qed.
  Lemma dyn_operand pre i rest X s v o r s' e m : code b = pre ++ i :: rest -> normal (length pre) pre (i :: rest) X s -> full s (length pre) ->
    reads (r_insn i) v -> (local v -> defined v -> X v) -> prepare_operand V live_out b v o s = (r, s') -> ext s' -> DN pre (i :: rest) s e m ->
    exists m', sim s m s' m' /\ DN pre (i :: rest) s' e m' /\ (forall a, get e v = Some a -> t_reg m' r = a) /\
      (forall j, j <> r -> t_reg m' j = t_reg m j) /\ t_world m' = t_world m.
  Proof.
    intros C HN F R HX E EX HD. destruct (operand_cases _ _ _ _ _ _ _ _ E) as [Hr [(A & -> & _)|(NR & s1 & Fr & ->)]].
    { exists m. split; [apply sim_refl; reflexivity|]. split; [exact HD|]. split; [|auto]. intros a G. eapply dyn_found; eauto. }
    assert (HN1 : normal (length pre) pre (i :: rest) X s1) by (eapply normal_freed; eassumption).
    assert (EX1 : ext s1) by exact EX.
    destruct (dyn_freed _ _ _ _ _ _ _ C (n_base _ _ _ _ _ HN) Hr Fr HD EX1) as (m1 & S1 & D1 & R1 & W1).
    assert (NR1 : forall j, (j < 8)%nat -> a_var s1 j <> Some v).
    { intros j Hj. rewrite (freed_regs _ _ _ _ _ Fr). destruct (Nat.eqb j r); [discriminate|apply NR; exact Hj]. }
    destruct (dyn_load pre (i :: rest) s1 r v e m1) as (m2 & S2 & D2 & V2 & R2 & W2 & _); auto.
    - apply HN1.
    - eapply freed_none; eassumption.
    - intros L Ne. destruct (s_env e v) as [a|] eqn:Ev; [|congruence].
      destruct (n_slot _ _ _ _ _ HN1 v L (HX L (d_def _ _ _ _ _ HD v a Ev)) (live_read _ _ _ R)) as [(j & Hj & Aj)|O]; [|exact O].
      exfalso. eapply NR1; eauto.
    - apply live_read. exact R.
    - exists m2. split; [eapply sim_trans; eassumption|]. split; [exact D2|]. split; [exact V2|]. split; [|congruence].
      intros j N. rewrite R2 by exact N. rewrite R1. reflexivity.
  Qed.

  Lemma dyn_dest pre0 pre rest s r s1 e m : (forall v, written pre0 v -> ~ copied pre v) -> base pre0 s -> (r < 8)%nat -> s1 = s \/ freed V r s s1 -> DN pre rest s e m ->
    ext s1 -> exists m', sim s m s1 m' /\ DN pre rest s1 e m' /\ t_reg m' = t_reg m /\ t_world m' = t_world m.
  Proof.
    intros C HB Hr [->|Fr] HD EX; [|eapply dyn_freed0; eassumption]. exists m. split; [apply sim_refl; reflexivity|auto].
  Qed.
  Lemma copied_next pre i v : i_op (r_insn i) <> OP_unwound_phi -> copied (pre ++ [i]) v -> copied pre v.
  Proof.
    intros P (j & J & H1 & H2). rewrite isns_app in J. apply in_app_iff in J. destruct J as [J|[<-|[]]]; [exists j; auto|contradiction].
  Qed.
  Lemma dyn_define pre i rest s r d x e m m' : DN pre (i :: rest) s e m -> (r < 8)%nat -> writes (r_insn i) d -> local d -> defined d ->
    (a_var s r = None \/ a_var s r = Some d) -> (forall j, (j < 8)%nat -> j <> r -> a_var s j <> Some d) ->
    t_world m' = t_world m -> t_slot m' = t_slot m -> (forall j, j <> r -> t_reg m' j = t_reg m j) -> (forall a, x = Some a -> t_reg m' r = a) ->
    DN (pre ++ [i]) rest (set_reg r (Some d) true s) (mks (upd (s_env e) d x) (s_world e) [] None) m'.
  Proof.
    intros [D1 D2 D3 D4 D5] Hr [W1 W2] L DD Ar Ao EW ES ER EV.
    assert (NW : forall v, v <> d -> ~ writes (r_insn i) v) by (intros v Nv [W _]; congruence). split; cbn.
    - congruence.
    - intros j v a Hj A Lv E Hv Cv. apply upd_cases in A. destruct A as [[-> A]|[Nj A]].
      + injection A as <-. rewrite upd_same in E. auto.
      + rewrite ER by exact Nj. assert (Nv : v <> d) by (intros ->; eapply Ao; eauto). rewrite upd_other in E by exact Nv.
        eapply D2; eauto; [apply live_back; auto|]. intros Cp. apply Cv. apply copied_app; [exact W2|exact Cp].
    - intros j v Hj A G Ev. apply upd_cases in A. destruct A as [[-> A]|[Nj A]]; [injection A as <-; unfold local in L; congruence|].
      rewrite ER by exact Nj. assert (Nv : v <> d) by (unfold local in L; congruence). apply D3; auto. apply exposed_back; auto.
    - intros v a Lv E Hv. destruct (Nat.eq_dec v d) as [->|Nv].
      + left. exists r. rewrite !upd_same. auto.
      + rewrite upd_other in E by exact Nv. destruct (D4 v a Lv E (live_back _ _ _ Hv (NW v Nv))) as [(j & Hj & A & P)|[O T]].
        * left. exists j. assert (Nj : j <> r) by (intros ->; destruct Ar; congruence). rewrite !upd_other by exact Nj. auto.
        * right. rewrite ES. auto.
    - intros v a E. unfold upd in E. destruct (Nat.eqb_spec v d) as [->|Nv]; [exact DD|eauto].
  Qed.
  Lemma dyn_define_global pre i rest s r d a e m m' : DN pre (i :: rest) s e m -> (r < 8)%nat -> writes (r_insn i) d -> v_global V d = true ->
    (a_var s r = None \/ a_var s r = Some d) -> (forall j, (j < 8)%nat -> j <> r -> a_var s j <> Some d) ->
    t_world m' = m_gput M (s_world e) (goff d) a -> t_slot m' = t_slot m -> (forall j, j <> r -> t_reg m' j = t_reg m j) -> t_reg m' r = a ->
    DN (pre ++ [i]) rest (set_reg r (Some d) false s) (mks (s_env e) (m_gput M (s_world e) (goff d) a) [] None) m'.
  Proof.
    intros [D1 D2 D3 D4 D5] Hr [W1 W2] G Ar Ao EW ES ER EV. destruct LAW as [LAW1 LAW2].
    assert (NW : forall v, v <> d -> ~ writes (r_insn i) v) by (intros v Nv [W _]; congruence).
    assert (NL : forall v, local v -> v <> d) by (unfold local; congruence). split; cbn.
    - exact EW.
    - intros j v c Hj A Lv E Hv Cv. apply upd_cases in A. destruct A as [[-> A]|[Nj A]]; [injection A as <-; exfalso; eapply NL; eauto|].
      rewrite ER by exact Nj. eapply D2; eauto; [apply live_back; auto|]. intros Cp. apply Cv. apply copied_app; [exact W2|exact Cp].
    - intros j v Hj A Gv Ev. apply upd_cases in A. destruct A as [[-> A]|[Nj A]].
      + injection A as <-. rewrite LAW1. exact EV.
      + assert (Nv : v <> d) by (intros ->; eapply Ao; eauto). rewrite ER, LAW2 by auto. apply D3; auto. apply exposed_back; auto.
    - intros v c Lv E Hv. destruct (D4 v c Lv E (live_back _ _ _ Hv (NW v (NL v Lv)))) as [(j & Hj & A & P)|[O T]].
      + left. exists j. assert (Nj : j <> r) by (intros ->; destruct Ar; [congruence|apply (NL v Lv); congruence]). rewrite !upd_other by exact Nj. auto.
      + right. rewrite ES. auto.
    - exact D5.
  Qed.
  (** an instruction without destination; the world may change, when no copy of a global is used afterwards *)
  Lemma dyn_next pre i rest s e m m' w al r : DN pre (i :: rest) s e m -> i_rd (r_insn i) = None -> t_slot m' = t_slot m -> t_world m' = w ->
    (forall j v, (j < 8)%nat -> a_var s j = Some v -> exposed (isns rest) v \/ live_at rest v -> t_reg m' j = t_reg m j) ->
    (w = s_world e \/ forall j v, (j < 8)%nat -> a_var s j = Some v -> v_global V v = true -> exposed (isns rest) v -> False) ->
    DN (pre ++ [i]) rest s (mks (s_env e) w al r) m'.
  Proof.
    intros [D1 D2 D3 D4 D5] R ES EW ER EG.
    assert (NW : forall v, ~ writes (r_insn i) v) by (intros v [W _]; congruence). split; cbn.
    - exact EW.
    - intros j v c Hj A Lv E Hv Cv. rewrite (ER j v) by auto. eapply D2; eauto; [apply live_back; auto|]. intros (y & Y & Cp). apply Cv. exists y.
      rewrite isns_app. split; [apply in_or_app; auto|exact Cp].
    - intros j v Hj A Gv Ev. destruct EG as [->|EG]; [|exfalso; eauto]. rewrite (ER j v) by auto. apply D3; auto. apply exposed_back; auto.
    - intros v c Lv E Hv. destruct (D4 v c Lv E (live_back _ _ _ Hv (NW v))) as [H|[O T]]; [left; exact H|right; rewrite ES; auto].
    - exact D5.
  Qed.
  (** nothing is emitted for i; d is not needed any more, or forgotten *)
  Lemma dyn_skip pre i rest s d x e m : DN pre (i :: rest) s e m -> i_rd (r_insn i) = Some d -> i_op (r_insn i) <> OP_unwound_phi -> local d ->
    x = None \/ (defined d /\ ~ live_at rest d) -> DN (pre ++ [i]) rest s (mks (upd (s_env e) d x) (s_world e) [] None) m.
  Proof.
    intros [D1 D2 D3 D4 D5] R P L ND.
    assert (NW : forall v, v <> d -> ~ writes (r_insn i) v) by (intros v Nv [W _]; congruence).
    assert (NV : forall v a, upd (s_env e) d x v = Some a -> live_at rest v -> v <> d).
    { intros v a E Hv ->. rewrite upd_same in E. destruct ND as [->|[_ ND]]; [discriminate|contradiction]. } split; cbn.
    - exact D1.
    - intros j v c Hj A Lv E Hv Cv. pose proof (NV v c E Hv) as Nv. rewrite upd_other in E by exact Nv.
      eapply D2; eauto; [apply live_back; auto|]. intros Cp. apply Cv. apply copied_app; auto.
    - intros j v Hj A Gv Ev. apply D3; auto. apply exposed_back; auto. apply NW. unfold local in L. congruence.
    - intros v c Lv E Hv. pose proof (NV v c E Hv) as Nv. rewrite upd_other in E by exact Nv.
      exact (D4 v c Lv E (live_back _ _ _ Hv (NW v Nv))).
    - intros v a E. apply upd_cases in E. destruct E as [[-> ->]|[_ E]]; [|eauto]. destruct ND as [ND|[ND _]]; [discriminate|exact ND].
  Qed.
  Lemma dyn_copy pre i rest s d x e m m' : DN pre (i :: rest) s e m ->
    i_rd (r_insn i) = Some d -> i_op (r_insn i) = OP_unwound_phi -> local d -> defined d -> offF d <> 0 ->
    t_world m' = t_world m -> t_reg m' = t_reg m -> (forall a, x = Some a -> t_slot m' (offF d) = a) ->
    (forall o, o <> offF d -> t_slot m' o = t_slot m o) ->
    DN (pre ++ [i]) rest s (mks (upd (s_env e) d x) (s_world e) [] None) m'.
  Proof.
    intros [D1 D2 D3 D4 D5] R P L DD Od EW ER EV ES.
    assert (NW : forall v, ~ writes (r_insn i) v) by (intros v [_ W]; congruence).
    assert (CP : copied (pre ++ [i]) d) by (exists (r_insn i); rewrite isns_app; split; [apply in_or_app; right; left; reflexivity|auto]).
    split; cbn.
    - congruence.
    - intros j v c Hj A Lv E Hv Cv. assert (Nv : v <> d) by (intros ->; contradiction). rewrite upd_other in E by exact Nv. rewrite ER.
      eapply D2; eauto; [apply live_back; auto|]. intros (y & Y & Cp). apply Cv. exists y. rewrite isns_app. split; [apply in_or_app; auto|exact Cp].
    - intros j v Hj A Gv Ev. rewrite ER. apply D3; auto. apply exposed_back; auto.
    - intros v c Lv E Hv. destruct (Nat.eq_dec v d) as [->|Nv].
      + right. split; [exact Od|]. rewrite upd_same in E. auto.
      + rewrite upd_other in E by exact Nv. destruct (D4 v c Lv E (live_back _ _ _ Hv (NW v))) as [H|[O T]]; [left; exact H|right].
        split; [exact O|]. rewrite ES; [exact T|]. intros X. apply Nv. apply OFF_inj; auto.
    - intros v a E. apply upd_cases in E. destruct E as [[-> ->]|[_ E]]; [exact DD|eauto].
  Qed.

  (** the loops over the registers *)
  Lemma dyn_refresh pre rest X s e m : code b = pre ++ rest -> normal (length pre) pre rest X s -> DN pre rest s e m ->
    DN pre rest (refresh live_out b (Z.of_nat (length pre)) s) e m.
  Proof.
    intros C HN HD. unfold refresh. set (k := length pre) in *.
    apply (fold_keep (refresh_reg live_out b (Z.of_nat k)) (fun s' => normal k pre rest X s' /\ DN pre rest s' e m)); [|auto].
    intros s' i I [HN' HD']. apply regs_In in I.
    destruct (refresh_reg_cases k s' i) as [[-> _]|(v & A & NK & ->)]; [auto|]. split.
    - eapply normal_drop; eauto. intros L _ Hv. exfalso. eapply not_kept_not_live; eauto. apply HN'.
    - apply DN_drop; [exact HD'|]. intros u a Au _ L _ Hu. assert (u = v) by congruence. subst u. exfalso.
      eapply not_kept_not_live; eauto. apply HN'.
  Qed.
  Lemma refresh_code k s : a_code (refresh live_out b k s) = a_code s.
  Proof.
    unfold refresh. apply (fold_keep (refresh_reg live_out b k) (fun s' => a_code s' = a_code s)); [|auto].
    intros s' i _ H. unfold refresh_reg. destruct (a_var s' i); [|auto]. destruct (check_live_out live_out b n); [auto|].
    destruct (a_cons s' n <? k); cbn; auto.
  Qed.
  (** registers are given up one by one, each stored if polluted *)
  Definition leaves (s s' : ra) : Prop := forall i, (i < 8)%nat -> a_var s' i = a_var s i \/ a_var s' i = None.
  Lemma dyn_spills f (l : list nat) pre rest k X : code b = pre ++ rest -> k = length pre ->
    (forall s i, In i l -> normal k pre rest X s -> f s i = s \/ (exists v, a_var s i = Some v /\ f s i = spill_var V v i s) \/
       (exists v, (i < 8)%nat /\ a_var s i = Some v /\ f s i = set_reg i None false s /\ (local v -> live_at rest v -> X v -> a_pol s i = false) /\
          (local v -> live_at rest v -> a_pol s i = false))) ->
    (forall i, In i l -> (i < 8)%nat) ->
    forall s, normal k pre rest X s -> normal k pre rest X (fold_left f l s) /\ mono s (fold_left f l s) /\
      (forall e m, ext (fold_left f l s) -> DN pre rest s e m ->
       exists m', sim s m (fold_left f l s) m' /\ DN pre rest (fold_left f l s) e m' /\ t_reg m' = t_reg m /\ t_world m' = t_world m).
  Proof.
    intros C -> Hf Hl. induction l as [|i l IH]; intros s HN; cbn.
    { split; [exact HN|]. split; [apply mono_refl|]. intros e m _ HD. exists m. split; [apply sim_refl; reflexivity|auto]. }
    assert (Hi : (i < 8)%nat) by (apply Hl; left; reflexivity).
    assert (G : normal (length pre) pre rest X (f s i) /\ mono s (f s i) /\
      (forall e m, ext (f s i) -> DN pre rest s e m ->
       exists m', sim s m (f s i) m' /\ DN pre rest (f s i) e m' /\ t_reg m' = t_reg m /\ t_world m' = t_world m)).
    { destruct (Hf s i (or_introl eq_refl) HN) as [->|[(v & A & ->)|(v & Hi' & A & -> & P1 & P2)]].
      - split; [exact HN|]. split; [apply mono_refl|]. intros e m _ HD. exists m. split; [apply sim_refl; reflexivity|auto].
      - split; [apply normal_spill; assumption|]. split; [intros u Ou; apply spill_mono; exact Ou|].
        intros e m EX HD. eapply dyn_spill; eauto. apply HN.
      - split; [|split; [apply mono_same; reflexivity|]].
        + eapply normal_drop; eauto. intros L Xv Hv. eapply n_clean; eauto.
        + intros e m _ HD. exists m. split; [apply sim_refl; reflexivity|]. split; [|auto]. apply DN_drop; [exact HD|].
          intros u a Au Pu L _ Hu. assert (u = v) by congruence. subst u. rewrite (P2 L Hu) in Pu. discriminate. }
    destruct G as (G1 & G2 & G3). destruct (IH (fun s i I => Hf s i (or_intror I)) (fun i I => Hl i (or_intror I)) (f s i) G1) as (I1 & I2 & I3).
    split; [exact I1|]. split; [eapply mono_trans; eassumption|]. intros e m EX HD.
    destruct (G3 e m (mono_ext _ _ I2 EX) HD) as (m1 & S1 & D1 & R1 & W1). destruct (I3 e m1 EX D1) as (m2 & S2 & D2 & R2 & W2).
    exists m2. split; [eapply sim_trans; eassumption|]. split; [exact D2|]. split; congruence.
  Qed.
  Lemma dyn_alive pre rest X s : code b = pre ++ rest -> normal (length pre) pre rest X s ->
    let s' := spill_alive V live_out b (Z.of_nat (length pre)) s in mono s s' /\
      (forall e m, ext s' -> DN pre rest s e m -> exists m', sim s m s' m' /\ DN pre rest s' e m' /\ t_reg m' = t_reg m /\ t_world m' = t_world m).
  Proof.
    intros C HN. apply (dyn_spills (spill_alive_reg V live_out b (Z.of_nat (length pre))) regs pre rest (length pre) X); auto.
    - intros s1 i _ _. destruct (spill_alive_cases (length pre) s1 i) as [[E _]|(v & A & E)]; [left; exact E|right; left; eauto].
    - intros i I. apply regs_In. exact I.
  Qed.
  Lemma dyn_out pre X s : code b = pre -> normal (length pre) pre [] X s ->
    let s' := spill_live_out V live_out killed b s in mono s s' /\
      (forall e m, ext s' -> DN pre [] s e m -> exists m', sim s m s' m' /\ DN pre [] s' e m' /\ t_reg m' = t_reg m /\ t_world m' = t_world m).
  Proof.
    intros C HN. assert (C' : code b = pre ++ []) by (rewrite app_nil_r; exact C).
    apply (dyn_spills (spill_out_reg V live_out killed b) regs pre [] (length pre) X); auto.
    - intros s1 i I HN1. apply regs_In in I. destruct (spill_out_cases s1 i) as [[E _]|[(v & A & D & E)|(v & A & _ & E)]]; [left; exact E| |right; left; eauto].
      right. right. exists v. split; [exact I|]. split; [exact A|]. split; [exact E|].
      assert (G : local v -> live_at [] v -> a_pol s1 i = false); [|split; auto].
      intros L Hv. destruct D as [D|D].
      + exfalso. apply D. apply L_needed; auto. apply live_end. exact Hv.
      + destruct (a_pol s1 i) eqn:P; [|reflexivity].
        destruct (B_pol _ _ (n_base _ _ _ _ _ HN1) _ _ I A P) as [_ W]. pose proof (written_killed _ _ _ C' W). congruence.
    - intros i I. apply regs_In. exact I.
  Qed.

  (** ** One instruction *)
  Notation sset := (AllocSpec.set M V goff).
  Definition place (d : nat) : val := m_frame M (offF d + 4).
  Notation sstep := (sstep M V goff place).
  Inductive md := MN | MP (K : nat) (xs : list nat).
  Definition static (q : md) (k : nat) (pre rest : list rinsn) (X : nat -> Prop) (s : ra) : Prop :=
    match q with MN => normal k pre rest X s | MP K xs => xs <> [] /\ pushing k K pre rest X xs s end.
  (** arguments are being passed *)
  Record DP (k : nat) (rest : list rinsn) (xs : list nat) (s : ra) (e : @senv val world) (m : @mstate val world) : Prop := mkDP {
    dp_world : t_world m = s_world e;
    dp_len : length (s_args e) = length xs;
    dp_args : forall j a, nth_error (s_args e) j = Some a -> t_reg m j = a;
    dp_regs : forall i v a, (i < 8)%nat -> a_var s i = Some v -> kept s k v -> get e v = Some a -> t_reg m i = a;
    dp_slot : forall v a, local v -> s_env e v = Some a -> live_at rest v -> offF v <> 0 /\ t_slot m (offF v) = a;
    dp_def : forall v a, s_env e v = Some a -> defined v }.
  Definition ret_ok (k : nat) (s : ra) (e : @senv val world) (m : @mstate val world) : Prop :=
    forall r, s_ret e = Some r -> t_reg m 0%nat = r /\ forall j v, (j < 8)%nat -> a_var s j = Some v -> ~ kept s k v.
  Definition dyn (q : md) (k : nat) (pre rest : list rinsn) (s : ra) (e : @senv val world) (m : @mstate val world) : Prop :=
    match q with MN => DN pre rest s e m /\ s_args e = [] /\ ret_ok k s e m | MP _ xs => DP k rest xs s e m end.
  (** from a refreshed state *)
  Definition good (q q' : md) (pre : list rinsn) (i : rinsn) (rest : list rinsn) (X : nat -> Prop) (s s' : ra) : Prop :=
    static q' (S (length pre)) (pre ++ [i]) rest (after_insn (r_insn i) X) s' /\ mono s s' /\
    forall e m e', ext s' -> dyn q (length pre) pre (i :: rest) s e m -> sstep i e e' ->
      exists m', sim s m s' m' /\ dyn q' (S (length pre)) (pre ++ [i]) rest s' e' m'.

  Lemma set_shape e d x e' : sset e d x = Some e' -> s_args e' = [] /\ s_ret e' = None.
  Proof.
    unfold AllocSpec.set. destruct (v_global V d); [destruct x; [|discriminate]|]; intros [= <-]; auto.
  Qed.
  Lemma good_finish pre i rest X s s' : normal (S (length pre)) (pre ++ [i]) rest (after_insn (r_insn i) X) s' -> mono s s' ->
    (forall e m e', ext s' -> DN pre (i :: rest) s e m -> s_args e = [] -> ret_ok (length pre) s e m -> sstep i e e' ->
       s_args e' = [] /\ s_ret e' = None /\ exists m', sim s m s' m' /\ DN (pre ++ [i]) rest s' e' m') -> good MN MN pre i rest X s s'.
  Proof.
    intros H1 H2 H3. split; [exact H1|]. split; [exact H2|]. intros e m e' EX (HD & HA & HR) ST.
    destruct (H3 e m e' EX HD HA HR ST) as (A & R & m' & S' & D'). exists m'. split; [exact S'|]. split; [exact D'|]. split; [exact A|].
    intros r. rewrite R. discriminate.
  Qed.
  Lemma gives_defined pre i rest d : code b = pre ++ i :: rest -> i_rd (r_insn i) = Some d -> i_op (r_insn i) <> OP_allocat -> defined d.
  Proof.
    intros C R P. right. exists b, (r_insn i). split; [exact Hb|]. split; [eapply in_plain; eauto|]. split; [exact R|]. intros [H _]. contradiction.
  Qed.
  Lemma dest_local pre i rest d : code b = pre ++ i :: rest -> i_rd (r_insn i) = Some d ->
    ~ In (i_op (r_insn i)) [OP_assign; OP_load_constant; OP_load_data_address] -> local d.
  Proof.
    intros C R P. unfold local. destruct (v_global V d) eqn:G; [|reflexivity]. exfalso. apply P.
    eapply (v_globals _ _ _ _ _ _ _ _ _ _ _ _ OK b (r_insn i) d Hb); eauto. eapply in_plain; eauto.
  Qed.

  (** the value of d is computed, into the register chosen for it *)
  Lemma define_value pre0 pre i rest X s d r s3 o0 o1 p : (forall v, written pre0 v -> ~ copied pre v) -> (forall j, In j pre0 -> In j (pre ++ [i])) ->
    code b = pre ++ i :: rest -> normal (length pre) pre0 (i :: rest) X s -> full s (length pre) ->
    writes (r_insn i) d -> i_op (r_insn i) <> OP_push -> prepare_dest V live_out b d o0 o1 s = (r, s3) ->
    let s' := store_global V d r (emit p s3) in
    (r < 8)%nat /\ normal (S (length pre)) (pre ++ [i]) rest (after_insn (r_insn i) X) s' /\ mono s s' /\ (forall j, a_var s' j = a_var s3 j) /\
    forall e m x e', ext s' -> DN pre (i :: rest) s e m -> sset e d x = Some e' -> (local d -> defined d) ->
      exists m1, t_reg m1 = t_reg m /\ t_world m1 = t_world m /\ sim s m s3 m1 /\ forall m2, mstep M p m1 = Some m2 -> t_world m2 = t_world m1 ->
        t_slot m2 = t_slot m1 -> (forall j, j <> r -> t_reg m2 j = t_reg m1 j) -> (forall a, x = Some a -> t_reg m2 r = a) ->
        exists m3, sim s m s' m3 /\ DN (pre ++ [i]) rest s' e' m3 /\ t_reg m3 = t_reg m2.
  Proof.
    intros WC IN C HN F W P E s'. destruct (normal_dest _ _ _ _ _ _ _ _ _ _ HN F E) as (s1 & Hr & -> & HN1 & Ar & Ao & SF & _).
    pose proof (normal_define (length pre) pre0 i rest X s1 r d _ HN1 Hr P W Ar Ao eq_refl) as HD0.
    pose proof (same_store_global d r p s1) as SM. fold s' in SM.
    assert (MO : mono s s').
    { apply mono_trans with s1.
      - destruct SF as [->|Fr]; [apply mono_refl|]. intros v Ov. eapply freed_mono; eauto.
      - apply mono_same. intros v. destruct SM as (_ & _ & SM & _). rewrite SM. reflexivity. }
    split; [exact Hr|]. split; [|split; [exact MO|]].
    { eapply same_normal; [exact SM|]. destruct HD0 as [Q1 Q2 Q3 Q4 Q5 Q6 Q7]. split; auto.
      - eapply base_incl; [|exact Q1]. intros j J. apply in_app_iff in J. destruct J as [J|[<-|[]]]; [auto|]. apply in_or_app. right; left; reflexivity.
      - intros p0 j EE. apply app_inj_tail in EE. destruct EE as [_ <-]. exact P. }
    split.
    { unfold s', store_global. destruct (v_global V d); [|reflexivity]. cbn. intros j. unfold upd. rewrite Nat.eqb_refl. destruct (Nat.eqb j r); reflexivity. }
    intros e m x e' EX HD SE DD.
    assert (EX1 : ext s1). { intros v L Ov. rewrite (EX v L); destruct SM as (_ & _ & SM & _); rewrite SM; [reflexivity|exact Ov]. }
    destruct (dyn_dest _ _ _ _ _ _ _ _ WC (n_base _ _ _ _ _ HN) Hr SF HD EX1) as (m1 & S1 & D1 & R1 & W1).
    exists m1. split; [exact R1|]. split; [exact W1|]. split; [eapply sim_code; [exact S1|reflexivity]|].
    intros m2 ST EW ES ER EV.
    assert (S2 : sim s m (emit p (set_reg r (Some d) true s1)) m2).
    { eapply sim_trans; [exact S1|]. exists [p]. cbn. rewrite ST. auto. }
    unfold AllocSpec.set in SE. destruct (v_global V d) eqn:G.
    - destruct x as [a|]; [|discriminate]. injection SE as <-.
      exists (mkm (t_reg m2) (t_slot m2) (m_gput M (t_world m2) (goff d) (t_reg m2 r)) (t_latch m2)).
      assert (OG : a_off s1 d = goff d) by (apply (B_goff _ _ (n_base _ _ _ _ _ HN1)); exact G).
      split; [|split; [|reflexivity]].
      + eapply sim_trans; [exact S2|]. unfold s', store_global. rewrite G. eapply sim_code; [apply sim_emit|reflexivity].
        cbn. unfold rget, zi. cbn. rewrite Nat2Z.id, OG. reflexivity.
      + eapply DN_same; [exact SM|]. cbn [negb]. eapply dyn_define_global; eauto.
        cbn. rewrite EW, (d_world _ _ _ _ _ D1), (EV a eq_refl). reflexivity.
    - injection SE as <-. exists m2. split; [|split; [|reflexivity]].
      + unfold s', store_global. rewrite G. exact S2.
      + eapply DN_same; [exact SM|]. cbn [negb]. eapply dyn_define; eauto.
  Qed.
  Lemma emit_local d r p s : local d -> store_global V d r (emit p s) = emit p s.
  Proof. unfold store_global, local. intros ->. reflexivity. Qed.
  Lemma rset_facts (m : @mstate val world) r y : t_world (rset m (zi r) y) = t_world m /\ t_slot (rset m (zi r) y) = t_slot m /\
    (forall j, j <> r -> t_reg (rset m (zi r) y) j = t_reg m j) /\ t_reg (rset m (zi r) y) r = y.
  Proof.
    unfold rset, zi. rewrite Nat2Z.id. cbn. split; [reflexivity|]. split; [reflexivity|]. split; [intros j N; apply upd_other; exact N|apply upd_same].
  Qed.
  Lemma rget_zi (m : @mstate val world) r : rget m (zi r) = t_reg m r.
  Proof. unfold rget, zi. rewrite Nat2Z.id. reflexivity. Qed.

  (** what a step of the source means, for each kind of instruction *)
  Ltac inv_step ST := inversion ST; subst; cbn in *; subst; try discriminate; repeat match goal with H : Some _ = Some _ |- _ => injection H as <- end.
  Lemma sstep_binary i e e' d x y : sstep i e e' -> binary (i_op (r_insn i)) = true -> i_rd (r_insn i) = Some d -> i_rs1 (r_insn i) = Some x ->
    i_rs2 (r_insn i) = Some y -> exists a c z, get e x = Some a /\ get e y = Some c /\ m_alu2 M (i_op (r_insn i)) a c = Some z /\ sset e d (Some z) = Some e'.
  Proof. intros ST B R1 R2 R3. inv_step ST; eauto 8. all: destruct o; discriminate. Qed.
  Lemma sstep_unary i e e' d x : sstep i e e' -> unary (i_op (r_insn i)) = true -> i_rd (r_insn i) = Some d -> i_rs1 (r_insn i) = Some x ->
    exists a z, get e x = Some a /\ m_alu1 M (i_op (r_insn i)) a = Some z /\ sset e d (Some z) = Some e'.
  Proof. intros ST B R1 R2. inv_step ST; eauto 8. all: destruct o; discriminate. Qed.
  Lemma sstep_read i e e' d x : sstep i e e' -> i_op (r_insn i) = OP_read -> i_rd (r_insn i) = Some d -> i_rs1 (r_insn i) = Some x ->
    exists a z, get e x = Some a /\ m_read M (r_sz i) a (s_world e) = Some z /\ sset e d (Some z) = Some e'.
  Proof. intros ST B R1 R2. inv_step ST; eauto 8. Qed.
  Lemma sstep_decl i e e' d : sstep i e e' -> i_op (r_insn i) = OP_allocat -> i_rd (r_insn i) = Some d -> no_storage V d = true -> local d /\ sset e d None = Some e'.
  Proof. intros ST B R1 R2. inv_step ST; auto. congruence. Qed.
  Lemma sstep_storage i e e' d : sstep i e e' -> i_op (r_insn i) = OP_allocat -> i_rd (r_insn i) = Some d -> no_storage V d = false -> local d /\ sset e d (Some (place d)) = Some e'.
  Proof. intros ST B R1 R2. inv_step ST; auto. congruence. Qed.
  Lemma sstep_unused i e e' d : sstep i e e' -> In (i_op (r_insn i)) [OP_assign; OP_load_constant; OP_load_data_address] -> i_rd (r_insn i) = Some d -> exists x, sset e d x = Some e'.
  Proof. intros ST B R1. inversion ST; subst; cbn in *; try (injection R1 as <-); eauto; try discriminate; exfalso; clear -B; intuition discriminate. Qed.
  Lemma sstep_const i e e' d : sstep i e e' -> i_op (r_insn i) = OP_load_constant -> i_rd (r_insn i) = Some d -> sset e d (Some (m_const M (v_init V d))) = Some e'.
  Proof. intros ST B R1. inv_step ST; auto. Qed.
  Lemma sstep_data i e e' d : sstep i e e' -> i_op (r_insn i) = OP_load_data_address -> i_rd (r_insn i) = Some d -> sset e d (Some (m_data M (v_init V d))) = Some e'.
  Proof. intros ST B R1. inv_step ST; auto. Qed.
  Lemma sstep_addr i e e' d x : sstep i e e' -> i_op (r_insn i) = OP_address_of -> i_rd (r_insn i) = Some d -> i_rs1 (r_insn i) = Some x -> sset e d (Some (m_gaddr M (goff x))) = Some e'.
  Proof. intros ST B R1 R2. inv_step ST; auto. Qed.
  Lemma sstep_assign i e e' d x : sstep i e e' -> i_op (r_insn i) = OP_assign -> i_rd (r_insn i) = Some d -> i_rs1 (r_insn i) = Some x -> sset e d (get e x) = Some e'.
  Proof. intros ST B R1 R2. inv_step ST; auto. Qed.
  Lemma sstep_phi i e e' d x : sstep i e e' -> i_op (r_insn i) = OP_unwound_phi -> i_rd (r_insn i) = Some d -> i_rs1 (r_insn i) = Some x -> local d /\ sset e d (get e x) = Some e'.
  Proof. intros ST B R1 R2. inv_step ST; auto. Qed.
  Lemma sstep_write i e e' x y : sstep i e e' -> i_op (r_insn i) = OP_write -> i_rs1 (r_insn i) = Some x -> i_rs2 (r_insn i) = Some y -> v_func V y = None ->
    exists a c w, get e x = Some a /\ get e y = Some c /\ m_write M (r_sz i) a c (s_world e) = Some w /\ e' = mks (s_env e) w [] None.
  Proof. intros ST B R1 R2 R3. inv_step ST; eauto 8. congruence. Qed.
  Lemma sstep_writef i e e' x y f : sstep i e e' -> i_op (r_insn i) = OP_write -> i_rs1 (r_insn i) = Some x -> i_rs2 (r_insn i) = Some y -> v_func V y = Some f ->
    exists a w, get e x = Some a /\ m_writef M a f (s_world e) = Some w /\ e' = mks (s_env e) w [] None.
  Proof. intros ST B R1 R2 R3. inv_step ST; [congruence|]. replace f with f0 by congruence. eauto 8. Qed.
  Lemma sstep_push i e e' x : sstep i e e' -> i_op (r_insn i) = OP_push -> i_rs1 (r_insn i) = Some x ->
    exists a, get e x = Some a /\ e' = mks (s_env e) (s_world e) (s_args e ++ [a]) None.
  Proof. intros ST B R1. inv_step ST; eauto 8. Qed.
  Lemma sstep_call i e e' : sstep i e e' -> i_op (r_insn i) = OP_call ->
    exists w r, (forall A, passes (s_args e) A -> exists A', m_call M (r_str i) A (s_world e) = Some (w, A') /\ A' 0%nat = r) /\ e' = mks (s_env e) w [] (Some r).
  Proof. intros ST B. inv_step ST; eauto 8. Qed.
  Lemma sstep_calli i e e' x : sstep i e e' -> i_op (r_insn i) = OP_indirect -> i_rs1 (r_insn i) = Some x ->
    exists a w r, get e x = Some a /\ (forall A, passes (s_args e) A -> exists A', m_calli M a A (s_world e) = Some (w, A') /\ A' 0%nat = r) /\ e' = mks (s_env e) w [] (Some r).
  Proof. intros ST B R1. inv_step ST; eauto 8. Qed.
  Lemma sstep_result i e e' d : sstep i e e' -> i_op (r_insn i) = OP_func_ret -> i_rd (r_insn i) = Some d -> exists r, s_ret e = Some r /\ sset e d (Some r) = Some e'.
  Proof. intros ST B R1. inv_step ST; eauto 8. Qed.
  Lemma sstep_return i e e' : sstep i e e' -> i_op (r_insn i) <> OP_return /\ i_op (r_insn i) <> OP_branch.
  Proof. intros ST. inversion ST; subst; cbn; try (split; discriminate). all: destruct o; try discriminate; split; discriminate. Qed.

  Section Normal.
  Variable pre : list rinsn.
  Variable i : rinsn.
  Variable rest : list rinsn.
  Variable X : nat -> Prop.
  Variable s : ra.
  Hypothesis C : code b = pre ++ i :: rest.
  Hypothesis HN : normal (length pre) pre (i :: rest) X s.
  Hypothesis F : full s (length pre).
  Hypothesis HX : forall v, reads (r_insn i) v -> local v -> defined v -> X v.
  Notation goodN := (good MN MN pre i rest X s).

  Lemma WC : forall v, written pre v -> ~ copied pre v.
  Proof. intros v. eapply written_not_copied. exact C. Qed.
  Lemma pre_in : forall j, In j pre -> In j (pre ++ [i]).
  Proof. intros j J. apply in_or_app. left. exact J. Qed.
  Lemma reads_kept s1 v : normal (length pre) pre (i :: rest) X s1 -> reads (r_insn i) v -> kept s1 (length pre) v.
  Proof. intros H R. eapply read_kept; eauto. apply H. Qed.

  Lemma good_binary d x y r0 s0 r1 s1 r s2 : binary (i_op (r_insn i)) = true -> i_rd (r_insn i) = Some d -> i_rs1 (r_insn i) = Some x -> i_rs2 (r_insn i) = Some y ->
    differ V live_out b x y s = true ->
    prepare_operand V live_out b x None s = (r0, s0) -> prepare_operand V live_out b y (Some r0) s0 = (r1, s1) ->
    prepare_dest V live_out b d (Some r0) (Some r1) s1 = (r, s2) -> goodN (emit (ir (i_op (r_insn i)) (zi r0) (zi r1) (zi r)) s2).
  Proof.
    intros Bo Rd Rx Ry Df E0 E1 E2. set (o := i_op (r_insn i)) in *.
    assert (NP : o <> OP_push /\ o <> OP_unwound_phi /\ o <> OP_allocat) by (destruct o; try discriminate; repeat split; discriminate).
    destruct NP as (NP1 & NP2 & NP3).
    assert (Ld : local d). { eapply dest_local; eauto. fold o. intros I. cbn in I. destruct I as [I|[I|[I|[]]]]; rewrite <- I in Bo; discriminate. }
    assert (Rdx : reads (r_insn i) x) by (left; exact Rx). assert (Rdy : reads (r_insn i) y) by (right; exact Ry).
    destruct (normal_operand _ _ _ _ _ _ _ _ _ HN F (reads_kept s x HN Rdx) E0) as (HN0 & F0 & Hr0 & A0 & M0 & _).
    destruct (normal_operand _ _ _ _ _ _ _ _ _ HN0 F0 (reads_kept s0 y HN0 Rdy) E1) as (HN1 & F1 & Hr1 & A1 & M1 & _).
    destruct (define_value pre pre i rest X s1 d r s2 _ _ (ir o (zi r0) (zi r1) (zi r)) WC pre_in C HN1 F1 (conj Rd NP2) NP1 E2) as (Hr & N' & M2 & _ & DV).
    rewrite emit_local in * by exact Ld.
    assert (M02 : mono s1 (emit (ir o (zi r0) (zi r1) (zi r)) s2)) by exact M2.
    apply good_finish; [exact N'|eapply mono_trans; [exact M0|eapply mono_trans; [exact M1|exact M2]]|].
    intros e m e' EX HD HA _ ST.
    assert (SS : exists a c z, get e x = Some a /\ get e y = Some c /\ m_alu2 M o a c = Some z /\ sset e d (Some z) = Some e').
    { eapply sstep_binary; eauto. }
    destruct SS as (a & c & z & Ga & Gc & Gz & SE). destruct (set_shape _ _ _ _ SE) as [Q1 Q2]. split; [exact Q1|]. split; [exact Q2|].
    pose proof (mono_ext _ _ M2 EX) as EX1. pose proof (mono_ext _ _ M1 EX1) as EX0.
    destruct (dyn_operand _ _ _ _ _ _ _ _ _ e m C HN F Rdx (HX x Rdx) E0 EX0 HD) as (m0 & S0 & D0 & V0 & R0 & W0).
    destruct (dyn_operand _ _ _ _ _ _ _ _ _ e m0 C HN0 F0 Rdy (HX y Rdy) E1 EX1 D0) as (m1 & S1 & D1 & V1 & R1 & W1).
    assert (V0' : t_reg m1 r0 = a).
    { unfold differ in Df. rewrite E0, E1 in Df. apply orb_true_iff in Df. destruct Df as [Df|Df].
      - apply Nat.eqb_eq in Df. subst y. rewrite Ga in Gc. injection Gc as <-.
        assert (r0 = r1).
        { destruct (operand_cases _ _ _ _ _ _ _ _ E1) as [_ [(A & _ & _)|(NR & _)]]; [|exfalso; exact (NR r0 Hr0 A0)].
          exact (n_inj _ _ _ _ _ HN0 r0 r1 x Hr0 Hr1 A0 A (reads_kept s0 x HN0 Rdx)). }
        subst r1. auto.
      - apply negb_true_iff, Nat.eqb_neq in Df. rewrite R1 by exact Df. auto. }
    destruct (DV e m1 (Some z) e' EX D1 SE (fun _ => gives_defined _ _ _ _ C Rd NP3)) as (m2 & R2 & W2 & S2 & DV').
    destruct (rset_facts m2 r z) as (T1 & T2 & T3 & T4).
    destruct (DV' (rset m2 (zi r) z)) as (m3 & S3 & D3 & _); auto.
    - unfold mstep. cbn [p_op ir]. assert (EO : to_opt m2 (zi r) (m_alu2 M o (rget m2 (zi r0)) (rget m2 (zi r1))) = Some (rset m2 (zi r) z)).
      { rewrite !rget_zi, R2, V0', (V1 c Gc), Gz. reflexivity. }
      clear -Bo EO. destruct o; try discriminate Bo; exact EO.
    - intros q [= <-]. exact T4.
    - exists m3. split; [|exact D3]. eapply sim_trans; [exact S0|]. eapply sim_trans; [exact S1|exact S3].
  Qed.
  Lemma good_unary d x r0 s0 r s2 : unary (i_op (r_insn i)) = true -> i_rd (r_insn i) = Some d -> i_rs1 (r_insn i) = Some x ->
    prepare_operand V live_out b x None s = (r0, s0) ->
    prepare_dest V live_out b d (Some r0) None s0 = (r, s2) -> goodN (emit (ir (i_op (r_insn i)) (zi r0) 0 (zi r)) s2).
  Proof.
    intros Bo Rd Rx E0 E2. set (o := i_op (r_insn i)) in *.
    assert (NP : o <> OP_push /\ o <> OP_unwound_phi /\ o <> OP_allocat) by (destruct o; try discriminate; repeat split; discriminate).
    destruct NP as (NP1 & NP2 & NP3).
    assert (Ld : local d). { eapply dest_local; eauto. fold o. intros I. cbn in I. destruct I as [I|[I|[I|[]]]]; rewrite <- I in Bo; discriminate. }
    assert (Rdx : reads (r_insn i) x) by (left; exact Rx).
    destruct (normal_operand _ _ _ _ _ _ _ _ _ HN F (reads_kept s x HN Rdx) E0) as (HN0 & F0 & Hr0 & A0 & M0 & _).
    destruct (define_value pre pre i rest X s0 d r s2 _ _ (ir o (zi r0) 0 (zi r)) WC pre_in C HN0 F0 (conj Rd NP2) NP1 E2) as (Hr & N' & M2 & _ & DV).
    rewrite emit_local in * by exact Ld.
    apply good_finish; [exact N'|eapply mono_trans; [exact M0|exact M2]|].
    intros e m e' EX HD HA _ ST.
    assert (SS : exists a z, get e x = Some a /\ m_alu1 M o a = Some z /\ sset e d (Some z) = Some e').
    { eapply sstep_unary; eauto. }
    destruct SS as (a & z & Ga & Gz & SE). destruct (set_shape _ _ _ _ SE) as [Q1 Q2]. split; [exact Q1|]. split; [exact Q2|].
    pose proof (mono_ext _ _ M2 EX) as EX0.
    destruct (dyn_operand _ _ _ _ _ _ _ _ _ e m C HN F Rdx (HX x Rdx) E0 EX0 HD) as (m0 & S0 & D0 & V0 & R0 & W0).
    destruct (DV e m0 (Some z) e' EX D0 SE (fun _ => gives_defined _ _ _ _ C Rd NP3)) as (m2 & R2 & W2 & S2 & DV').
    destruct (rset_facts m2 r z) as (T1 & T2 & T3 & T4).
    destruct (DV' (rset m2 (zi r) z)) as (m3 & S3 & D3 & _); auto.
    - unfold mstep. cbn [p_op ir]. assert (EO : to_opt m2 (zi r) (m_alu1 M o (rget m2 (zi r0))) = Some (rset m2 (zi r) z)).
      { rewrite !rget_zi, R2, (V0 a Ga), Gz. reflexivity. }
      clear -Bo EO. destruct o; try discriminate Bo; exact EO.
    - intros q [= <-]. exact T4.
    - exists m3. split; [|exact D3]. eapply sim_trans; [exact S0|exact S3].
  Qed.
  Lemma good_read d x r0 s0 r s2 : i_op (r_insn i) = OP_read -> i_rd (r_insn i) = Some d -> i_rs1 (r_insn i) = Some x ->
    prepare_operand V live_out b x None s = (r0, s0) ->
    prepare_dest V live_out b d (Some r0) None s0 = (r, s2) -> goodN (emit (ir OP_read (zi r0) (r_sz i) (zi r)) s2).
  Proof.
    intros Bo Rd Rx E0 E2.
    assert (Ld : local d). { eapply dest_local; eauto. rewrite Bo. intros I. cbn in I. destruct I as [I|[I|[I|[]]]]; discriminate. }
    assert (Rdx : reads (r_insn i) x) by (left; exact Rx).
    assert (NP : writes (r_insn i) d /\ i_op (r_insn i) <> OP_push) by (unfold writes; rewrite Bo; repeat split; auto; discriminate). destruct NP as [NP NP1].
    destruct (normal_operand _ _ _ _ _ _ _ _ _ HN F (reads_kept s x HN Rdx) E0) as (HN0 & F0 & Hr0 & A0 & M0 & _).
    destruct (define_value pre pre i rest X s0 d r s2 _ _ (ir OP_read (zi r0) (r_sz i) (zi r)) WC pre_in C HN0 F0 NP NP1 E2) as (Hr & N' & M2 & _ & DV).
    rewrite emit_local in * by exact Ld.
    apply good_finish; [exact N'|eapply mono_trans; [exact M0|exact M2]|].
    intros e m e' EX HD HA _ ST.
    assert (SS : exists a z, get e x = Some a /\ m_read M (r_sz i) a (s_world e) = Some z /\ sset e d (Some z) = Some e').
    { eapply sstep_read; eauto. }
    destruct SS as (a & z & Ga & Gz & SE). destruct (set_shape _ _ _ _ SE) as [Q1 Q2]. split; [exact Q1|]. split; [exact Q2|].
    pose proof (mono_ext _ _ M2 EX) as EX0.
    destruct (dyn_operand _ _ _ _ _ _ _ _ _ e m C HN F Rdx (HX x Rdx) E0 EX0 HD) as (m0 & S0 & D0 & V0 & R0 & W0).
    assert (DD : defined d) by (eapply gives_defined; eauto; congruence).
    destruct (DV e m0 (Some z) e' EX D0 SE (fun _ => DD)) as (m2 & R2 & W2 & S2 & DV').
    destruct (rset_facts m2 r z) as (T1 & T2 & T3 & T4).
    destruct (DV' (rset m2 (zi r) z)) as (m3 & S3 & D3 & _); auto.
    - cbn. rewrite !rget_zi, R2, (V0 a Ga), W2, (d_world _ _ _ _ _ D0), Gz. reflexivity.
    - intros q [= <-]. exact T4.
    - exists m3. split; [|exact D3]. eapply sim_trans; [exact S0|exact S3].
  Qed.
  (** a declaration that needs no storage, and values that are never used *)
  Lemma good_decl d : i_op (r_insn i) = OP_allocat -> i_rd (r_insn i) = Some d -> no_storage V d = true -> goodN s.
  Proof.
    intros Bo Rd NS. apply good_finish; [eapply normal_forget; eauto|apply mono_refl|]. intros e m e' EX HD HA _ ST.
    assert (SS : local d /\ sset e d None = Some e').
    { eapply sstep_decl; eauto. }
    destruct SS as (L & SE). destruct (set_shape _ _ _ _ SE) as [Q1 Q2]. split; [exact Q1|]. split; [exact Q2|].
    exists m. split; [apply sim_refl; reflexivity|]. unfold AllocSpec.set in SE. unfold local in L. rewrite L in SE. injection SE as <-.
    eapply dyn_skip; eauto. congruence.
  Qed.
  Lemma unread_not_live d : local d -> (forall c n j, In c order -> nth_error (plain_code code c) n = Some j -> ~ reads j d) -> ~ live_at rest d.
  Proof.
    intros L NR. assert (ND' : forall c, In c order -> needed (succs g) (plain_code code) d c -> False).
    { intros c Ic Nd. induction Nd as [c c' S (l1 & j & l2 & E & Rj & _)|c c' S _ _ IH].
      - apply (NR c' (length l1) j); [eapply o_closed; eauto| |exact Rj]. rewrite E, nth_error_app2, Nat.sub_diag by lia. reflexivity.
      - apply IH. eapply o_closed; eauto. }
    intros [E|[_ Nd]]; [|eapply ND'; eauto].
    assert (C' : code b = (pre ++ [i]) ++ rest) by (rewrite <- app_assoc; exact C).
    destruct (exposed_index _ _ _ C' E) as (n & _ & _ & j & J & Rj). apply (NR b n j Hb J Rj).
  Qed.
  Lemma good_unused d : In (i_op (r_insn i)) [OP_assign; OP_load_constant; OP_load_data_address] -> i_rd (r_insn i) = Some d -> a_cons s d = -1 -> goodN s.
  Proof.
    intros Bo Rd CS. assert (NP : i_op (r_insn i) <> OP_push /\ i_op (r_insn i) <> OP_unwound_phi /\ i_op (r_insn i) <> OP_allocat).
    { cbn in Bo. destruct Bo as [<-|[<-|[<-|[]]]]; repeat split; discriminate. }
    destruct NP as (NP1 & NP2 & NP3). pose proof (B_cons _ _ (n_base _ _ _ _ _ HN) d) as CD.
    assert (L : local d).
    { unfold local. destruct (v_global V d) eqn:G; [|reflexivity]. exfalso.
      destruct (v_globals _ _ _ _ _ _ _ _ _ _ _ _ OK b (r_insn i) d Hb (in_plain _ _ _ C) Rd G). lia. }
    assert (NR : forall c n j, In c order -> nth_error (plain_code code c) n = Some j -> ~ reads j d).
    { intros c n j Ic En R. pose proof (L_consumed c n j d Ic En R). lia. }
    apply good_finish; [eapply normal_unused; eauto; split; auto|apply mono_refl|]. intros e m e' EX HD HA _ ST.
    assert (SS : exists x, sset e d x = Some e').
    { eapply sstep_unused; eauto. }
    destruct SS as (x & SE). destruct (set_shape _ _ _ _ SE) as [Q1 Q2]. split; [exact Q1|]. split; [exact Q2|].
    exists m. split; [apply sim_refl; reflexivity|]. unfold AllocSpec.set in SE. unfold local in L. rewrite L in SE. injection SE as <-.
    eapply dyn_skip; eauto. right. split; [eapply gives_defined; eauto|]. apply unread_not_live; assumption.
  Qed.

  (** a constant, put into the register of d *)
  Lemma good_value d r s3 p y : i_rd (r_insn i) = Some d -> i_op (r_insn i) <> OP_push -> i_op (r_insn i) <> OP_unwound_phi -> i_op (r_insn i) <> OP_allocat ->
    prepare_dest V live_out b d None None s = (r, s3) ->
    (forall m, mstep M p m = Some (rset m (zi r) y)) -> (forall e e', sstep i e e' -> sset e d (Some y) = Some e') ->
    goodN (store_global V d r (emit p s3)).
  Proof.
    intros Rd NP1 NP2 NP3 E MS SI. destruct (define_value pre pre i rest X s d r s3 _ _ p WC pre_in C HN F (conj Rd NP2) NP1 E) as (Hr & N' & M2 & _ & DV).
    apply good_finish; [exact N'|exact M2|]. intros e m e' EX HD HA _ ST. apply SI in ST. destruct (set_shape _ _ _ _ ST) as [Q1 Q2]. split; [exact Q1|]. split; [exact Q2|].
    destruct (DV e m (Some y) e' EX HD ST (fun _ => gives_defined _ _ _ _ C Rd NP3)) as (m2 & R2 & W2 & S2 & DV').
    destruct (rset_facts m2 r y) as (T1 & T2 & T3 & T4).
    destruct (DV' (rset m2 (zi r) y)) as (m3 & S3 & D3 & _); auto; [intros q [= <-]; exact T4|eauto].
  Qed.
  Lemma good_const d r s3 : i_op (r_insn i) = OP_load_constant -> i_rd (r_insn i) = Some d -> prepare_dest V live_out b d None None s = (r, s3) ->
    goodN (store_global V d r (emit (ir OP_load_constant (v_init V d) 0 (zi r)) s3)).
  Proof.
    intros Bo Rd E. eapply (good_value d r s3 _ (m_const M (v_init V d))); eauto; try congruence. intros e e' ST. eapply sstep_const; eauto.
  Qed.
  Lemma good_data d r s3 : i_op (r_insn i) = OP_load_data_address -> i_rd (r_insn i) = Some d -> prepare_dest V live_out b d None None s = (r, s3) ->
    goodN (store_global V d r (emit (ir OP_load_data_address (v_init V d) 0 (zi r)) s3)).
  Proof.
    intros Bo Rd E. eapply (good_value d r s3 _ (m_data M (v_init V d))); eauto; try congruence. intros e e' ST. eapply sstep_data; eauto.
  Qed.
  Lemma good_addr d x r s3 : i_op (r_insn i) = OP_address_of -> i_rd (r_insn i) = Some d -> i_rs1 (r_insn i) = Some x ->
    v_global V x = true -> prepare_dest V live_out b d None None s = (r, s3) ->
    goodN (emit (ir OP_global_address_of (a_off s3 x) 0 (zi r)) s3).
  Proof.
    intros Bo Rd Rx G E.
    assert (Ld : local d). { eapply dest_local; eauto. rewrite Bo. intros I. cbn in I. destruct I as [I|[I|[I|[]]]]; discriminate. }
    destruct (normal_dest _ _ _ _ _ _ _ _ _ _ HN F E) as (s1 & Hr & E3 & HN1 & _).
    assert (OG : a_off s3 x = goff x) by (rewrite E3; apply (B_goff _ _ (n_base _ _ _ _ _ HN1)); exact G). rewrite OG.
    rewrite <- (emit_local d r) by exact Ld. eapply (good_value d r s3 _ (m_gaddr M (goff x))); eauto; try congruence.
    intros e e' ST. eapply sstep_addr; eauto.
  Qed.
  (** the result of the call just made *)
  Lemma good_result d r s3 : i_op (r_insn i) = OP_func_ret -> i_rd (r_insn i) = Some d -> prepare_dest V live_out b d None None s = (r, s3) ->
    goodN (emit (ir OP_assign 0 0 (zi r)) s3).
  Proof.
    intros Bo Rd E.
    assert (Ld : local d). { eapply dest_local; eauto. rewrite Bo. intros I. cbn in I. destruct I as [I|[I|[I|[]]]]; discriminate. }
    assert (NP : writes (r_insn i) d /\ i_op (r_insn i) <> OP_push /\ i_op (r_insn i) <> OP_allocat) by (unfold writes; rewrite Bo; repeat split; auto; discriminate). destruct NP as (NP & NP1 & NP3).
    destruct (define_value pre pre i rest X s d r s3 _ _ (ir OP_assign 0 0 (zi r)) WC pre_in C HN F NP NP1 E) as (Hr & N' & M2 & _ & DV).
    rewrite emit_local in * by exact Ld.
    apply good_finish; [exact N'|exact M2|]. intros e m e' EX HD HA RO ST. destruct (sstep_result _ _ _ _ ST Bo Rd) as (z & Rz & SE).
    destruct (set_shape _ _ _ _ SE) as [Q1 Q2]. split; [exact Q1|]. split; [exact Q2|].
    destruct (DV e m (Some z) e' EX HD SE (fun _ => gives_defined _ _ _ _ C Rd NP3)) as (m2 & R2 & W2 & S2 & DV').
    destruct (rset_facts m2 r z) as (T1 & T2 & T3 & T4). destruct (RO z Rz) as [R0 _].
    destruct (DV' (rset m2 (zi r) z)) as (m3 & S3 & D3 & _); auto; [|intros q [= <-]; exact T4|eauto].
    cbn. unfold rget. cbn. rewrite R2, R0. reflexivity.
  Qed.
  Lemma good_phi d x r0 s0 : i_op (r_insn i) = OP_unwound_phi -> i_rd (r_insn i) = Some d -> i_rs1 (r_insn i) = Some x ->
    prepare_operand V live_out b x None s = (r0, s0) ->
    goodN (emit (ir OP_store (zi r0) (a_off (give_slot d s0) d) 0) (give_slot d s0)).
  Proof.
    intros Bo Rd Rx E0. assert (Rdx : reads (r_insn i) x) by (left; exact Rx).
    assert (Ld : local d). { eapply dest_local; eauto. rewrite Bo. intros I. cbn in I. destruct I as [I|[I|[I|[]]]]; discriminate. }
    destruct (normal_operand _ _ _ _ _ _ _ _ _ HN F (reads_kept s x HN Rdx) E0) as (HN0 & F0 & Hr0 & A0 & M0 & _).
    pose proof (normal_copy _ _ _ _ _ _ _ HN0 Bo Rd Ld) as N1.
    set (o := a_off (give_slot d s0) d).
    assert (OD : o <> 0).
    { unfold o, give_slot. destruct (Z.eqb_spec (a_off s0 d) 0) as [Z0|Z0]; [|exact Z0]. cbn. rewrite upd_same.
      pose proof (B_size _ _ (n_base _ _ _ _ _ HN0)). lia. }
    assert (M1 : mono s0 (emit (ir OP_store (zi r0) o 0) (give_slot d s0))) by (intros v Ov; cbn; apply slot_mono; exact Ov).
    apply good_finish; [eapply same_normal; [apply same_emit|exact N1]|eapply mono_trans; [exact M0|exact M1]|].
    intros e m e' EX HD HA RO ST. destruct (sstep_phi _ _ _ _ _ ST Bo Rd Rx) as (_ & SE).
    destruct (set_shape _ _ _ _ SE) as [Q1 Q2]. split; [exact Q1|]. split; [exact Q2|].
    destruct (dyn_operand _ _ _ _ _ _ _ _ _ e m C HN F Rdx (HX x Rdx) E0 (mono_ext _ _ M1 EX) HD) as (m0 & S0 & D0 & V0 & R0 & W0).
    assert (EO : offF d = o) by (apply (EX d Ld); exact OD).
    exists (mkm (t_reg m0) (fun x => if x =? o then t_reg m0 r0 else t_slot m0 x) (t_world m0) (t_latch m0)). split.
    - eapply sim_trans; [exact S0|]. eapply sim_trans; [apply (sim_refl s0 m0 (give_slot d s0))|].
      + unfold give_slot. destruct (a_off s0 d =? 0); reflexivity.
      + apply sim_emit. cbn. rewrite rget_zi. reflexivity.
    - unfold AllocSpec.set in SE. unfold local in Ld. rewrite Ld in SE. injection SE as <-.
      assert (G : DN pre (i :: rest) (emit (ir OP_store (zi r0) o 0) (give_slot d s0)) e m0).
      { assert (V1 : a_var (give_slot d s0) = a_var s0 /\ a_pol (give_slot d s0) = a_pol s0) by (unfold give_slot; destruct (a_off s0 d =? 0); auto).
        destruct V1 as [V1 V2]. destruct D0 as [P1 P2 P3 P4 P5]. split; cbn; rewrite ?V1, ?V2; auto. }
      eapply dyn_copy; eauto; try reflexivity.
      + eapply gives_defined; eauto. congruence.
      + congruence.
      + intros a Ga. cbn. rewrite EO, Z.eqb_refl. auto.
      + intros o' No. cbn. rewrite EO in No. destruct (Z.eqb_spec o' o); [contradiction|reflexivity].
  Qed.
  Lemma good_assign d x r0 s0 clear r s1 : i_op (r_insn i) = OP_assign -> i_rd (r_insn i) = Some d -> i_rs1 (r_insn i) = Some x ->
    match find_in_regs x s with Some r => (r, s, false) | None => let '(r, s) := prepare_operand V live_out b x None s in (r, s, true) end = (r0, s0, clear) ->
    prepare_dest V live_out b d (Some r0) None s0 = (r, s1) -> (clear = true -> r0 <> r) ->
    let s2 := store_global V d r (emit (ir OP_assign (zi r0) 0 (zi r)) s1) in
    goodN (if clear then set_reg r0 None (a_pol s2 r0) s2 else s2).
  Proof.
    intros Bo Rd Rx E0 E1 NC s2. assert (Rdx : reads (r_insn i) x) by (left; exact Rx).
    assert (EP : prepare_operand V live_out b x None s = (r0, s0) /\ (clear = true -> forall j, (j < 8)%nat -> a_var s j <> Some x)).
    { destruct (find_in_regs x s) as [j|] eqn:Fi.
      - injection E0 as <- <- <-. split; [|discriminate]. unfold prepare_operand. rewrite Fi. reflexivity.
      - destruct (prepare_operand V live_out b x None s) as [j sj]. injection E0 as <- <- <-. split; [reflexivity|]. intros _. apply find_regs_none. exact Fi. }
    destruct EP as [EP NR].
    assert (NP : writes (r_insn i) d /\ i_op (r_insn i) <> OP_push /\ i_op (r_insn i) <> OP_allocat) by (unfold writes; rewrite Bo; repeat split; auto; discriminate). destruct NP as (NP & NP1 & NP3).
    destruct (normal_operand _ _ _ _ _ _ _ _ _ HN F (reads_kept s x HN Rdx) EP) as (HN0 & F0 & Hr0 & A0 & M0 & _).
    destruct (define_value pre pre i rest X s0 d r s1 _ _ (ir OP_assign (zi r0) 0 (zi r)) WC pre_in C HN0 F0 NP NP1 E1) as (Hr & N' & M2 & AV & DV).
    fold s2 in N', M2, AV, DV.
    assert (CL : clear = true -> a_var s2 r0 = Some x /\ a_pol s2 r0 = false).
    { intros Ec. specialize (NC Ec). specialize (NR Ec).
      assert (P0 : a_pol s0 r0 = false).
      { destruct (operand_cases _ _ _ _ _ _ _ _ EP) as [_ [(A & _ & _)|(_ & s' & _ & ->)]]; [exfalso; exact (NR r0 Hr0 A)|cbn; apply upd_same]. }
      assert (SP : a_var s1 r0 = a_var s0 r0 /\ a_pol s1 r0 = a_pol s0 r0).
      { destruct (dest_cases _ _ _ _ _ _ _ _ _ E1) as [_ (s' & -> & [[-> _]|[Fr _]])].
        - cbn. rewrite !upd_other by exact NC. auto.
        - cbn. rewrite !upd_other by exact NC. destruct Fr as [[-> _]|(u & _ & ->)]; [auto|]. rewrite spill_regs, spill_pols.
          destruct (Nat.eqb_spec r0 r); [contradiction|auto]. }
      destruct SP as [SP1 SP2]. rewrite AV, SP1. split; [exact A0|]. unfold s2, store_global. destruct (v_global V d); cbn; [|congruence].
      rewrite upd_other by exact NC. congruence. }
    assert (SN : normal (S (length pre)) (pre ++ [i]) rest (after_insn (r_insn i) X) (if clear then set_reg r0 None (a_pol s2 r0) s2 else s2)).
    { destruct clear; [|exact N']. destruct (CL eq_refl) as [CL1 CL2]. rewrite CL2.
      assert (C' : code b = (pre ++ [i]) ++ rest) by (rewrite <- app_assoc; exact C).
      assert (L' : length (pre ++ [i]) = S (length pre)) by (rewrite app_length; cbn; lia). rewrite <- L'. rewrite <- L' in N'.
      apply (normal_drop (pre ++ [i]) rest (after_insn (r_insn i) X) s2 r0 x C' N' Hr0 CL1).
      intros L Xv Hv. exact (n_clean _ _ _ _ _ N' r0 x Hr0 CL1 CL2 L Xv Hv). }
    assert (MM : mono s (if clear then set_reg r0 None (a_pol s2 r0) s2 else s2)).
    { eapply mono_trans; [exact M0|]. eapply mono_trans; [exact M2|]. destruct clear; apply mono_same; reflexivity. }
    apply good_finish; [exact SN|exact MM|]. intros e m e' EX HD HA RO ST. pose proof (sstep_assign _ _ _ _ _ ST Bo Rd Rx) as SE.
    destruct (set_shape _ _ _ _ SE) as [Q1 Q2]. split; [exact Q1|]. split; [exact Q2|].
    assert (EX2 : ext s2) by (destruct clear; exact EX).
    destruct (dyn_operand _ _ _ _ _ _ _ _ _ e m C HN F Rdx (HX x Rdx) EP (mono_ext _ _ M2 EX2) HD) as (m0 & S0 & D0 & V0 & R0 & W0).
    destruct (DV e m0 (get e x) e' EX2 D0 SE (fun _ => gives_defined _ _ _ _ C Rd NP3)) as (m2 & R2 & W2 & S2 & DV').
    destruct (rset_facts m2 r (t_reg m2 r0)) as (T1 & T2 & T3 & T4).
    destruct (DV' (rset m2 (zi r) (t_reg m2 r0))) as (m3 & S3 & D3 & _); auto.
    - cbn. rewrite rget_zi. reflexivity.
    - intros a Ga. rewrite T4, R2. auto.
    - exists m3. split.
      + eapply sim_trans; [exact S0|]. eapply sim_code; [exact S3|]. destruct clear; reflexivity.
      + destruct clear; [|exact D3]. destruct (CL eq_refl) as [CL1 CL2]. rewrite CL2. apply DN_drop; [exact D3|]. congruence.
  Qed.
  Lemma good_storage d r s3 z : i_op (r_insn i) = OP_allocat -> i_rd (r_insn i) = Some d -> no_storage V d = false -> a_size s + 4 <= z ->
    prepare_dest V live_out b d None None (set_off d (a_size s) z s) = (r, s3) ->
    goodN (emit (ir OP_address_of (a_size s + 4) 0 (zi r)) s3).
  Proof.
    intros Bo Rd NS Hz E. destruct (v_storage _ _ _ _ _ _ _ _ _ _ _ _ OK b (r_insn i) d Hb (in_plain _ _ _ C) Rd Bo NS) as (Ld & NPar & UN).
    assert (NP : writes (r_insn i) d /\ i_op (r_insn i) <> OP_push) by (unfold writes; rewrite Bo; repeat split; auto; discriminate). destruct NP as (NP & NP1).
    assert (IX : nth_error (plain_code code b) (length pre) = Some (r_insn i)).
    { unfold plain_code. apply map_nth_error. eapply at_index; eauto. }
    pose proof (n_base _ _ _ _ _ HN) as HB.
    assert (O0 : a_off s d = 0).
    { destruct (Z.eq_dec (a_off s d) 0) as [Z0|Z0]; [exact Z0|exfalso]. destruct (B_given _ _ HB d Ld Z0) as [G|[(c & j & Ic & Ij & Rj)|(j & Ij & Rj)]].
      - contradiction.
      - apply In_nth_error in Ij. destruct Ij as (n & En). destruct Hdone as [Hd1 Hd2]. destruct (UN c j (length pre) n (Hd1 c Ic) En Rj IX) as [-> _]. contradiction.
      - apply In_nth_error in Ij. destruct Ij as (n & En). assert (Ln : (n < length pre)%nat).
        { assert (nth_error (isns pre) n <> None) by congruence. apply nth_error_Some in H. unfold isns in H. rewrite map_length in H. exact H. }
        assert (En' : nth_error (plain_code code b) n = Some j).
        { unfold plain_code. rewrite C, map_app. rewrite nth_error_app1 by (rewrite map_length; exact Ln). exact En. }
        destruct (UN b j (length pre) n Hb En' Rj IX) as [_ ?]. lia. }
    set (s1 := set_off d (a_size s) z s) in *.
    assert (HN1 : normal (length pre) (pre ++ [i]) (i :: rest) X s1).
    { destruct HN as [N1 N2 N3 N4 N5 N6 N7]. destruct (base_app pre i s N1) as [B1 B2 B3 B4 B5 B6 B7 B8]. split; auto.
      - split; cbn; auto.
        + lia.
        + intros u Lu Ou. unfold upd in *. destruct (Nat.eqb_spec u d) as [->|N]; [lia|]. specialize (B4 u Lu Ou). lia.
        + intros u w Lu Lw. unfold upd. destruct (Nat.eqb_spec u d) as [->|N1'], (Nat.eqb_spec w d) as [->|N2']; intros E1 E2; auto.
          * assert (a_off s w <> 0) by lia. specialize (B4 w Lw H). lia.
          * specialize (B4 u Lu E2). lia.
        + intros u Gu. rewrite upd_other; [auto|]. intros ->. unfold local in Ld. congruence.
        + intros u Lu. unfold upd. destruct (Nat.eqb_spec u d) as [->|N]; auto. intros _. apply given_last. exact Rd.
      - intros v L Xv Hv. destruct (N3 v L Xv Hv) as [H|O]; [left; exact H|right]. cbn. unfold upd. destruct (Nat.eqb_spec v d) as [->|N]; [lia|exact O].
      - intros j v Hj A Pj L Xv Hv. cbn in *. unfold upd. destruct (Nat.eqb_spec v d) as [->|N]; [pose proof (B_size _ _ N1); lia|]. eapply N4; eauto.
      - intros p j EE. apply app_inj_tail in EE. destruct EE as [_ <-]. exact NP1. }
    assert (F1 : full s1 (length pre)) by exact F.
    assert (WC1 : forall v, written (pre ++ [i]) v -> ~ copied pre v).
    { intros v W Cp. assert (C' : code b = (pre ++ [i]) ++ rest) by (rewrite <- app_assoc; exact C).
      eapply (written_not_copied _ _ _ C'); eauto. apply copied_app; [congruence|exact Cp]. }
    destruct (define_value (pre ++ [i]) pre i rest X s1 d r s3 _ _ (ir OP_address_of (a_size s + 4) 0 (zi r)) WC1 (fun j J => J) C HN1 F1 NP NP1 E) as (Hr & N' & M2 & AV & DV).
    rewrite emit_local in * by exact Ld.
    assert (M1 : mono s s1) by (intros v Ov; cbn; apply upd_other; congruence).
    apply good_finish; [exact N'|eapply mono_trans; [exact M1|exact M2]|]. intros e m e' EX HD HA RO ST.
    destruct (sstep_storage _ _ _ _ ST Bo Rd NS) as (_ & SE). destruct (set_shape _ _ _ _ SE) as [Q1 Q2]. split; [exact Q1|]. split; [exact Q2|].
    assert (HD1 : DN pre (i :: rest) s1 e m) by (destruct HD as [P1 P2 P3 P4 P5]; split; auto).
    assert (DD : local d -> defined d).
    { intros _. right. exists b, (r_insn i). split; [exact Hb|]. split; [eapply in_plain; eauto|]. split; [exact Rd|]. intros [_ ?]. congruence. }
    destruct (DV e m (Some (place d)) e' EX HD1 SE DD) as (m2 & R2 & W2 & S2 & DV').
    destruct (rset_facts m2 r (place d)) as (T1 & T2 & T3 & T4).
    destruct (DV' (rset m2 (zi r) (place d))) as (m3 & S3 & D3 & _); auto.
    - cbn. unfold place. assert (OS : offF d = a_size s).
      { pose proof (mono_ext _ _ M2 EX) as EX1. rewrite (EX1 d Ld); cbn; rewrite upd_same; [reflexivity|]. pose proof (B_size _ _ HB). lia. }
      rewrite OS. reflexivity.
    - intros q [= <-]. exact T4.
    - exists m3. split; [|exact D3]. destruct S3 as (l & S3 & S4). exists l. auto.
  Qed.

  Lemma operand_vars o v s0 r s' j u : prepare_operand V live_out b v o s0 = (r, s') -> a_var s' j = Some u -> a_var s0 j = Some u \/ u = v.
  Proof.
    intros E A. destruct (operand_cases _ _ _ _ _ _ _ _ E) as [_ [(_ & -> & _)|(_ & s1 & Fr & ->)]]; [auto|]. cbn in A. apply upd_cases in A.
    destruct A as [[_ A]|[N A]]; [right; congruence|]. rewrite (freed_regs _ _ _ _ _ Fr) in A. destruct (Nat.eqb j r); [discriminate|auto].
  Qed.
  Lemma no_dest : In (i_op (r_insn i)) [OP_write; OP_push; OP_call; OP_indirect; OP_branch; OP_return] -> i_rd (r_insn i) = None.
  Proof. apply (v_dest _ _ _ _ _ _ _ _ _ _ _ _ OK b (r_insn i) Hb). eapply in_plain. exact C. Qed.
  Lemma exposed_later v : exposed (isns rest) v -> Z.of_nat (length pre) < cons v.
  Proof.
    intros E. assert (C' : code b = (pre ++ [i]) ++ rest) by (rewrite <- app_assoc; exact C).
    destruct (exposed_index _ _ _ C' E) as (n & Hn & Hc & _). rewrite app_length in Hn. cbn in Hn. lia.
  Qed.
  Lemma plain_split : plain_code code b = isns pre ++ r_insn i :: isns rest.
  Proof. unfold plain_code. rewrite C, map_app. reflexivity. Qed.

  Lemma good_writef x y f r0 s0 : i_op (r_insn i) = OP_write -> i_rs1 (r_insn i) = Some x -> i_rs2 (r_insn i) = Some y -> v_func V y = Some f ->
    prepare_operand V live_out b x None s = (r0, s0) -> goodN (emit (mkph2 OP_address_of_func (zi r0) 0 0 f 0 0 0 false) s0).
  Proof.
    intros Bo Rx Ry Fy E0. assert (Rdx : reads (r_insn i) x) by (left; exact Rx). assert (Rd : i_rd (r_insn i) = None) by (apply no_dest; rewrite Bo; cbn; intuition).
    destruct (normal_operand _ _ _ _ _ _ _ _ _ HN F (reads_kept s x HN Rdx) E0) as (HN0 & F0 & Hr0 & A0 & M0 & _).
    apply good_finish; [eapply same_normal; [apply same_emit|]; apply normal_next; auto; congruence|exact M0|].
    intros e m e' EX HD HA RO ST. destruct (sstep_writef _ _ _ _ _ _ ST Bo Rx Ry Fy) as (a & w & Ga & Gw & ->). split; [reflexivity|]. split; [reflexivity|].
    destruct (dyn_operand _ _ _ _ _ _ _ _ _ e m C HN F Rdx (HX x Rdx) E0 EX HD) as (m0 & S0 & D0 & V0 & R0 & W0).
    exists (mkm (t_reg m0) (t_slot m0) w (t_latch m0)). split.
    - eapply sim_trans; [exact S0|]. apply sim_emit. cbn. rewrite rget_zi, (V0 a Ga), (d_world _ _ _ _ _ D0), Gw. reflexivity.
    - eapply DN_same; [apply same_emit|]. eapply dyn_next; eauto. right. intros j v Hj A G Ev.
      apply (v_write _ _ _ _ _ _ _ _ _ _ _ _ OK b (isns pre) (r_insn i) (isns rest) v Hb plain_split Bo G); [right; eauto|exact Ev].
  Qed.
  Lemma good_write x y r0 s1 r1 s2 : i_op (r_insn i) = OP_write -> i_rs1 (r_insn i) = Some x -> i_rs2 (r_insn i) = Some y -> v_func V y = None ->
    let s0 := spill_alive V live_out b (Z.of_nat (length pre)) s in differ V live_out b x y s0 = true ->
    prepare_operand V live_out b x None s0 = (r0, s1) -> prepare_operand V live_out b y (Some r0) s1 = (r1, s2) ->
    goodN (emit (ir OP_write (zi r0) (zi r1) (r_sz i)) s2).
  Proof.
    intros Bo Rx Ry Fy s0 Df E0 E1. assert (Rdx : reads (r_insn i) x) by (left; exact Rx). assert (Rdy : reads (r_insn i) y) by (right; exact Ry).
    assert (Rd : i_rd (r_insn i) = None) by (apply no_dest; rewrite Bo; cbn; intuition).
    destruct (normal_alive _ _ _ _ _ HN F) as (HA0 & FA0 & IA & CA). fold s0 in HA0, FA0, IA, CA.
    destruct (dyn_alive pre (i :: rest) X s C HN) as (MA & DA). fold s0 in MA, DA.
    destruct (normal_operand _ _ _ _ _ _ _ _ _ HA0 FA0 (reads_kept s0 x HA0 Rdx) E0) as (HN0 & F0 & Hr0 & A0 & M0 & _).
    destruct (normal_operand _ _ _ _ _ _ _ _ _ HN0 F0 (reads_kept s1 y HN0 Rdy) E1) as (HN1 & F1 & Hr1 & A1 & M1 & _).
    apply good_finish; [eapply same_normal; [apply same_emit|]; apply normal_next; auto; congruence|eapply mono_trans; [exact MA|eapply mono_trans; [exact M0|exact M1]]|].
    intros e m e' EX HD HA RO ST. destruct (sstep_write _ _ _ _ _ ST Bo Rx Ry Fy) as (a & c & w & Ga & Gc & Gw & ->). split; [reflexivity|]. split; [reflexivity|].
    assert (EX2 : ext s2) by exact EX. pose proof (mono_ext _ _ M1 EX2) as EX1. pose proof (mono_ext _ _ M0 EX1) as EX0.
    destruct (DA e m EX0 HD) as (ma & SA & DDA & RA & WA).
    destruct (dyn_operand _ _ _ _ _ _ _ _ _ e ma C HA0 FA0 Rdx (HX x Rdx) E0 EX1 DDA) as (m0 & S0 & D0 & V0 & R0 & W0).
    destruct (dyn_operand _ _ _ _ _ _ _ _ _ e m0 C HN0 F0 Rdy (HX y Rdy) E1 EX2 D0) as (m1 & S1 & D1 & V1 & R1 & W1).
    assert (V0' : t_reg m1 r0 = a).
    { unfold differ in Df. rewrite E0, E1 in Df. apply orb_true_iff in Df. destruct Df as [Df|Df].
      - apply Nat.eqb_eq in Df. subst y. rewrite Ga in Gc. injection Gc as <-.
        assert (r0 = r1).
        { destruct (operand_cases _ _ _ _ _ _ _ _ E1) as [_ [(A & _ & _)|(NR & _)]]; [|exfalso; exact (NR r0 Hr0 A0)].
          exact (n_inj _ _ _ _ _ HN0 r0 r1 x Hr0 Hr1 A0 A (reads_kept s1 x HN0 Rdx)). }
        subst r1. auto.
      - apply negb_true_iff, Nat.eqb_neq in Df. rewrite R1 by exact Df. auto. }
    exists (mkm (t_reg m1) (t_slot m1) w (t_latch m1)). split.
    - eapply sim_trans; [exact SA|]. eapply sim_trans; [exact S0|]. eapply sim_trans; [exact S1|]. apply sim_emit.
      cbn. rewrite !rget_zi, V0', (V1 c Gc), (d_world _ _ _ _ _ D1), Gw. reflexivity.
    - eapply DN_same; [apply same_emit|]. eapply dyn_next; eauto. right. intros j v Hj A G Ev.
      assert (NW : reads (r_insn i) v -> False).
      { intros R. apply (v_write _ _ _ _ _ _ _ _ _ _ _ _ OK b (isns pre) (r_insn i) (isns rest) v Hb plain_split Bo G); [left; exact R|exact Ev]. }
      destruct (operand_vars _ _ _ _ _ _ _ E1 A) as [A2| ->]; [|auto]. destruct (operand_vars _ _ _ _ _ _ _ E0 A2) as [A3| ->]; [|auto].
      destruct (IA j v Hj A3) as [_ IC]. pose proof (exposed_later v Ev). pose proof (B_cons _ _ (n_base _ _ _ _ _ HA0) v). lia.
  Qed.
  (** a state in which no register is used any more *)
  Lemma dyn_called s' (e : @senv val world) m' w r : base (pre ++ [i]) s' -> (forall j v, (j < 8)%nat -> a_var s' j = Some v -> ~ kept s' (S (length pre)) v) -> t_world m' = w ->
    (forall v a, local v -> s_env e v = Some a -> live_at rest v -> offF v <> 0 /\ t_slot m' (offF v) = a) -> (forall v a, s_env e v = Some a -> defined v) ->
    t_reg m' 0%nat = r -> dyn MN (S (length pre)) (pre ++ [i]) rest s' (mks (s_env e) w [] (Some r)) m'.
  Proof.
    intros HB NK EW HS HD HR. split; [|split; [reflexivity|]].
    - assert (C' : code b = (pre ++ [i]) ++ rest) by (rewrite <- app_assoc; exact C).
      assert (L' : length (pre ++ [i]) = S (length pre)) by (rewrite app_length; cbn; lia). rewrite <- L' in NK.
      split; cbn; auto.
      + intros j v a Hj A L _ Hv _. exfalso. eapply (not_kept_not_live (pre ++ [i]) rest s' v); eauto.
      + intros j v Hj A G Ev. exfalso. apply (NK j v Hj A). right. rewrite L'. pose proof (exposed_later v Ev). pose proof (B_cons _ _ HB v). lia.
    - intros q [= <-]. auto.
  Qed.
  Lemma idle_not_kept s1 : idle s1 (length pre) -> forall j v, (j < 8)%nat -> a_var s1 j = Some v -> ~ kept s1 (S (length pre)) v.
  Proof. intros I j v Hj A [K|K]; destruct (I j v Hj A) as [I1 I2]; [contradiction|lia]. Qed.
  Lemma idle_dyn s1 e m v a : normal (length pre) pre (i :: rest) X s1 -> idle s1 (length pre) -> i_rd (r_insn i) = None -> DN pre (i :: rest) s1 e m ->
    local v -> s_env e v = Some a -> live_at rest v -> offF v <> 0 /\ t_slot m (offF v) = a.
  Proof.
    intros H I Rd D L E Hv. assert (NW : ~ writes (r_insn i) v) by (intros [W _]; congruence).
    destruct (d_slot _ _ _ _ _ D v a L E (live_back _ _ _ Hv NW)) as [(j & Hj & A & _)|O]; [|exact O]. exfalso.
    destruct (I j v Hj A) as [I1 I2]. destruct (live_later _ _ _ _ C L Hv) as [K|K]; [contradiction|].
    pose proof (B_cons _ _ (n_base _ _ _ _ _ H) v). lia.
  Qed.
  Lemma after_None v : i_rd (r_insn i) = None -> after_insn (r_insn i) X v -> X v.
  Proof. intros Rd [[G _]|[H _]]; [congruence|exact H]. Qed.
  Lemma good_call s1 : i_op (r_insn i) = OP_call -> s1 = spill_alive V live_out b (Z.of_nat (length pre)) s ->
    goodN (fold_left (fun s i => set_reg i None (a_pol s i) s) regs (set_args false 0 (emit (mkph2 OP_call 0 0 0 (r_str i) 0 0 0 false) s1))).
  Proof.
    intros Bo E1. assert (Rd : i_rd (r_insn i) = None) by (apply no_dest; rewrite Bo; cbn; intuition).
    destruct (normal_alive _ _ _ _ _ HN F) as (HA0 & FA0 & IA & CA). rewrite <- E1 in HA0, FA0, IA, CA.
    destruct (dyn_alive pre (i :: rest) X s C HN) as (MA & DA). rewrite <- E1 in MA, DA.
    set (s2 := set_args false 0 (emit (mkph2 OP_call 0 0 0 (r_str i) 0 0 0 false) s1)). destruct (clear_regs s2) as (K1 & K2 & K3 & K4 & K5 & K6 & K7).
    set (s3 := fold_left (fun s i => set_reg i None (a_pol s i) s) regs s2) in *.
    assert (B3 : base (pre ++ [i]) s3).
    { eapply base_clear; [apply base_app; apply (n_base _ _ _ _ _ HA0)|exact K1|exact K2|exact K3|exact K4]. }
    assert (NK : forall j v, (j < 8)%nat -> a_var s3 j = Some v -> ~ kept s3 (S (length pre)) v) by (intros j v Hj A; rewrite K1 in A by exact Hj; discriminate).
    split; [|split].
    - apply normal_cleared; auto; [congruence|]. intros v L Xv Hv. rewrite K2. cbn.
      eapply (idle_slots (length pre) pre i rest X s1); eauto; [eapply after_None; eauto|]. intros [W _]. congruence.
    - eapply mono_trans; [exact MA|]. apply mono_same. intros v. rewrite K2. reflexivity.
    - intros e m e' EX (HD & HA & RO) ST. destruct (sstep_call _ _ _ ST Bo) as (w & r & HC & ->).
      assert (EX1 : ext s1) by (intros v L O; rewrite (EX v L); rewrite K2; [reflexivity|exact O]).
      destruct (DA e m EX1 HD) as (ma & SA & DDA & RA & WA).
      destruct (HC (t_reg ma)) as (A' & HC1 & HC2); [rewrite HA; intros j a; destruct j; discriminate|].
      exists (mkm A' (t_slot ma) w None). split.
      + eapply sim_trans; [exact SA|]. eapply sim_code; [apply (sim_emit s1 ma (mkph2 OP_call 0 0 0 (r_str i) 0 0 0 false))|rewrite K7; reflexivity].
        cbn. rewrite (d_world _ _ _ _ _ DDA), HC1. reflexivity.
      + eapply dyn_called; eauto.
        * intros v a L E Hv. eapply (idle_dyn s1 e ma); eauto.
        * apply DDA.
  Qed.
  Lemma good_indirect x s1 r0 s2 : i_op (r_insn i) = OP_indirect -> i_rs1 (r_insn i) = Some x -> s1 = spill_alive V live_out b (Z.of_nat (length pre)) s ->
    prepare_operand V live_out b x None s1 = (r0, s2) ->
    goodN (set_args false 0 (emit (ir OP_indirect 0 0 0) (emit (ir OP_load_func (zi r0) 0 0) s2))).
  Proof.
    intros Bo Rx E1 E0. assert (Rd : i_rd (r_insn i) = None) by (apply no_dest; rewrite Bo; cbn; intuition). assert (Rdx : reads (r_insn i) x) by (left; exact Rx).
    destruct (normal_alive _ _ _ _ _ HN F) as (HA0 & FA0 & IA & CA). rewrite <- E1 in HA0, FA0, IA, CA.
    destruct (dyn_alive pre (i :: rest) X s C HN) as (MA & DA). rewrite <- E1 in MA, DA.
    destruct (normal_operand _ _ _ _ _ _ _ _ _ HA0 FA0 (reads_kept s1 x HA0 Rdx) E0) as (HN0 & F0 & Hr0 & A0 & M0 & CC).
    set (s3 := set_args false 0 (emit (ir OP_indirect 0 0 0) (emit (ir OP_load_func (zi r0) 0 0) s2))).
    assert (B3 : base (pre ++ [i]) s3). { destruct (base_app pre i s2 (n_base _ _ _ _ _ HN0)) as [B1 B2 B3 B4 B5 B6 B7 B8]. split; auto. }
    destruct (v_indirect _ _ _ _ _ _ _ _ _ _ _ _ OK b (isns pre) [] (isns rest) (r_insn i) x Hb) as [XI XU]; auto.
    { apply plain_split. } { intros j []. } { exists (r_insn i). split; [left; reflexivity|exact Rx]. }
    rewrite app_nil_r in XU. unfold isns in XU at 1. rewrite map_length in XU.
    assert (NK : forall j v, (j < 8)%nat -> a_var s3 j = Some v -> ~ kept s3 (S (length pre)) v).
    { intros j v Hj A. change (a_var s2 j = Some v) in A. change (~ kept s2 (S (length pre)) v).
      destruct (operand_vars _ _ _ _ _ _ _ E0 A) as [A2| ->].
      - unfold kept. rewrite CC. eapply idle_not_kept; eauto.
      - intros [K|K]; [contradiction|]. pose proof (B_up _ _ (n_base _ _ _ _ _ HN0) x _ XU). lia. }
    split; [|split].
    - apply normal_cleared; auto; [congruence|]. intros v L Xv Hv. change (a_off s2 v <> 0).
      assert (O1 : a_off s1 v <> 0).
      { eapply (idle_slots (length pre) pre i rest X s1); eauto; [eapply after_None; eauto|]. intros [W _]. congruence. }
      rewrite M0; exact O1.
    - eapply mono_trans; [exact MA|exact M0].
    - intros e m e' EX (HD & HA & RO) ST. destruct (sstep_calli _ _ _ _ ST Bo Rx) as (a & w & r & Ga & HC & ->).
      assert (EX2 : ext s2) by exact EX. pose proof (mono_ext _ _ M0 EX2) as EX1.
      destruct (DA e m EX1 HD) as (ma & SA & DDA & RA & WA).
      destruct (dyn_operand _ _ _ _ _ _ _ _ _ e ma C HA0 FA0 Rdx (HX x Rdx) E0 EX2 DDA) as (m0 & S0 & D0 & V0 & R0 & W0).
      destruct (HC (t_reg m0)) as (A' & HC1 & HC2); [rewrite HA; intros j c; destruct j; discriminate|].
      exists (mkm A' (t_slot m0) w None). split.
      + eapply sim_trans; [exact SA|]. eapply sim_trans; [exact S0|]. exists [ir OP_load_func (zi r0) 0 0; ir OP_indirect 0 0 0]. split.
        * cbn. rewrite <- app_assoc. reflexivity.
        * cbn. rewrite rget_zi, (V0 a Ga), (d_world _ _ _ _ _ D0), HC1. reflexivity.
      + eapply dyn_called; eauto; [|apply DDA]. intros v c L E Hv.
        assert (NW : ~ writes (r_insn i) v) by (intros [W _]; congruence).
        destruct (d_slot _ _ _ _ _ D0 v c L E (live_back _ _ _ Hv NW)) as [(j & Hj & A & _)|O]; [|exact O]. exfalso.
        apply (NK j v Hj A). change (kept s2 (S (length pre)) v). destruct (live_later _ _ _ _ C L Hv) as [K|K]; [left; exact K|right].
        pose proof (B_cons _ _ (n_base _ _ _ _ _ HN0) v). lia.
  Qed.
  Lemma static_return r0 s0 x p : i_op (r_insn i) = OP_return -> i_rs1 (r_insn i) = Some x -> prepare_operand V live_out b x None s = (r0, s0) -> goodN (emit p s0).
  Proof.
    intros Bo Rx E0. assert (Rdx : reads (r_insn i) x) by (left; exact Rx). assert (Rd : i_rd (r_insn i) = None) by (apply no_dest; rewrite Bo; cbn; intuition).
    destruct (normal_operand _ _ _ _ _ _ _ _ _ HN F (reads_kept s x HN Rdx) E0) as (HN0 & F0 & Hr0 & A0 & M0 & _).
    apply good_finish; [eapply same_normal; [apply same_emit|]; apply normal_next; auto; congruence|exact M0|].
    intros e m e' _ _ _ _ ST. apply sstep_return in ST. destruct ST. contradiction.
  Qed.
  Lemma static_return_void p : i_op (r_insn i) = OP_return -> goodN (emit p s).
  Proof.
    intros Bo. assert (Rd : i_rd (r_insn i) = None) by (apply no_dest; rewrite Bo; cbn; intuition).
    apply good_finish; [eapply same_normal; [apply same_emit|]; apply normal_next; auto; congruence|apply mono_same; reflexivity|].
    intros e m e' _ _ _ _ ST. apply sstep_return in ST. destruct ST. contradiction.
  Qed.

  Lemma push_number : i_op (r_insn i) = OP_push -> 1 <= r_sz i /\ (length pre < Z.to_nat (Z.of_nat (length pre) + r_sz i))%nat /\
    Z.of_nat (length pre) + r_sz i = Z.of_nat (Z.to_nat (Z.of_nat (length pre) + r_sz i)).
  Proof.
    intros Bo. destruct (v_push _ _ _ _ _ _ _ _ _ _ _ _ OK b (length pre) i Hb (at_index _ _ _ C) Bo) as (j & _ & H & _). lia.
  Qed.
  Lemma good_push x s1 sa s2 r0 s3 : i_op (r_insn i) = OP_push -> i_rs1 (r_insn i) = Some x ->
    s1 = extend_liveness live_out b (Z.of_nat (length pre)) x (r_sz i) s ->
    sa = spill_alive V live_out b (Z.of_nat (length pre)) s1 -> s2 = set_args true (a_args s1) sa -> has_room x sa = true ->
    prepare_operand V live_out b x None s2 = (r0, s3) ->
    exists K, good MN (MP K [x]) pre i rest X s
      (set_reg (a_args s3) (Some x) false (set_args (a_push s3) (S (a_args s3)) (emit (ir OP_assign (zi r0) 0 (zi (a_args s3))) s3))).
  Proof.
    intros Bo Rx E1 Ea E2 RM E3. assert (Rd : i_rd (r_insn i) = None) by (apply no_dest; rewrite Bo; cbn; intuition). assert (Rdx : reads (r_insn i) x) by (left; exact Rx).
    destruct (push_number Bo) as (SZ & KL & KE). set (K := Z.to_nat (Z.of_nat (length pre) + r_sz i)) in *. exists K.
    pose proof (n_base _ _ _ _ _ HN) as HB.
    destruct (extend_base pre s x (r_sz i) i rest C Bo Rx eq_refl HB) as (B1 & CM & KX & Q1 & Q2 & Q3 & Q4 & Q5 & Q6 & Q7). rewrite <- E1 in *.
    assert (HN1 : normal (length pre) pre (i :: rest) X s1).
    { destruct HN as [N1 N2 N3 N4 N5 N6 N7]. split; try congruence.
      - intros i1 i2 v H1 H2. rewrite Q1. intros A1 A2 Kv. exact (N2 i1 i2 v H1 H2 A1 A2 (F i1 v H1 A1)).
      - intros v L Xv Hv. unfold in_regs. rewrite Q1, Q3. apply N3; auto.
      - intros j v Hj. rewrite Q1, Q2, Q3. apply N4. exact Hj.
      - exact N7. }
    assert (F1 : full s1 (length pre)).
    { intros j v Hj. rewrite Q1. intros A. destruct (F j v Hj A) as [Kv|Kv]; [left; exact Kv|right]. specialize (CM v). lia. }
    destruct (normal_alive _ _ _ _ _ HN1 F1) as (HA & FA & IA & CA). destruct (dyn_alive pre (i :: rest) X s1 C HN1) as (MA & DA).
    rewrite <- Ea in HA, FA, IA, CA, MA, DA. clear Ea.
    assert (KX' : kept sa K x). { destruct KX as [KX|KX]; [left; exact KX|right]. rewrite CA. lia. }
    assert (NX : forall j, (j < 8)%nat -> a_var sa j <> Some x).
    { intros j Hj A. destruct (IA j x Hj A) as [I1 I2]. destruct KX' as [KX'|KX']; [contradiction|lia]. }
    assert (SL : forall v, local v -> X v -> live_at rest v -> a_off sa v <> 0).
    { intros v L Xv Hv. eapply (idle_slots (length pre) pre i rest X sa); eauto. intros [W _]. congruence. }
    assert (SX : local x -> X x -> a_off sa x <> 0).
    { intros L Xv. destruct (n_slot _ _ _ _ _ HA x L Xv (live_read _ _ _ Rdx)) as [(j & Hj & A)|O]; [exfalso; eapply NX; eauto|exact O]. }
    assert (RC : (r0 < 8)%nat /\ a_var sa r0 = None /\ s3 = load_var V x r0 s2).
    { assert (RM2 : has_room x s2 = true) by (rewrite E2; exact RM). destruct (room_cases _ _ _ _ _ RM2 E3) as [Hr [[A _]|(_ & A & ->)]].
      - exfalso. rewrite E2 in A. exact (NX r0 Hr A).
      - split; [exact Hr|]. split; [|reflexivity]. rewrite E2 in A. exact A. }
    destruct RC as (Hr & Ar & E3').
    assert (PA : a_args s2 = 0%nat) by (rewrite E2; cbn; rewrite Q6; apply (n_args _ _ _ _ _ HN)).
    assert (A3 : a_args s3 = 0%nat /\ a_push s3 = true) by (rewrite E3'; cbn; rewrite PA, E2; auto). destruct A3 as [A3 P3]. rewrite A3, P3.
    assert (B2 : base pre s2). { rewrite E2. destruct (n_base _ _ _ _ _ HA) as [X1 X2 X3 X4 X5 X6 X7 X8]. split; auto. }
    set (s4 := set_reg 0 (Some x) false (set_args true 1 (emit (ir OP_assign (zi r0) 0 (zi 0)) s3))).
    split; [split; [discriminate|]|split].
    - apply (push_state (length pre) K pre i rest X [] x s2 r0 s3); auto; try (rewrite E2; auto; fail).
      + intros j y. destruct j; discriminate.
      + intros j v Hj A Kv. exfalso. rewrite E2 in A, Kv. exact (idle_not_kept sa IA j v (proj2 Hj) A Kv).
      + exists pre, []. rewrite app_nil_r. split; [reflexivity|]. split; [reflexivity|]. intros j [].
      + right. split; [|split; [rewrite E2; exact Ar|exact E3']]. intros j Hj. rewrite E2. apply NX. exact Hj.
      + cbn. lia.
    - intros v Ov. assert (O1 : a_off s1 v = a_off s v) by (rewrite Q3; reflexivity). unfold s4. rewrite E3'. cbn. rewrite E2. cbn. rewrite MA; congruence.
    - intros e m e' EX (HD & HAr & _) ST. destruct (sstep_push _ _ _ _ ST Bo Rx) as (a & Ga & ->).
      assert (EX2 : ext sa). { intros v L O. rewrite (EX v L); unfold s4; rewrite E3'; cbn; rewrite E2; [reflexivity|exact O]. }
      assert (HD1 : DN pre (i :: rest) s1 e m). { destruct HD as [P1 P2 P3' P4 P5]. split; rewrite ?Q1, ?Q2; auto. }
      destruct (DA e m EX2 HD1) as (ma & SA & DDA & RA & WA).
      destruct (dyn_load pre (i :: rest) sa r0 x e ma) as (m2 & S2 & D2 & V2 & R2 & W2 & T2); auto.
      + apply HA.
      + intros L Ne. destruct (s_env e x) as [c|] eqn:Ev; [|congruence]. apply SX; auto. apply HX; auto. eapply d_def; eauto.
      + apply live_read. exact Rdx.
      + exists (mkm (upd (t_reg m2) 0%nat a) (t_slot m2) (t_world m2) (t_latch m2)). split.
        * assert (SS : sim s m (load_var V x r0 sa) m2).
          { eapply sim_trans; [apply (sim_refl s m s1); congruence|]. eapply sim_trans; [exact SA|exact S2]. }
          eapply sim_trans; [exact SS|]. exists [ir OP_assign (zi r0) 0 (zi 0)]. split.
          -- unfold s4. rewrite E3'. cbn. rewrite E2. reflexivity.
          -- cbn. unfold rset. cbn. rewrite rget_zi, (V2 a Ga). reflexivity.
        * split; cbn.
          -- apply D2.
          -- rewrite HAr. reflexivity.
          -- intros j c. rewrite HAr. destruct j as [|[|j]]; [|discriminate|discriminate]. intros [= <-]. apply upd_same.
          -- intros j v c Hj A Kv Gv. change (get e v = Some c) in Gv. apply upd_cases in A. destruct A as [[-> A]|[Nj A]].
             ++ rewrite upd_same. injection A as <-. congruence.
             ++ rewrite upd_other by exact Nj. rewrite E3' in A. cbn in A. apply upd_cases in A. destruct A as [[-> A]|[Nr A]].
                ** injection A as <-. rewrite Ga in Gv. injection Gv as <-. auto.
                ** exfalso. unfold s4 in Kv. rewrite E3' in Kv. rewrite E2 in A, Kv. eapply (idle_not_kept sa); eauto.
          -- intros v c L E Hv. rewrite T2. eapply (idle_dyn sa e ma); eauto.
          -- apply HD.
  Qed.
  End Normal.

  Section Pushing.
  Variable pre : list rinsn.
  Variable i : rinsn.
  Variable rest : list rinsn.
  Variable X : nat -> Prop.
  Variable s : ra.
  Variable K : nat.
  Variable xs : list nat.
  Hypothesis C : code b = pre ++ i :: rest.
  Hypothesis HP : pushing (length pre) K pre (i :: rest) X xs s.
  Hypothesis NE : xs <> [].
  Hypothesis F : full s (length pre).
  Hypothesis HX : forall v, reads (r_insn i) v -> local v -> defined v -> X v.
  Notation goodP q' := (good (MP K xs) q' pre i rest X s).

  Lemma push_next : (length pre = K /\ (i_op (r_insn i) = OP_call \/ i_op (r_insn i) = OP_indirect)) \/
    ((length pre < K)%nat /\ i_op (r_insn i) = OP_push /\ Z.of_nat (length pre) + r_sz i = Z.of_nat K).
  Proof.
    destruct (p_next _ _ _ _ _ _ _ HP) as (p0 & j & Ep & Bo & EK & LK).
    assert (C' : code b = p0 ++ j :: i :: rest) by (rewrite C, Ep, <- app_assoc; reflexivity).
    assert (L : length pre = S (length p0)) by (rewrite Ep, app_length; cbn; lia).
    destruct (v_push _ _ _ _ _ _ _ _ _ _ _ _ OK b (length p0) j Hb (at_index _ _ _ C') Bo) as (i' & N & SZ & H1 & H2).
    assert (i' = i). { rewrite <- L in N. rewrite (at_index _ _ _ C) in N. congruence. } subst i'.
    destruct (Z.eq_dec (r_sz j) 1) as [E|E]; [left|right].
    - split; [lia|auto].
    - destruct H2 as [H2 H3]; [lia|]. split; [lia|]. split; [exact H2|lia].
  Qed.
  Lemma pushing_clean j v : (j < 8)%nat -> a_var s j = Some v -> a_pol s j = false /\ In v xs.
  Proof.
    intros Hj A. destruct (Nat.lt_ge_cases j (length xs)) as [L|L].
    - destruct (nth_error xs j) as [y|] eqn:E; [|apply nth_error_None in E; lia]. destruct (p_args _ _ _ _ _ _ _ HP j y E) as (_ & A' & P & _).
      assert (y = v) by congruence. subst y. split; [exact P|eapply nth_error_In; eauto].
    - destruct (p_rest _ _ _ _ _ _ _ HP j v (conj L Hj) A (F j v Hj A)) as [H1 H2]. auto.
  Qed.
  Lemma dp_operand x o r s1 e m : reads (r_insn i) x -> has_room x s = true -> prepare_operand V live_out b x o s = (r, s1) -> ext s1 -> DP (length pre) (i :: rest) xs s e m ->
    exists m', sim s m s1 m' /\ (forall a, get e x = Some a -> t_reg m' r = a) /\ (forall j, (j < length xs)%nat -> t_reg m' j = t_reg m j) /\
      (forall j v, (j < 8)%nat -> a_var s j = Some v -> t_reg m' j = t_reg m j) /\ t_world m' = t_world m /\ t_slot m' = t_slot m.
  Proof.
    intros R RM E EX [D1 D2 D3 D4 D5 D6]. destruct (room_cases _ _ _ _ _ RM E) as [Hr [[A ->]|(NR & A & ->)]].
    - exists m. split; [apply sim_refl; reflexivity|]. split; [|auto]. intros a G. eapply D4; eauto.
    - set (y := if v_global V x then m_gget M (t_world m) (a_off s x) else t_slot m (a_off s x)).
      assert (NJ : forall j v, (j < 8)%nat -> a_var s j = Some v -> j <> r) by (intros; congruence).
      exists (mkm (upd (t_reg m) r y) (t_slot m) (t_world m) (t_latch m)). split; [|split; [|split; [|split; [|auto]]]].
      + unfold load_var. eapply sim_code; [apply sim_emit|reflexivity]. unfold y. destruct (v_global V x); cbn; unfold rset, zi; rewrite Nat2Z.id; reflexivity.
      + intros a G. cbn. rewrite upd_same. unfold AllocSpec.get in G. unfold y. destruct (v_global V x) eqn:Gx.
        * rewrite (B_goff _ _ (p_base _ _ _ _ _ _ _ HP) x Gx), D1. congruence.
        * assert (EX' : ext s) by exact EX. destruct (D5 x a Gx G (live_read _ _ _ R)) as [O T]. rewrite <- (EX' x Gx); [exact T|].
          apply (p_slot _ _ _ _ _ _ _ HP x Gx); [apply HX; auto; eauto|apply live_read; exact R].
      + intros j Hj. cbn. apply upd_other. destruct (nth_error xs j) as [z|] eqn:E'; [|apply nth_error_None in E'; lia].
        destruct (p_args _ _ _ _ _ _ _ HP j z E') as (Hj' & A' & _). eapply NJ; eauto.
      + intros j v Hj Av. cbn. apply upd_other. eapply NJ; eauto.
  Qed.

  Lemma good_push2 x s1 r0 s3 : i_op (r_insn i) = OP_push -> i_rs1 (r_insn i) = Some x ->
    s1 = extend_liveness live_out b (Z.of_nat (length pre)) x (r_sz i) s -> has_room x s1 = true ->
    prepare_operand V live_out b x None s1 = (r0, s3) -> (a_args s3 < 8)%nat ->
    goodP (MP K (xs ++ [x])) (set_reg (a_args s3) (Some x) false (set_args (a_push s3) (S (a_args s3)) (emit (ir OP_assign (zi r0) 0 (zi (a_args s3))) s3))).
  Proof.
    intros Bo Rx E1 RM E3 L8. assert (Rd : i_rd (r_insn i) = None) by (eapply no_dest; eauto; rewrite Bo; cbn; intuition). assert (Rdx : reads (r_insn i) x) by (left; exact Rx).
    destruct push_next as [[_ [?|?]]|(KL & _ & KE)]; [congruence|congruence|].
    pose proof (p_base _ _ _ _ _ _ _ HP) as HB.
    destruct (extend_base pre s x (r_sz i) i rest C Bo Rx eq_refl HB) as (B1 & CM & KX & Q1 & Q2 & Q3 & Q4 & Q5 & Q6 & Q7). rewrite <- E1 in B1, CM, KX, Q1, Q2, Q3, Q4, Q5, Q6, Q7. clear E1.
    assert (KX' : kept s1 K x). { destruct KX as [KX|KX]; [left; exact KX|right; lia]. }
    assert (KM : forall n v, kept s n v -> kept s1 n v). { intros n v [H|H]; [left; exact H|right]. specialize (CM v). lia. }
    destruct (room_cases _ _ _ _ _ RM E3) as [Hr Cs].
    assert (A3 : a_args s3 = length xs /\ a_push s3 = true /\ a_off s3 = a_off s /\ a_code s1 = a_code s).
    { pose proof (p_len _ _ _ _ _ _ _ HP) as PL. pose proof (p_push _ _ _ _ _ _ _ HP) as PP.
      destruct Cs as [[_ ->]|(_ & _ & ->)]; cbn; rewrite Q3, Q5, Q6, ?Q7; auto. }
    destruct A3 as (A3 & P3 & O3 & C3). rewrite A3, P3 in *.
    set (s4 := set_reg (length xs) (Some x) false (set_args true (S (length xs)) (emit (ir OP_assign (zi r0) 0 (zi (length xs))) s3))).
    assert (RM' : has_room x s = true). { clear -RM Q1. unfold has_room, find_in_regs, find_free, holds, is_free in *. rewrite Q1 in RM. exact RM. }
    split; [split|split].
    - destruct xs; discriminate.
    - apply (push_state (length pre) K pre i rest X xs x s1 r0 s3); auto; try congruence.
      + intros j y E. destruct (p_args _ _ _ _ _ _ _ HP j y E) as (H1 & H2 & H3 & H4). rewrite Q1, Q2. auto.
      + intros j v Hj A _. rewrite Q1 in A. rewrite Q2. destruct (pushing_clean j v (proj2 Hj) A). auto.
      + intros v L Xv Hv. rewrite Q3. apply (p_slot _ _ _ _ _ _ _ HP v L Xv). apply live_back; [exact Hv|]. intros [W _]. congruence.
      + rewrite Q6. apply (p_len _ _ _ _ _ _ _ HP).
      + rewrite Q5. apply (p_push _ _ _ _ _ _ _ HP).
      + apply (p_pre _ _ _ _ _ _ _ HP).
    - apply mono_same. intros v. cbn. rewrite O3. reflexivity.
    - intros e m e' EX HD ST. destruct (sstep_push _ _ _ _ ST Bo Rx) as (a & Ga & ->).
      (* the same operand, prepared from s *)
      assert (EP : exists s3', prepare_operand V live_out b x None s = (r0, s3') /\ a_code s3' = a_code s3 /\ a_off s3' = a_off s3 /\ a_var s3' = a_var s3).
      { unfold prepare_operand in *. assert (T1 : find_in_regs x s1 = find_in_regs x s) by (unfold find_in_regs, holds; rewrite Q1; reflexivity).
        assert (T2 : find_free s1 = find_free s) by (unfold find_free, is_free; rewrite Q1; reflexivity). unfold has_room in RM. rewrite T1, T2 in *.
        destruct (find_in_regs x s) as [j|]; [injection E3 as <- <-; exists s; auto|].
        destruct (find_free s) as [j|]; [|discriminate]. injection E3 as <- <-. eexists. split; [reflexivity|]. cbn. rewrite Q1, Q3, Q7. auto. }
      destruct EP as (s3' & EP & EP1 & EP2 & EP3).
      assert (EX3 : ext s3') by (intros v L O; rewrite EP2 in *; apply (EX v L); exact O).
      destruct (dp_operand x None r0 s3' e m Rdx RM' EP EX3 HD) as (m2 & S2 & V2 & R2 & R3 & W2 & T2).
      destruct HD as [D1 D2 D3 D4 D5 D6].
      exists (mkm (upd (t_reg m2) (length xs) a) (t_slot m2) (t_world m2) (t_latch m2)). split.
      + destruct S2 as (l & S2 & S2'). exists (l ++ [ir OP_assign (zi r0) 0 (zi (length xs))]). split.
        * cbn. rewrite <- EP1, S2, app_assoc. reflexivity.
        * rewrite exec_app, S2'. cbn. unfold rset. cbn. rewrite rget_zi, (V2 a Ga). unfold zi. rewrite Nat2Z.id. reflexivity.
      + split; cbn.
        * congruence.
        * rewrite !app_length, D2. reflexivity.
        * intros j c Ej. destruct (Nat.lt_ge_cases j (length xs)) as [Lj|Lj].
          -- rewrite nth_error_app1 in Ej by lia. rewrite upd_other by lia. rewrite R2 by exact Lj. eauto.
          -- rewrite nth_error_app2 in Ej by lia. rewrite D2 in Ej. destruct (j - length xs)%nat as [|n] eqn:En; [|destruct n; discriminate].
             injection Ej as <-. assert (j = length xs) by lia. subst j. apply upd_same.
        * intros j v c Hj A Kv Gv. change (get e v = Some c) in Gv. apply upd_cases in A. destruct A as [[-> A]|[Nj A]].
          -- rewrite upd_same. injection A as <-. congruence.
          -- rewrite upd_other by exact Nj. rewrite <- EP3 in A. destruct (operand_vars _ _ _ _ _ _ _ EP A) as [A'| ->].
             ++ rewrite (R3 j v Hj A'). eapply D4; eauto.
             ++ destruct (room_cases _ _ _ _ _ RM' EP) as [_ [[A' ->]|(NR & _ & E')]].
                ** rewrite (R3 j x Hj A). eapply D4; eauto.
                ** rewrite E' in A. cbn in A. apply upd_cases in A. destruct A as [[-> A]|[_ A]]; [|exfalso; exact (NR j Hj A)].
                   rewrite Ga in Gv. injection Gv as <-. auto.
        * intros v c L E Hv. rewrite T2. apply D5; auto. apply live_back; [exact Hv|]. intros [W _]. congruence.
        * exact D6.
  Qed.
  Lemma alive_clean : let s' := spill_alive V live_out b (Z.of_nat (length pre)) s in
    a_code s' = a_code s /\ a_off s' = a_off s /\ a_size s' = a_size s /\ a_cons s' = a_cons s.
  Proof.
    cbn zeta. unfold spill_alive.
    apply (fold_keep (spill_alive_reg V live_out b (Z.of_nat (length pre))) (fun s' => (forall j v, (j < 8)%nat -> a_var s' j = Some v -> a_pol s' j = false) /\
      (a_code s' = a_code s /\ a_off s' = a_off s /\ a_size s' = a_size s /\ a_cons s' = a_cons s)) regs).
    - intros s1 j Ij [H1 H2]. apply regs_In in Ij. destruct (spill_alive_cases (length pre) s1 j) as [[-> _]|(v & A & ->)]; [auto|].
      assert (P : a_pol s1 j = false) by (eapply H1; eauto). assert (E : spill_var V v j s1 = set_reg j None false s1) by (unfold spill_var; rewrite P; reflexivity).
      rewrite E. split; [|exact H2]. cbn. intros j' v' Hj' A'. apply upd_cases in A'. destruct A' as [[_ A']|[N A']]; [discriminate|].
      rewrite upd_other by exact N. eapply H1; eauto.
    - split; [|auto]. intros j v Hj A. eapply pushing_clean; eauto.
  Qed.
  Lemma pushed_slots v : i_rd (r_insn i) = None -> local v -> after_insn (r_insn i) X v -> live_at rest v -> a_off s v <> 0.
  Proof.
    intros Rd L Xv Hv. apply (p_slot _ _ _ _ _ _ _ HP v L); [eapply after_None; eauto|]. apply live_back; [exact Hv|]. intros [W _]. congruence.
  Qed.
  Lemma good_call2 s1 : i_op (r_insn i) = OP_call -> s1 = s \/ s1 = spill_alive V live_out b (Z.of_nat (length pre)) s ->
    goodP MN (fold_left (fun s i => set_reg i None (a_pol s i) s) regs (set_args false 0 (emit (mkph2 OP_call 0 0 0 (r_str i) 0 0 0 false) s1))).
  Proof.
    intros Bo E1. assert (Rd : i_rd (r_insn i) = None) by (eapply no_dest; eauto; rewrite Bo; cbn; intuition).
    assert (SA : a_code s1 = a_code s /\ a_off s1 = a_off s /\ a_size s1 = a_size s /\ a_cons s1 = a_cons s).
    { destruct E1 as [->| ->]; [auto|]. apply alive_clean. }
    clear E1. destruct SA as (Y1 & Y2 & Y3 & Y4).
    set (s2 := set_args false 0 (emit (mkph2 OP_call 0 0 0 (r_str i) 0 0 0 false) s1)). destruct (clear_regs s2) as (K1 & K2 & K3 & K4 & K5 & K6 & K7).
    set (s3 := fold_left (fun s i => set_reg i None (a_pol s i) s) regs s2) in *. clearbody s3.
    assert (B3 : base (pre ++ [i]) s3).
    { eapply base_clear; [apply base_app; apply (p_base _ _ _ _ _ _ _ HP)|exact K1| | |]; [rewrite K2|rewrite K3|rewrite K4]; assumption. }
    assert (NK : forall j v, (j < 8)%nat -> a_var s3 j = Some v -> ~ kept s3 (S (length pre)) v) by (intros j v Hj A; rewrite K1 in A by exact Hj; discriminate).
    split; [|split].
    - apply normal_cleared; auto; [congruence|]. intros v L Xv Hv. rewrite K2. change (a_off s1 v <> 0). rewrite Y2. eapply pushed_slots; eauto.
    - apply mono_same. intros v. rewrite K2. change (a_off s1 v = a_off s v). rewrite Y2. reflexivity.
    - intros e m e' EX HD ST. destruct (sstep_call _ _ _ ST Bo) as (w & r & HC & ->). destruct HD as [D1 D2 D3 D4 D5 D6].
      destruct (HC (t_reg m)) as (A' & HC1 & HC2); [exact D3|].
      exists (mkm A' (t_slot m) w None). split.
      + exists [mkph2 OP_call 0 0 0 (r_str i) 0 0 0 false]. split; [rewrite K7; change (a_code s1 ++ [mkph2 OP_call 0 0 0 (r_str i) 0 0 0 false] = a_code s ++ [mkph2 OP_call 0 0 0 (r_str i) 0 0 0 false]); congruence|].
        cbn. rewrite D1, HC1. reflexivity.
      + eapply dyn_called; eauto. intros v a L E Hv. apply D5; auto. apply live_back; [exact Hv|]. intros [W _]. congruence.
  Qed.
  Lemma good_indirect2 x r0 s2 : i_op (r_insn i) = OP_indirect -> i_rs1 (r_insn i) = Some x -> has_room x s = true ->
    prepare_operand V live_out b x None s = (r0, s2) ->
    goodP MN (set_args false 0 (emit (ir OP_indirect 0 0 0) (emit (ir OP_load_func (zi r0) 0 0) s2))).
  Proof.
    intros Bo Rx RM E0. assert (Rd : i_rd (r_insn i) = None) by (eapply no_dest; eauto; rewrite Bo; cbn; intuition). assert (Rdx : reads (r_insn i) x) by (left; exact Rx).
    assert (SS : base pre s2 /\ a_off s2 = a_off s /\ a_cons s2 = a_cons s).
    { destruct (room_cases _ _ _ _ _ RM E0) as [_ [[_ ->]|(_ & _ & ->)]]; split; auto; [apply HP|apply base_load; apply HP]. }
    destruct SS as (B2 & O2 & C2).
    set (s3 := set_args false 0 (emit (ir OP_indirect 0 0 0) (emit (ir OP_load_func (zi r0) 0 0) s2))).
    assert (B3 : base (pre ++ [i]) s3). { destruct (base_app pre i s2 B2) as [B1' B2' B3 B4 B5 B6 B7 B8]. split; auto. }
    assert (UN : forall v, In v xs \/ v = x -> ~ kept s2 (S (length pre)) v).
    { intros v Hv. destruct (p_pre _ _ _ _ _ _ _ HP) as (p0 & ps & Ep & Em & Eo).
      destruct (v_indirect _ _ _ _ _ _ _ _ _ _ _ _ OK b (isns p0) (isns ps) (isns rest) (r_insn i) v Hb) as [XI XU]; auto.
      - unfold plain_code. rewrite C, Ep, !map_app, <- app_assoc. reflexivity.
      - intros j J. apply in_map_iff in J. destruct J as (j' & <- & J). auto.
      - destruct Hv as [Hv| ->]; [|exists (r_insn i); split; [left; reflexivity|exact Rx]].
        assert (IS : In (Some v) (map (fun i => i_rs1 (r_insn i)) ps)) by (rewrite Em; apply in_map; exact Hv).
        apply in_map_iff in IS. destruct IS as (j & Ej & Ij). exists (r_insn j). split; [right; apply in_map; exact Ij|exact Ej].
      - intros [Kv|Kv]; [contradiction|]. pose proof (B_up _ _ B2 v _ XU) as U. rewrite app_length in U. unfold isns in U. rewrite !map_length in U.
        assert (length pre = length p0 + length ps)%nat by (rewrite Ep, app_length; reflexivity). lia. }
    assert (NK : forall j v, (j < 8)%nat -> a_var s3 j = Some v -> ~ kept s3 (S (length pre)) v).
    { intros j v Hj A. change (a_var s2 j = Some v) in A. change (~ kept s2 (S (length pre)) v). apply UN.
      destruct (operand_vars _ _ _ _ _ _ _ E0 A) as [A'| ->]; [left; eapply pushing_clean; eauto|right; reflexivity]. }
    split; [|split].
    - apply normal_cleared; auto; [congruence|]. intros v L Xv Hv. change (a_off s2 v <> 0). rewrite O2. eapply pushed_slots; eauto.
    - apply mono_same. intros v. change (a_off s2 v = a_off s v). rewrite O2. reflexivity.
    - intros e m e' EX HD ST. destruct (sstep_calli _ _ _ _ ST Bo Rx) as (a & w & r & Ga & HC & ->).
      destruct (dp_operand x None r0 s2 e m Rdx RM E0 EX HD) as (m2 & S2 & V2 & R2 & R3 & W2 & T2). destruct HD as [D1 D2 D3 D4 D5 D6].
      destruct (HC (t_reg m2)) as (A' & HC1 & HC2).
      { intros j c Ej. assert (Lj : (j < length xs)%nat) by (rewrite <- D2; apply nth_error_Some; congruence). rewrite R2 by exact Lj. eauto. }
      exists (mkm A' (t_slot m2) w None). split.
      + eapply sim_trans; [exact S2|]. exists [ir OP_load_func (zi r0) 0 0; ir OP_indirect 0 0 0]. split.
        * cbn. rewrite <- app_assoc. reflexivity.
        * cbn. rewrite rget_zi, (V2 a Ga), W2, D1, HC1. reflexivity.
      + eapply dyn_called; eauto. intros v c L E Hv. cbn. rewrite T2. apply D5; auto. apply live_back; [exact Hv|]. intros [W _]. congruence.
  Qed.
  End Pushing.

  (** ** Any instruction other than a branch *)
  Hypothesis GO : forall v, v_global V v = true -> goff v <> 0.
  Notation core := (alloc_core V live_out killed arity (g_then g) (g_else g) b).
  Notation step := (alloc_insn V live_out killed arity (g_then g) (g_else g) b).
  Notation careful1 := (careful_insn V live_out b).

  Lemma core_binary idx o rd r1 r2 sz str s : binary o = true -> core idx (mkr (mkinsn o rd r1 r2) sz str) s =
    match rd, r1, r2 with
    | Some d, Some x, Some y =>
        let '(r0, s) := prepare_operand V live_out b x None s in
        let '(r1, s) := prepare_operand V live_out b y (Some r0) s in
        let '(r, s) := prepare_dest V live_out b d (Some r0) (Some r1) s in
        Some (emit (ir o (zi r0) (zi r1) (zi r)) s)
    | _, _, _ => None end.
  Proof. destruct o; try discriminate; intros _; destruct rd, r1, r2; reflexivity. Qed.
  Lemma careful_binary idx o d x y sz str s : binary o = true -> careful1 idx (mkr (mkinsn o (Some d) (Some x) (Some y)) sz str) s = differ V live_out b x y s.
  Proof. destruct o; try discriminate; reflexivity. Qed.
  Lemma core_unary idx o rd r1 r2 sz str s : unary o = true -> core idx (mkr (mkinsn o rd r1 r2) sz str) s =
    match rd, r1 with
    | Some d, Some x =>
        let '(r0, s) := prepare_operand V live_out b x None s in
        let '(r, s) := prepare_dest V live_out b d (Some r0) None s in
        Some (emit (ir o (zi r0) 0 (zi r)) s)
    | _, _ => None end.
  Proof. destruct o; try discriminate; intros _; destruct rd, r1; reflexivity. Qed.
  Lemma align_size_pos z : 0 <= align_size z.
  Proof.
    unfold align_size. destruct (Z.leb_spec z 4); [lia|]. apply Z.land_nonneg. left. lia.
  Qed.

  Lemma some_inj {A} (x y : A) : Some x = Some y -> y = x.
  Proof. congruence. Qed.
  Lemma core_ok pre i rest X s s' : code b = pre ++ i :: rest -> normal (length pre) pre (i :: rest) X s -> full s (length pre) ->
    (forall v, reads (r_insn i) v -> local v -> defined v -> X v) -> careful1 (Z.of_nat (length pre)) i s = true ->
    core (Z.of_nat (length pre)) i s = Some s' -> i_op (r_insn i) <> OP_branch -> exists q', good MN q' pre i rest X s s'.
  Proof.
    intros C HN F HX CF H NB. destruct i as [[o rd rs1 rs2] sz str]. cbn [r_insn i_op] in NB.
    set (i := mkr (mkinsn o rd rs1 rs2) sz str) in *.
    destruct (binary o) eqn:Bo.
    { unfold i in H. rewrite core_binary in H by exact Bo. destruct rd as [d|]; [|discriminate]. destruct rs1 as [x|]; [|discriminate]. destruct rs2 as [y|]; [|discriminate].
      unfold i in CF. rewrite careful_binary in CF by exact Bo.
      destruct (prepare_operand V live_out b x None s) as [r0 s0] eqn:E0. destruct (prepare_operand V live_out b y (Some r0) s0) as [r1 s1] eqn:E1.
      destruct (prepare_dest V live_out b d (Some r0) (Some r1) s1) as [r s2] eqn:E2. injection H as <-. exists MN.
      eapply (good_binary pre i rest X s C HN F HX d x y); eauto; reflexivity. }
    destruct (unary o) eqn:Uo.
    { unfold i in H. rewrite core_unary in H by exact Uo. destruct rd as [d|]; [|discriminate]. destruct rs1 as [x|]; [|discriminate].
      destruct (prepare_operand V live_out b x None s) as [r0 s0] eqn:E0.
      destruct (prepare_dest V live_out b d (Some r0) None s0) as [r s2] eqn:E2. injection H as <-. exists MN.
      eapply (good_unary pre i rest X s C HN F HX d x); eauto; reflexivity. }
    destruct o; try discriminate; unfold alloc_core in H; unfold i in H; cbn [r_insn i_op i_rd i_rs1 i_rs2 r_sz r_str] in H; try discriminate.
    - (* unwound_phi *) destruct rd as [d|]; [|discriminate]. destruct rs1 as [x|]; [|discriminate].
      destruct (prepare_operand V live_out b x None s) as [r0 s0] eqn:E0. injection H as <-. exists MN. eapply (good_phi pre i rest X s C HN F HX d x); eauto; reflexivity.
    - (* push *) destruct rs1 as [x|]; [|destruct rd; discriminate].
      assert (PF : a_push (extend_liveness live_out b (Z.of_nat (length pre)) x sz s) = false).
      { rewrite <- (n_push _ _ _ _ _ HN). unfold extend_liveness. destruct (check_live_out live_out b x); [reflexivity|]. destruct (a_cons s x <? _); reflexivity. }
      assert (H' : match prepare_operand V live_out b x None (set_args true (a_args (extend_liveness live_out b (Z.of_nat (length pre)) x sz s)) (spill_alive V live_out b (Z.of_nat (length pre)) (extend_liveness live_out b (Z.of_nat (length pre)) x sz s))) with (r0, s3) =>
        if (a_args s3 <? REG_CNT)%nat then Some (set_reg (a_args s3) (Some x) false (set_args (a_push s3) (S (a_args s3)) (emit (ir OP_assign (zi r0) 0 (zi (a_args s3))) s3))) else None end = Some s').
      { rewrite <- H. rewrite PF. destruct rd; reflexivity. }
      clear H. unfold i in CF. unfold careful_insn in CF. cbn [r_insn i_op i_rd i_rs1 i_rs2 r_sz r_str] in CF.
      assert (CF' : has_room x (spill_alive V live_out b (Z.of_nat (length pre)) (extend_liveness live_out b (Z.of_nat (length pre)) x sz s)) = true).
      { rewrite <- CF. rewrite PF. destruct rd; reflexivity. }
      clear CF. destruct (prepare_operand V live_out b x None _) as [r0 s3] eqn:E0. destruct (a_args s3 <? REG_CNT)%nat; [|discriminate]. injection H' as <-.
      destruct (good_push pre i rest X s C HN F HX x _ _ _ r0 s3 eq_refl eq_refl eq_refl eq_refl eq_refl CF' E0) as [K G]. eauto.
    - (* call *) assert (AR : arity str = 0).
      { destruct (v_call _ _ _ _ _ _ _ _ _ _ _ _ OK b (length pre) i Hb (at_index _ _ _ C) eq_refl) as [A|(j & k' & E1 & E2 & E3)]; [exact A|]. exfalso.
        destruct (list_eq_dec Nat.eq_dec [] [0%nat]) as [Q|_]; [discriminate|].
        destruct (exists_last (l := pre)) as (p & j' & Ep); [intros ->; discriminate|].
        apply (n_last _ _ _ _ _ HN p j' Ep). rewrite C, Ep, <- app_assoc in E2. rewrite Ep, app_length in E1. cbn in E1.
        assert (k' = length p) by lia. subst k'. rewrite nth_error_app2, Nat.sub_diag in E2 by lia. injection E2 as <-. exact E3. }
      rewrite AR in H. cbn [Z.eqb] in H.
      assert (H' : Some (fold_left (fun s i => set_reg i None (a_pol s i) s) regs (set_args false 0 (emit (mkph2 OP_call 0 0 0 str 0 0 0 false) (spill_alive V live_out b (Z.of_nat (length pre)) s)))) = Some s').
      { rewrite <- H. destruct rd; reflexivity. }
      apply some_inj in H'. rewrite H'. exists MN. exact (good_call pre i rest X s C HN F HX _ eq_refl eq_refl).
    - (* indirect *) destruct rs1 as [x|]; [|destruct rd; discriminate]. rewrite (n_args _ _ _ _ _ HN) in H. cbn [Nat.eqb] in H.
      destruct (prepare_operand V live_out b x None (spill_alive V live_out b (Z.of_nat (length pre)) s)) as [r0 s0] eqn:E0.
      assert (H' : Some (set_args false 0 (emit (ir OP_indirect 0 0 0) (emit (ir OP_load_func (zi r0) 0 0) s0))) = Some s') by (rewrite <- H; destruct rd; reflexivity).
      apply some_inj in H'. rewrite H'. exists MN. exact (good_indirect pre i rest X s C HN F HX x _ r0 s0 eq_refl eq_refl eq_refl E0).
    - (* return *) exists MN. destruct rs1 as [x|].
      + destruct (prepare_operand V live_out b x None s) as [r0 s0] eqn:E0.
        assert (H' : Some (emit (ir OP_return (zi r0) 0 0) s0) = Some s') by (rewrite <- H; destruct rd; reflexivity).
        injection H' as <-. eapply (static_return pre i rest X s C HN F r0 s0 x); eauto; reflexivity.
      + assert (H' : Some (emit (ir OP_return (-1) 0 0) s) = Some s') by (rewrite <- H; destruct rd; reflexivity).
        injection H' as <-. eapply (static_return_void pre i rest X s C HN); reflexivity.
    - (* allocat *) destruct rd as [d|]; [|discriminate]. destruct (no_storage V d) eqn:NS.
      + injection H as <-. exists MN. eapply good_decl; eauto; reflexivity.
      + destruct (prepare_dest V live_out b d None None _) as [r s3] eqn:E. injection H as <-. exists MN.
        eapply (good_storage pre i rest X s C HN F HX d r s3); [reflexivity|reflexivity|exact NS| |exact E].
        destruct (v_array V d =? 0); [pose proof (align_size_pos (if v_ptr V d then 4 else v_tsize V d))|
          pose proof (align_size_pos (v_array V d * (if v_ptr V d then 4 else v_tsize V d)))]; lia.
    - (* assign *) destruct rd as [d|]; [|discriminate]. destruct rs1 as [x|]; [|discriminate]. destruct (Z.eqb_spec (a_cons s d) (-1)) as [E|E].
      + injection H as <-. exists MN. eapply good_unused; eauto; cbn; auto.
      + destruct (match find_in_regs x s with Some r => (r, s, false) | None => let '(r, s) := prepare_operand V live_out b x None s in (r, s, true) end) as [[r0 s0] clear] eqn:E0.
        destruct (prepare_dest V live_out b d (Some r0) None s0) as [r s1] eqn:E1. injection H as <-. exists MN.
        eapply (good_assign pre i rest X s C HN F HX d x r0 s0 clear r s1); eauto; try reflexivity.
        intros ->. unfold careful_insn, i in CF. cbn [r_insn i_op i_rd i_rs1 i_rs2] in CF. destruct (find_in_regs x s); [discriminate|].
        destruct (prepare_operand V live_out b x None s) as [r0' s0']. injection E0 as <- <-. rewrite E1 in CF. cbn in CF.
        intros ->. rewrite Nat.eqb_refl in CF. discriminate.
    - (* load_constant *) destruct rd as [d|]; [|discriminate]. destruct (Z.eqb_spec (a_cons s d) (-1)) as [E|E].
      + injection H as <-. exists MN. eapply good_unused; eauto; cbn; auto.
      + destruct (prepare_dest V live_out b d None None s) as [r s3] eqn:E3. injection H as <-. exists MN. eapply good_const; eauto; reflexivity.
    - (* load_data_address *) destruct rd as [d|]; [|discriminate]. destruct (Z.eqb_spec (a_cons s d) (-1)) as [E|E].
      + injection H as <-. exists MN. eapply good_unused; eauto; cbn; auto.
      + destruct (prepare_dest V live_out b d None None s) as [r s3] eqn:E3. injection H as <-. exists MN. eapply good_data; eauto; reflexivity.
    - (* branch *) congruence.
    - (* func_ret *) destruct rd as [d|]; [|discriminate]. destruct (prepare_dest V live_out b d None None s) as [r s3] eqn:E3. injection H as <-. exists MN.
      eapply good_result; eauto; reflexivity.
    - (* address_of *) destruct rd as [d|]; [|discriminate]. destruct rs1 as [x|]; [|discriminate].
      assert (GX : v_global V x = true) by (eapply (v_address _ _ _ _ _ _ _ _ _ _ _ _ OK b (r_insn i) x Hb); [eapply in_plain; eauto|reflexivity|reflexivity]).
      assert (OX : a_off s x <> 0) by (rewrite (B_goff _ _ (n_base _ _ _ _ _ HN) x GX); apply GO; exact GX).
      destruct (Z.eqb_spec (a_off s x) 0) as [|_]; [contradiction|]. rewrite GX in H.
      destruct (prepare_dest V live_out b d None None s) as [r s3] eqn:E3. injection H as <-. exists MN. eapply good_addr; eauto; reflexivity.
    - (* read *) destruct rd as [d|]; [|discriminate]. destruct rs1 as [x|]; [|discriminate]. destruct (prepare_operand V live_out b x None s) as [r0 s0] eqn:E0.
      destruct (prepare_dest V live_out b d (Some r0) None s0) as [r s2] eqn:E2. injection H as <-. exists MN.
      eapply (good_read pre i rest X s C HN F HX d x); eauto; reflexivity.
    - (* write *) destruct rs1 as [x|]; [|destruct rd; discriminate]. destruct rs2 as [y|]; [|destruct rd; discriminate]. exists MN.
      destruct (v_func V y) as [f|] eqn:VF.
      + destruct (prepare_operand V live_out b x None s) as [r0 s0] eqn:E0.
        assert (H' : Some (emit (mkph2 OP_address_of_func (zi r0) 0 0 f 0 0 0 false) s0) = Some s') by (rewrite <- H; destruct rd; reflexivity).
        injection H' as <-. eapply (good_writef pre i rest X s C HN F HX x y); eauto; reflexivity.
      + assert (CF' : differ V live_out b x y (spill_alive V live_out b (Z.of_nat (length pre)) s) = true).
        { rewrite <- CF. unfold i, careful_insn. cbn [r_insn i_op i_rd i_rs1 i_rs2]. rewrite VF. destruct rd; reflexivity. }
        destruct (prepare_operand V live_out b x None (spill_alive V live_out b (Z.of_nat (length pre)) s)) as [r0 s0] eqn:E0.
        destruct (prepare_operand V live_out b y (Some r0) s0) as [r1 s1] eqn:E1.
        assert (H' : Some (emit (ir OP_write (zi r0) (zi r1) sz) s1) = Some s') by (rewrite <- H; destruct rd; reflexivity).
        injection H' as <-. eapply (good_write pre i rest X s C HN F HX x y r0 s0 r1 s1); eauto; reflexivity.
  Qed.

  Lemma core_ok2 pre i rest X s K xs s' : code b = pre ++ i :: rest -> pushing (length pre) K pre (i :: rest) X xs s -> xs <> [] -> full s (length pre) ->
    (forall v, reads (r_insn i) v -> local v -> defined v -> X v) -> careful1 (Z.of_nat (length pre)) i s = true ->
    core (Z.of_nat (length pre)) i s = Some s' -> exists q', good (MP K xs) q' pre i rest X s s'.
  Proof.
    intros C HP NE F HX CF H. pose proof (push_next pre i rest X s K xs C HP HX) as PN. destruct i as [[o rd rs1 rs2] sz str].
    cbn [r_insn i_op r_sz] in PN.
    assert (AA : a_args s <> 0%nat) by (rewrite (p_len _ _ _ _ _ _ _ HP); destruct xs; [contradiction|discriminate]).
    destruct PN as [(L & [->| ->])|(L & -> & L2)];
      match goal with _ : code b = pre ++ ?j :: rest |- _ => set (i := j) in * end; unfold alloc_core in H; unfold i in H; cbn [r_insn i_op i_rd i_rs1 i_rs2 r_sz r_str] in H;
      unfold careful_insn in CF; unfold i in CF; cbn [r_insn i_op i_rd i_rs1 i_rs2 r_sz r_str] in CF.
    - (* call *) exists MN.
      destruct (Z.eqb_spec (arity str) 0) as [_|_].
      + assert (H' : Some (fold_left (fun s i => set_reg i None (a_pol s i) s) regs (set_args false 0 (emit (mkph2 OP_call 0 0 0 str 0 0 0 false) (spill_alive V live_out b (Z.of_nat (length pre)) s)))) = Some s')
          by (rewrite <- H; destruct rd; reflexivity).
        apply some_inj in H'. rewrite H'. exact (good_call2 pre i rest X s K xs C HP F HX _ eq_refl (or_intror eq_refl)).
      + assert (H' : Some (fold_left (fun s i => set_reg i None (a_pol s i) s) regs (set_args false 0 (emit (mkph2 OP_call 0 0 0 str 0 0 0 false) s))) = Some s')
          by (rewrite <- H; destruct rd; reflexivity).
        apply some_inj in H'. rewrite H'. exact (good_call2 pre i rest X s K xs C HP F HX _ eq_refl (or_introl eq_refl)).
    - (* indirect *) exists MN. destruct rs1 as [x|]; [|destruct rd; discriminate]. destruct (Nat.eqb_spec (a_args s) 0) as [|_]; [contradiction|].
      assert (CF' : has_room x s = true) by (rewrite <- CF; destruct rd; reflexivity).
      destruct (prepare_operand V live_out b x None s) as [r0 s0] eqn:E0.
      assert (H' : Some (set_args false 0 (emit (ir OP_indirect 0 0 0) (emit (ir OP_load_func (zi r0) 0 0) s0))) = Some s') by (rewrite <- H; destruct rd; reflexivity).
      apply some_inj in H'. rewrite H'. exact (good_indirect2 pre i rest X s K xs C HP F HX x r0 s0 eq_refl eq_refl CF' E0).
    - (* push *) destruct rs1 as [x|]; [|destruct rd; discriminate].
      assert (PF : a_push (extend_liveness live_out b (Z.of_nat (length pre)) x sz s) = true).
      { rewrite <- (p_push _ _ _ _ _ _ _ HP). unfold extend_liveness. destruct (check_live_out live_out b x); [reflexivity|]. destruct (a_cons s x <? _); reflexivity. }
      assert (H' : match prepare_operand V live_out b x None (extend_liveness live_out b (Z.of_nat (length pre)) x sz s) with (r0, s3) =>
        if (a_args s3 <? REG_CNT)%nat then Some (set_reg (a_args s3) (Some x) false (set_args (a_push s3) (S (a_args s3)) (emit (ir OP_assign (zi r0) 0 (zi (a_args s3))) s3))) else None end = Some s').
      { rewrite <- H. rewrite PF. destruct rd; reflexivity. }
      assert (CF' : has_room x (extend_liveness live_out b (Z.of_nat (length pre)) x sz s) = true).
      { rewrite <- CF. rewrite PF. destruct rd; reflexivity. }
      clear CF H. destruct (prepare_operand V live_out b x None _) as [r0 s3] eqn:E0. destruct (Nat.ltb_spec (a_args s3) REG_CNT) as [LT|]; [|discriminate].
      apply some_inj in H'. rewrite H'. eexists. exact (good_push2 pre i rest X s K xs C HP NE F HX x _ r0 s3 eq_refl eq_refl eq_refl CF' E0 LT).
  Qed.

  Lemma refresh_vars k s i v : (i < 8)%nat -> a_var (refresh live_out b k s) i = Some v -> a_var s i = Some v.
  Proof.
    intros Hi. unfold refresh. revert v. apply (fold_keep (refresh_reg live_out b k) (fun s' => forall v, a_var s' i = Some v -> a_var s i = Some v)); [|auto].
    intros s' j _ H v. unfold refresh_reg. destruct (a_var s' j) as [u|] eqn:A; [|auto]. destruct (check_live_out live_out b u); [auto|].
    destruct (a_cons s' u <? k); [|auto]. cbn. intros A2. apply upd_cases in A2. destruct A2 as [[_ A2]|[_ A2]]; [discriminate|auto].
  Qed.
  Lemma refresh_cons k s : a_cons (refresh live_out b k s) = a_cons s.
  Proof.
    unfold refresh. apply (fold_keep (refresh_reg live_out b k) (fun s' => a_cons s' = a_cons s)); [|auto].
    intros s' i _ H. unfold refresh_reg. destruct (a_var s' i); [|auto]. destruct (check_live_out live_out b n); [auto|].
    destruct (a_cons s' n <? k); cbn; auto.
  Qed.
  Lemma static_refresh q pre rest X s : code b = pre ++ rest -> static q (length pre) pre rest X s ->
    static q (length pre) pre rest X (refresh live_out b (Z.of_nat (length pre)) s) /\ full (refresh live_out b (Z.of_nat (length pre)) s) (length pre) /\
    (forall e m, dyn q (length pre) pre rest s e m -> dyn q (length pre) pre rest (refresh live_out b (Z.of_nat (length pre)) s) e m).
  Proof.
    intros C HS. destruct q as [|K xs].
    - destruct (normal_refresh _ _ _ _ C HS) as [H1 H2]. split; [exact H1|]. split; [exact H2|].
      intros e m (HD & HA & HR). split; [eapply dyn_refresh; eauto|]. split; [exact HA|]. intros r Er. destruct (HR r Er) as [R1 R2].
      split; [exact R1|]. intros j v Hj A. unfold kept. rewrite refresh_cons. apply R2 with (j := j); [exact Hj|]. eapply refresh_vars; eauto.
    - destruct HS as [NE HP]. destruct (pushing_refresh _ _ _ _ _ _ HP) as [H1 H2]. split; [split; assumption|]. split; [exact H2|].
      intros e m [D1 D2 D3 D4 D5 D6]. split; auto. intros j v a Hj A Kv. unfold kept in Kv. rewrite refresh_cons in Kv. apply D4; auto.
      eapply refresh_vars; eauto.
  Qed.
  Lemma step_ok q pre i rest X s s' : code b = pre ++ i :: rest -> static q (length pre) pre (i :: rest) X s ->
    (forall v, reads (r_insn i) v -> local v -> defined v -> X v) ->
    careful1 (Z.of_nat (length pre)) i (refresh live_out b (Z.of_nat (length pre)) s) = true ->
    step (Z.of_nat (length pre)) i s = Some s' -> i_op (r_insn i) <> OP_branch -> exists q', good q q' pre i rest X s s'.
  Proof.
    intros C HS HX CF H NB. unfold alloc_insn in H. destruct (static_refresh q pre (i :: rest) X s C HS) as (H1 & H2 & H3).
    assert (OF : forall v, a_off (refresh live_out b (Z.of_nat (length pre)) s) v = a_off s v) by (intros; apply refresh_off).
    assert (CO : a_code (refresh live_out b (Z.of_nat (length pre)) s) = a_code s) by apply refresh_code.
    set (sr := refresh live_out b (Z.of_nat (length pre)) s) in *. clearbody sr.
    assert (G : exists q', good q q' pre i rest X sr s').
    { destruct q as [|K xs]; [eapply core_ok; eauto|]. destruct H1 as [NE HP]. eapply core_ok2; eauto. }
    destruct G as (q' & G1 & G2 & G3). exists q'. split; [exact G1|]. split.
    - intros v O. rewrite <- OF in *. apply G2. exact O.
    - intros e m e' EX HD ST. destruct (G3 e m e' EX (H3 e m HD) ST) as (m' & (l & S1 & S2) & D'). exists m'. split; [|exact D'].
      exists l. split; [rewrite <- CO; exact S1|exact S2].
  Qed.

  (** ** The instructions of the block *)
  Notation insns_step := (alloc_insns V live_out killed arity (g_then g) (g_else g) b).
  Notation carefuls := (careful_insns V live_out killed arity (g_then g) (g_else g) b).
  Notation sblock := (sblock M V goff place).
  Fixpoint Xat (X : nat -> Prop) (l : list rinsn) : nat -> Prop := match l with [] => X | i :: r => Xat (after_insn (r_insn i) X) r end.
  Definition known (X : nat -> Prop) (pre rest : list rinsn) : Prop := forall l1 i l2, rest = l1 ++ i :: l2 ->
    forall v, reads (r_insn i) v -> local v -> defined v -> Xat X l1 v.
  Lemma sb_return_inv i l e x w : i_op (r_insn i) = OP_return -> sblock (i :: l) e (SRet x w) -> s_args e = [] /\ w = s_world e /\
    ((i_rs1 (r_insn i) = None /\ x = None) \/ exists y a, i_rs1 (r_insn i) = Some y /\ get e y = Some a /\ x = Some a).
  Proof.
    intros Bo H. inversion H; subst; cbn in *; try discriminate; auto.
    - match goal with H : AllocSpec.sstep _ _ _ _ _ _ _ |- _ => apply sstep_return in H; destruct H; contradiction end.
    - split; [auto|]. split; [auto|]. right. eauto.
  Qed.
  Lemma sb_step_inv i l e z : i_op (r_insn i) <> OP_return -> i_op (r_insn i) <> OP_branch -> sblock (i :: l) e z ->
    exists e', sstep i e e' /\ sblock l e' z.
  Proof. intros N1 N2 H. inversion H; subst; cbn in *; try congruence. eauto. Qed.
  Lemma sb_return_fall i l e z : i_op (r_insn i) = OP_return -> sblock (i :: l) e z -> exists x w, z = SRet x w.
  Proof.
    intros Bo H. inversion H; subst; cbn in *; try discriminate; eauto. match goal with H : AllocSpec.sstep _ _ _ _ _ _ _ |- _ => apply sstep_return in H; destruct H; contradiction end.
  Qed.
  Lemma op_dec (i : insn) o : {i_op i = o} + {i_op i <> o}.
  Proof. apply opcode_eq_dec. Qed.
  Lemma zi_not r : (zi r =? -1) = false.
  Proof. unfold zi. apply Z.eqb_neq. lia. Qed.

  Lemma return_ok q pre i rest X s s' : code b = pre ++ i :: rest -> static q (length pre) pre (i :: rest) X s ->
    (forall v, reads (r_insn i) v -> local v -> defined v -> X v) ->
    step (Z.of_nat (length pre)) i s = Some s' -> i_op (r_insn i) = OP_return ->
    forall e m x w, ext s' -> dyn q (length pre) pre (i :: rest) s e m -> sblock (i :: rest) e (SRet x w) ->
      exists l, a_code s' = a_code s ++ l /\ mblock M l m = Some (MRet x w).
  Proof.
    intros C HS HX H Bo e m x w EX HD SB. unfold alloc_insn in H. destruct (static_refresh q pre (i :: rest) X s C HS) as (H1 & H2 & H3).
    assert (CO : a_code (refresh live_out b (Z.of_nat (length pre)) s) = a_code s) by apply refresh_code. rewrite <- CO.
    specialize (H3 e m HD). set (sr := refresh live_out b (Z.of_nat (length pre)) s) in *. clearbody sr.
    destruct (sb_return_inv _ _ _ _ _ Bo SB) as (AE & -> & RX). destruct q as [|K xs].
    2:{ exfalso. destruct H1 as [NE _]. pose proof (dp_len _ _ _ _ _ _ H3) as L. rewrite AE in L. destruct xs; [contradiction|discriminate]. }
    destruct H3 as (HD3 & _ & _). cbn in H1. unfold alloc_core in H. rewrite Bo in H.
    destruct RX as [[R1 ->]|(y & a & R1 & Ga & ->)]; rewrite R1 in H.
    - assert (H' : Some (emit (ir OP_return (-1) 0 0) sr) = Some s') by (rewrite <- H; destruct (i_rd (r_insn i)); reflexivity).
      apply some_inj in H'. subst s'. exists [ir OP_return (-1) 0 0]. split; [reflexivity|]. cbn. rewrite (d_world _ _ _ _ _ HD3). reflexivity.
    - destruct (prepare_operand V live_out b y None sr) as [r0 s0] eqn:E0.
      assert (H' : Some (emit (ir OP_return (zi r0) 0 0) s0) = Some s') by (rewrite <- H; destruct (i_rd (r_insn i)); reflexivity).
      apply some_inj in H'. subst s'. assert (Rd : reads (r_insn i) y) by (left; exact R1).
      destruct (dyn_operand pre i rest X sr y None r0 s0 e m C H1 H2 Rd (HX y Rd) E0 EX HD3) as (m1 & (l & L1 & L2) & D1 & V1 & _ & W1).
      exists (l ++ [ir OP_return (zi r0) 0 0]). split; [cbn; rewrite L1, app_assoc; reflexivity|]. rewrite (exec_block _ _ _ _ L2). cbn.
      rewrite zi_not, rget_zi, (V1 a Ga), (d_world _ _ _ _ _ D1). reflexivity.
  Qed.

  Lemma mblock_ret c c2 m x w : mblock M c m = Some (MRet x w) -> mblock M (c ++ c2) m = Some (MRet x w).
  Proof.
    revert m. induction c as [|p c IHc]; cbn; intros m Mc; [discriminate|]. destruct (p_op p); auto; destruct (mstep M p m); auto; discriminate.
  Qed.
  Lemma carefuls_cons k i l s : carefuls k (i :: l) s = careful1 k i (refresh live_out b k s) && match step k i s with None => true | Some s => carefuls (k + 1) l s end.
  Proof. reflexivity. Qed.
  Lemma insns_cons k i l s : insns_step k (i :: l) s = match step k i s with None => None | Some s => insns_step (k + 1) l s end.
  Proof. reflexivity. Qed.
  Lemma insns_ok l : forall q pre tl X s s', code b = pre ++ l ++ tl -> static q (length pre) pre (l ++ tl) X s -> known X pre l ->
    carefuls (Z.of_nat (length pre)) l s = true -> insns_step (Z.of_nat (length pre)) l s = Some s' -> (forall i, In i l -> i_op (r_insn i) <> OP_branch) ->
    exists q', static q' (length (pre ++ l)) (pre ++ l) tl (Xat X l) s' /\ mono s s' /\
      forall e m, ext s' -> dyn q (length pre) pre (l ++ tl) s e m ->
        (forall e', sblock l e (SFall e') -> exists m', sim s m s' m' /\ dyn q' (length (pre ++ l)) (pre ++ l) tl s' e' m') /\
        (forall x w, sblock l e (SRet x w) -> exists c, a_code s' = a_code s ++ c /\ mblock M c m = Some (MRet x w)).
  Proof.
    induction l as [|i l IH]; intros q pre tl X s s' C HS HX CF H NB.
    - cbn in H. apply some_inj in H. subst s'. rewrite app_nil_r. exists q. split; [exact HS|]. split; [apply mono_refl|]. intros e m EX HD. split.
      + intros e' SB. inversion SB; subst. exists m. split; [apply sim_refl; reflexivity|exact HD].
      + intros x w SB. inversion SB.
    - cbn [app] in C, HS. rewrite carefuls_cons in CF. rewrite insns_cons in H. apply andb_prop in CF. destruct CF as [CF1 CF2].
      destruct (step (Z.of_nat (length pre)) i s) as [s1|] eqn:E1; [|discriminate].
      assert (HXi : forall v, reads (r_insn i) v -> local v -> defined v -> X v) by (intros v; apply (HX [] i l eq_refl v)).
      assert (NBi : i_op (r_insn i) <> OP_branch) by (apply NB; left; reflexivity).
      destruct (step_ok q pre i (l ++ tl) X s s1 C HS HXi CF1 E1 NBi) as (q1 & G1 & G2 & G3).
      assert (C1 : code b = (pre ++ [i]) ++ l ++ tl) by (rewrite C, <- app_assoc; reflexivity).
      assert (LE : length (pre ++ [i]) = S (length pre)) by (rewrite app_length; cbn; lia).
      assert (LZ : Z.of_nat (length (pre ++ [i])) = Z.of_nat (length pre) + 1) by lia.
      rewrite <- LE in G1. rewrite <- LZ in H, CF2.
      destruct (IH q1 (pre ++ [i]) tl (after_insn (r_insn i) X) s1 s' C1 G1) as (q2 & I1 & I2 & I3); auto.
      { intros l1 j l2 E v. apply (HX (i :: l1) j l2). rewrite E. reflexivity. }
      { intros j J. apply NB. right. exact J. }
      assert (AS : (pre ++ [i]) ++ l = pre ++ i :: l) by (rewrite <- app_assoc; reflexivity). rewrite AS in I1, I3.
      exists q2. split; [exact I1|]. split; [eapply mono_trans; eassumption|]. intros e m EX HD.
      assert (EX1 : ext s1) by (eapply mono_ext; eassumption). destruct (op_dec (r_insn i) OP_return) as [Ret|NR].
      + split; [intros e' SB; destruct (sb_return_fall _ _ _ _ Ret SB) as (x & w & Eq); discriminate|]. intros x w SB.
        assert (SB' : sblock (i :: l ++ tl) e (SRet x w)).
        { inversion SB; subst; [|constructor; assumption|constructor; assumption].
          match goal with H : AllocSpec.sstep _ _ _ _ _ _ _ |- _ => apply sstep_return in H; destruct H; contradiction end. }
        destruct (return_ok q pre i (l ++ tl) X s s1 C HS HXi E1 Ret e m x w EX1 HD SB') as (c & Ec & Mc).
        destruct (grows_insns _ _ _ _ _ _ _ _ _ _ _ H) as [c2 Ec2]. exists (c ++ c2). split; [rewrite Ec2, Ec, app_assoc; reflexivity|].
        apply mblock_ret. exact Mc.
      + split.
        * intros e' SB. destruct (sb_step_inv _ _ _ _ NR NBi SB) as (e1 & ST & SB1). destruct (G3 e m e1 EX1 HD ST) as (m1 & S1 & D1).
          rewrite <- LE in D1. destruct (I3 e1 m1 EX D1) as [I4 _]. destruct (I4 e' SB1) as (m2 & S2 & D2). exists m2. split; [eapply sim_trans; eassumption|exact D2].
        * intros x w SB. destruct (sb_step_inv _ _ _ _ NR NBi SB) as (e1 & ST & SB1). destruct (G3 e m e1 EX1 HD ST) as (m1 & (c1 & S1 & S2) & D1).
          rewrite <- LE in D1. destruct (I3 e1 m1 EX D1) as [_ I5]. destruct (I5 x w SB1) as (c & Ec & Mc). exists (c1 ++ c).
          split; [rewrite Ec, S1, app_assoc; reflexivity|]. rewrite (exec_block _ _ _ _ S2). exact Mc.
  Qed.

  (** ** The end of the block *)
  Notation finish := (finish_block V live_out killed (g_next g) rpo exit (b :: done) b).
  Definition ended (X : nat -> Prop) (s' : ra) : Prop :=
    (forall i, (i < 8)%nat -> a_var s' i = None) /\ base (code b) s' /\
    forall v, local v -> Xat X (code b) v -> needed (succs g) (plain_code code) v b -> a_off s' v <> 0.
  Definition stored (e : @senv val world) (m : @mstate val world) : Prop :=
    t_world m = s_world e /\
    (forall v a, local v -> s_env e v = Some a -> needed (succs g) (plain_code code) v b -> offF v <> 0 /\ t_slot m (offF v) = a) /\
    forall v a, s_env e v = Some a -> defined v.
  Definition jumps (c : nat) : bool := negb (Nat.eqb c exit) && (mem c (b :: done) || negb (rpo c =? rpo b + 1)).
  Lemma static_end q X s : static q (length (code b)) (code b) [] X s -> q = MN.
  Proof.
    destruct q as [|K xs]; [reflexivity|]. intros [NE HP]. exfalso. destruct (p_next _ _ _ _ _ _ _ HP) as (p0 & j & Ep & Bo & _).
    assert (IX : nth_error (code b) (length p0) = Some j) by (rewrite Ep, nth_error_app2, Nat.sub_diag by lia; reflexivity).
    destruct (v_push _ _ _ _ _ _ _ _ _ _ _ _ OK b (length p0) j Hb IX Bo) as (j' & N & _).
    apply nth_error_Some_lt in N || (assert (S (length p0) < length (code b))%nat by (apply nth_error_Some; congruence); rewrite Ep, app_length in *; cbn in *; lia).
  Qed.
  Lemma DN_stored s e m : (forall i, (i < 8)%nat -> a_var s i = None) -> DN (code b) [] s e m -> stored e m.
  Proof.
    intros Em [D1 D2 D3 D4 D5]. split; [exact D1|]. split; [|exact D5]. intros v a L E N. destruct (D4 v a L E) as [(i & Hi & A & _)|H]; [|rewrite Em in A by exact Hi; discriminate|exact H].
    right. split; [intros i []|exact N].
  Qed.
  Lemma ended_normal X s : normal (length (code b)) (code b) [] X s -> (forall i, (i < 8)%nat -> a_var s i = None) ->
    (forall i, (i < 8)%nat -> a_var s i = None) /\ base (code b) s /\ forall v, local v -> X v -> needed (succs g) (plain_code code) v b -> a_off s v <> 0.
  Proof.
    intros HN Em. split; [exact Em|]. split; [apply HN|]. intros v L Xv N. destruct (n_slot _ _ _ _ _ HN v L Xv) as [(i & Hi & A)|O]; [|rewrite Em in A by exact Hi; discriminate|exact O].
    right. split; [intros i []|exact N].
  Qed.

  Lemma finish_next c s1 s2 sf : g_next g b = Some c -> s2 = spill_live_out V live_out killed b s1 -> sf = finish s1 ->
    exists cj, a_code sf = a_code s2 ++ cj /\ same s2 sf /\ forall m, mblock M cj m = Some (if jumps c then MGoto c m else MFall m).
  Proof.
    intros Nx E2 Ef. assert (NE : b <> exit).
    { intros ->. destruct (o_exit _ _ _ _ _ _ _ _ _ _ _ _ OK) as (_ & S0 & _). unfold succs in S0. rewrite Nx in S0. discriminate. }
    unfold finish_block in Ef. rewrite Nx in Ef. cbv zeta in Ef. rewrite <- E2 in Ef. clear E2. unfold jumps.
    destruct (Nat.eqb_spec b exit) as [|_]; [contradiction|]. destruct (Nat.eqb_spec c exit) as [_|_]; cbn [negb andb].
    - subst sf. exists []. rewrite app_nil_r. repeat split; reflexivity.
    - destruct (mem c (b :: done) || negb (rpo c =? rpo b + 1)); subst sf.
      + exists [mkph2 OP_jump 0 0 0 0 (zi c) 0 0 false]. split; [reflexivity|]. split; [apply same_emit|]. intros m. cbn. unfold zi. rewrite Nat2Z.id. reflexivity.
      + exists []. rewrite app_nil_r. repeat split; reflexivity.
  Qed.
  Lemma block_next c X s s1 sf : g_next g b = Some c -> (forall i, In i (code b) -> i_op (r_insn i) <> OP_branch) ->
    normal 0 [] (code b) X s -> known X [] (code b) -> carefuls 0 (code b) s = true -> insns_step 0 (code b) s = Some s1 -> sf = finish s1 ->
    ended X sf /\ mono s sf /\
    forall e m, ext sf -> DN [] (code b) s e m -> s_args e = [] -> s_ret e = None ->
      (forall x w, sblock (code b) e (SRet x w) -> exists cc, a_code sf = a_code s ++ cc /\ mblock M cc m = Some (MRet x w)) /\
      (forall e', sblock (code b) e (SFall e') -> exists cc m', a_code sf = a_code s ++ cc /\ stored e' m' /\
         mblock M cc m = Some (if jumps c then MGoto c m' else MFall m')).
  Proof.
    intros Nx NB HN KX CF H Ef.
    destruct (insns_ok (code b) MN [] [] X s s1) as (q & I1 & I2 & I3); cbn [app length Z.of_nat static]; try (rewrite app_nil_r); auto.
    rewrite app_nil_l in I1, I3. assert (q = MN) by (eapply static_end; eauto). subst q. cbn [static] in I1.
    destruct (normal_out (code b) _ s1 eq_refl I1) as [O1 O2]. destruct (dyn_out (code b) _ s1 eq_refl I1) as (O3 & O4).
    pose proof (grows_out V live_out killed b s1) as G0.
    remember (spill_live_out V live_out killed b s1) as s2 eqn:E2.
    destruct (finish_next c s1 s2 sf Nx E2 Ef) as (cj & J1 & J3 & J4). clear Ef E2. 
    assert (EF : forall v, a_off sf v = a_off s2 v) by (intros v; apply J3).
    split; [|split].
    - apply ended_normal; [eapply same_normal; eassumption|]. intros i Hi. destruct J3 as (J3 & _). rewrite J3. auto.
    - intros v O. rewrite EF. rewrite (O3 v); [apply I2; exact O|]. rewrite (I2 v O). exact O.
    - intros e m EX HD AE RE. assert (EX2 : ext s2) by (intros v L O; rewrite <- EF in *; auto). assert (EX1 : ext s1) by (eapply mono_ext; eassumption).
      destruct (I3 e m EX1) as [F1 F2].
      { rewrite app_nil_r. split; [exact HD|]. split; [exact AE|]. intros r. rewrite RE. discriminate. }
      split.
      + intros x w SB. destruct (F2 x w SB) as (cc & E1 & E2).
        assert (G : grows s1 sf) by (eapply grows_trans; [exact G0|exists cj; exact J1]).
        destruct G as [c3 G]. exists (cc ++ c3). split; [rewrite G, E1, app_assoc; reflexivity|]. apply mblock_ret. exact E2.
      + intros e' SB. destruct (F1 e' SB) as (m1 & (c1 & S1 & S2) & D1 & _ & _). destruct (O4 e' m1 EX2 D1) as (m2 & (c2 & S3 & S4) & D2 & _).
        exists (c1 ++ c2 ++ cj), m2. split; [rewrite J1, S3, S1, <- !app_assoc; reflexivity|]. split.
        * eapply (DN_stored s2); eauto.
        * rewrite (exec_block _ _ _ _ S2), (exec_block _ _ _ _ S4). apply J4.
  Qed.

  Lemma sblock_app l i e z : (forall j, In j l -> i_op (r_insn j) <> OP_branch) -> i_op (r_insn i) = OP_branch -> sblock (l ++ [i]) e z ->
    (exists x w, z = SRet x w /\ sblock l e (SRet x w)) \/
    exists e' x a, z = SBranch a e' /\ sblock l e (SFall e') /\ i_rs1 (r_insn i) = Some x /\ get e' x = Some a /\ s_args e' = [].
  Proof.
    revert e. induction l as [|j l IH]; cbn; intros e NB Bo H.
    - right. inversion H; subst; cbn in *; try discriminate.
      + match goal with H : AllocSpec.sstep _ _ _ _ _ _ _ |- _ => apply sstep_return in H; destruct H; contradiction end.
      + eexists _, _, _. split; [reflexivity|]. split; [constructor|]. auto.
    - assert (NB' : forall j, In j l -> i_op (r_insn j) <> OP_branch) by (intros j0 J; apply NB; right; exact J).
      inversion H; subst.
      + match goal with H1 : AllocSpec.sstep _ _ _ _ _ _ _, H2 : AllocSpec.sblock _ _ _ _ _ _ _ |- _ => destruct (IH _ NB' Bo H2) as [(x & w & -> & S1)|(e1 & x & a & -> & S1 & S2)] end.
        * left. eexists _, _. split; [reflexivity|]. econstructor; eauto.
        * right. eexists _, _, _. split; [reflexivity|]. split; [econstructor; eauto|eauto].
      + exfalso. eapply (NB _ (or_introl eq_refl)). reflexivity.
      + left. eexists _, _. split; [reflexivity|]. constructor; assumption.
      + left. eexists _, _. split; [reflexivity|]. constructor; assumption.
  Qed.
  Lemma carefuls_app k l l2 s : carefuls k (l ++ l2) s = true -> carefuls k l s = true.
  Proof.
    revert k s. induction l as [|i l IH]; intros k s; [reflexivity|]. cbn [app]. rewrite !carefuls_cons. intros H. apply andb_prop in H. destruct H as [H1 H2]. rewrite H1.
    destruct (step k i s) as [s1|]; [|reflexivity]. cbn [andb]. eapply IH. exact H2.
  Qed.
  Lemma insns_app k l i s s' : insns_step k (l ++ [i]) s = Some s' -> exists s1, insns_step k l s = Some s1 /\ step (k + Z.of_nat (length l)) i s1 = Some s'.
  Proof.
    revert k s. induction l as [|j l IH]; intros k s; cbn [app].
    - rewrite insns_cons. intros H. exists s. split; [reflexivity|]. cbn [length Z.of_nat]. rewrite Z.add_0_r. destruct (step k i s) as [s1|]; [exact H|discriminate].
    - rewrite !insns_cons. intros H. destruct (step k j s) as [s1|]; [|discriminate]. destruct (IH _ _ H) as (s2 & H1 & H2). exists s2. split; [exact H1|].
      replace (k + Z.of_nat (length (j :: l))) with (k + 1 + Z.of_nat (length l)) by (cbn [length]; lia). exact H2.
  Qed.
  Lemma core_branch k i s s' t f : i_op (r_insn i) = OP_branch -> g_then g b = Some t -> g_else g b = Some f -> core k i s = Some s' ->
    exists x r0 s0, i_rs1 (r_insn i) = Some x /\ prepare_operand V live_out b x None s = (r0, s0) /\
      s' = emit (mkph2 OP_branch (zi r0) 0 0 0 0 (zi t) (zi f) false) (spill_live_out V live_out killed b s0).
  Proof.
    intros Bo T E H. unfold alloc_core in H. rewrite Bo, T, E in H. destruct (i_rs1 (r_insn i)) as [x|]; [|destruct (i_rd (r_insn i)); discriminate].
    destruct (prepare_operand V live_out b x None s) as [r0 s0] eqn:EP. exists x, r0, s0. split; [reflexivity|]. split; [exact EP|].
    apply some_inj. rewrite <- H. destruct (i_rd (r_insn i)); reflexivity.
  Qed.
  Lemma block_branch t f l i X s sf : g_then g b = Some t -> g_else g b = Some f -> code b = l ++ [i] ->
    i_op (r_insn i) = OP_branch -> (forall i, In i l -> i_op (r_insn i) <> OP_branch) ->
    normal 0 [] (code b) X s -> known X [] (code b) -> carefuls 0 (code b) s = true -> insns_step 0 (code b) s = Some sf ->
    ended X sf /\ mono s sf /\
    forall e m, ext sf -> DN [] (code b) s e m -> s_args e = [] -> s_ret e = None ->
      (forall x w, sblock (code b) e (SRet x w) -> exists cc, a_code sf = a_code s ++ cc /\ mblock M cc m = Some (MRet x w)) /\
      (forall a e', sblock (code b) e (SBranch a e') -> exists cc m', a_code sf = a_code s ++ cc /\ stored e' m' /\
         mblock M cc m = Some (MGoto (if m_truth M a then t else f) m')).
  Proof.
    intros T E C Bo NB HN KX CF H. rewrite C in CF, H. destruct (insns_app _ _ _ _ _ H) as (s1 & H1 & H2). apply carefuls_app in CF.
    rewrite Z.add_0_l in H2.
    assert (KX' : known X [] l).
    { intros l1 j l2 El. apply (KX l1 j (l2 ++ [i])). rewrite C, El, <- app_assoc. reflexivity. }
    destruct (insns_ok l MN [] [i] X s s1) as (q & I1 & I2 & I3); cbn [app length Z.of_nat static]; auto; [rewrite <- C; exact HN|].
    cbn [app] in I1, I3. assert (C' : code b = l ++ i :: []) by exact C.
    assert (HXi : forall v, reads (r_insn i) v -> local v -> defined v -> Xat X l v) by (intros v; apply (KX l i []); exact C).
    assert (q = MN).
    { destruct q as [|K xs]; [reflexivity|]. exfalso. destruct I1 as [_ HP]. pose proof (push_next l i [] _ s1 K xs C' HP HXi) as PN. rewrite Bo in PN.
      destruct PN as [(_ & [P|P])|(_ & P & _)]; discriminate. }
    subst q. unfold alloc_insn in H2. destruct (static_refresh MN l [i] (Xat X l) s1 C' I1) as (R1 & R2 & R3).
    assert (RO : forall v, a_off (refresh live_out b (Z.of_nat (length l)) s1) v = a_off s1 v) by (intros; apply refresh_off).
    assert (RC : a_code (refresh live_out b (Z.of_nat (length l)) s1) = a_code s1) by apply refresh_code.
    remember (refresh live_out b (Z.of_nat (length l)) s1) as sr eqn:Er. clear Er. cbn [static] in R1.
    destruct (core_branch _ _ _ _ t f Bo T E H2) as (x & r0 & s0 & Rx & E0 & Ef). clear H H2.
    assert (Rdx : reads (r_insn i) x) by (left; exact Rx).
    assert (Rd : i_rd (r_insn i) = None).
    { apply (v_dest _ _ _ _ _ _ _ _ _ _ _ _ OK b (r_insn i) Hb); [eapply in_plain; eauto|rewrite Bo; cbn; intuition]. }
    destruct (normal_operand _ _ _ _ _ _ _ _ _ R1 R2 (read_kept _ _ _ _ _ C' (n_base _ _ _ _ _ R1) Rdx) E0) as (HN0 & F0 & Hr0 & A0 & M0 & _).
    assert (HN1 : normal (S (length l)) (l ++ [i]) [] (after_insn (r_insn i) (Xat X l)) s0) by (apply normal_next; auto; congruence).
    assert (LE : length (code b) = S (length l)) by (rewrite C, app_length; cbn; lia). rewrite <- LE, <- C in HN1.
    destruct (normal_out (code b) _ s0 eq_refl HN1) as [O1 O2]. destruct (dyn_out (code b) _ s0 eq_refl HN1) as (O3 & O4).
    assert (GR : grows s1 sf).
    { rewrite Ef. eapply grows_trans; [|apply grows_emit]. eapply grows_trans; [|apply grows_out]. pose proof (grows_operand V live_out b x None sr) as G. rewrite E0 in G.
      destruct G as [c G]. cbn [snd] in G. exists c. rewrite G, RC. reflexivity. }
    remember (spill_live_out V live_out killed b s0) as s2 eqn:E2. clear E2.
    assert (EF : forall v, a_off sf v = a_off s2 v) by (rewrite Ef; reflexivity).
    assert (MM : mono s1 sf).
    { intros v O. rewrite EF. rewrite <- RO in O |- *. rewrite (O3 v); [apply M0; exact O|]. rewrite (M0 v O). exact O. }
    split; [|split].
    - assert (XE : forall Y, Xat Y (code b) = after_insn (r_insn i) (Xat Y l)).
      { intros Y. rewrite C. clear. revert Y. induction l as [|j l IH]; intros Y; cbn; [reflexivity|apply IH]. }
      unfold ended. rewrite XE. apply ended_normal; [rewrite Ef; eapply same_normal; [apply same_emit|exact O1]|]. rewrite Ef. exact O2.
    - eapply mono_trans; eassumption.
    - intros e m EX HD AE RE. assert (EX1 : ext s1) by (eapply mono_ext; eassumption). assert (EX2 : ext s2) by (intros v L O; rewrite <- EF in *; auto).
      assert (EX0 : ext s0) by (eapply mono_ext; eassumption).
      destruct (I3 e m EX1) as [F1 F2].
      { rewrite <- C. split; [exact HD|]. split; [exact AE|]. intros r. rewrite RE. discriminate. }
      split.
      + intros y w SB. rewrite C in SB. destruct (sblock_app _ _ _ _ NB Bo SB) as [(x' & w' & Q & SB')|(e' & x' & a & Q & _)]; [|discriminate]. injection Q as <- <-.
        destruct (F2 y w SB') as (cc & Ec & Mc). destruct GR as [c3 G]. exists (cc ++ c3). split; [rewrite G, Ec, app_assoc; reflexivity|]. apply mblock_ret. exact Mc.
      + intros a e' SB. rewrite C in SB. destruct (sblock_app _ _ _ _ NB Bo SB) as [(x' & w' & Q & _)|(e1 & x' & a' & Q & SB' & Rx' & Ga & Ae)]; [discriminate|].
        injection Q as <- <-. assert (x' = x) by congruence. subst x'.
        destruct (F1 e' SB') as (m1 & (c1 & S1 & S2) & D1). destruct (R3 e' m1 D1) as (D1' & _ & _).
        destruct (dyn_operand l i [] (Xat X l) sr x None r0 s0 e' m1 C' R1 R2 Rdx (HXi x Rdx) E0 EX0 D1') as (m2 & (c2 & S3 & S4) & D2 & V2 & _ & W2).
        assert (D3 : DN (l ++ [i]) [] s0 (mks (s_env e') (s_world e') (s_args e') (s_ret e')) m2).
        { apply (dyn_next l i [] s0 e' m2 m2 (s_world e') _ _ D2 Rd); auto. exact (d_world _ _ _ _ _ D2). }
        rewrite <- C in D3. destruct (O4 _ m2 EX2 D3) as (m3 & (c3 & S5 & S6) & D4 & T3 & W3).
        exists (c1 ++ c2 ++ c3 ++ [mkph2 OP_branch (zi r0) 0 0 0 0 (zi t) (zi f) false]), m3.
        split; [rewrite Ef; cbn [a_code emit]; rewrite S5, S3, RC, S1, <- !app_assoc; reflexivity|]. split.
        * destruct (DN_stored s2 _ m3 O2 D4) as (P1 & P2 & P3). split; [exact P1|]. split; [exact P2|exact P3].
        * rewrite (exec_block _ _ _ _ S2), (exec_block _ _ _ _ S4), (exec_block _ _ _ _ S6). cbn. rewrite rget_zi, T3, (V2 a Ga).
          destruct (m_truth M a); unfold zi; rewrite Nat2Z.id; reflexivity.
  Qed.
End Inv.
