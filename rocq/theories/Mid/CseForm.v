(** The replacements of common subexpression elimination and constant folding keep the form of the function. *)
From Verif.Base Require Import Int32.
From Verif.Ir Require Import Ph2Sem.
From Verif.Mid Require Import Insn Edges EdgesProofs Graph Dom DceSpec FoldSpec FoldProofs CfgProofs LiveSpec Cse CseSpec CseStep.

Section Ready.
  Variable own : nat -> nat.
  Variable g : egraph.
  Variables entry exit : nat.
  Variables is_global in_memory : nat -> bool.
  Variable alike : nat -> nat -> Prop.
  Let live b := reach (succs (to_cfg g)) entry b.
  Record cse_ready (ins : nat -> insn) (code : nat -> list nat) : Prop := mkready {
    q_form : function_ok ins own code g entry exit is_global in_memory;
    q_nodup : forall b, NoDup (code b);
    q_strict : strict_reads ins code (to_cfg g) entry is_global;
    (* results other than those of copies are temporaries; temporaries are not in memory *)
    q_local : forall b i v, live b -> In i (code b) -> i_rd (ins i) = Some v -> plain_or_read (i_op (ins i)) = true -> i_op (ins i) <> OP_assign -> is_global v = false;
    q_mem : forall b i v, live b -> In i (code b) -> i_rd (ins i) = Some v -> plain_or_read (i_op (ins i)) = true -> is_global v = false -> in_memory v = false;
    q_repeats : repeats_ok ins own code (to_cfg g) entry is_global in_memory alike }.
End Ready.

Section Kept.
  Variable own : nat -> nat.
  Variable g : egraph.
  Variables entry exit : nat.
  Variables is_global in_memory : nat -> bool.
  Variable alike : nat -> nat -> Prop.
  Let live b := reach (succs (to_cfg g)) entry b.
  Let Ready := cse_ready own g entry exit is_global in_memory alike.
  Variable ins : nat -> insn.
  Variable code : nat -> list nat.
  Hypothesis Q : Ready ins code.
  Let F : function_ok ins own code g entry exit is_global in_memory := q_form _ _ _ _ _ _ _ _ _ Q.
  Let ND : forall b, NoDup (code b) := q_nodup _ _ _ _ _ _ _ _ _ Q.

  Section Replaced.
  Variables P R I N base idx def : nat.
  Hypothesis NPI : P <> I.
  Hypothesis SP : sum_read ins code (to_cfg g) entry is_global P R base idx.
  Hypothesis SI : sum_read ins code (to_cfg g) entry is_global I N base idx.
  Hypothesis RdR : i_rd (ins R) = Some def.
  Hypothesis Dm : dominates (succs (to_cfg g)) entry (own P) (own I).
  Hypothesis Or : own P = own I -> exists l1 l2 l3, code (own P) = l1 ++ P :: R :: l2 ++ I :: l3.
  Let ins1 := CseStep.ins' ins N def.
  Let code1 := CseStep.code' code I.

  Lemma opI' : i_op (ins I) = OP_add. Proof. destruct SI as (b & l1 & l2 & K). tauto. Qed.
  Lemma opN' : i_op (ins N) = OP_read. Proof. destruct SI as (b & l1 & l2 & K). tauto. Qed.
  Lemma opR' : i_op (ins R) = OP_read. Proof. destruct SP as (b & l1 & l2 & K). tauto. Qed.
  Lemma pair_here p r : sum_read ins code (to_cfg g) entry is_global p r base idx -> live (own p) /\ In p (code (own p)) /\ In r (code (own p)).
  Proof.
    intros (b & l1 & l2 & L & E & _). assert (O : own p = b) by (apply (f_own _ _ _ _ _ _ _ _ F); rewrite E; apply in_or_app; right; left; reflexivity).
    rewrite O. split; [exact L|]. rewrite E, !in_app_iff. cbn. tauto.
  Qed.
  (* R has been executed, and nothing has changed since *)
  Lemma available t : way_to code (to_cfg g) entry I t -> exists t1 t2, t = t1 ++ R :: t2 /\ forall k, In k (P :: R :: t2) -> quiet ins in_memory base idx k.
  Proof.
    intros W. assert (IR : In R t).
    { destruct W as (b & l1 & l2 & l & E & W & ->).
      assert (O : own I = b) by (apply (f_own _ _ _ _ _ _ _ _ F); rewrite E; apply in_or_app; right; left; reflexivity).
      destruct (pair_here P R SP) as (_ & _ & IR). pose proof (Dm) as D. rewrite O in D. apply D in W as I0. apply in_app_iff in I0 as [I0|[I0|[]]].
      - apply in_or_app. left. apply in_flat_map. eauto.
      - rewrite I0 in *. destruct Or as (k1 & k2 & k3 & Ek); [congruence|]. rewrite E in Ek.
        replace (k1 ++ P :: R :: k2 ++ I :: k3) with ((k1 ++ P :: R :: k2) ++ I :: k3) in Ek by (rewrite <- app_assoc; reflexivity).
        pose proof (ND (own P)) as Nd. rewrite E in Nd. destruct (nodup_split _ _ _ _ _ Nd Ek) as [-> _].
        apply in_or_app. right. apply in_or_app. right. right. left. reflexivity. }
    destruct (last_split R t IR) as (t1 & t2 & -> & NR). exists t1, t2. split; [reflexivity|].
    exact (r_quiet _ _ _ _ _ _ _ _ (q_repeats _ _ _ _ _ _ _ _ _ Q) P R I N base idx NPI SP SI Dm Or t1 t2 W NR).
  Qed.
  Lemma sums : exists tv u, i_rd (ins P) = Some tv /\ (i_rs1 (ins R) = Some tv /\ i_rs2 (ins R) = None) /\ i_rd (ins I) = Some u /\
    (i_rs1 (ins N) = Some u /\ i_rs2 (ins N) = None) /\ (forall c k, live c -> In k (code c) -> reads (ins k) u -> k = N) /\
    (is_global u = false /\ in_memory u = false) /\ is_global def = false /\ alike R N.
  Proof.
    destruct (r_sum _ _ _ _ _ _ _ _ (q_repeats _ _ _ _ _ _ _ _ _ Q) P R I N base idx NPI SP SI) as (Al & tv & H1 & H2 & H3 & _).
    destruct (r_sum _ _ _ _ _ _ _ _ (q_repeats _ _ _ _ _ _ _ _ _ Q) I N P R base idx (not_eq_sym NPI) SI SP) as (_ & u & K1 & K2 & K3 & K4).
    destruct (pair_here I N SI) as (LI & II & IN'). destruct (pair_here P R SP) as (LP & IP & IR).
    assert (Gu : is_global u = false) by (apply (q_local _ _ _ _ _ _ _ _ _ Q (own I) I u LI II K1); rewrite opI'; [reflexivity|discriminate]).
    exists tv, u. repeat split; try assumption.
    - apply (q_mem _ _ _ _ _ _ _ _ _ Q (own I) I u LI II K1); [rewrite opI'; reflexivity|exact Gu].
    - apply (q_local _ _ _ _ _ _ _ _ _ Q (own P) R def LP IR RdR); rewrite opR'; [reflexivity|discriminate].
  Qed.
  Lemma code1_In b k : In k (code1 b) <-> In k (code b) /\ k <> I.
  Proof. apply keep_In. Qed.
  Lemma ins1_rd k : i_rd (ins1 k) = i_rd (ins k).
  Proof. unfold ins1, CseStep.ins', upd. destruct (Nat.eqb_spec k N) as [->|]; reflexivity. Qed.
  Lemma ins1_op k o : o <> OP_assign -> o <> OP_read -> i_op (ins1 k) = o <-> i_op (ins k) = o.
  Proof.
    intros A B. unfold ins1, CseStep.ins', upd. destruct (Nat.eqb_spec k N) as [->|]; [|reflexivity]. cbn. rewrite opN'. split; congruence.
  Qed.
  Lemma ins1_same k o : o <> OP_assign -> o <> OP_read -> i_op (ins k) = o -> ins1 k = ins k.
  Proof.
    intros A B E. unfold ins1, CseStep.ins', upd. destruct (Nat.eqb_spec k N) as [->|]; [|reflexivity]. rewrite opN' in E. congruence.
  Qed.
  Lemma ins1_effect k : has_effect (i_op (ins1 k)) = has_effect (i_op (ins k)).
  Proof. unfold ins1, CseStep.ins', upd. destruct (Nat.eqb_spec k N) as [->|]; [|reflexivity]. rewrite opN'. reflexivity. Qed.
  Lemma ins1_class k : plain_or_read (i_op (ins1 k)) = plain_or_read (i_op (ins k)).
  Proof. unfold ins1, CseStep.ins', upd. destruct (Nat.eqb_spec k N) as [->|]; [|reflexivity]. rewrite opN'. reflexivity. Qed.
  Lemma ins1_reads k v : reads (ins1 k) v -> reads (ins k) v /\ k <> N \/ k = N /\ v = def.
  Proof.
    unfold ins1, CseStep.ins', upd. destruct (Nat.eqb_spec k N) as [->|Nk]; [|intros H; left; split; [exact H|exact Nk]].
    intros H. right. split; [reflexivity|]. destruct sums as (tv & u & _ & _ & _ & (_ & R2) & _). destruct H as [H|H]; cbn in H; congruence.
  Qed.
  Lemma NI_N : N <> I.
  Proof. intros E. pose proof opI'. pose proof opN'. congruence. Qed.
  Lemma after_I b l1 l2 : code b = l1 ++ I :: l2 -> exists l3, l2 = N :: l3.
  Proof.
    intros E. destruct SI as (c & k1 & k2 & Lc & Ec & _).
    destruct (next_to' own code (f_own _ _ _ _ _ _ _ _ F) ND I N c b k1 k2 l1 l2 Ec E) as (_ & _ & ->). eauto.
  Qed.
  Lemma way_back i t : way_to code1 (to_cfg g) entry i t -> exists t0, way_to code (to_cfg g) entry i t0 /\ filter (keep I) t0 = t.
  Proof.
    intros (b & l1 & l2 & l & E & W & ->). destruct (filter_split _ _ _ _ _ E) as (k1 & k2 & Ek & <- & _).
    exists (flat_map code l ++ k1). split; [exists b, k1, k2, l; auto|]. rewrite filter_app. f_equal. symmetry. apply flat_map_filter.
  Qed.
  Lemma sum_back p r b i : sum_read ins1 code1 (to_cfg g) entry is_global p r b i -> sum_read ins code (to_cfg g) entry is_global p r b i /\ r <> N /\ p <> I /\ r <> I.
  Proof.
    intros (c & l1 & l2 & L & E & Op & Or' & R1 & R2 & G1 & G2).
    assert (Np : p <> I) by (apply (code1_In c p); rewrite E; apply in_or_app; right; left; reflexivity).
    assert (Nr : r <> I) by (apply (code1_In c r); rewrite E; apply in_or_app; right; right; left; reflexivity).
    assert (NrN : r <> N).
    { intros ->. unfold ins1, CseStep.ins' in Or'. rewrite upd_same in Or'. discriminate. }
    assert (NpN : p <> N).
    { intros ->. unfold ins1, CseStep.ins' in Op. rewrite upd_same in Op. discriminate. }
    unfold ins1, CseStep.ins' in Op, Or', R1, R2. rewrite (upd_other _ _ _ _ NpN) in Op, R1, R2. rewrite (upd_other _ _ _ _ NrN) in Or'.
    split; [|auto]. destruct (filter_split _ _ _ _ _ E) as (k1 & k2 & Ek & _ & E2).
    destruct k2 as [|x k2]; [discriminate|]. cbn in E2. destruct (keep I x) eqn:Kx.
    - injection E2 as -> _. exists c, k1, k2. auto 10.
    - exfalso. assert (x = I) by (unfold keep in Kx; destruct (Nat.eqb_spec x I); [assumption|discriminate]). subst x.
      destruct (after_I c (k1 ++ [p]) k2) as (k3 & ->); [rewrite <- app_assoc; exact Ek|]. cbn in E2. unfold keep in E2.
      destruct (Nat.eqb_spec N I) as [Z|_]; [exact (NI_N Z)|]. cbn in E2. injection E2 as Z _. congruence.
  Qed.
  Lemma def_R b k : live b -> In k (code b) -> i_rd (ins k) = Some def -> k = R.
  Proof.
    intros L Ik Rk. destruct sums as (tv & u & _ & _ & _ & _ & _ & _ & Gd & _). destruct (pair_here P R SP) as (LP & _ & IR).
    destruct (f_single _ _ _ _ _ _ _ _ F b (own P) k R def L LP Ik IR Rk RdR Gd) as [Z|[_ Z]]; [exact Z|]. rewrite opR' in Z. discriminate.
  Qed.
  Theorem replaced_ready : Ready ins1 code1.
  Proof.
    destruct F as [F1 F2 F3 F4 F5 F6 F7 F8 F9]. constructor.
    - constructor; try assumption.
      + destruct F2 as [F2 F2']. split; [exact F2|]. unfold code1, CseStep.code'. rewrite F2'. reflexivity.
      + intros b L. assert (B : forall l, (forall i, In i l -> i_op (ins i) <> OP_branch) -> forall i, In i (filter (keep I) l) -> i_op (ins1 i) <> OP_branch).
        { intros l H i J. apply keep_In in J as [J _]. rewrite ins1_op by discriminate. apply H. exact J. }
        destruct (F4 b L) as [En Et Ee Nb|c En Et Ee Nb|t e l i v En Et Ee Ec Bi Rv Nb].
        * apply shape_end; try assumption. apply B. exact Nb.
        * eapply shape_next; try eassumption. apply B. exact Nb.
        * assert (Ni : i <> I) by (intros ->; rewrite opI' in Bi; discriminate).
          pose proof (ins1_same i OP_branch ltac:(discriminate) ltac:(discriminate) Bi) as Si.
          eapply (shape_branch _ _ _ _ t e (filter (keep I) l) i v); try assumption; try (rewrite Si; assumption).
          -- unfold code1, CseStep.code'. rewrite Ec, filter_app. cbn [filter]. unfold keep at 2. destruct (Nat.eqb_spec i I); [contradiction|]. reflexivity.
          -- apply B. exact Nb.
      + intros b i J. apply code1_In in J as [J _]. apply F5. exact J.
      + intros b c i j v Lb Lc Ji Jj Ri Rj G. rewrite ins1_rd in Ri, Rj. apply code1_In in Ji as [Ji _]. apply code1_In in Jj as [Jj _].
        destruct (F6 b c i j v Lb Lc Ji Jj Ri Rj G) as [Z|[Z1 Z2]]; [left; exact Z|right]. split; apply ins1_op; try discriminate; assumption.
      + intros b l1 p l2 L Ec Op. apply ins1_op in Op; try discriminate. destruct (filter_split _ _ _ _ _ Ec) as (k1 & k2 & Ek & _ & <-).
        destruct (F7 b k1 p k2 L Ek Op) as (ps & c & l3 & -> & Hp & Hc).
        assert (PK : forall q, In q ps -> q <> I) by (intros q J ->; pose proof (Hp I J) as Z; rewrite opI' in Z; discriminate).
        assert (Nc : c <> I) by (intros ->; rewrite opI' in Hc; discriminate).
        exists ps, c, (filter (keep I) l3). split; [|split].
        * rewrite filter_app. cbn [filter]. unfold keep at 2. destruct (Nat.eqb_spec c I); [contradiction|]. cbn [negb]. f_equal.
          apply filter_none. intros J. exact (PK I J eq_refl).
        * intros q J. apply ins1_op; try discriminate. apply Hp. exact J.
        * destruct (i_op (ins c)) eqn:Oc; try discriminate.
          -- rewrite (ins1_same c OP_call ltac:(discriminate) ltac:(discriminate) Oc), Oc. reflexivity.
          -- rewrite (ins1_same c OP_indirect ltac:(discriminate) ltac:(discriminate) Oc), Oc. reflexivity.
      + intros i Op. apply ins1_op in Op as Op'; try discriminate. rewrite (ins1_same i OP_func_ret ltac:(discriminate) ltac:(discriminate) Op'). apply F8. exact Op'.
      + intros v M. destruct (F9 v M) as [Z|(b & i & Lb & Ii & Op & R1)]; [left; exact Z|right]. exists b, i.
        rewrite (ins1_same i OP_address_of ltac:(discriminate) ltac:(discriminate) Op). repeat split; try assumption. apply code1_In. split; [exact Ii|].
        intros ->. rewrite opI' in Op. discriminate.
    - intros b. apply NoDup_filter. apply ND.
    - intros b c i j v Lb Lc Ji Jj Gv Rv Wv Pj. rewrite ins1_rd in Wv. rewrite ins1_class in Pj. apply code1_In in Ji as [Ji Ni]. apply code1_In in Jj as [Jj Nj].
      assert (E : executed_before code (to_cfg g) entry j i).
      { destruct (ins1_reads i v Rv) as [[Rv' _]|[-> ->]].
        - exact (q_strict _ _ _ _ _ _ _ _ _ Q b c i j v Lb Lc Ji Jj Gv Rv' Wv Pj).
        - rewrite (def_R c j Lc Jj Wv). intros b' l1 l2 l E W. destruct SI as (d & k1 & k2 & Ld & Ed & _).
          destruct (next_to own code (f_own _ _ _ _ _ _ _ _ F) ND I N d b' k1 k2 l1 l2 Ed E) as (-> & -> & ->).
          destruct (available (flat_map code l ++ k1)) as (t1 & t2 & Et & _); [exists d, k1, (N :: k2), l; auto|].
          assert (IR : In R (flat_map code l ++ k1)) by (rewrite Et; apply in_or_app; right; left; reflexivity).
          apply in_app_iff in IR as [IR|IR]; [right; apply in_flat_map in IR; exact IR|left; apply in_or_app; left; exact IR]. }
      intros b' l1 l2 l Ec W. destruct (filter_split _ _ _ _ _ Ec) as (k1 & k2 & Ek & <- & _).
      destruct (E b' k1 k2 l Ek W) as [Z|(d & Id & Z)]; [left; apply keep_In; auto|right; exists d; split; [exact Id|apply code1_In; auto]].
    - intros b i v L Ji Rv C NA. rewrite ins1_rd in Rv. rewrite ins1_class in C. apply code1_In in Ji as [Ji _].
      apply (q_local _ _ _ _ _ _ _ _ _ Q b i v L Ji Rv C). intros Z. apply NA. unfold ins1, CseStep.ins', upd. destruct (Nat.eqb_spec i N); [reflexivity|exact Z].
    - intros b i v L Ji Rv C Gv. rewrite ins1_rd in Rv. rewrite ins1_class in C. apply code1_In in Ji as [Ji _].
      exact (q_mem _ _ _ _ _ _ _ _ _ Q b i v L Ji Rv C Gv).
    - destruct (q_repeats _ _ _ _ _ _ _ _ _ Q) as [T1 T2]. constructor.
      + intros p r i n bs ix Npi S1 S2. apply sum_back in S1 as (S1 & NrN & NpI & NrI). apply sum_back in S2 as (S2 & _).
        destruct (T1 p r i n bs ix Npi S1 S2) as (Al & v & V1 & V2 & V3 & V4). split; [exact Al|]. exists v. rewrite ins1_rd. split; [exact V1|].
        unfold ins1, CseStep.ins' at 1 2. rewrite !(upd_other _ _ _ _ NrN). split; [exact V2|]. split; [exact V3|].
        intros c k Lc Ik Rk. apply code1_In in Ik as [Ik _]. destruct (ins1_reads k v Rk) as [[Rk' _]|[-> Ev]]; [exact (V4 c k Lc Ik Rk')|].
        exfalso. subst v. destruct S1 as (d & l1 & l2 & Ld & Ed & Op & _).
        assert (p = R) by (apply (def_R d p Ld); [rewrite Ed; apply in_or_app; right; left; reflexivity|exact V1]). subst p. rewrite opR' in Op. discriminate.
      + intros p r i n bs ix Npi S1 S2 D O t1 t2 W Nr k Jk. apply sum_back in S1 as (S1 & NrN & NpI & NrI). apply sum_back in S2 as (S2 & _ & NiI & _).
        apply way_back in W as (t0 & W & Et). destruct (filter_split _ _ _ _ _ Et) as (u1 & u2 & -> & _ & <-).
        assert (K : quiet ins in_memory bs ix k).
        { apply (T2 p r i n bs ix Npi S1 S2 D) with (t1 := u1) (t2 := u2); [|exact W| |].
          - intros Oe. destruct (O Oe) as (l1 & l2 & l3 & Ec).
            replace (l1 ++ p :: r :: l2 ++ i :: l3) with ((l1 ++ p :: r :: l2) ++ i :: l3) in Ec by (rewrite <- app_assoc; reflexivity).
            destruct (filter_split _ _ _ _ _ Ec) as (a & b & Eab & Ea & _). destruct (filter_split _ _ _ _ _ Ea) as (a1 & a2 & -> & _ & E2).
            rewrite <- app_assoc in Eab. cbn [app] in Eab. destruct S1 as (c & m1 & m2 & _ & Em & _).
            assert (Oc : own p = c) by (apply F5; rewrite Em; apply in_or_app; right; left; reflexivity). rewrite <- Oc in Em.
            pose proof (ND (own p)) as Nd. rewrite Em in Nd, Eab. destruct (nodup_split _ _ _ _ _ Nd Eab) as [Z1 Z2].
            destruct a2 as [|x a2]; [discriminate|]. cbn [app] in Z2. injection Z2 as -> Z2. exists m1, a2, b. rewrite Em, Z2. reflexivity.
          - intros J. apply Nr. apply keep_In. auto.
          - destruct Jk as [J|[J|J]]; [left; exact J|right; left; exact J|right; right]. apply keep_In in J as [J _]. exact J. }
        destruct K as [K1 K2]. split; [rewrite ins1_effect; exact K1|]. intros d Rd. rewrite ins1_rd in Rd. exact (K2 d Rd).
  Qed.
  End Replaced.

  (** Folding: some copies and additions become constants. *)
  Section Folded.
  Variable ins2 : nat -> insn.
  Hypothesis H : forall i, ins2 i = ins i \/
    In (i_op (ins i)) [OP_assign; OP_add; OP_sub; OP_mul; OP_div; OP_mod] /\
    i_op (ins2 i) = OP_load_constant /\ i_rd (ins2 i) = i_rd (ins i) /\ i_rs1 (ins2 i) = None /\ (forall v, i_rs2 (ins2 i) = Some v -> i_rs2 (ins i) = Some v) /\
    (exists d, i_rd (ins i) = Some d /\ is_global d = false).
  Lemma fo_rd i : i_rd (ins2 i) = i_rd (ins i).
  Proof. destruct (H i) as [->|(_ & _ & E & _)]; [reflexivity|exact E]. Qed.
  Lemma fo_reads i v : reads (ins2 i) v -> reads (ins i) v.
  Proof. destruct (H i) as [->|(_ & _ & _ & E & E2 & _)]; [auto|]. intros [Z|Z]; [congruence|right; apply E2; exact Z]. Qed.
  Lemma fo_op i o : ~ In o [OP_assign; OP_add; OP_sub; OP_mul; OP_div; OP_mod; OP_load_constant] ->
      (i_op (ins2 i) = o <-> i_op (ins i) = o) /\ (i_op (ins i) = o -> ins2 i = ins i).
  Proof. intros No. destruct (H i) as [Z|(J & Z & _)]; [rewrite Z; tauto|]. cbn in No, J. rewrite Z. intuition congruence. Qed.
  Lemma fo_effect i : has_effect (i_op (ins2 i)) = has_effect (i_op (ins i)).
  Proof. destruct (H i) as [->|(J & Z & _)]; [reflexivity|]. rewrite Z. cbn in J. intuition (match goal with E : _ = i_op _ |- _ => rewrite <- E end; reflexivity). Qed.
  Lemma fo_class i : plain_or_read (i_op (ins2 i)) = plain_or_read (i_op (ins i)).
  Proof. destruct (H i) as [->|(J & Z & _)]; [reflexivity|]. rewrite Z. cbn in J. intuition (match goal with E : _ = i_op _ |- _ => rewrite <- E end; reflexivity). Qed.
  Lemma fo_sum p r b i : sum_read ins2 code (to_cfg g) entry is_global p r b i -> sum_read ins code (to_cfg g) entry is_global p r b i /\ ins2 p = ins p /\ ins2 r = ins r.
  Proof.
    intros (c & l1 & l2 & L & E & Op & Or' & R1 & R2 & G1 & G2).
    assert (Ep : ins2 p = ins p) by (destruct (H p) as [Z|(_ & Z & _)]; [exact Z|congruence]).
    assert (Er : ins2 r = ins r) by (destruct (H r) as [Z|(_ & Z & _)]; [exact Z|congruence]).
    rewrite Ep in *. rewrite Er in *. split; [|auto]. exists c, l1, l2. auto 10.
  Qed.
  Theorem folded_ready : Ready ins2 code.
  Proof.
    destruct F as [F1 F2 F3 F4 F5 F6 F7 F8 F9]. constructor.
    - constructor; try assumption.
      + intros b L. assert (B : forall i, i_op (ins2 i) <> OP_branch <-> i_op (ins i) <> OP_branch).
        { intros i. destruct (fo_op i OP_branch) as [Z _]; [cbn; intuition discriminate|]. rewrite Z. reflexivity. }
        destruct (F4 b L) as [En Et Ee Nb|c En Et Ee Nb|t e l i v En Et Ee Ec Bi R Nb].
        * apply shape_end; try assumption. intros i I. apply B. apply Nb. exact I.
        * eapply shape_next; try eassumption. intros i I. apply B. apply Nb. exact I.
        * destruct (fo_op i OP_branch) as [_ Z]; [cbn; intuition discriminate|]. pose proof (Z Bi) as Qi. rewrite <- Qi in Bi, R.
          eapply shape_branch; try eassumption. intros j I. apply B. apply Nb. exact I.
      + intros b c i j v Lb Lc Ii Ij Ri Rj G. rewrite fo_rd in Ri, Rj. destruct (F6 b c i j v Lb Lc Ii Ij Ri Rj G) as [Z|[Q1 Q2]]; [left; exact Z|right].
        split; apply fo_op; try assumption; cbn; intuition discriminate.
      + intros b l1 p l2 L Ec Op. apply fo_op in Op; [|cbn; intuition discriminate]. destruct (F7 b l1 p l2 L Ec Op) as (ps & c & l3 & E1 & E2 & E3).
        exists ps, c, l3. split; [exact E1|]. split; [intros q I; apply fo_op; [cbn; intuition discriminate|apply E2; exact I]|].
        destruct (i_op (ins c)) eqn:Oc; try discriminate.
        * replace (i_op (ins2 c)) with OP_call; [reflexivity|]. symmetry. apply fo_op; [cbn; intuition discriminate|exact Oc].
        * replace (i_op (ins2 c)) with OP_indirect; [reflexivity|]. symmetry. apply fo_op; [cbn; intuition discriminate|exact Oc].
      + intros i Op. apply fo_op in Op as Op'; [|cbn; intuition discriminate]. destruct (fo_op i OP_func_ret) as [_ Z]; [cbn; intuition discriminate|].
        rewrite (Z Op'). apply F8. exact Op'.
      + intros v M. destruct (F9 v M) as [Z|(b & i & Lb & Ii & Op & R1)]; [left; exact Z|right]. exists b, i.
        destruct (fo_op i OP_address_of) as [Q1 Q2]; [cbn; intuition discriminate|]. rewrite (Q2 Op). auto.
    - exact ND.
    - intros b c i j v Lb Lc Ji Jj Gv Rv Wv Pj. rewrite fo_rd in Wv. rewrite fo_class in Pj. apply fo_reads in Rv.
      exact (q_strict _ _ _ _ _ _ _ _ _ Q b c i j v Lb Lc Ji Jj Gv Rv Wv Pj).
    - intros b i v L Ji Rv C NA. destruct (H i) as [Z|(_ & _ & _ & _ & _ & d & Rd & Gd)].
      + rewrite Z in *. exact (q_local _ _ _ _ _ _ _ _ _ Q b i v L Ji Rv C NA).
      + rewrite fo_rd, Rd in Rv. injection Rv as <-. exact Gd.
    - intros b i v L Ji Rv C Gv. rewrite fo_rd in Rv. rewrite fo_class in C. exact (q_mem _ _ _ _ _ _ _ _ _ Q b i v L Ji Rv C Gv).
    - destruct (q_repeats _ _ _ _ _ _ _ _ _ Q) as [T1 T2]. constructor.
      + intros p r i n bs ix Npi S1 S2. apply fo_sum in S1 as (S1 & Ep & Er). apply fo_sum in S2 as (S2 & _).
        destruct (T1 p r i n bs ix Npi S1 S2) as (Al & v & V1 & V2 & V3 & V4). split; [exact Al|]. exists v. rewrite Ep, Er. repeat split; try assumption.
        intros c k Lc Ik Rk. apply (V4 c k Lc Ik). apply fo_reads. exact Rk.
      + intros p r i n bs ix Npi S1 S2 D O t1 t2 W Nr k Jk. apply fo_sum in S1 as (S1 & Ep & Er). apply fo_sum in S2 as (S2 & _).
        destruct (T2 p r i n bs ix Npi S1 S2 D O t1 t2 W Nr k Jk) as [K1 K2]. split; [rewrite fo_effect; exact K1|]. intros d Rd. rewrite fo_rd in Rd. exact (K2 d Rd).
  Qed.
  End Folded.
End Kept.
