(** The instruction loop of optimize() keeps every execution. *)
From Verif.Base Require Import Int32.
From Verif.Ir Require Import Ph2Sem.
From Verif.Mid Require Import Insn Edges EdgesProofs Graph Dom DceSpec Fold FoldSpec FoldProofs FoldSim CfgProofs LiveSpec Cse CseSpec CseStep CseForm.

Lemma after_spec i : forall l n, after i l = Some n -> exists l1 l2, l = l1 ++ i :: n :: l2.
Proof.
  induction l as [|x [|y l] IH]; intros n E; cbn in E; try discriminate. destruct (Nat.eqb_spec x i) as [->|Nx].
  - injection E as ->. exists [], l. reflexivity.
  - destruct (IH n E) as (l1 & l2 & Q). exists (x :: l1), l2. cbn. rewrite <- Q. reflexivity.
Qed.
Lemma after_at i n l1 : forall l2, NoDup (l1 ++ i :: n :: l2) -> after i (l1 ++ i :: n :: l2) = Some n.
Proof.
  induction l1 as [|x l1 IH]; intros l2 ND; [cbn; rewrite Nat.eqb_refl; reflexivity|].
  cbn [app] in *. inversion ND as [|? ? Nx ND']; subst. pose proof (IH l2 ND') as E.
  assert (Q : after i (x :: l1 ++ i :: n :: l2) = if Nat.eqb x i then hd_error (l1 ++ i :: n :: l2) else after i (l1 ++ i :: n :: l2)) by (destruct l1; reflexivity).
  rewrite Q. destruct (Nat.eqb_spec x i) as [->|_]; [|exact E]. destruct Nx. apply in_or_app. right. left. reflexivity.
Qed.
Lemma before_spec i : forall l p, before i l = Some p -> exists l1 l2, l = l1 ++ p :: i :: l2.
Proof.
  induction l as [|x [|y l] IH]; intros p E; cbn in E; try discriminate. destruct (Nat.eqb_spec y i) as [->|Nx].
  - injection E as ->. exists [], l. reflexivity.
  - destruct (IH p E) as (l1 & l2 & Q). exists (x :: l1), l2. cbn. rewrite <- Q. reflexivity.
Qed.
Lemma before_at p i l1 : forall l2, NoDup (l1 ++ p :: i :: l2) -> before i (l1 ++ p :: i :: l2) = Some p.
Proof.
  induction l1 as [|x l1 IH]; intros l2 ND; [cbn; rewrite Nat.eqb_refl; reflexivity|].
  cbn [app] in *. inversion ND as [|? ? Nx ND']; subst. pose proof (IH l2 ND') as E.
  destruct l1 as [|z l1]; cbn [app] in *.
  - cbn [before]. destruct (Nat.eqb_spec p i) as [->|_]; [|exact E]. inversion ND' as [|? ? Nz _]; subst. destruct Nz. left. reflexivity.
  - change (before i (x :: z :: l1 ++ p :: i :: l2)) with (if Nat.eqb z i then Some x else before i (z :: l1 ++ p :: i :: l2)).
    destruct (Nat.eqb_spec z i) as [->|_]; [|exact E]. inversion ND' as [|? ? Nz _]; subst. destruct Nz. apply in_or_app. right. right. left. reflexivity.
Qed.
Lemma op_is_true x o : op_is x o = true <-> i_op x = o.
Proof. unfold op_is. destruct (opcode_eq_dec (i_op x) o); split; congruence. Qed.
Lemma same_op_true a b : same_op a b = true -> a = b.
Proof. unfold same_op. destruct a, b; try discriminate; [|reflexivity]. intros E. apply Nat.eqb_eq in E. congruence. Qed.
Lemma same_op_refl a : same_op a a = true.
Proof. destruct a; [apply Nat.eqb_refl|reflexivity]. Qed.
Lemma filter_true {A} (l : list A) : filter (fun _ => true) l = l.
Proof. induction l as [|x l IH]; cbn; congruence. Qed.
Lemma filter_filter {A} (f h : A -> bool) l : filter h (filter f l) = filter (fun x => f x && h x) l.
Proof. induction l as [|x l IH]; cbn; [reflexivity|]. destruct (f x); cbn; [destruct (h x); rewrite IH; reflexivity|exact IH]. Qed.

(* what one step of folding leaves alone *)
Lemma eval_other i s r s' : eval_const_arithmetic i s = Folded r s' -> (forall j, j <> i -> fo_ins s' j = fo_ins s j) /\ (forall d, fo_const s d = true -> fo_const s' d = true).
Proof.
  unfold eval_const_arithmetic. intros E. destruct (i_rs1 (fo_ins s i)); [|injection E as _ <-; auto]. destruct (i_rs2 (fo_ins s i)); [|injection E as _ <-; auto].
  destruct (_ && _); [|injection E as _ <-; auto]. destruct (fold_arith _ _ _) as [[z|]|]; [|discriminate|injection E as _ <-; auto].
  destruct (i_rd (fo_ins s i)) as [d|]; [|discriminate]. injection E as _ <-. cbn. split; [intros j N; apply upd_other; exact N|].
  intros v C. unfold upd. destruct (Nat.eqb v d); auto.
Qed.
Lemma folding_other gl p i s r s' : const_folding gl p i s = Folded r s' -> (forall j, j <> i -> fo_ins s' j = fo_ins s j) /\ (forall d, fo_const s d = true -> fo_const s' d = true).
Proof.
  unfold const_folding, mark_const. intros E. destruct (i_op (fo_ins s i)); try (exact (eval_other _ _ _ _ E)).
  - destruct (i_rd (fo_ins s i)) as [d|]; [|discriminate]. destruct (gl d); [exact (eval_other _ _ _ _ E)|]. destruct (i_rs1 (fo_ins s i)); [|discriminate].
    destruct (_ || _); [|exact (eval_other _ _ _ _ E)]. injection E as _ <-. cbn. split; [intros j N; apply upd_other; exact N|].
    intros v C. unfold upd. destruct (Nat.eqb v d); auto.
  - destruct (i_rd (fo_ins s i)) as [d|]; [|discriminate]. destruct (eval_other _ _ _ _ E) as [A B]. split; [exact A|].
    intros v C. apply B. cbn. unfold upd. destruct (Nat.eqb v d); auto.
Qed.

Section Loop.
  Variable own : nat -> nat.
  Variable g : egraph.
  Variables entry exit : nat.
  Variables is_global in_memory : nat -> bool.
  Variable alike : nat -> nat -> Prop.
  Let live b := reach (succs (to_cfg g)) entry b.
  Let Ready := cse_ready own g entry exit is_global in_memory alike.
  Variable idom : tree.
  Variable fuel : nat.
  Hypothesis Hfuel : (0 < fuel)%nat.
  Hypothesis Hdom : forall a b, live a -> under idom fuel a b = Some true -> dominates (succs (to_cfg g)) entry b a.
  Context {world : Type}.
  Variable truth : Z -> bool.
  Variable get : world -> nat -> Z.
  Variable put : world -> nat -> Z -> world.
  Variable effect : nat -> option Z -> option Z -> world -> world.
  Variable other : nat -> option Z -> option Z -> world -> Z.
  Hypothesis Halike : forall r n, alike r n -> forall x w, other r (Some x) None w = other n (Some x) None w.

  Definition goes (s : cseing) (k : nat) (st : state (val := Z) (world := world)) (w : world) : Prop :=
    runs truth get put effect (computes other (cs_ins s) (fo_init (cs_fold s))) in_memory (cs_ins s) g (cs_code s) k entry st w.
  Let pair s p r b i := sum_read (cs_ins s) (cs_code s) (to_cfg g) entry is_global p r b i.
  Record ok (s : cseing) : Prop := mkok {
    o_ready : Ready (cs_ins s) (cs_code s);
    o_marks : forall d, fo_const (cs_fold s) d = true -> is_global d = false /\
      exists b i, live b /\ In i (cs_code s b) /\ i_rd (cs_ins s i) = Some d /\ i_op (cs_ins s i) = OP_load_constant;
    o_users : forall b i v, live b -> In i (cs_code s b) -> i_op (cs_ins s i) = OP_add -> i_rs1 (cs_ins s i) = Some v -> In i (cs_users s v);
    o_live : forall v i, In i (cs_users s v) -> live (own i) }.
  (* from s to s': same executions, fewer pairs *)
  Record below (s s' : cseing) : Prop := mkbelow {
    b_goes : forall k st w, goes s k st w <-> goes s' k st w;
    b_pairs : forall p r b i, pair s' p r b i -> pair s p r b i;
    b_code : exists f, forall b, cs_code s' b = filter f (cs_code s b) }.
  Lemma below_refl s : below s s.
  Proof. constructor; [reflexivity|auto|]. exists (fun _ => true). intros b. induction (cs_code s b) as [|x l IH]; cbn; congruence. Qed.
  Lemma below_trans s1 s2 s3 : below s1 s2 -> below s2 s3 -> below s1 s3.
  Proof.
    intros [A1 A2 [f A3]] [B1 B2 [h B3]]. constructor.
    - intros k st w. rewrite A1. apply B1.
    - auto.
    - exists (fun x => f x && h x). intros b. rewrite B3, A3. apply filter_filter.
  Qed.
  Lemma own_ok s : ok s -> forall b i, In i (cs_code s b) -> own i = b.
  Proof. intros O. exact (f_own _ _ _ _ _ _ _ _ (q_form _ _ _ _ _ _ _ _ _ (o_ready s O))). Qed.
  Lemma pair_own s p r b i : ok s -> pair s p r b i -> live (own p) /\ own r = own p /\ exists l1 l2, cs_code s (own p) = l1 ++ p :: r :: l2.
  Proof.
    intros O (c & l1 & l2 & L & E & _). assert (own p = c) by (apply (own_ok s O); rewrite E; apply in_or_app; right; left; reflexivity). subst c.
    split; [exact L|]. split; [apply (own_ok s O); rewrite E; apply in_or_app; right; right; left; reflexivity|eauto].
  Qed.
  Lemma pair_make s i n b ix : ok s -> live (own i) -> after i (cs_code s (own i)) = Some n -> i_op (cs_ins s i) = OP_add -> i_op (cs_ins s n) = OP_read ->
    i_rs1 (cs_ins s i) = Some b -> i_rs2 (cs_ins s i) = Some ix -> is_global b = false -> is_global ix = false -> pair s i n b ix.
  Proof. intros O L A. destruct (after_spec _ _ _ A) as (l1 & l2 & E). intros. exists (own i), l1, l2. auto 10. Qed.
  (* the read determines the addition *)
  Lemma pair_same s p p' r b i b' i' : ok s -> pair s p r b i -> pair s p' r b' i' -> p = p' /\ b = b' /\ i = i'.
  Proof.
    intros O (c & l1 & l2 & L & E & _ & _ & B1 & I1 & _) (c' & m1 & m2 & L' & E' & _ & _ & B2 & I2 & _).
    assert (E2 : cs_code s c' = (m1 ++ [p']) ++ r :: m2) by (rewrite <- app_assoc; exact E').
    destruct (next_to own (cs_code s) (own_ok s O) (q_nodup _ _ _ _ _ _ _ _ _ (o_ready s O)) p r c c' l1 l2 _ _ E E2) as (_ & Q & _).
    apply app_inj_tail in Q as [_ ->]. repeat split; congruence.
  Qed.

  Section Trigger.
  Variables P R base idx def : nat.
  Hypothesis NPR : P <> R.
  Definition trigger (s : cseing) : Prop := pair s P R base idx /\ i_rd (cs_ins s R) = Some def /\
    forall I N, pair s I N base idx -> I <> P -> own I = own P -> exists l1 l2 l3, cs_code s (own P) = l1 ++ P :: R :: l2 ++ I :: l3.
  Lemma cse_one s i n users : ok s -> trigger s -> i <> P -> pair s i n base idx -> under idom fuel (own i) (own P) = Some true ->
    (forall v, users v = cs_users s v) ->
    let s' := mkcse (mkfold (CseStep.ins' (cs_ins s) n def) (fo_const (cs_fold s)) (fo_init (cs_fold s))) (CseStep.code' (cs_code s) i) users in
    ok s' /\ trigger s' /\ below s s'.
  Proof.
    intros O (T1 & T2 & T3) Ni Pn U Hu s'. pose proof (o_ready s O) as Q.
    destruct (pair_own s i n base idx O Pn) as (Li & On & _). pose proof (Hdom _ _ Li U) as D.
    assert (Or : own P = own i -> exists l1 l2 l3, cs_code s (own P) = l1 ++ P :: R :: l2 ++ i :: l3) by (intros E; apply (T3 i n Pn Ni); congruence).
    pose proof (replaced_ready own g entry exit is_global in_memory alike _ _ Q P R i n base idx def (not_eq_sym Ni) T1 Pn T2 D Or) as Q'.
    destruct (sums own g entry exit is_global in_memory alike _ _ Q P R i n base idx def (not_eq_sym Ni) T1 Pn T2) as (tv & u & S1 & S2 & S3 & S4 & S5 & S6 & S7 & S8).
    pose proof (available own g entry exit is_global in_memory alike _ _ Q P R i n base idx def (not_eq_sym Ni) T1 Pn D Or) as Av.
    assert (SB : forall p r b ix, pair s' p r b ix -> pair s p r b ix /\ r <> n /\ p <> i /\ r <> i).
    { intros p r b ix H. exact (sum_back own g entry exit is_global in_memory alike _ _ Q i n base idx def Pn p r b ix H). }
    assert (OpN : i_op (cs_ins s n) = OP_read) by (destruct Pn as (? & ? & ? & ?); tauto).
    assert (OpI : i_op (cs_ins s i) = OP_add) by (destruct Pn as (? & ? & ? & ?); tauto).
    assert (OpR : i_op (cs_ins s R) = OP_read) by (destruct T1 as (? & ? & ? & ?); tauto).
    assert (OpP : i_op (cs_ins s P) = OP_add) by (destruct T1 as (? & ? & ? & ?); tauto).
    assert (NRi : R <> i) by congruence. assert (NPn : P <> n) by congruence.
    assert (NRn : R <> n).
    { intros E. subst n. destruct (pair_same s P i R base idx base idx O T1 Pn) as [Z _]. congruence. }
    assert (IK : forall k, k <> n -> cs_ins s' k = cs_ins s k) by (intros k Nk; unfold cs_ins, s'; cbn; unfold CseStep.ins'; apply upd_other; exact Nk).
    assert (IN' : i_op (cs_ins s' n) = OP_assign) by (unfold cs_ins, s'; cbn; unfold CseStep.ins'; rewrite upd_same; reflexivity).
    assert (CI : forall b k, In k (cs_code s' b) <-> In k (cs_code s b) /\ k <> i) by (intros b k; apply keep_In).
    assert (KP : keep i P = true) by (unfold keep; destruct (Nat.eqb_spec P i); [congruence|reflexivity]).
    assert (KR : keep i R = true) by (unfold keep; destruct (Nat.eqb_spec R i); [congruence|reflexivity]).
    split; [|split].
    - constructor.
      + exact Q'.
      + intros d C. destruct (o_marks s O d C) as (G & b & j & Lb & Ij & Rj & Oj). split; [exact G|]. exists b, j.
        assert (j <> n) by congruence. assert (j <> i) by congruence. rewrite IK by assumption. rewrite CI. auto.
      + intros b j v Lb Ij Oj Rj. apply CI in Ij as [Ij Nj]. assert (j <> n) by (intros ->; congruence). rewrite IK in Oj, Rj by assumption.
        cbn. rewrite Hu. apply (o_users s O b j v); assumption.
      + intros v j Ij. cbn in Ij. rewrite Hu in Ij. exact (o_live s O v j Ij).
    - split; [|split].
      + destruct T1 as (c & l1 & l2 & L & E & Z). exists c, (filter (keep i) l1), (filter (keep i) l2). split; [exact L|]. split.
        * change (cs_code s' c) with (filter (keep i) (cs_code s c)). rewrite E, filter_app. cbn [filter]. rewrite KP, KR. reflexivity.
        * rewrite !IK by assumption. exact Z.
      + rewrite IK by assumption. exact T2.
      + intros I N H NI OI. apply SB in H as (H & _ & NIi & _). destruct (T3 I N H NI OI) as (l1 & l2 & l3 & E).
        assert (KI : keep i I = true) by (unfold keep; destruct (Nat.eqb_spec I i); [congruence|reflexivity]).
        exists (filter (keep i) l1), (filter (keep i) l2), (filter (keep i) l3).
        change (cs_code s' (own P)) with (filter (keep i) (cs_code s (own P))). rewrite E, filter_app. cbn [filter]. rewrite KP, KR, filter_app. cbn [filter]. rewrite KI. reflexivity.
    - constructor.
      + intros k st w. unfold goes.
        refine (cse_runs (cs_ins s) own (cs_code s) g entry exit is_global in_memory (fo_init (cs_fold s)) (q_form _ _ _ _ _ _ _ _ _ Q) (q_nodup _ _ _ _ _ _ _ _ _ Q)
          P R i n base idx def tv u T1 Pn S1 S2 T2 S3 S4 S5 S6 S7 Av truth get put effect other (Halike _ _ S8) k entry [] st st w _ _ _ _).
        * apply reach_refl.
        * apply walk_one.
        * split; [intros t1 t2 E; destruct t1; discriminate|intros t1 E; destruct t1; discriminate].
        * split; auto.
      + intros p r b ix H. apply SB in H. tauto.
      + exists (keep i). reflexivity.
  Qed.
  Definition pending_ok (s : cseing) (pending : option (nat * nat * nat)) : Prop :=
    match pending with Some (i, _, _) => forall b, live b -> ~ In i (cs_code s b) | None => True end.
  Lemma drop_In i a c us v j : (In j (drop_uses (Some (i, a, c)) us v) -> In j (us v)) /\ (j <> i -> In j (us v) -> In j (drop_uses (Some (i, a, c)) us v)).
  Proof.
    assert (W : forall l, In j (without i l) <-> In j l /\ j <> i) by (intros l; apply keep_In).
    cbn [drop_uses]. unfold upd. destruct (Nat.eqb_spec v c) as [->|Nc].
    - rewrite W. destruct (Nat.eqb_spec c a) as [->|Na]; [rewrite W|]; tauto.
    - destruct (Nat.eqb_spec v a) as [->|Na]; [rewrite W|]; tauto.
  Qed.
  Lemma drop_ok s pending : ok s -> pending_ok s pending -> ok (mkcse (cs_fold s) (cs_code s) (drop_uses pending (cs_users s))).
  Proof.
    intros O H. destruct pending as [[[i a] c]|]; [|destruct s; exact O]. cbn [pending_ok] in *.
    destruct O as [O1 O2 O3 O4]. constructor; try assumption.
    - intros b j v Lb Ij Oj Rj. cbn [cs_users]. apply drop_In; [intros ->; exact (H b Lb Ij)|]. exact (O3 b j v Lb Ij Oj Rj).
    - intros v j Ij. cbn [cs_users] in Ij. apply drop_In in Ij. exact (O4 v j Ij).
  Qed.
  Lemma cse_users_ok : forall us pending s r s', ok s -> pending_ok s pending -> trigger s -> (forall i, In i us -> live (own i)) ->
    cse_users own idom fuel P base idx def (own P) us pending s = Csed r s' ->
    r = true /\ ok s' /\ trigger s' /\ below s s' /\ (forall d, fo_const (cs_fold s') d = fo_const (cs_fold s) d) /\
    (forall k, i_op (cs_ins s' k) = OP_load_constant -> cs_ins s' k = cs_ins s k) /\
    (forall I N, In I us -> I <> P -> pair s' I N base idx -> under idom fuel (own I) (own P) <> Some true).
  Proof.
    induction us as [|i us IH]; intros pending s r s' O Hp T Hl E; cbn [cse_users] in E.
    - injection E as <- <-. split; [reflexivity|]. split; [exact O|]. split; [exact T|]. split; [apply below_refl|]. split; [reflexivity|]. split; [reflexivity|]. intros I N [].
    - set (s1 := mkcse (cs_fold s) (cs_code s) (drop_uses pending (cs_users s))) in *.
      assert (O1 : ok s1) by (apply drop_ok; assumption).
      assert (T1 : trigger s1) by exact T.
      assert (B1 : below s s1) by (destruct (below_refl s) as [X1 X2 X3]; constructor; assumption).
      assert (Hl' : forall j, In j us -> live (own j)) by (intros j J; apply Hl; right; exact J).
      (* i is passed over *)
      assert (SK : cse_users own idom fuel P base idx def (own P) us None s1 = Csed r s' ->
        (forall N, i <> P -> pair s1 i N base idx -> under idom fuel (own i) (own P) <> Some true) ->
        r = true /\ ok s' /\ trigger s' /\ below s s' /\ (forall d, fo_const (cs_fold s') d = fo_const (cs_fold s) d) /\
        (forall k, i_op (cs_ins s' k) = OP_load_constant -> cs_ins s' k = cs_ins s k) /\
        (forall I N, In I (i :: us) -> I <> P -> pair s' I N base idx -> under idom fuel (own I) (own P) <> Some true)).
      { intros E1 H. destruct (IH None s1 r s' O1 Logic.I T1 Hl' E1) as (Z0 & Z1 & Z2 & Z3 & Z4 & Z5 & Z6). split; [exact Z0|]. split; [exact Z1|]. split; [exact Z2|]. split; [exact (below_trans _ _ _ B1 Z3)|]. split; [exact Z4|]. split; [exact Z5|].
        intros I N [<-|J] NI HP; [|exact (Z6 I N J NI HP)]. apply (H N NI). exact (b_pairs _ _ Z3 _ _ _ _ HP). }
      destruct (Nat.eqb_spec i P) as [Ei|Ni]; [apply (SK E); intros N Z; contradiction|].
      destruct (op_is (cs_ins s1 i) OP_add) eqn:Oi; cbn [negb] in E;
        [apply op_is_true in Oi|apply (SK E); intros N _ (c & l1 & l2 & _ & _ & Z & _); apply op_is_true in Z; congruence].
      assert (PA : forall N, pair s1 i N base idx -> after i (cs_code s1 (own i)) = Some N).
      { intros N HP. destruct (pair_own s1 i N base idx O1 HP) as (_ & _ & l1 & l2 & Ec). rewrite Ec. apply after_at. rewrite <- Ec.
        apply (q_nodup _ _ _ _ _ _ _ _ _ (o_ready s1 O1)). }
      destruct (after i (cs_code s1 (own i))) as [n|] eqn:An; [|apply (SK E); intros N _ HP; apply PA in HP; discriminate].
      destruct (op_is (cs_ins s1 n) OP_read) eqn:On; cbn [negb] in E;
        [apply op_is_true in On|apply (SK E); intros N _ HP; pose proof (PA N HP) as Z; injection Z as ->; destruct HP as (c & l1 & l2 & _ & _ & _ & Z & _); apply op_is_true in Z; congruence].
      destruct (same_op (i_rs1 (cs_ins s1 i)) (Some base)) eqn:R1; cbn [andb negb] in E;
        [apply same_op_true in R1|apply (SK E); intros N _ (c & l1 & l2 & _ & _ & _ & _ & Z & _); rewrite Z, same_op_refl in R1; discriminate].
      destruct (same_op (i_rs2 (cs_ins s1 i)) (Some idx)) eqn:R2; cbn [negb] in E;
        [apply same_op_true in R2|apply (SK E); intros N _ (c & l1 & l2 & _ & _ & _ & _ & _ & Z & _); rewrite Z, same_op_refl in R2; discriminate].
      destruct (under idom fuel (own i) (own P)) as [[|]|] eqn:U; [|apply (SK E); intros; discriminate|discriminate].
      assert (HP : pair s1 i n base idx).
      { destruct T as ((c & l1 & l2 & Z) & _). apply pair_make; try assumption; try tauto. apply Hl. left. reflexivity. }
      destruct (cse_one s1 i n (cs_users s1) O1 T1 Ni HP U (fun v => eq_refl)) as (O2 & T2 & B2). cbv zeta in O2, T2, B2. set (s2 := mkcse _ _ _) in O2, T2, B2.
      change (cse_users own idom fuel P base idx def (own P) us (Some (i, base, idx)) s2 = Csed r s') in E.
      destruct (IH (Some (i, base, idx)) s2 r s' O2) as (Z0 & Z1 & Z2 & Z3 & Z4 & Z5 & Z6); [|exact T2|exact Hl'|exact E|].
      + intros b Lb J. apply (keep_In i i (cs_code s1 b)) in J. tauto.
      + assert (B02 : below s s2) by (eapply below_trans; [exact B1|exact B2]).
        split; [exact Z0|]. split; [exact Z1|]. split; [exact Z2|]. split; [eapply below_trans; [exact B02|exact Z3]|]. split; [exact Z4|]. split.
        * intros k Ok. pose proof (Z5 k Ok) as Ek. rewrite Ek in Ok |- *. unfold cs_ins in *. cbn in Ok |- *. unfold CseStep.ins', upd in *.
          destruct (Nat.eqb_spec k n); [discriminate|reflexivity].
        * intros I N [<-|J] NI HI; [|exact (Z6 I N J NI HI)]. exfalso. apply (b_pairs _ _ Z3) in HI.
          destruct (pair_own s2 i N base idx O2 HI) as (_ & _ & l1 & l2 & Ec).
          assert (J : In i (cs_code s2 (own i))) by (rewrite Ec; apply in_or_app; right; left; reflexivity). apply (keep_In i i (cs_code s1 (own i))) in J. tauto.
  Qed.
  End Trigger.
  Definition done_ok (s : cseing) (done : list nat) : Prop :=
    forall I N b ix, In N done -> pair s I N b ix -> forall P R, pair s P R b ix -> P <> I -> under idom fuel (own P) (own I) <> Some true.
  Definition marked (s : cseing) (bb : nat) (done : list nat) : Prop :=
    forall q d, In q done -> In q (cs_code s bb) -> i_op (cs_ins s q) = OP_load_constant -> i_rd (cs_ins s q) = Some d -> fo_const (cs_fold s) d = true.
  Lemma done_below s s' done : below s s' -> done_ok s done -> done_ok s' done.
  Proof. intros B D I N b ix J HI P R HP. apply (b_pairs _ _ B) in HI. apply (b_pairs _ _ B) in HP. exact (D I N b ix J HI P R HP). Qed.
  Lemma users_true : forall us P b ix def bb pending s r s', cse_users own idom fuel P b ix def bb us pending s = Csed r s' -> r = true.
  Proof.
    induction us as [|i us IH]; intros P b ix def bb pending s r s' E; cbn [cse_users] in E; [congruence|].
    destruct (Nat.eqb i P); [exact (IH _ _ _ _ _ _ _ _ _ E)|]. destruct (negb _); [exact (IH _ _ _ _ _ _ _ _ _ E)|].
    destruct (after _ _); [|exact (IH _ _ _ _ _ _ _ _ _ E)]. destruct (negb _); [exact (IH _ _ _ _ _ _ _ _ _ E)|]. destruct (negb _); [exact (IH _ _ _ _ _ _ _ _ _ E)|].
    destruct (under _ _ _ _) as [[|]|]; [exact (IH _ _ _ _ _ _ _ _ _ E)|exact (IH _ _ _ _ _ _ _ _ _ E)|discriminate].
  Qed.
  Lemma under_self a : under idom fuel a a = Some true.
  Proof. destruct fuel; [inversion Hfuel|]. cbn. rewrite Nat.eqb_refl. reflexivity. Qed.

  Section Insn.
  Variable bb : nat.
  Hypothesis Lbb : live bb.
  Variables done rest : list nat.
  Variable i : nat.
  Hypothesis Nd0 : NoDup (done ++ i :: rest).
  Variable s : cseing.
  Hypothesis O : ok s.
  Hypothesis Hf : exists f, cs_code s bb = filter f (done ++ i :: rest).
  Hypothesis Ii : In i (cs_code s bb).
  Hypothesis Dn : done_ok s done.
  Hypothesis Mk : marked s bb done.
  Let Q := o_ready s O.
  Let Nds := q_nodup _ _ _ _ _ _ _ _ _ Q.
  Lemma own_i : own i = bb.
  Proof. exact (own_ok s O bb i Ii). Qed.
  Lemma earlier a c : cs_code s bb = a ++ i :: c -> forall x, In x a -> In x done.
  Proof.
    intros E x J. destruct Hf as (f & Ef). rewrite filter_app in Ef. cbn [filter] in Ef.
    assert (Fi : f i = true) by (rewrite Ef in Ii; destruct (f i) eqn:Fi; [reflexivity|]; rewrite <- filter_app in Ii; apply filter_In in Ii as [Ii _];
      exfalso; apply (NoDup_remove_2 _ _ _ Nd0); exact Ii).
    rewrite Fi in Ef. pose proof (Nds bb) as Nb. rewrite Ef in Nb, E. destruct (nodup_split _ _ _ _ _ Nb E) as [Ea _].
    rewrite <- Ea in J. apply filter_In in J. tauto.
  Qed.
  (* an instruction that is no trigger has no pair that is repeated *)
  Lemma no_trigger s1 : cse is_global own idom fuel i bb s = Csed false s1 -> s1 = s /\
    forall I b ix, pair s I i b ix -> forall P R, pair s P R b ix -> P <> I -> False.
  Proof.
    intros E. split.
    - unfold cse in E. destruct (negb _); [congruence|]. destruct (before _ _); [|congruence]. destruct (negb _); [congruence|]. destruct (negb _); [congruence|].
      destruct (i_rd _); [|discriminate]. destruct (i_rs1 _); [|discriminate]. destruct (i_rs2 _); [|discriminate]. destruct (_ || _); [congruence|].
      apply users_true in E. discriminate.
    - intros I b ix HI P R HP Ne. destruct (r_sum _ _ _ _ _ _ _ _ (q_repeats _ _ _ _ _ _ _ _ _ Q) I i P R b ix (not_eq_sym Ne) HI HP) as (_ & v & V1 & V2 & _).
      pose proof HI as (c & l1 & l2 & Lc & Ec & OI & Oi & B1 & B2 & G1 & G2).
      assert (c = bb) by (rewrite <- own_i; symmetry; apply (own_ok s O); rewrite Ec; apply in_or_app; right; right; left; reflexivity). subst c.
      unfold cse in E. rewrite (proj2 (op_is_true _ _) Oi) in E. cbn [negb] in E. rewrite own_i, Ec, before_at in E by (rewrite <- Ec; apply Nds).
      rewrite (proj2 (op_is_true _ _) OI), V1, V2, same_op_refl in E. cbn [negb] in E. destruct (i_rd (cs_ins s i)); [|discriminate].
      rewrite B1, B2, G1, G2 in E. cbn [orb] in E. apply users_true in E. discriminate.
  Qed.
  Lemma triggers s1 : cse is_global own idom fuel i bb s = Csed true s1 ->
    ok s1 /\ below s s1 /\ done_ok s1 (done ++ [i]) /\ marked s1 bb (done ++ [i]).
  Proof.
    intros E. unfold cse in E. destruct (op_is (cs_ins s i) OP_read) eqn:Oi; cbn [negb] in E; [apply op_is_true in Oi|discriminate]. rewrite own_i in E.
    destruct (before i (cs_code s bb)) as [P|] eqn:Bf; [|discriminate]. destruct (before_spec _ _ _ Bf) as (a & c & Ec).
    destruct (op_is (cs_ins s P) OP_add) eqn:OP; cbn [negb] in E; [apply op_is_true in OP|discriminate].
    destruct (same_op _ _) eqn:Sv; cbn [negb] in E; [apply same_op_true in Sv|discriminate].
    destruct (i_rd (cs_ins s i)) as [def|] eqn:Rd; [|discriminate]. destruct (i_rs1 (cs_ins s P)) as [base|] eqn:B1; [|discriminate].
    destruct (i_rs2 (cs_ins s P)) as [idx|] eqn:B2; [|discriminate]. destruct (is_global base) eqn:G1; [discriminate|]. destruct (is_global idx) eqn:G2; [discriminate|]. cbn [orb] in E.
    assert (HP : pair s P i base idx) by (exists bb, a, c; auto 10).
    assert (OwP : own P = bb) by (apply (own_ok s O); rewrite Ec; apply in_or_app; right; left; reflexivity).
    assert (T : trigger P i base idx def s).
    { split; [exact HP|]. split; [exact Rd|]. intros I N HI NI OI.
      destruct (pair_own s I N base idx O HI) as (_ & ON & k1 & k2 & Ek). rewrite OI, OwP in Ek. rewrite OwP.
      assert (NN : N <> i) by (intros ->; destruct (pair_same s P I i base idx base idx O HP HI) as [Z _]; congruence).
      assert (NP : N <> P) by (intros ->; destruct HI as (? & ? & ? & ? & ? & ? & Z & _); congruence).
      assert (Ni : I <> i) by (intros ->; destruct HI as (? & ? & ? & ? & ? & Z & _); congruence).
      assert (JN : In N (cs_code s bb)) by (rewrite Ek; apply in_or_app; right; right; left; reflexivity).
      rewrite Ec in JN. change (a ++ P :: i :: c) with (a ++ [P] ++ i :: c) in JN. rewrite app_assoc in JN. apply in_app_iff in JN as [JN|JN].
      - exfalso. assert (In N done) by (apply (earlier (a ++ [P]) c); [rewrite <- app_assoc; exact Ec|exact JN]).
        apply (Dn I N base idx H HI P i HP); [congruence|]. rewrite OI. apply under_self.
      - destruct JN as [JN|JN]; [congruence|]. apply in_split in JN as (c1 & c2 & ->).
        assert (E2 : cs_code s bb = (a ++ P :: i :: c1) ++ N :: c2) by (rewrite Ec, <- app_assoc; reflexivity).
        destruct (next_to own (cs_code s) (own_ok s O) Nds I N bb bb k1 k2 _ _ Ek E2) as (_ & Z & _).
        destruct (exists_last (l := i :: c1)) as (c3 & x & Ex); [discriminate|].
        assert (E3 : (a ++ [P]) ++ c3 ++ [x] = k1 ++ [I]) by (rewrite <- Ex, <- app_assoc; exact Z). rewrite app_assoc in E3. apply app_inj_tail in E3 as [_ ->].
        destruct c3 as [|y c3]; cbn in Ex; [injection Ex as Ex _; congruence|]. injection Ex as <- ->.
        exists a, c3, (N :: c2). rewrite Ec, <- app_assoc. reflexivity. }
    rewrite <- OwP in E.
    destruct (cse_users_ok P i base idx def (cs_users s base) None s true s1 O Logic.I T) as (_ & O1 & T1 & B & C1 & C2 & D1).
    - intros j J. exact (o_live s O base j J).
    - exact E.
    - split; [exact O1|]. split; [exact B|]. split.
      + intros I N b ix J HI P' R' HP' Ne. apply in_app_iff in J as [J|[<-|[]]].
        * apply (b_pairs _ _ B) in HI. apply (b_pairs _ _ B) in HP'. exact (Dn I N b ix J HI P' R' HP' Ne).
        * pose proof (b_pairs _ _ B _ _ _ _ HI) as HI0. destruct (pair_same s I P i b ix base idx O HI0 HP) as (-> & -> & ->).
          apply (D1 P' R'); [|exact Ne|exact HP']. pose proof (b_pairs _ _ B _ _ _ _ HP') as H0. destruct (pair_own s P' R' base idx O H0) as (L' & _ & m1 & m2 & Em).
          destruct H0 as (_ & _ & _ & _ & _ & Z1 & _ & Z2 & _). apply (o_users s O (own P')); try assumption. rewrite Em. apply in_or_app. right. left. reflexivity.
      + intros q d J Jc Oq Rq. rewrite C1. pose proof (C2 q Oq) as Eq. rewrite Eq in Oq, Rq. apply in_app_iff in J as [J|[<-|[]]]; [|congruence].
        apply (Mk q d J); try assumption. destruct (b_code _ _ B) as (f & Ef). rewrite Ef in Jc. apply filter_In in Jc. tauto.
  Qed.
  Lemma folds r f : const_folding is_global (before i (cs_code s (own i))) i (cs_fold s) = Folded r f ->
    (forall I b ix, pair s I i b ix -> forall P R, pair s P R b ix -> P <> I -> False) ->
    let s1 := mkcse f (cs_code s) (cs_users s) in ok s1 /\ below s s1 /\ done_ok s1 (done ++ [i]) /\ marked s1 bb (done ++ [i]).
  Proof.
    intros E NT s1. destruct (cs_fold s) as [ins0 const0 init0] eqn:Ef. assert (Ei : cs_ins s = ins0) by (unfold cs_ins; rewrite Ef; reflexivity).
    assert (F : function_ok (cs_ins s) own (cs_code s) g entry exit is_global in_memory) by exact (q_form _ _ _ _ _ _ _ _ _ Q).
    assert (V0 : inv (cs_ins s) (cs_code s) is_global live init0 (mkfold ins0 const0 init0)).
    { split; [intros j; apply f_same; [exact (f_equal (fun h => h j) (eq_sym Ei))|reflexivity]|]. intros d C. cbn in C.
      destruct (o_marks s O d) as (G & b & j & Lb & Ij & Rj & Oj); [rewrite Ef; exact C|]. split; [exact G|]. exists j. split; [exists b; auto|]. split; [exact Rj|].
      cbn. rewrite <- Ei, Oj. auto. }
    assert (Hs : forall a b v, here (cs_code s) live a -> here (cs_code s) live b -> i_rd (cs_ins s a) = Some v -> i_rd (cs_ins s b) = Some v -> is_global v = false ->
      a = b \/ i_op (cs_ins s a) = OP_unwound_phi /\ i_op (cs_ins s b) = OP_unwound_phi).
    { intros a b v (x & Lx & Ix) (y & Ly & Iy). exact (f_single _ _ _ _ _ _ _ _ F x y a b v Lx Ly Ix Iy). }
    assert (Hl : forall a v, here (cs_code s) live a -> i_rd (cs_ins s a) = Some v -> plain (i_op (cs_ins s a)) = true -> i_op (cs_ins s a) <> OP_assign -> is_global v = false).
    { intros a v (x & Lx & Ix) Rv Pl. apply (q_local _ _ _ _ _ _ _ _ _ Q x a v Lx Ix Rv). unfold plain_or_read. rewrite Pl. reflexivity. }
    assert (V : inv (cs_ins s) (cs_code s) is_global live init0 f).
    { refine (const_folding_inv _ _ _ _ init0 Hs Hl _ i _ r f V0 _ _ E); [|exists bb; auto].
      intros q d Eq Oq Rq. cbn in Oq, Rq |- *. rewrite own_i in Eq. destruct (before_spec _ _ _ Eq) as (a & c & Ec).
      pose proof (Mk q d) as M. rewrite Ef, Ei in M. cbn [fo_const] in M. apply M; try assumption.
      - apply (earlier (a ++ [q]) c); [rewrite <- app_assoc; exact Ec|apply in_or_app; right; left; reflexivity].
      - rewrite Ec. apply in_or_app. right. left. reflexivity. }
    assert (TO : forall j, fo_ins f j = cs_ins s j \/
      In (i_op (cs_ins s j)) [OP_assign; OP_add; OP_sub; OP_mul; OP_div; OP_mod] /\
      i_op (fo_ins f j) = OP_load_constant /\ i_rd (fo_ins f j) = i_rd (cs_ins s j) /\ i_rs1 (fo_ins f j) = None /\
      (forall v, i_rs2 (fo_ins f j) = Some v -> i_rs2 (cs_ins s j) = Some v) /\ (exists d, i_rd (cs_ins s j) = Some d /\ is_global d = false)).
    { intros j. destruct (v_fate _ _ _ _ _ _ V j) as [Z _|d a _ Op Rd Gd _ Z _ _|d a b v Hi Op Rd _ _ Z _ _ _ _]; [left; exact Z| |]; right; rewrite Z; cbn.
      - rewrite Op, Rd. split; [tauto|]. split; [reflexivity|]. split; [reflexivity|]. split; [reflexivity|]. split; [auto|eauto].
      - split; [unfold arith_op in Op; intuition|]. split; [reflexivity|]. split; [symmetry; exact Rd|]. split; [reflexivity|]. split; [discriminate|]. exists d. split; [exact Rd|].
        apply (Hl j d Hi Rd (arith_plain _ Op)). intros Z2. rewrite Z2 in Op. unfold arith_op in Op. intuition discriminate. }
    destruct (folding_other _ _ _ _ _ _ E) as [FO1 FO2]. cbn in FO1, FO2. rewrite <- Ei in FO1.
    assert (Q1 : Ready (cs_ins s1) (cs_code s1)) by exact (folded_ready own g entry exit is_global in_memory alike _ _ Q (fo_ins f) TO).
    assert (PB : forall p r0 b ix, pair s1 p r0 b ix -> pair s p r0 b ix).
    { intros p r0 b ix H. exact (proj1 (fo_sum g entry is_global (cs_ins s) (cs_code s) (fo_ins f) TO p r0 b ix H)). }
    assert (B : below s s1).
    { constructor; [|exact PB|].
      - intros k st w. unfold goes. rewrite Ef. cbn [fo_init].
        refine (fold_runs (cs_ins s) own (cs_code s) g entry exit is_global in_memory init0 F _ _ f V truth get put effect other k entry [] st w _ _ _).
        + intros b c a j v Lb Lc Ia Ij Gv Rv Wv Pj. apply (q_strict _ _ _ _ _ _ _ _ _ Q b c a j v); try assumption. unfold plain_or_read. rewrite Pj. reflexivity.
        + intros b a v Lb Ia Rv Pl. apply (q_mem _ _ _ _ _ _ _ _ _ Q b a v Lb Ia Rv). unfold plain_or_read. rewrite Pl. reflexivity.
        + apply reach_refl.
        + apply walk_one.
        + intros v j _ _ _ _ [[]|(c & [] & _)].
      - exists (fun _ => true). intros b. cbn. induction (cs_code s b) as [|x l IH]; cbn; congruence. }
    split; [|split; [exact B|split]].
    - constructor.
      + exact Q1.
      + intros d C. destruct (v_const _ _ _ _ _ _ V d C) as (G & j & (b & Lb & Ij) & Rj & Pj & Oj). split; [exact G|]. exists b, j. split; [exact Lb|]. split; [exact Ij|].
        unfold cs_ins. cbn. split; [|exact Oj]. rewrite (fate_rd _ _ _ _ _ _ _ (v_fate _ _ _ _ _ _ V j)). exact Rj.
      + intros b j v Lb Ij Oj Rj. unfold cs_ins in Oj, Rj. cbn in Oj, Rj. destruct (TO j) as [Z|(_ & Z & _)]; [|congruence]. rewrite Z in Oj, Rj. exact (o_users s O b j v Lb Ij Oj Rj).
      + exact (o_live s O).
    - intros I N b ix J HI P R HP Ne. pose proof (PB _ _ _ _ HI) as HI0. pose proof (PB _ _ _ _ HP) as HP0. apply in_app_iff in J as [J|[<-|[]]].
      + exact (Dn I N b ix J HI0 P R HP0 Ne).
      + destruct (NT I b ix HI0 P R HP0 Ne).
    - intros q d J Jc Oq Rq. unfold cs_ins in Oq, Rq. cbn in Oq, Rq |- *. destruct (Nat.eq_dec q i) as [->|Nq].
      + exact (const_folding_marks _ _ _ _ _ _ _ E Oq Rq).
      + rewrite FO1 in Oq, Rq by exact Nq. apply FO2. pose proof (Mk q d) as M. rewrite Ef in M. apply M; try assumption.
        apply in_app_iff in J as [J|[J|[]]]; [exact J|congruence].
  Qed.
  Lemma optimize_insn_ok r s1 : optimize_insn is_global own idom fuel i bb s = Csed r s1 ->
    ok s1 /\ below s s1 /\ done_ok s1 (done ++ [i]) /\ marked s1 bb (done ++ [i]).
  Proof.
    unfold optimize_insn. intros E. destruct (cse is_global own idom fuel i bb s) as [[|] s2| |] eqn:Ec; try discriminate.
    - injection E as _ <-. apply triggers. exact Ec.
    - destruct (no_trigger s2 Ec) as [-> NT]. destruct (const_folding _ _ _ _) as [r' f| |] eqn:Ef; try discriminate. injection E as _ <-. exact (folds r' f Ef NT).
  Qed.
  End Insn.

  Lemma optimize_block_ok bb : live bb -> forall rest done s r s', NoDup (done ++ rest) -> ok s -> (exists f, cs_code s bb = filter f (done ++ rest)) ->
    (forall k, In k (done ++ rest) -> own k = bb) -> done_ok s done -> marked s bb done ->
    optimize_block is_global own idom fuel rest bb s = Csed r s' -> ok s' /\ below s s'.
  Proof.
    intros L. induction rest as [|i rest IH]; intros done s r s' Nd O Hf Ho D M E; cbn [optimize_block] in E.
    - injection E as _ <-. split; [exact O|apply below_refl].
    - assert (Eq : (done ++ [i]) ++ rest = done ++ i :: rest) by (rewrite <- app_assoc; reflexivity).
      destruct (mem i (cs_code s bb)) eqn:Mi.
      + apply mem_In in Mi. destruct (optimize_insn is_global own idom fuel i bb s) as [r1 s1| |] eqn:E1; try discriminate.
        destruct (optimize_insn_ok bb L done rest i Nd s O Hf Mi D M r1 s1 E1) as (O1 & B1 & D1 & M1).
        destruct (IH (done ++ [i]) s1 r s') as [O2 B2]; rewrite ?Eq; try assumption.
        * destruct Hf as (f & Ef). destruct (b_code _ _ B1) as (h & Eh). exists (fun x => f x && h x). rewrite Eh, Ef. apply filter_filter.
        * split; [exact O2|]. eapply below_trans; [exact B1|exact B2].
      + apply mem_not in Mi. apply (IH (done ++ [i]) s r s'); rewrite ?Eq; try assumption.
        * intros I N b ix J HI P R HP Ne. apply in_app_iff in J as [J|[<-|[]]]; [exact (D I N b ix J HI P R HP Ne)|]. exfalso. apply Mi.
          destruct HI as (c & l1 & l2 & Lc & Ec & _). assert (Ic : In i (cs_code s c)) by (rewrite Ec; apply in_or_app; right; right; left; reflexivity).
          rewrite <- (Ho i); [rewrite (own_ok s O c i Ic); exact Ic|apply in_or_app; right; left; reflexivity].
        * intros q d J Jc. apply in_app_iff in J as [J|[<-|[]]]; [exact (M q d J Jc)|contradiction].
  Qed.
  Theorem optimize_blocks_ok : forall order s r s', (forall b, In b order -> live b) -> ok s ->
    optimize_blocks is_global own idom fuel order s = Csed r s' -> ok s' /\ below s s'.
  Proof.
    induction order as [|b order IH]; intros s r s' Hl O E; cbn [optimize_blocks] in E.
    - injection E as _ <-. split; [exact O|apply below_refl].
    - destruct (optimize_block is_global own idom fuel (cs_code s b) b s) as [r1 s1| |] eqn:E1; try discriminate.
      destruct (optimize_block_ok b (Hl b (or_introl eq_refl)) (cs_code s b) [] s r1 s1) as [O1 B1]; try assumption.
      + apply (q_nodup _ _ _ _ _ _ _ _ _ (o_ready s O)).
      + exists (fun _ => true). symmetry. apply filter_true.
      + intros k J. exact (own_ok s O b k J).
      + intros I N x ix [].
      + intros q d [].
      + destruct (IH s1 r s') as [O2 B2]; try assumption; [intros c J; apply Hl; right; exact J|]. split; [exact O2|]. eapply below_trans; eassumption.
  Qed.
  Theorem optimize_all_ok order ins code init r s' : (forall b, In b order <-> live b) -> Ready ins code ->
    optimize_all is_global own idom fuel order ins code init = Csed r s' ->
    Ready (cs_ins s') (cs_code s') /\ below (mkcse (mkfold ins (fun _ => false) init) code (use_chains ins code order)) s'.
  Proof.
    intros Ho Q E. unfold optimize_all in E. set (s := mkcse _ _ _) in *.
    assert (O : ok s).
    { constructor; [exact Q|discriminate| |].
      - intros b i v Lb Ib Oi Rv. cbn. unfold use_chains. apply in_flat_map. exists b. split; [apply Ho; exact Lb|]. apply in_flat_map. exists i. split; [exact Ib|].
        unfold cs_ins in Rv. cbn in Rv. unfold uses_of. rewrite Rv, Nat.eqb_refl. left. reflexivity.
      - intros v i J. cbn in J. unfold use_chains in J. apply in_flat_map in J as (b & Jb & J). apply in_flat_map in J as (k & Jk & J). apply repeat_spec in J. subst k.
        rewrite (f_own _ _ _ _ _ _ _ _ (q_form _ _ _ _ _ _ _ _ _ Q) b i Jk). apply Ho. exact Jb. }
    destruct (optimize_blocks_ok order s r s') as [O' B]; try assumption; [intros b J; apply Ho; exact J|]. split; [exact (o_ready s' O')|exact B].
  Qed.
End Loop.
