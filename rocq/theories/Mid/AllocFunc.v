(** The whole function: from the invariants of the blocks to the runs of the function. *)
From Verif.Mid Require Export AllocInv.
From Coq Require Import Lia.

Section Assigned.
  Variable V : vars.
  Definition keeps (l : list insn) (v : nat) : Prop := forall j, In j l -> ~ forgets V j v.
  Lemma forgets_dec j v : forgets V j v \/ ~ forgets V j v.
  Proof.
    unfold forgets. destruct (i_rd j) as [d|]; [|right; intros [H _]; discriminate].
    destruct (Nat.eq_dec d v) as [->|N]; [|right; intros [H _]; congruence].
    destruct (opcode_eq_dec (i_op j) OP_allocat) as [E|N]; [|right; tauto].
    destruct (no_storage V v) eqn:S; [left; auto|right; intros (_ & _ & H); discriminate].
  Qed.
  Lemma gives_dec j v : gives V j v \/ ~ gives V j v.
  Proof.
    destruct (forgets_dec j v) as [F|F]; [right; intros [_ N]; apply N; split; apply F|].
    destruct (i_rd j) as [d|] eqn:E; [|right; intros [H _]; congruence].
    destruct (Nat.eq_dec d v) as [->|N]; [|right; intros [H _]; congruence].
    left. split; [exact E|]. intros H. apply F. split; [exact E|exact H].
  Qed.
  Lemma keeps_dec l v : keeps l v \/ ~ keeps l v.
  Proof.
    induction l as [|i l IH]; [left; intros j []|]. destruct (forgets_dec i v) as [F|F]; [right; intros K; apply (K i); [left; reflexivity|exact F]|].
    destruct IH as [K|K]; [left; intros j [<-|I]; auto|right; intros K'; apply K; intros j I; apply K'; right; exact I].
  Qed.
  Lemma assigned_cons i l v : assigned V (i :: l) v <-> assigned V l v \/ (gives V i v /\ keeps l v).
  Proof.
    split.
    - intros (t1 & j & t2 & E & G & K). destruct t1 as [|x t1]; cbn in E; injection E as -> ->; [right; auto|]. left. exists t1, j, t2. auto.
    - intros [(t1 & j & t2 & -> & G & K)|[G K]]; [exists (i :: t1), j, t2; auto|]. exists [], i, l. auto.
  Qed.
  Lemma assigned_dec l v : assigned V l v \/ ~ assigned V l v.
  Proof.
    induction l as [|i l IH]; [right; intros (t1 & j & t2 & E & _); destruct t1; discriminate|].
    destruct IH as [A|A]; [left; apply assigned_cons; auto|]. destruct (gives_dec i v) as [G|G], (keeps_dec l v) as [K|K];
      [left; apply assigned_cons; auto|right|right|right]; rewrite assigned_cons; tauto.
  Qed.
  Lemma assigned_app A B v : assigned V (A ++ B) v -> assigned V B v \/ (assigned V A v /\ keeps B v).
  Proof.
    induction A as [|i A IH]; cbn; [auto|]. rewrite !assigned_cons. intros [H|[G K]]; [destruct (IH H) as [H'|[H' K]]; auto|].
    right. split; [right; split; [exact G|intros j J; apply K, in_or_app; auto]|intros j J; apply K, in_or_app; auto].
  Qed.
  Lemma aop_app params A B v : assigned_or_param V params (A ++ B) v -> assigned V B v \/ (assigned_or_param V params A v /\ keeps B v).
  Proof.
    intros [H|[P K]].
    - destruct (assigned_app _ _ _ H) as [H'|[H' K]]; [auto|]. right. split; [left; exact H'|exact K].
    - right. split; [right; split; [exact P|intros j J; apply K, in_or_app; auto]|intros j J; apply K, in_or_app; auto].
  Qed.
  Lemma Xat_spec l : forall X v, Xat V X l v <-> assigned V (isns l) v \/ (X v /\ keeps (isns l) v).
  Proof.
    induction l as [|i l IH]; intros X v; cbn.
    - split; [intros H; right; split; [exact H|intros j []]|]. intros [(t1 & j & t2 & E & _)|[H _]]; [destruct t1; discriminate|exact H].
    - rewrite IH. fold (isns l). rewrite assigned_cons. unfold after_insn. split.
      + intros [A|[[G|[H N]] K]]; [auto|auto|]. right. split; [exact H|]. intros j [<-|I]; auto.
      + intros [[A|[G K]]|[H K]]; [auto|auto|]. right. split; [right; split; [exact H|apply K; left; reflexivity]|intros j I; apply K; right; exact I].
  Qed.
End Assigned.

Section Func.
  Variable V : vars.
  Variable g : cfg.
  Variable code : nat -> list rinsn.
  Variables entry exit : nat.
  Variable params : list nat.
  Variable order : list nat.
  Variable rpo : nat -> Z.
  Variable live_out : nat -> list nat.
  Variable killed : nat -> nat -> bool.
  Variable cons : nat -> Z.
  Variable arity : Z -> Z.
  Variable goff : nat -> Z.
  Hypothesis OK : allocatable V g code entry exit params order rpo live_out killed cons arity.
  Hypothesis GO : forall v, v_global V v = true -> goff v <> 0.
  Notation local := (local V).
  Notation needed := (needed (succs g) (plain_code code)).

  (** ** What has a value at the start of a block *)
  Definition X0 (b v : nat) : Prop := forall l, walk (succs g) entry (l ++ [b]) b -> assigned_or_param V params (flat_map (plain_code code) l) v.
  Lemma reached_n n : forall l1 b l2, length l1 = n -> order = l1 ++ b :: l2 -> exists l, walk (succs g) entry (l ++ [b]) b.
  Proof.
    induction n as [n IH] using lt_wf_ind. intros l1 b l2 L E. destruct (o_forward _ _ _ _ _ _ _ _ _ _ _ _ OK l1 b l2 E) as [->|(p & P & S)].
    - exists []. apply walk_one.
    - apply in_split in P. destruct P as (l3 & l4 & ->). rewrite app_length in L. cbn in L.
      destruct (IH (length l3) ltac:(lia) l3 p (l4 ++ b :: l2) eq_refl) as [l W]; [rewrite E, <- app_assoc; reflexivity|].
      exists (l ++ [p]). eapply walk_step; eassumption.
  Qed.
  Lemma reached b : In b order -> exists l, walk (succs g) entry (l ++ [b]) b.
  Proof. intros I. apply in_split in I. destruct I as (l1 & l2 & E). eapply reached_n; eauto. Qed.
  Lemma known_start b : In b order -> known V code params order (X0 b) [] (code b).
  Proof.
    intros Hb l1 i l2 E v R L D. apply Xat_spec.
    assert (NT : nth_error (plain_code code b) (length l1) = Some (r_insn i)).
    { unfold plain_code. rewrite E, map_app. rewrite nth_error_app2 by (rewrite map_length; lia). rewrite map_length, Nat.sub_diag. reflexivity. }
    assert (FN : firstn (length l1) (plain_code code b) = isns l1).
    { unfold plain_code. rewrite E, map_app. unfold isns. rewrite <- (map_length r_insn l1), firstn_app, Nat.sub_diag, firstn_all. cbn. apply app_nil_r. }
    destruct (v_strict _ _ _ _ _ _ _ _ _ _ _ _ OK b _ _ v Hb NT R L) as [H|[N1 N2]].
    - rewrite FN in H. destruct (assigned_dec V (isns l1) v) as [A|A]; [auto|]. right.
      assert (H' : forall l, walk (succs g) entry (l ++ [b]) b -> assigned_or_param V params (flat_map (plain_code code) l) v /\ keeps V (isns l1) v).
      { intros l W. destruct (aop_app _ _ _ _ _ (H l W)) as [C|C]; [contradiction|exact C]. }
      split; [intros l W; apply (H' l W)|]. destruct (reached b Hb) as [l W]. apply (H' l W).
    - exfalso. destruct D as [P|(c & j & C & J & G)]; [contradiction|]. apply (N2 c j C J G).
  Qed.
  (** what has a value at the start of c had one at the end of its predecessors *)
  Lemma X0_pred p c v : In p order -> In c (succs g p) -> X0 c v -> Xat V (X0 p) (code p) v.
  Proof.
    intros Hp S H. apply Xat_spec. destruct (assigned_dec V (isns (code p)) v) as [A|A]; [auto|]. right.
    assert (H' : forall l, walk (succs g) entry (l ++ [p]) p -> assigned_or_param V params (flat_map (plain_code code) l) v /\ keeps V (isns (code p)) v).
    { intros l W. specialize (H (l ++ [p]) (walk_step _ _ _ _ _ W S)). rewrite flat_map_app in H. cbn in H. rewrite app_nil_r in H.
      destruct (aop_app _ _ _ _ _ H) as [C|C]; [contradiction|exact C]. }
    split; [intros l W; apply (H' l W)|]. destruct (reached p Hp) as [l W]. apply (H' l W).
  Qed.
  Lemma X0_entry v : X0 entry v -> In v params.
  Proof.
    intros H. destruct (H [] (walk_one _ _)) as [(t1 & j & t2 & E & _)|[P _]]; [destruct t1; discriminate|exact P].
  Qed.
  Lemma needed_succ p c v : In c (succs g p) -> live_at g code c (code c) v -> needed v p.
  Proof. intros S [E|[U N]]; [eapply needed_next; eauto|eapply needed_later; eauto]. Qed.

  (** ** Between two blocks *)
  Record between (dn : list nat) (s : ra) : Prop := mkbetween {
    bt_regs : forall i, (i < 8)%nat -> a_var s i = None;
    bt_base : forall c, base V code entry params order cons goff c dn [] s;
    bt_slot : forall p v, In p dn -> local v -> Xat V (X0 p) (code p) v -> needed v p -> a_off s v <> 0 }.
  Definition restart (pre : list ph2) (s : ra) : ra := mkra (a_var s) (a_pol s) (a_off s) (a_size s) (a_cons s) pre false 0.
  Lemma base_restart c dn pre code0 s : base V code entry params order cons goff c dn pre s -> base V code entry params order cons goff c dn pre (restart code0 s).
  Proof. intros [B1 B2 B3 B4 B5 B6 B7 B8]. split; auto. Qed.
  Lemma between_start dn b l1 l2 s : order = l1 ++ b :: l2 -> (forall x, In x dn <-> In x l1) -> b <> entry -> between dn s ->
    normal V g code entry params order live_out cons goff b dn 0 [] (code b) (X0 b) (restart [] s).
  Proof.
    intros E D NE [B1 B2 B3]. split; cbn; auto.
    - apply base_restart. apply B2.
    - intros i j v Hi Hj A. rewrite B1 in A by exact Hi. discriminate.
    - intros v L Xv Hv. right. destruct (o_forward _ _ _ _ _ _ _ _ _ _ _ _ OK l1 b l2 E) as [->|(p & P & S)]; [contradiction|].
      apply (B3 p v); [apply D; exact P|exact L| |eapply needed_succ; eauto]. eapply X0_pred; eauto. rewrite E. apply in_or_app. auto.
    - intros i v Hi A. rewrite B1 in A by exact Hi. discriminate.
    - intros p i Ep. destruct p; discriminate.
  Qed.
  Lemma between_end dn b s s' : (forall p, In p dn -> forall v, local v -> Xat V (X0 p) (code p) v -> needed v p -> a_off s v <> 0) -> mono s s' ->
    ended V g code entry params order cons goff b dn (X0 b) s' -> between (b :: dn) s'.
  Proof.
    intros B3 MO (E1 & E2 & E3). split; [exact E1| |].
    - intros c. destruct E2 as [C1 C2 C3 C4 C5 C6 C7 C8]. split; auto.
      + intros i v Hi A. rewrite E1 in A by exact Hi. discriminate.
      + intros v L O. destruct (C8 v L O) as [H|[(x & i & X1 & X2)|(i & I & R)]]; [left; exact H| |].
        * right; left. exists x, i. split; [right; exact X1|exact X2].
        * right; left. exists b, i. split; [left; reflexivity|]. split; [exact I|exact R].
    - intros p v [<-|P] L Xv N; [auto|]. rewrite MO; eapply B3; eauto.
  Qed.

  (** ** The blocks *)
  Section Dyn.
  Context {val world : Type}.
  Variable M : meaning val world.
  Variable offF : nat -> Z.
  Hypothesis OFF_inj : forall u v, local u -> local v -> offF u = offF v -> offF u <> 0 -> u = v.
  Hypothesis LAW : separate_globals M V goff.
  Notation sblock := (sblock M V goff (place M offF)).
  Notation stored := (stored V g code params order).
  (** the machine's state at the start of a block *)
  Definition arrives (b : nat) (e : @senv val world) (m : @mstate val world) : Prop :=
    t_world m = s_world e /\ s_args e = [] /\ s_ret e = None /\ (forall v a, s_env e v = Some a -> defined V code params order v) /\
    (b = entry -> forall i v a, nth_error params i = Some v -> s_env e v = Some a -> t_reg m i = a) /\
    forall v a, local v -> s_env e v = Some a -> live_at g code b (code b) v -> (b = entry /\ In v params) \/ (offF v <> 0 /\ t_slot m (offF v) = a).
  Definition simulated (b : nat) (cb : list ph2) : Prop := forall e m, arrives b e m ->
    (forall x w, sblock (code b) e (SRet x w) -> mblock M cb m = Some (MRet x w)) /\
    (forall e' c, sblock (code b) e (SFall e') -> g_next g b = Some c -> exists m', stored b offF e' m' /\
       (c <> exit /\ mblock M cb m = Some (MGoto c m') \/ mblock M cb m = Some (MFall m') /\ (c = exit \/ exists la lb, order = la ++ b :: c :: lb))) /\
    (forall a e' t f, sblock (code b) e (SBranch a e') -> g_then g b = Some t -> g_else g b = Some f -> exists m', stored b offF e' m' /\
       mblock M cb m = Some (MGoto (if m_truth M a then t else f) m')).
  Lemma arrives_succ b c e m : In b order -> In c (succs g b) -> stored b offF e m -> arrives c (mks (s_env e) (s_world e) [] None) m.
  Proof.
    intros Hb S (S1 & S2 & S3). assert (NE : c <> entry) by (intros ->; eapply (o_entry _ _ _ _ _ _ _ _ _ _ _ _ OK); eauto).
    split; [exact S1|]. split; [reflexivity|]. split; [reflexivity|]. split; [exact S3|]. split; [intros ->; contradiction|].
    intros v a L E Hv. right. apply S2; auto. eapply needed_succ; eauto.
  Qed.
  (** in the state s the machine's registers are those of a block that has just been entered *)
  Definition fresh (b : nat) (s : ra) : Prop :=
    forall i v, (i < 8)%nat -> a_var s i = Some v -> b = entry /\ nth_error params i = Some v /\ a_pol s i = true.
  Definition homes (b : nat) (s : ra) : Prop := b = entry -> forall i v, nth_error params i = Some v -> (i < 8)%nat /\ a_var s i = Some v /\ a_pol s i = true.
  Lemma arrives_DN b s e m : fresh b s -> homes b s -> arrives b e m -> DN V g code params order goff b M offF [] (code b) s e m.
  Proof.
    intros FR HO (A1 & A2 & A3 & A4 & A5 & A6). split; auto.
    - intros i v a Hi A L E _ _. destruct (FR i v Hi A) as (Eb & N & _). eapply A5; eauto.
    - intros i v Hi A G _. exfalso. destruct (FR i v Hi A) as (Eb & N & _). apply nth_error_In in N.
      destruct (v_params _ _ _ _ _ _ _ _ _ _ _ _ OK) as (_ & _ & P). rewrite (P v N) in G. discriminate.
    - intros v a L E Hv. destruct (A6 v a L E Hv) as [[Eb P]|H]; [|right; exact H]. left. apply In_nth_error in P. destruct P as [i P]. exists i. apply HO; auto.
  Qed.
  Notation ablock := (alloc_block V live_out killed arity (g_next g) (g_then g) (g_else g) rpo exit code).
  Notation carefuls := (careful_insns V live_out killed arity (g_then g) (g_else g)).
  Lemma some_eq {A} (x y : A) : Some x = Some y -> y = x.
  Proof. congruence. Qed.
  Lemma block_ok b dn l1 l2 pre0 s s' : order = l1 ++ b :: l2 -> (forall x, In x dn <-> In x l1) -> b <> exit ->
    normal V g code entry params order live_out cons goff b dn 0 [] (code b) (X0 b) (restart pre0 s) ->
    fresh b s -> homes b s ->
    carefuls b 0 (code b) (restart pre0 s) = true -> ablock dn b pre0 s = Some s' -> pre0 = [] ->
    ended V g code entry params order cons goff b dn (X0 b) s' /\ mono s s' /\ (ext V offF s' -> simulated b (a_code s')).
  Proof.
    intros E D NE HN FR HO CF H P0. subst pre0. assert (Hb : In b order) by (rewrite E; apply in_or_app; right; left; reflexivity).
    assert (ND : NoDup order) by apply (o_nodup _ _ _ _ _ _ _ _ _ _ _ _ OK).
    assert (Hdn : incl dn order /\ ~ In b dn).
    { split; [intros x X; rewrite E; apply in_or_app; left; apply D; exact X|]. rewrite D. rewrite E in ND. apply NoDup_remove_2 in ND. intros I. apply ND, in_or_app. auto. }
    unfold alloc_block in H. fold (restart [] s) in H.
    assert (FR' : fresh b (restart [] s)) by exact FR. assert (HO' : homes b (restart [] s)) by exact HO.
    assert (MR : forall t, mono (restart [] s) t -> mono s t) by (intros t Ht v O; apply (Ht v O)).
    assert (CR : a_code (restart [] s) = []) by reflexivity.
    remember (restart [] s) as s0 eqn:E0. clear E0.
    destruct (alloc_insns V live_out killed arity (g_then g) (g_else g) b 0 (code b) s0) as [s1|] eqn:EI; [|discriminate].
    pose proof (some_eq _ _ H) as Ef. clear H.
    destruct (o_shape _ _ _ _ _ _ _ _ _ _ _ _ OK b Hb NE) as [c N1 N2 N3 NB|t f l i N1 N2 N3 PC Bo NB].
    - assert (NB' : forall i, In i (code b) -> i_op (r_insn i) <> OP_branch) by (intros i I; apply NB; unfold plain_code; apply in_map; exact I).
      destruct (block_next V g code entry exit params order rpo live_out killed cons arity goff OK b Hb dn Hdn M offF OFF_inj LAW GO c (X0 b) s0 s1 s' N1 NB' HN (known_start b Hb) CF EI Ef) as (R1 & R2 & R3).
      split; [exact R1|]. split; [apply MR; exact R2|]. intros EX e m AR. pose proof (arrives_DN b s0 e m FR' HO' AR) as HD.
      destruct AR as (_ & A2 & A3 & _). destruct (R3 e m EX HD A2 A3) as [R4 R5]. rewrite CR in R4, R5. split; [|split].
      + intros x w SB. destruct (R4 x w SB) as (cc & -> & Q). exact Q.
      + intros e' c' SB Nc. assert (c' = c) by congruence. subst c'. destruct (R5 e' SB) as (cc & m' & -> & ST & Q). exists m'. split; [exact ST|].
        unfold jumps in Q. destruct (Nat.eqb_spec c exit) as [Ec|Nc2]; cbn [negb andb] in Q; [right; auto|].
        destruct (mem c (b :: dn)) eqn:Em; cbn [orb] in Q; [left; split; [exact Nc2|exact Q]|]. destruct (Z.eqb_spec (rpo c) (rpo b + 1)) as [Er|Nr]; cbn [negb] in Q; [|left; split; [exact Nc2|exact Q]].
        right. split; [exact Q|]. right. apply mem_not in Em.
        assert (Sc : In c (succs g b)) by (unfold succs; rewrite Nc; left; reflexivity).
        pose proof (o_closed _ _ _ _ _ _ _ _ _ _ _ _ OK b c Hb Sc) as Co. destruct l2 as [|c2 l2].
        * exfalso. rewrite E in Co. apply in_app_or in Co. destruct Co as [Co|[<-|[]]]; apply Em; [right; apply D; exact Co|left; reflexivity].
        * assert (c2 = c).
          { apply (o_rpo_inj _ _ _ _ _ _ _ _ _ _ _ _ OK); auto; [rewrite E; apply in_or_app; right; right; left; reflexivity|].
            rewrite Er. apply (o_rpo _ _ _ _ _ _ _ _ _ _ _ _ OK l1 b c2 l2 E). }
          subst c2. eauto.
      + intros a e' t f _ Ht. congruence.
    - unfold finish_block in Ef. rewrite N1 in Ef. subst s1.
      assert (PC' : exists l' i', code b = l' ++ [i'] /\ isns l' = l /\ r_insn i' = i).
      { clear - PC. unfold plain_code in PC. destruct (exists_last (l := code b)) as (l' & i' & E); [intros E; rewrite E in PC; destruct l; discriminate|].
        exists l', i'. split; [exact E|]. rewrite E, map_app in PC. apply app_inj_tail in PC. exact PC. }
      destruct PC' as (l' & i' & C & <- & <-).
      assert (NB' : forall i, In i l' -> i_op (r_insn i) <> OP_branch) by (intros j J; apply NB; apply in_map; exact J).
      destruct (block_branch V g code entry exit params order rpo live_out killed cons arity goff OK b Hb dn Hdn M offF OFF_inj LAW GO t f l' i' (X0 b) s0 s' N2 N3 C Bo NB' HN (known_start b Hb) CF EI) as (R1 & R2 & R3).
      split; [exact R1|]. split; [apply MR; exact R2|]. intros EX e m AR. pose proof (arrives_DN b s0 e m FR' HO' AR) as HD.
      destruct AR as (_ & A2 & A3 & _). destruct (R3 e m EX HD A2 A3) as [R4 R5]. rewrite CR in R4, R5. split; [|split].
      + intros x w SB. destruct (R4 x w SB) as (cc & -> & Q). exact Q.
      + intros e' c' _ Nc. congruence.
      + intros a e' t' f' SB Ht Hf. assert (t' = t) by congruence. assert (f' = f) by congruence. subst t' f'.
        destruct (R5 a e' SB) as (cc & m' & -> & ST & Q). eauto.
  Qed.
  Notation ablocks := (alloc_blocks V live_out killed arity (g_next g) (g_then g) (g_else g) rpo exit code).
  Notation cblocks := (careful_blocks V live_out killed arity (g_next g) (g_then g) (g_else g) rpo exit code).
  Definition all_simulated (l : list (nat * list ph2)) : Prop := forall b cb, In (b, cb) l -> b <> exit -> simulated b cb.
  Lemma exit_block dn s s' : ablock dn exit [] s = Some s' -> s' = restart [] s.
  Proof.
    destruct (o_exit _ _ _ _ _ _ _ _ _ _ _ _ OK) as (E1 & E2 & _). unfold alloc_block. fold (restart [] s). rewrite E1. cbn [alloc_insns].
    intros H. apply some_eq in H. rewrite H. unfold finish_block. unfold succs in E2. destruct (g_next g exit); [discriminate|reflexivity].
  Qed.
  Lemma blocks_ok rest : forall l1 dn s l sF, order = l1 ++ rest -> l1 <> [] -> (forall x, In x dn <-> In x l1) -> between dn s ->
    cblocks dn rest [] s = true -> ablocks dn rest [] s = Some (l, sF) ->
    between (rev rest ++ dn) sF /\ mono s sF /\ map fst l = rest /\ (ext V offF sF -> all_simulated l).
  Proof.
    induction rest as [|b rest IH]; intros l1 dn s l sF E NE D BT CF H.
    - cbn in H. injection H as <- <-. split; [exact BT|]. split; [apply mono_refl|]. split; [reflexivity|]. intros _ b cb [].
    - cbn [alloc_blocks careful_blocks] in H, CF. apply andb_prop in CF. destruct CF as [CF1 CF2]. fold (restart [] s) in CF1.
      destruct (ablock dn b [] s) as [s1|] eqn:EB; [|discriminate].
      destruct (ablocks (b :: dn) rest [] s1) as [[l' sF']|] eqn:ER; [|discriminate]. injection H as <- <-.
      assert (Nb : b <> entry).
      { intros ->. destruct (o_start _ _ _ _ _ _ _ _ _ _ _ _ OK) as [l0 E0]. pose proof (o_nodup _ _ _ _ _ _ _ _ _ _ _ _ OK) as ND.
        destruct l1 as [|a l1]; [contradiction|]. rewrite E in E0. injection E0 as -> _. rewrite E in ND. cbn in ND. inversion ND; subst. apply H1. apply in_or_app. right. left. reflexivity. }
      assert (G : between (b :: dn) s1 /\ mono s s1 /\ (ext V offF s1 -> b <> exit -> simulated b (a_code s1))).
      { destruct (Nat.eq_dec b exit) as [->|Nx].
        - pose proof (exit_block dn s s1 EB) as ->. split; [|split; [intros v O; reflexivity|intros _ C; contradiction]].
          apply (between_end dn exit s (restart [] s)); [intros p P v; apply (bt_slot _ _ BT p v P)|intros v O; reflexivity|].
          destruct (o_exit _ _ _ _ _ _ _ _ _ _ _ _ OK) as (X1 & X2 & _). split; [apply (bt_regs _ _ BT)|]. split.
          + rewrite X1. apply base_restart. apply (bt_base _ _ BT).
          + intros v _ _ N. exfalso. inversion N; subst; rewrite X2 in *; contradiction.
        - destruct (block_ok b dn l1 rest [] s s1 E D Nx) as (R1 & R2 & R3); auto.
          + eapply between_start; eauto.
          + intros i v Hi A. rewrite (bt_regs _ _ BT i Hi) in A. discriminate.
          + intros ->. contradiction.
          + split; [|split; [exact R2|intros EX _; auto]]. eapply between_end; eauto. intros p P v. apply (bt_slot _ _ BT p v P). }
      destruct G as (G1 & G2 & G3).
      destruct (IH (l1 ++ [b]) (b :: dn) s1 l' sF') as (I1 & I2 & I3 & I4); auto.
      + rewrite <- app_assoc. exact E.
      + destruct l1; discriminate.
      + intros x. rewrite in_app_iff. cbn. rewrite D. tauto.
      + split; [|split; [|split]].
        * cbn. rewrite <- app_assoc. exact I1.
        * eapply mono_trans; eassumption.
        * cbn. congruence.
        * intros EX c cb [Q|I] Nx; [|apply I4; auto]. injection Q as <- <-. apply G3; [|exact Nx]. eapply mono_ext; eassumption.
  Qed.

  (** ** The entry *)
  Definition first_state (s : ra) : Prop :=
    (forall v, local v -> a_off s v = 0) /\ (forall v, v_global V v = true -> a_off s v = goff v) /\ a_size s = 4 /\ (forall v, a_cons s v = cons v).
  Lemma start_vars s i : (i < 8)%nat -> a_var (start_regs params s) i = nth_error params i /\ (forall v, nth_error params i = Some v -> a_pol (start_regs params s) i = true).
  Proof.
    intros Hi. unfold start_regs.
    destruct (v_params _ _ _ _ _ _ _ _ _ _ _ _ OK) as (_ & LP & _).
    set (s1 := fold_left (fun s i => set_reg i None (a_pol s i) s) regs s).
    assert (Z1 : forall i, (i < 8)%nat -> a_var s1 i = None) by (intros j Hj; apply (clear_regs (fun _ => 0) s); exact Hj). clearbody s1.
    assert (G : forall l n s2, (forall j, (n <= j < 8)%nat -> a_var s2 j = None) -> (n + length l <= 8)%nat ->
      let s3 := fold_left (fun s p => set_reg (fst p) (Some (snd p)) true s) (combine (seq n (length l)) l) s2 in
      ((i < n)%nat -> a_var s3 i = a_var s2 i /\ a_pol s3 i = a_pol s2 i) /\
      ((n <= i)%nat -> a_var s3 i = nth_error l (i - n) /\ (forall v, nth_error l (i - n) = Some v -> a_pol s3 i = true))).
    { induction l as [|x l IH]; intros n s2 Z2 Le; cbn.
      - split; [auto|]. intros Ln. split; [rewrite Z2 by lia|]; destruct (i - n)%nat; try reflexivity; discriminate.
      - cbn in Le. destruct (IH (S n) (set_reg n (Some x) true s2)) as [I1 I2].
        { intros j Hj. cbn. rewrite upd_other by lia. apply Z2. lia. }
        { lia. }
        split.
        + intros L. destruct (I1 ltac:(lia)) as [-> ->]. cbn. rewrite !upd_other by lia. auto.
        + intros L. destruct (Nat.eq_dec i n) as [->|N].
          * rewrite Nat.sub_diag. destruct (I1 ltac:(lia)) as [-> ->]. cbn. rewrite !upd_same. auto.
          * replace (i - n)%nat with (S (i - S n)) by lia. apply I2. lia. }
    destruct (G params 0%nat s1) as [_ G2]; [intros; apply Z1; lia|lia|]. rewrite Nat.sub_0_r in G2. apply G2. lia.
  Qed.
  Lemma start_same s : a_off (start_regs params s) = a_off s /\ a_size (start_regs params s) = a_size s /\ a_cons (start_regs params s) = a_cons s.
  Proof.
    unfold start_regs. apply (fold_keep _ (fun t => a_off t = a_off s /\ a_size t = a_size s /\ a_cons t = a_cons s)); [intros t j _ H; exact H|].
    apply (fold_keep _ (fun t => a_off t = a_off s /\ a_size t = a_size s /\ a_cons t = a_cons s)); [intros t j _ H; exact H|auto].
  Qed.
  Lemma entry_start s : first_state s ->
    normal V g code entry params order live_out cons goff entry [] 0 [] (code entry) (X0 entry) (restart [] (start_regs params s)) /\
    fresh entry (start_regs params s) /\ homes entry (start_regs params s).
  Proof.
    intros (F1 & F2 & F3 & F4). destruct (start_same s) as (S1 & S2 & S3). destruct (v_params _ _ _ _ _ _ _ _ _ _ _ _ OK) as (ND & LP & PL).
    assert (FR : fresh entry (start_regs params s)).
    { intros i v Hi A. destruct (start_vars s i Hi) as [B1 B2]. rewrite B1 in A. split; [reflexivity|]. split; [exact A|eauto]. }
    assert (HO : homes entry (start_regs params s)).
    { intros _ i v N. assert (Hi : (i < 8)%nat) by (assert (i < length params)%nat by (apply nth_error_Some; congruence); lia).
      destruct (start_vars s i Hi) as [B1 B2]. split; [exact Hi|]. split; [congruence|eauto]. }
    split; [|auto]. split; cbn; auto.
    - apply base_restart. split.
      + intros v. rewrite S3, F4. lia.
      + intros v n [U _]. rewrite S3, F4. exact U.
      + rewrite S2, F3. lia.
      + intros v L. rewrite S1, F1 by exact L. congruence.
      + intros u v L _ _. rewrite S1, F1 by exact L. congruence.
      + intros v G. rewrite S1. auto.
      + intros i v Hi A _. destruct (FR i v Hi A) as (_ & N & _). apply nth_error_In in N. split; [apply PL; exact N|]. right. auto.
      + intros v L. rewrite S1, F1 by exact L. congruence.
    - intros i j v Hi Hj A1 A2 _. destruct (FR i v Hi A1) as (_ & N1 & _). destruct (FR j v Hj A2) as (_ & N2 & _).
      eapply (proj1 (NoDup_nth_error params) ND); [apply nth_error_Some|]; congruence.
    - intros v L Xv _. left. apply X0_entry in Xv. apply In_nth_error in Xv. destruct Xv as [i N]. exists i. destruct (HO eq_refl i v N) as (H1 & H2 & _). auto.
    - intros i v Hi A P. destruct (FR i v Hi A) as (_ & _ & Q). congruence.
    - intros p i Ep. destruct p; discriminate.
  Qed.
  Lemma func_blocks s l sF : first_state s -> cblocks [] order [] (start_regs params s) = true -> ablocks [] order [] (start_regs params s) = Some (l, sF) ->
    between (rev order) sF /\ mono (start_regs params s) sF /\ map fst l = order /\ (ext V offF sF -> all_simulated l).
  Proof.
    intros FS CF H. destruct (o_start _ _ _ _ _ _ _ _ _ _ _ _ OK) as [rest E]. destruct (entry_start s FS) as (HN & FR & HO).
    remember (start_regs params s) as s0 eqn:E0. clear E0. rewrite E in H, CF. cbn [alloc_blocks careful_blocks] in H, CF.
    apply andb_prop in CF. destruct CF as [CF1 CF2]. fold (restart [] s0) in CF1.
    destruct (ablock [] entry [] s0) as [s1|] eqn:EB; [|discriminate]. destruct (ablocks [entry] rest [] s1) as [[l' sF']|] eqn:ER; [|discriminate]. injection H as <- <-.
    destruct (o_exit _ _ _ _ _ _ _ _ _ _ _ _ OK) as (_ & _ & NX).
    destruct (block_ok entry [] [] rest [] s0 s1 E) as (R1 & R2 & R3); auto; [reflexivity|].
    assert (BT : between [entry] s1) by (eapply (between_end [] entry s0); eauto; intros p []).
    destruct (blocks_ok rest [entry] [entry] s1 l' sF') as (I1 & I2 & I3 & I4); auto; [discriminate|reflexivity|].
    split; [rewrite E; cbn; exact I1|]. split; [eapply mono_trans; eassumption|]. split; [cbn; congruence|].
    intros EX c cb [Q|I] Nx; [|apply I4; auto]. injection Q as <- <-. apply R3. eapply mono_ext; eassumption.
  Qed.

  (** ** The runs *)
  Variable void : bool.
  Variable exit_prev : list nat.
  Hypothesis EP : forall b, In b order -> (In b exit_prev <-> In exit (succs g b)).
  Definition ret0 : ph2 := ir OP_return (-1) 0 0.
  Definition extra (ep : list nat) (b : nat) : list ph2 :=
    flat_map (fun x => if negb void || ends_in_return code x then [] else if Nat.eqb b x then [ret0] else []) ep.
  Lemma add_returns ep : forall l, fold_left (add_return code void) ep l = map (fun p => (fst p, snd p ++ extra ep (fst p))) l.
  Proof.
    induction ep as [|x ep IH]; intros l; cbn [fold_left].
    - cbn. rewrite <- (map_id l) at 1. apply map_ext. intros [a c]. cbn. rewrite app_nil_r. reflexivity.
    - rewrite IH. unfold add_return. unfold extra at 2. cbn [flat_map]. fold (extra ep). destruct (negb void || ends_in_return code x); [reflexivity|].
      rewrite map_map. apply map_ext. intros [a c]. cbn [fst snd]. destruct (Nat.eqb_spec a x) as [->|N]; cbn [fst snd]; [rewrite <- app_assoc; reflexivity|reflexivity].
  Qed.
  Lemma mblock_goto c c2 m d m' : mblock M c m = Some (MGoto d m') -> mblock M (c ++ c2) m = Some (MGoto d m').
  Proof. revert m. induction c as [|p c IH]; cbn; intros m H; [discriminate|]. destruct (p_op p); auto; destruct (mstep M p m); auto; discriminate. Qed.
  Lemma mblock_fall c c2 m m' : mblock M c m = Some (MFall m') -> mblock M (c ++ c2) m = mblock M c2 m'.
  Proof. revert m. induction c as [|p c IH]; cbn; intros m H; [congruence|]. destruct (p_op p); try discriminate; destruct (mstep M p m); auto; discriminate. Qed.
  Lemma layout (l : list (nat * list ph2)) la b lb : map fst l = la ++ b :: lb -> exists l1 cb l2, l = l1 ++ (b, cb) :: l2 /\ map fst l1 = la /\ map fst l2 = lb.
  Proof.
    revert la. induction l as [|[x c] l IH]; intros [|a la] E; cbn in E; try discriminate; injection E as -> E.
    - exists [], c, l. auto.
    - destruct (IH la E) as (l1 & cb & l2 & -> & E1 & E2). exists ((a, c) :: l1), cb, l2. cbn. rewrite E1. auto.
  Qed.
  Lemma ends_not_falls b e e' : ends_in_return code b = true -> ~ sblock (code b) e (SFall e').
  Proof.
    unfold ends_in_return. destruct (rev (code b)) as [|i r] eqn:E; [discriminate|]. intros H SB. assert (Ec : code b = rev r ++ [i]).
    { rewrite <- (rev_involutive (code b)), E. reflexivity. }
    rewrite Ec in SB. unfold op_is in H. destruct (opcode_eq_dec (i_op (r_insn i)) OP_return) as [Bo|]; [|discriminate]. clear - SB Bo.
    revert e SB. induction (rev r) as [|j l IH]; cbn; intros e SB; inversion SB; subst; eauto.
    match goal with H : sstep _ _ _ _ _ _ _ |- _ => apply sstep_return in H; destruct H; contradiction end.
  Qed.
  Lemma runs_ok l : map fst l = order -> all_simulated l -> forall b e w r,
    sruns M V goff (place M offF) code (g_next g) (g_then g) (g_else g) exit void b e w r -> In b order ->
    forall m, arrives b e m -> mruns M (fold_left (add_return code void) exit_prev l) b m w r.
  Proof.
    intros ML AS b e w r H. rewrite add_returns. set (pg := map (fun p => (fst p, snd p ++ extra exit_prev (fst p))) l).
    assert (PG : forall la b lb, order = la ++ b :: lb -> exists l1 cb l2, pg = l1 ++ (b, cb ++ extra exit_prev b) :: l2 /\ (b <> exit -> simulated b cb) /\ map fst l2 = lb).
    { intros la c lb E. rewrite <- ML in E. destruct (layout l la c lb E) as (l1 & cb & l2 & El & E1 & E2).
      exists (map (fun p => (fst p, snd p ++ extra exit_prev (fst p))) l1), cb, (map (fun p => (fst p, snd p ++ extra exit_prev (fst p))) l2).
      split; [unfold pg; rewrite El, map_app; reflexivity|]. split; [apply AS; rewrite El; apply in_or_app; right; left; reflexivity|]. rewrite map_map. exact E2. }
    clearbody pg.
    assert (EX0 : forall e z, sblock (code exit) e z -> z = SFall e).
    { intros e0 z SB. destruct (o_exit _ _ _ _ _ _ _ _ _ _ _ _ OK) as (E1 & _). rewrite E1 in SB. inversion SB. reflexivity. }
    assert (NXE : g_next g exit = None).
    { destruct (o_exit _ _ _ _ _ _ _ _ _ _ _ _ OK) as (_ & E1 & _). unfold succs in E1. destruct (g_next g exit); [discriminate|reflexivity]. }
    induction H as [b e w r SB|b e e' SB N Vo|b e e' c w r SB N Nc R IH|b e e' x t f w r SB T F R IH]; intros Hb m AR; pose proof (in_split _ _ Hb) as (la & lb & Eo);
      destruct (PG la b lb Eo) as (l1 & cb & l2 & Ep & Sim & El2).
    - assert (Nx : b <> exit) by (intros ->; apply EX0 in SB; discriminate). destruct (Sim Nx e m AR) as (S1 & _).
      eapply mr_return; [exact Ep|]. apply (mblock_ret M). apply S1. exact SB.
    - assert (Nx : b <> exit) by congruence. destruct (Sim Nx e m AR) as (_ & S2 & _). destruct (S2 e' exit SB N) as (m' & ST & [[Q _]|[Q _]]); [contradiction|].
      eapply mr_return; [exact Ep|]. rewrite (mblock_fall _ _ _ _ Q).
      assert (XE : exists rr, extra exit_prev b = ret0 :: rr).
      { assert (I : In b exit_prev) by (apply EP; auto; unfold succs; rewrite N; left; reflexivity). clear - I SB Vo. induction exit_prev as [|y ep IHe]; [contradiction|]. unfold extra. cbn [flat_map]. fold (extra ep b).
        assert (ER : ends_in_return code b = false) by (destruct (ends_in_return code b) eqn:Q; [exfalso; eapply ends_not_falls; eauto|reflexivity]).
        destruct (Nat.eq_dec b y) as [<-|Ny].
        - rewrite Vo, ER. cbn [negb orb]. rewrite Nat.eqb_refl. cbn. eauto.
        - destruct I as [->|I]; [contradiction|]. destruct (IHe I) as [rr Er]. destruct (negb void || ends_in_return code y); [eauto|].
          destruct (Nat.eqb_spec b y); [contradiction|]. eauto. }
      destruct XE as [rr ->]. destruct ST as (W & _). cbn. rewrite W. reflexivity.
    - assert (Nx : b <> exit) by congruence. destruct (Sim Nx e m AR) as (_ & S2 & _).
      assert (Sc : In c (succs g b)) by (unfold succs; rewrite N; left; reflexivity). pose proof (o_closed _ _ _ _ _ _ _ _ _ _ _ _ OK b c Hb Sc) as Hc.
      destruct (S2 e' c SB N) as (m' & ST & [[_ Q]|[Q [Q2|(la' & lb' & Q2)]]]); [|contradiction|].
      + eapply mr_goto; [exact Ep|apply mblock_goto; exact Q|]. apply IH; [exact Hc|]. exact (arrives_succ b c e' m' Hb Sc ST).
      + assert (XE : extra exit_prev b = []).
        { assert (I : ~ In b exit_prev).
          { rewrite (EP b Hb). intros I. destruct (o_shape _ _ _ _ _ _ _ _ _ _ _ _ OK b Hb Nx) as [c' N1 N2 N3 _|? ? ? ? N1]; [|congruence].
            unfold succs in I. rewrite N1, N2, N3 in I. cbn in I. destruct I as [I|[]]. congruence. }
          clear - I. induction exit_prev as [|y ep IHe]; [reflexivity|]. unfold extra. cbn [flat_map]. fold (extra ep b). rewrite IHe by (intros J; apply I; right; exact J).
          destruct (negb void || ends_in_return code y); [reflexivity|]. destruct (Nat.eqb_spec b y) as [->|]; [exfalso; apply I; left; reflexivity|reflexivity]. }
        rewrite XE, app_nil_r in Ep.
        assert (Lb : lb = c :: lb').
        { pose proof (o_nodup _ _ _ _ _ _ _ _ _ _ _ _ OK) as ND. rewrite Eo in Q2, ND. clear - Q2 ND. revert la' Q2. induction la as [|a la IHl]; intros [|a' la'] Q2; cbn in Q2.
          - injection Q2 as ->. reflexivity.
          - exfalso. injection Q2 as -> ->. cbn in ND. inversion ND; subst. apply H1. apply in_or_app. right. left. reflexivity.
          - exfalso. injection Q2 as -> Q2. cbn in ND. inversion ND; subst. apply H1. apply in_or_app. right. left. reflexivity.
          - injection Q2 as -> Q2. cbn in ND. inversion ND; subst. eapply IHl; eauto. }
        rewrite Lb in El2. destruct l2 as [|[c2 cc2] l2]; [discriminate|]. cbn in El2. injection El2 as -> El2.
        eapply mr_fall; [exact Ep|exact Q|]. apply IH; [exact Hc|]. exact (arrives_succ b c e' m' Hb Sc ST).
    - assert (Nx : b <> exit) by (intros ->; apply EX0 in SB; discriminate). destruct (Sim Nx e m AR) as (_ & _ & S3). destruct (S3 x e' t f SB T F) as (m' & ST & Q).
      assert (Sc : In (if m_truth M x then t else f) (succs g b)).
      { unfold succs. rewrite T, F. apply in_or_app. right. destruct (m_truth M x); [left; reflexivity|right; left; reflexivity]. }
      eapply mr_goto; [exact Ep|apply mblock_goto; exact Q|]. apply IH; [eapply (o_closed _ _ _ _ _ _ _ _ _ _ _ _ OK); eauto|]. exact (arrives_succ b _ e' m' Hb Sc ST).
  Qed.
  End Dyn.

  (** ** The function *)
  Context {val world : Type}.
  Variable M : meaning val world.
  Hypothesis LAW : separate_globals M V goff.
  Variable void : bool.
  Variable exit_prev : list nat.
  Hypothesis EP : forall b, In b order -> (In b exit_prev <-> In exit (succs g b)).
  Definition unit_meaning : meaning unit unit :=
    mkmeaning unit unit (fun _ => true) (fun _ => tt) (fun _ => tt) (fun _ => tt) (fun _ => tt) (fun _ _ => None) (fun _ _ _ => None)
      (fun _ _ _ => None) (fun _ _ _ _ => None) (fun _ _ _ => None) (fun _ _ _ => None) (fun _ _ _ => None) (fun _ _ => tt) (fun _ _ _ => tt).
  Lemma unit_law : separate_globals unit_meaning V goff.
  Proof. split; [intros w o x; destruct x; reflexivity|reflexivity]. Qed.
  Theorem func_ok s prog sF : first_state s ->
    careful V live_out killed arity (g_next g) (g_then g) (g_else g) rpo exit code params false order s = true ->
    alloc_func V live_out killed arity (g_next g) (g_then g) (g_else g) rpo exit code exit_prev void params false order s = Some (prog, sF) ->
    forall env m w r,
      (forall v a, s_env env v = Some a -> exists i, nth_error params i = Some v /\ t_reg m i = a) -> s_args env = [] -> s_ret env = None -> t_world m = s_world env ->
      sruns M V goff (place M (a_off sF)) code (g_next g) (g_then g) (g_else g) exit void entry env w r ->
      mruns M prog entry m w r.
  Proof.
    intros FS CF H env m w r EV EA ER EW R. unfold careful in CF. unfold alloc_func in H. cbn [store_params] in CF, H.
    set (s0 := mkra (a_var s) (a_pol s) (a_off s) (a_size s) (a_cons s) [] false 0) in *.
    assert (FS0 : first_state s0) by exact FS.
    assert (C0 : a_code (start_regs params s0) = []).
    { unfold start_regs. apply (fold_keep _ (fun t => a_code t = [])); [intros t j _ Q; exact Q|].
      apply (fold_keep _ (fun t => a_code t = [])); [intros t j _ Q; exact Q|reflexivity]. }
    rewrite C0 in CF, H. clearbody s0.
    destruct (alloc_blocks V live_out killed arity (g_next g) (g_then g) (g_else g) rpo exit code [] order [] (start_regs params s0)) as [[l s']|] eqn:EB; [|discriminate].
    injection H as <- ->.
    destruct (func_blocks unit_meaning (fun _ => 0) ltac:(intros; congruence) unit_law s0 l sF FS0 CF EB) as (BT & _ & ML & _).
    assert (OFF : forall u v, local u -> local v -> a_off sF u = a_off sF v -> a_off sF u <> 0 -> u = v).
    { destruct (bt_base _ _ BT entry) as [B1 B2 B3 B4 B5 B6 B7 B8]. eauto. }
    destruct (func_blocks M (a_off sF) OFF LAW s0 l sF FS0 CF EB) as (_ & _ & _ & AS).
    assert (Hb : In entry order) by (destruct (o_start _ _ _ _ _ _ _ _ _ _ _ _ OK) as [rest ->]; left; reflexivity).
    eapply (runs_ok M (a_off sF) void exit_prev EP l ML); [apply AS; intros v L; auto|exact R|exact Hb|].
    split; [exact EW|]. split; [exact EA|]. split; [exact ER|]. split; [|split].
    - intros v a E. left. destruct (EV v a E) as (i & N & _). eapply nth_error_In; eassumption.
    - intros _ i v a N E. destruct (EV v a E) as (j & N' & <-). f_equal. destruct (v_params _ _ _ _ _ _ _ _ _ _ _ _ OK) as (ND & _).
      eapply (proj1 (NoDup_nth_error params) ND); [apply nth_error_Some|]; congruence.
    - intros v a _ E _. left. split; [reflexivity|]. destruct (EV v a E) as (i & N & _). eapply nth_error_In; eassumption.
  Qed.
End Func.
