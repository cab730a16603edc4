(** What SsaForm says about the result of ssa_build makes it static single assignment form. *)
From Verif.Mid Require Import CfgProofs.
From Verif.Mid Require Export SsaForm.

Lemma walk_cut S a l b : walk S a l b -> forall l1 p l2, l = l1 ++ p :: l2 -> walk S a (l1 ++ [p]) p.
Proof.
  induction 1 as [a|a l b c W IH E]; intros l1 p l2 Q.
  - destruct l1 as [|x [|? ?]]; try discriminate. injection Q as <- _. apply walk_one.
  - destruct l2 as [|x l2 _] using rev_ind.
    + apply app_inj_tail in Q as [<- <-]. eapply walk_step; eassumption.
    + rewrite app_comm_cons, app_assoc in Q. apply app_inj_tail in Q as [Q _]. exact (IH l1 p l2 Q).
Qed.
Lemma walk_final S a l b : walk S a l b -> exists m, l = m ++ [b].
Proof. destruct 1 as [a|a l b c W E]; [exists []; reflexivity|eauto]. Qed.
Lemma walk_last S a l b : walk S a (l ++ [b]) b -> (l = [] /\ a = b) \/ exists l1 p, l = l1 ++ [p] /\ In b (S p) /\ walk S a (l1 ++ [p]) p.
Proof.
  intros W. remember (l ++ [b]) as m eqn:E. destruct W as [a|a m b c W Ed].
  - left. destruct l as [|x [|? ?]]; try discriminate. auto.
  - right. apply app_inj_tail in E as [-> _]. destruct (walk_final _ _ _ _ W) as [l1 ->]. eauto.
Qed.
Lemma targets_In l d : In d (targets l) <-> exists i, In i l /\ i_rd (r_insn i) = Some d.
Proof.
  unfold targets. rewrite in_flat_map. split; intros (i & J & Q); exists i; (split; [exact J|]); [|rewrite Q; left; reflexivity].
  destruct (i_rd (r_insn i)) as [x|]; [destruct Q as [->|[]]; reflexivity|destruct Q].
Qed.
Lemma targets_app l m : targets (l ++ m) = targets l ++ targets m.
Proof. apply flat_map_app. Qed.

Lemma nodup_parts {A} (l m : list A) : NoDup (l ++ m) -> NoDup l /\ NoDup m /\ forall x, In x l -> In x m -> False.
Proof.
  induction l as [|a l IH]; intros H; [split; [constructor|split; [exact H|intros x []]]|]. cbn [app] in H. apply NoDup_cons_iff in H as [N H].
  destruct (IH H) as (A1 & A2 & A3). split; [constructor; [intros J; apply N, in_or_app; auto|exact A1]|]. split; [exact A2|].
  intros x [<-|J] Jm; [apply N, in_or_app; auto|exact (A3 x J Jm)].
Qed.
Lemma target_once f l : NoDup (filter f (targets l)) -> forall k j i i' d, nth_error l k = Some i -> nth_error l j = Some i' ->
  i_rd (r_insn i) = Some d -> i_rd (r_insn i') = Some d -> f d = true -> k = j.
Proof.
  induction l as [|a l IH]; intros H k j i i' d K J E E' Fd; [destruct k; discriminate|]. change (a :: l) with ([a] ++ l) in H. rewrite targets_app, filter_app in H.
  destruct (nodup_parts _ _ H) as (_ & H2 & H3).
  assert (Z : forall n i, nth_error l n = Some i -> i_rd (r_insn i) = Some d -> i_rd (r_insn a) = Some d -> False).
  { intros n e Q1 Q2 Q3. apply (H3 d); apply filter_In; (split; [apply targets_In|exact Fd]); [exists a; split; [left; reflexivity|exact Q3]|exists e; split; [eapply nth_error_In; exact Q1|exact Q2]]. }
  destruct k as [|k]; destruct j as [|j]; cbn [nth_error] in K, J; [reflexivity|injection K as ->; destruct (Z _ _ J E' E)|injection J as ->; destruct (Z _ _ K E E')|].
  f_equal. eapply (IH H2); eassumption.
Qed.
Lemma nth_between {A} (l m r : list A) k i : nth_error (l ++ m ++ r) k = Some i ->
  In i m \/ exists k', nth_error (l ++ r) k' = Some i /\ k = if (k' <? length l)%nat then k' else (k' + length m)%nat.
Proof.
  intros H. destruct (Nat.ltb_spec k (length l)) as [Q|Q].
  - right. exists k. rewrite nth_error_app1 in H |- * by exact Q. split; [exact H|]. destruct (Nat.ltb_spec k (length l)); [reflexivity|lia].
  - rewrite nth_error_app2 in H by exact Q. destruct (Nat.ltb_spec (k - length l) (length m)) as [Q'|Q'].
    + left. rewrite nth_error_app1 in H by exact Q'. eapply nth_error_In. exact H.
    + right. rewrite nth_error_app2 in H by exact Q'. exists (k - length m)%nat. rewrite nth_error_app2 by lia. replace (k - length m - length l)%nat with (k - length l - length m)%nat by lia.
      split; [exact H|]. destruct (Nat.ltb_spec (k - length m) (length l)); lia.
Qed.

Section Once.
  Variable V : vars.
  Variable g : cfg.
  Variables entry exit : nat.
  Variable params : list nat.
  Variable nvars : nat.
  Variable code : nat -> list rinsn.
  Notation R := (reach (succs g) entry).
  Hypothesis I : ssa_shape V g entry exit params nvars code.
  Variable B : nat -> nat.
  Variable code' : nat -> list rinsn.
  Variable ps : list nat.
  Variables Nin Nout : nat -> names.
  Variables O P : nat -> list nat.
  Variable cs : nat -> list (nat * nat).
  Variable S : nat -> list rinsn.
  Variable L : list nat.
  Hypothesis F : form0 V g entry params nvars code B code' ps Nin Nout O P cs.
  Hypothesis M : more V g entry nvars code B code' ps Nin Nout O P cs S L.
  Notation V' := (versions V B).
  Notation copies c := (map (fun e => copy (fst e) (snd e)) (cs c)).

  Lemma ren_gets m l l' m' x d : ren V B m l l' m' -> m' x = Some d -> m x = Some d \/ In d (targets l').
  Proof.
    induction 1 as [m m' K|m i i' m1 l l' m2 H1 H2 IH]; intros Q; [left; rewrite <- K; exact Q|].
    change (i' :: l') with ([i'] ++ l'). rewrite targets_app, in_app_iff. destruct (IH Q) as [Q'|Q']; [|auto].
    pose proof (n_rd _ _ _ _ _ _ H1) as D. destruct (i_rd (r_insn i)) as [y|]; [destruct (v_global V y)|].
    - left. destruct D as [_ K]. rewrite <- K. exact Q'.
    - destruct D as (e & Ee & _ & K). rewrite K in Q'. destruct (Nat.eqb x y); [|auto]. right. left. apply targets_In. exists i'. split; [left; reflexivity|congruence].
    - left. destruct D as [_ K]. rewrite <- K. exact Q'.
  Qed.
  Lemma renp_gets m l l' m' x d : renp B m l l' m' -> m' x = Some d -> m x = Some d \/ In d l'.
  Proof.
    induction 1 as [m m' K|m y e m1 l l' m2 H0 H1 H2 IH]; intros Q; [left; rewrite <- K; exact Q|].
    destruct (IH Q) as [Q'|Q']; [|right; right; exact Q']. rewrite H1 in Q'. destruct (Nat.eqb x y); [right; left; congruence|auto].
  Qed.
  Lemma src_gets m f o o' v : src V m f o o' -> o' = Some v -> v_global V' v = false -> (forall x, o = Some x -> (x < nvars)%nat) ->
    (exists x, m x = Some v) \/ (v < nvars)%nat /\ f v = true.
  Proof.
    intros H E Gv Lx. destruct o as [x|]; cbn [src] in H; [|congruence]. destruct (f x || v_global V x) eqn:Q.
    - right. assert (x = v) by congruence. subst v. cbn in Gv. pose proof (Lx x eq_refl) as L1. rewrite (fo_low _ _ _ _ _ _ _ _ _ _ _ _ _ _ F x L1) in *.
      rewrite Gv, orb_false_r in Q. auto.
    - destruct H as (d & A & Ed). left. exists x. congruence.
  Qed.
  (** what an instruction reads is a name from before the block, a target of the same block, or a function *)
  Definition func_name (i : rinsn) (v : nat) : Prop := (v < nvars)%nat /\ v_func V v <> None /\ i_rs2 (r_insn i) = Some v.
  Lemma ren_reads m l l1 i' l2 m' v : ren V B m l (l1 ++ i' :: l2) m' -> (forall i x, In i (map r_insn l) -> reads i x -> (x < nvars)%nat) ->
    reads (r_insn i') v -> v_global V' v = false -> (exists x, m x = Some v) \/ In v (targets l1) \/ func_name i' v.
  Proof.
    intros H Lv Rv Gv. remember (l1 ++ i' :: l2) as l' eqn:E. revert l1 E. induction H as [m m' K|m i j m1 l l' m2 H1 H2 IH]; intros l1 E; [destruct l1; discriminate|].
    destruct l1 as [|a l1]; injection E as -> ->.
    - destruct Rv as [Q|Q].
      + destruct (src_gets m (fun _ => false) _ _ v (n_rs1 _ _ _ _ _ _ H1) Q Gv) as [Z|[_ Z]]; [|auto|discriminate]. intros x Ex. apply (Lv (r_insn i) x (or_introl eq_refl)). left. exact Ex.
      + destruct (src_gets m (is_func V) _ _ v (n_rs2 _ _ _ _ _ _ H1) Q Gv) as [Z|[Z1 Z2]]; [|auto|].
        * intros x Ex. apply (Lv (r_insn i) x (or_introl eq_refl)). right. exact Ex.
        * right. right. split; [exact Z1|]. split; [|exact Q]. unfold is_func in Z2. destruct (v_func V v); discriminate.
    - change (a :: l1) with ([a] ++ l1). rewrite targets_app, in_app_iff. destruct (IH (fun k x J => Lv k x (or_intror J)) l1 eq_refl) as [[x Q]|[Q|Q]]; [|auto|auto].
      destruct (ren_gets m [i] [a] m1 x v (ren_cons V B m i a m1 [] [] m1 H1 (ren_nil V B m1 m1 (fun _ => eq_refl))) Q) as [Z|Z]; eauto.
  Qed.
  Lemma code_In c i : R c -> (In i (code' c) <-> In i (S c) \/ exists d n, In (d, n) (cs c) /\ i = copy d n).
  Proof.
    intros Rc. destruct (mo_block _ _ _ _ _ _ _ _ _ _ _ _ _ _ _ M c Rc) as (m1 & bf & af & _ & _ & E1 & E2 & _). rewrite E1, E2, !in_app_iff, in_map_iff. split.
    - intros [J|[((d & n) & <- & J)|J]]; eauto.
    - intros [[J|J]|(d & n & J & ->)]; auto. right. left. exists (d, n). auto.
  Qed.
  (** a phi's target is written by a copy on every way into its block *)
  Lemma phi_written c d l : R c -> In d (P c) -> walk (succs g) entry (l ++ [c]) c -> exists p j, In p l /\ In j (code' p) /\ i_rd (r_insn j) = Some d.
  Proof.
    intros Rc J W. destruct (walk_last _ _ _ _ W) as [[_ <-]|(l1 & p & -> & Ec & W1)].
    - exfalso. destruct (mo_block _ _ _ _ _ _ _ _ _ _ _ _ _ _ _ M entry Rc) as (m1 & bf & af & Q & _). rewrite (fo_entry _ _ _ _ _ _ _ _ _ _ _ _ _ _ F) in Q.
      inversion Q as [m m' K E1 E2 E3|]; subst. rewrite <- E3 in J. destruct J.
    - assert (Rp : R p) by (eapply walk_reach; exact W1). pose proof (fo_phi _ _ _ _ _ _ _ _ _ _ _ _ _ _ F p c Rp Ec) as H.
      assert (X : exists n, In (d, n) (cs p)). { clear - H J. induction H as [|x e l l' (n & Q & _) H IH]; [destruct J|]. destruct J as [<-|J]; [eauto|auto]. }
      destruct X as [n X]. exists p, (copy d n). split; [apply in_or_app; right; left; reflexivity|]. split; [|reflexivity]. apply code_In; [exact Rp|]. right. eauto.
  Qed.
  Definition given (l : list nat) (v : nat) : Prop := exists c j, In c l /\ In j (code' c) /\ i_rd (r_insn j) = Some v.
  Lemma walk_R l b c : walk (succs g) entry (l ++ [b]) b -> In c l -> R c.
  Proof. intros W J. apply in_split in J as (l1 & l2 & ->). rewrite <- app_assoc in W. cbn [app] in W. eapply walk_reach. eapply walk_cut; [exact W|reflexivity]. Qed.
  Lemma names_given c : R c -> forall x d, Nin c x = Some d -> In d ps \/ forall l, walk (succs g) entry (l ++ [c]) c -> given l d.
  Proof.
    intros Rc. apply (mo_ind _ _ _ _ _ _ _ _ _ _ _ _ _ _ _ M (fun c => forall x d, Nin c x = Some d -> In d ps \/ forall l, walk (succs g) entry (l ++ [c]) c -> given l d)); [| |exact Rc].
    - intros x d Q. destruct (fo_start _ _ _ _ _ _ _ _ _ _ _ _ _ _ F x d Q) as (j & _ & Ej). left. eapply nth_error_In. exact Ej.
    - clear c Rc. intros c p Rc Nc Rp Np Dm K IH x d Q. rewrite K in Q. destruct (mo_block _ _ _ _ _ _ _ _ _ _ _ _ _ _ _ M p Rp) as (m1 & bf & af & Q1 & Q2 & _).
      assert (Cut : forall l, walk (succs g) entry (l ++ [c]) c -> exists l1 l2, l = l1 ++ p :: l2 /\ walk (succs g) entry (l1 ++ [p]) p).
      { intros l W. pose proof (Dm _ W) as J. apply in_app_or in J as [J|[J|[]]]; [|congruence]. apply in_split in J as (l1 & l2 & ->). exists l1, l2. split; [reflexivity|].
        rewrite <- app_assoc in W. cbn [app] in W. eapply walk_cut; [exact W|reflexivity]. }
      destruct (ren_gets _ _ _ _ x d Q2 Q) as [Z|Z]; [destruct (renp_gets _ _ _ _ x d Q1 Z) as [Y|Y]|].
      + destruct (IH x d Y) as [H|H]; [auto|]. right. intros l W. destruct (Cut l W) as (l1 & l2 & -> & W1). destruct (H l1 W1) as (a & j & J & Z1). exists a, j. split; [apply in_or_app; auto|exact Z1].
      + right. intros l W. destruct (Cut l W) as (l1 & l2 & -> & W1). destruct (phi_written p d l1 Rp Y W1) as (a & j & J & Z1). exists a, j. split; [apply in_or_app; auto|exact Z1].
      + right. intros l W. destruct (Cut l W) as (l1 & l2 & -> & W1). apply targets_In in Z as (j & J & Ej). exists p, j. split; [apply in_or_app; right; left; reflexivity|]. split; [|exact Ej]. apply code_In; auto.
  Qed.
  Lemma once_strict b l1 i l2 v : R b -> code' b = l1 ++ i :: l2 -> reads (r_insn i) v -> v_global V' v = false ->
    forall l, walk (succs g) entry (l ++ [b]) b -> In v ps \/ given l v \/ In v (targets l1) \/ func_name i v.
  Proof.
    intros Rb E Rv Gv l W. destruct (mo_block _ _ _ _ _ _ _ _ _ _ _ _ _ _ _ M b Rb) as (m1 & bf & af & Q1 & Q2 & E1 & E2 & Af).
    assert (Lv : forall i x, In i (map r_insn (code b)) -> reads i x -> (x < nvars)%nat) by (intros k x J Q; apply (si_vars _ _ _ _ _ _ _ I b k x Rb J); auto).
    assert (Nm : forall x, m1 x = Some v -> In v ps \/ given l v).
    { intros x Q. destruct (renp_gets _ _ _ _ x v Q1 Q) as [Y|Y].
      - destruct (names_given b Rb x v Y) as [H|H]; auto.
      - right. destruct (phi_written b v l Rb Y W) as (a & j & Z). exists a, j. exact Z. }
    (* before the copies, among them, or the branch *)
    assert (X : (exists m, l1 = bf ++ m /\ In i (copies b ++ af)) \/ exists m, bf = l1 ++ i :: m).
    { rewrite E2 in E. clear - E. revert E. generalize (copies b ++ af). intros r. revert l1. induction bf as [|a bf IH]; intros l1 E.
      - left. exists l1. split; [reflexivity|]. cbn in E. rewrite E. apply in_or_app. right. left. reflexivity.
      - destruct l1 as [|a' l1]; injection E as -> E; [right; exists bf; reflexivity|]. destruct (IH l1 E) as [(m & -> & J)|(m & ->)]; [left; exists m; auto|right; exists m; reflexivity]. }
    destruct X as [(m & -> & J)|(m & ->)].
    - rewrite targets_app. apply in_app_or in J as [J|J].
      + apply in_map_iff in J as ((d & n) & <- & J). cbn in Rv. destruct Rv as [Rv|Rv]; [|discriminate]. injection Rv as ->.
        destruct (fo_copies _ _ _ _ _ _ _ _ _ _ _ _ _ _ F b d v Rb J) as [Q _]. destruct (ren_gets _ _ _ _ (B d) v Q2 Q) as [Z|Z].
        * destruct (Nm _ Z) as [Y|Y]; auto.
        * rewrite E1, targets_app in Z. apply in_app_or in Z as [Z|Z]; [right; right; left; apply in_or_app; auto|exfalso].
          destruct Af as [->|(k & -> & Bk)]; [destruct Z|]. cbn in Z. apply branch_op in Bk.
          assert (Nk : i_rd (r_insn k) = None).
          { clear - E1 Q2 Bk I Rb. rewrite E1 in Q2. assert (X : exists j, In j (code b) /\ i_op (r_insn j) = i_op (r_insn k) /\ (i_rd (r_insn j) = None -> i_rd (r_insn k) = None)).
            { clear E1. revert Q2. generalize (code b) m1. induction bf as [|a bf IH]; intros l m H; inversion H as [|? j ? m2 l0 ? ? H1 H2]; subst.
              - exists j. split; [left; reflexivity|]. split; [symmetry; apply (n_op _ _ _ _ _ _ H1)|]. intros Z. pose proof (n_rd _ _ _ _ _ _ H1) as D. rewrite Z in D. apply D.
              - destruct (IH _ _ H2) as (j' & J & Z). exists j'. split; [right; exact J|exact Z]. }
            destruct X as (j & J & O1 & O2). apply O2. apply (si_dest _ _ _ _ _ _ _ I b (r_insn j) Rb); [apply in_map; exact J|]. rewrite O1, Bk. cbn. auto 10. }
          rewrite Nk in Z. destruct Z.
      + destruct Af as [->|(k & -> & Bk)]; [destruct J|]. destruct J as [<-|[]]. rewrite E1 in Q2.
        destruct (ren_reads _ _ bf k [] _ v Q2 Lv Rv Gv) as [[x Q]|[Q|Q]]; [destruct (Nm x Q); auto|right; right; left; apply in_or_app; auto|auto].
    - rewrite E1, <- app_assoc in Q2. cbn [app] in Q2. destruct (ren_reads _ _ l1 i (m ++ af) _ v Q2 Lv Rv Gv) as [[x Q]|Q]; [destruct (Nm x Q); auto|auto].
  Qed.

  (** ** once *)
  Notation big := (fun d => (nvars <=? d)%nat).
  Notation made c := (P c ++ targets (S c)).
  Lemma made_once b : R b -> NoDup (filter big (made b)).
  Proof.
    intros Rb. apply (mo_list _ _ _ _ _ _ _ _ _ _ _ _ _ _ _ M) in Rb. pose proof (mo_new _ _ _ _ _ _ _ _ _ _ _ _ _ _ _ M) as H. apply nodup_parts in H as (_ & H & _).
    apply in_split in Rb as (l1 & l2 & E). rewrite E, flat_map_app, filter_app in H. apply nodup_parts in H as (_ & H & _). cbn [flat_map] in H. rewrite filter_app in H.
    apply nodup_parts in H as (H & _). exact H.
  Qed.
  Lemma made_apart b c d : R b -> R c -> b <> c -> (nvars <= d)%nat -> In d (made b) -> In d (made c) -> False.
  Proof.
    intros Rb Rc N Ld. apply (mo_list _ _ _ _ _ _ _ _ _ _ _ _ _ _ _ M) in Rb, Rc. pose proof (mo_new _ _ _ _ _ _ _ _ _ _ _ _ _ _ _ M) as H. apply nodup_parts in H as (_ & H & _).
    assert (Z : forall b c, In b L -> In c L -> b <> c -> (exists l1 l2, L = l1 ++ l2 /\ (In b l1 /\ In c l2 \/ In c l1 /\ In b l2))).
    { clear. induction L as [|a l IH]; intros b c J1 J2 N; [destruct J1|]. destruct J1 as [<-|J1]; destruct J2 as [<-|J2]; [congruence| | |].
      - exists [a], l. split; [reflexivity|]. left. split; [left; reflexivity|exact J2].
      - exists [a], l. split; [reflexivity|]. right. split; [left; reflexivity|exact J1].
      - destruct (IH b c J1 J2 N) as (l1 & l2 & -> & [[Q1 Q2]|[Q1 Q2]]); exists (a :: l1), l2; (split; [reflexivity|]); [left|right]; (split; [right; exact Q1|exact Q2]). }
    destruct (Z b c Rb Rc N) as (l1 & l2 & E & Q). rewrite E, flat_map_app, filter_app in H. apply nodup_parts in H as (_ & _ & H).
    intros J1 J2. apply (H d); apply filter_In; (split; [|apply Nat.leb_le; exact Ld]); apply in_flat_map; destruct Q as [[Q1 Q2]|[Q1 Q2]]; eauto.
  Qed.
  Lemma made_param b d : R b -> In d ps -> In d (made b) -> False.
  Proof.
    intros Rb Jp J. pose proof (mo_new _ _ _ _ _ _ _ _ _ _ _ _ _ _ _ M) as H. apply nodup_parts in H as (_ & _ & H). apply (H d Jp). apply filter_In. split.
    - apply in_flat_map. exists b. split; [apply (mo_list _ _ _ _ _ _ _ _ _ _ _ _ _ _ _ M); exact Rb|exact J].
    - apply Nat.leb_le. apply (mo_version _ _ _ _ _ _ _ _ _ _ _ _ _ _ _ M). auto.
  Qed.
  Lemma phi_target b c d : R b -> R c -> In d (P b) -> In d (targets (S c)) -> False.
  Proof.
    intros Rb Rc J1 J2. assert (Ld : (nvars <= d)%nat) by (apply (mo_version _ _ _ _ _ _ _ _ _ _ _ _ _ _ _ M); eauto).
    destruct (Nat.eq_dec b c) as [->|N]; [|apply (made_apart b c d Rb Rc N Ld); apply in_or_app; auto].
    pose proof (made_once c Rc) as H. rewrite filter_app in H. apply nodup_parts in H as (_ & _ & H). apply (H d); apply filter_In; (split; [assumption|apply Nat.leb_le; exact Ld]).
  Qed.
  Lemma S_plain b i : R b -> In i (S b) -> i_op (r_insn i) <> OP_unwound_phi.
  Proof.
    intros Rb J. destruct (mo_block _ _ _ _ _ _ _ _ _ _ _ _ _ _ _ M b Rb) as (m1 & bf & af & _ & Q2 & _).
    assert (X : exists j, In j (code b) /\ i_op (r_insn i) = i_op (r_insn j)).
    { clear - J Q2. induction Q2 as [|m j i' m1 l l' m2 H1 H2 IH]; [destruct J|]. destruct J as [<-|J]; [exists j; split; [left; reflexivity|apply (n_op _ _ _ _ _ _ H1)]|].
      destruct (IH J) as (j' & Q & E). exists j'. split; [right; exact Q|exact E]. }
    destruct X as (j & Jj & ->). apply (si_plain _ _ _ _ _ _ _ I b (r_insn j) Rb). apply in_map. exact Jj.
  Qed.
  Lemma local_version b d : R b -> In d (targets (S b)) -> v_global V' d = false -> (nvars <= d)%nat.
  Proof.
    intros Rb J Gd. destruct (Nat.ltb_spec d nvars) as [Ld|Ld]; [exfalso|exact Ld]. pose proof (mo_low _ _ _ _ _ _ _ _ _ _ _ _ _ _ _ M b d Rb J Ld) as Q. cbn in Gd.
    rewrite (fo_low _ _ _ _ _ _ _ _ _ _ _ _ _ _ F d Ld) in Gd. congruence.
  Qed.
  Lemma copy_phi p d n : R p -> In (d, n) (cs p) -> exists c, R c /\ In c (succs g p) /\ In d (P c).
  Proof. intros Rp J. destruct (mo_copy _ _ _ _ _ _ _ _ _ _ _ _ _ _ _ M p d n Rp J) as (c & E & Jc). exists c. split; [eapply reach_step; eassumption|auto]. Qed.
  (** an instruction is one of the block, or a copy *)
  Lemma which b k i : R b -> nth_error (code' b) k = Some i ->
    (exists d n, In (d, n) (cs b) /\ i = copy d n) \/ In i (S b) /\ i_op (r_insn i) <> OP_unwound_phi.
  Proof.
    intros Rb H. apply nth_error_In in H. apply (code_In b i Rb) in H as [H|H]; [right; split; [exact H|exact (S_plain b i Rb H)]|auto].
  Qed.
  Theorem once_single b c k j i i' v : R b -> R c -> nth_error (code' b) k = Some i -> nth_error (code' c) j = Some i' ->
    i_rd (r_insn i) = Some v -> i_rd (r_insn i') = Some v -> v_global V' v = false ->
    (b = c /\ k = j) \/ i_op (r_insn i) = OP_unwound_phi /\ i_op (r_insn i') = OP_unwound_phi.
  Proof.
    intros Rb Rc K J E E' Gv. destruct (which b k i Rb K) as [(d & n & Q & ->)|[Q Nq]]; destruct (which c j i' Rc J) as [(d' & n' & Q' & ->)|[Q' Nq']].
    - right. auto.
    - exfalso. cbn in E. injection E as ->. destruct (copy_phi b v n Rb Q) as (e & Re & _ & Je). apply (phi_target e c v Re Rc Je). apply targets_In. eauto.
    - exfalso. cbn in E'. injection E' as ->. destruct (copy_phi c v n' Rc Q') as (e & Re & _ & Je). apply (phi_target e b v Re Rb Je). apply targets_In. eauto.
    - left. assert (T1 : In v (targets (S b))) by (apply targets_In; eauto). assert (T2 : In v (targets (S c))) by (apply targets_In; eauto).
      assert (Lv : (nvars <= v)%nat) by exact (local_version b v Rb T1 Gv).
      destruct (Nat.eq_dec b c) as [<-|N]; [|exfalso; apply (made_apart b c v Rb Rc N Lv); apply in_or_app; auto]. split; [reflexivity|].
      destruct (mo_block _ _ _ _ _ _ _ _ _ _ _ _ _ _ _ M b Rb) as (m1 & bf & af & _ & _ & E1 & E2 & _). rewrite E2 in K, J.
      assert (Nc : forall i, i_op (r_insn i) <> OP_unwound_phi -> ~ In i (copies b)) by (intros e Ne Je; apply in_map_iff in Je as (q & <- & _); apply Ne; reflexivity).
      apply nth_between in K as [K|(k' & K & ->)]; [destruct (Nc _ Nq K)|]. apply nth_between in J as [J|(j' & J & ->)]; [destruct (Nc _ Nq' J)|].
      rewrite <- E1 in K, J. pose proof (made_once b Rb) as H. rewrite filter_app in H. apply nodup_parts in H as (_ & H & _).
      rewrite (target_once _ _ H k' j' i i' v K J E E' (proj2 (Nat.leb_le _ _) Lv)). reflexivity.
  Qed.
  Lemma plain_nth b k i : nth_error (plain_code code' b) k = Some i -> exists r, nth_error (code' b) k = Some r /\ r_insn r = i.
  Proof. unfold plain_code. rewrite nth_error_map. destruct (nth_error (code' b) k) as [r|]; [|discriminate]. intros Q. injection Q as <-. eauto. Qed.
  Lemma plain_In b i : In i (plain_code code' b) -> exists r, In r (code' b) /\ r_insn r = i.
  Proof. intros J. apply in_map_iff in J as (r & <- & J). eauto. Qed.
  Lemma func_dec i v : func_name i v \/ ~ func_name i v.
  Proof.
    unfold func_name. destruct (Nat.ltb_spec v nvars) as [L1|L1]; [|right; intros (Z & _); lia]. destruct (v_func V v) as [x|]; [|right; tauto].
    destruct (i_rs2 (r_insn i)) as [y|]; [|right; intros (_ & _ & Z); discriminate]. destruct (Nat.eq_dec y v) as [->|N]; [left; repeat split; [exact L1|discriminate]|right; intros (_ & _ & Z); congruence].
  Qed.
  Theorem once_form : ssa_form V' g entry ps code'.
  Proof.
    constructor.
    - intros b c k j i i' v Rb Rc K J. apply plain_nth in K as (r & K & <-). apply plain_nth in J as (r' & J & <-). apply (once_single b c k j r r' v); assumption.
    - split; [apply nodup_parts with (1 := mo_new _ _ _ _ _ _ _ _ _ _ _ _ _ _ _ M)|]. intros b i v Rb J E Jp. apply plain_In in J as (r & J & <-). apply (code_In b r Rb) in J as [J|(d & n & J & ->)].
      + apply (made_param b v Rb Jp). apply in_or_app. right. apply targets_In. eauto.
      + cbn in E. injection E as ->. destruct (copy_phi b v n Rb J) as (c & Rc & _ & Jc). apply (made_param c v Rc Jp). apply in_or_app. auto.
    - intros b k i v Rb K Rv Gv. apply plain_nth in K as (r & K & <-). apply nth_error_split in K as (l1 & l2 & E & Lk).
      destruct (func_dec r v) as [(Lv & Fv & Q)|Nf].
      { right. split; [exact Q|]. split; [cbn; rewrite (fo_low _ _ _ _ _ _ _ _ _ _ _ _ _ _ F v Lv); exact Fv|]. split.
        - intros J. pose proof (mo_version _ _ _ _ _ _ _ _ _ _ _ _ _ _ _ M v (or_introl J)). lia.
        - intros c j Rc Jj Ej. apply plain_In in Jj as (q & Jq & <-). apply (code_In c q Rc) in Jq as [Jq|(d & n & Jq & ->)].
          + assert (nvars <= v)%nat by (apply (local_version c v Rc); [apply targets_In; eauto|exact Gv]). lia.
          + cbn in Ej. injection Ej as ->. destruct (copy_phi c v n Rc Jq) as (c' & Rc' & _ & Jc').
            assert (nvars <= v)%nat by (apply (mo_version _ _ _ _ _ _ _ _ _ _ _ _ _ _ _ M); eauto). lia. }
      left. intros l W. destruct (once_strict b l1 r l2 v Rb E Rv Gv l W) as [H|[(c & j & Jc & Jj & Ej)|[H|H]]]; [auto| | |contradiction]; right.
      + exists (r_insn j). split; [|exact Ej]. apply in_or_app. left. apply in_flat_map. exists c. split; [exact Jc|]. apply in_map. exact Jj.
      + apply targets_In in H as (j & Jj & Ej). exists (r_insn j). split; [|exact Ej]. apply in_or_app. right. unfold plain_code. rewrite E, map_app, firstn_app, map_length, <- Lk, Nat.sub_diag.
        rewrite firstn_all2 by (rewrite map_length; lia). apply in_or_app. left. apply in_map. exact Jj.
    - intros b i v Rb J Op E. apply plain_In in J as (r & J & <-). apply (code_In b r Rb) in J as [J|(d & n & J & ->)]; [destruct (S_plain b r Rb J Op)|]. cbn in E. injection E as ->.
      split; [exact (proj2 (fo_copies _ _ _ _ _ _ _ _ _ _ _ _ _ _ F b v n Rb J))|].
      destruct (copy_phi b v n Rb J) as (c & Rc & Ec & Jc). exists c. intros p Rp. split.
      + intros Ep. pose proof (fo_phi _ _ _ _ _ _ _ _ _ _ _ _ _ _ F p c Rp Ep) as H.
        assert (X : exists n, In (v, n) (cs p)). { clear - H Jc. induction H as [|x e l l' (m & Q & _) H IH]; [destruct Jc|]. destruct Jc as [<-|Jc]; [eauto|auto]. }
        destruct X as [m X]. exists (r_insn (copy v m)). split; [|reflexivity]. apply in_map. apply code_In; [exact Rp|]. right. eauto.
      + intros (j & Jj & Ej). apply plain_In in Jj as (q & Jq & <-). apply (code_In p q Rp) in Jq as [Jq|(d & m & Jq & ->)].
        * exfalso. apply (phi_target c p v Rc Rp Jc). apply targets_In. eauto.
        * cbn in Ej. injection Ej as ->. destruct (copy_phi p v m Rp Jq) as (c' & Rc' & Ec' & Jc'). destruct (Nat.eq_dec c' c) as [->|N]; [exact Ec'|exfalso].
          apply (made_apart c' c v Rc' Rc N); [apply (mo_version _ _ _ _ _ _ _ _ _ _ _ _ _ _ _ M); eauto| |]; apply in_or_app; auto.
    - intros b l1 i l2 j Rb E Op J. destruct (mo_block _ _ _ _ _ _ _ _ _ _ _ _ _ _ _ M b Rb) as (m1 & bf & af & _ & _ & E1 & E2 & Af).
      unfold plain_code in E. rewrite E2, !map_app in E.
      assert (Nb : ~ In i (map r_insn bf)). { intros Z. apply in_map_iff in Z as (r & <- & Z). apply (S_plain b r Rb); [rewrite E1; apply in_or_app; auto|exact Op]. }
      assert (Jr : In j (map r_insn (copies b) ++ map r_insn af)).
      { clear - E Nb J. revert l1 E. induction (map r_insn bf) as [|a l IH]; intros l1 E; [cbn in E; rewrite E; apply in_or_app; right; right; exact J|].
        destruct l1 as [|a' l1]; injection E as -> E; [destruct Nb; left; reflexivity|]. apply (IH (fun Z => Nb (or_intror Z)) l1 E). }
      apply in_app_or in Jr as [Jr|Jr].
      + left. apply in_map_iff in Jr as (r & <- & Jr). apply in_map_iff in Jr as (q & <- & _). reflexivity.
      + right. destruct Af as [->|(r & -> & Br)]; [destruct Jr|]. destruct Jr as [<-|[]]. apply branch_op. exact Br.
  Qed.
End Once.
Theorem build_once V in_scope declared temp g entry exit params nvars code :
  ssa_shape V g entry exit params nvars code ->
  forall blocks, (forall b, reach (succs g) entry b -> In b blocks) ->
  forall fuel n a, (2 * length blocks < fuel)%nat -> (length blocks * (length blocks + 1) < n)%nat ->
  ssa_build fuel n V in_scope declared temp g entry exit params nvars code = Some a ->
  ssa_form (versions V (ss_base a)) g entry (ss_params a) (ss_code a).
Proof.
  intros I blocks HU fuel n a F1 F2 H. destruct (build_form V in_scope declared temp g entry exit params nvars code I blocks HU fuel n a F1 F2 H) as (Nin & Nout & O & P & cs & F & _ & S & L & M).
  eapply once_form; eassumption.
Qed.
