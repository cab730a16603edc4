(** What the renaming of bb_solve_phi_params amounts to: every block is renamed from the names valid at the end of its immediate
    dominator, and every edge gives each phi of its target the name valid at the end of its source. *)
From Verif.Mid Require Import CfgProofs DomProofs.
From Verif.Mid Require Export Ssa SsaSpec.

(** the current version of each variable *)
Definition names := nat -> option nat.
Section Relations.
  Variable V : vars.
  Variable B : nat -> nat.
  Definition gives_to (m : names) (x d : nat) (m' : names) : Prop := forall y, m' y = if Nat.eqb y x then Some d else m y.
  Definition keeps (m m' : names) : Prop := forall y : nat, m' y = m y.
  (** an operand, renamed *)
  Definition src (m : names) (f : nat -> bool) (o o' : option nat) : Prop :=
    match o with
    | None => o' = None
    | Some x => if f x || v_global V x then o' = Some x else exists d, m x = Some d /\ o' = Some d
    end.
  Record ren1 (m : names) (i i' : rinsn) (m' : names) : Prop := mkren1 {
    n_op : i_op (r_insn i') = i_op (r_insn i); n_sz : r_sz i' = r_sz i; n_str : r_str i' = r_str i;
    n_rs1 : src m (fun _ => false) (i_rs1 (r_insn i)) (i_rs1 (r_insn i'));
    n_rs2 : src m (is_func V) (i_rs2 (r_insn i)) (i_rs2 (r_insn i'));
    n_rd : match i_rd (r_insn i) with
           | None => i_rd (r_insn i') = None /\ keeps m m'
           | Some x => if v_global V x then i_rd (r_insn i') = Some x /\ keeps m m'
                       else exists d, i_rd (r_insn i') = Some d /\ B d = x /\ gives_to m x d m'
           end }.
  Inductive ren : names -> list rinsn -> list rinsn -> names -> Prop :=
  | ren_nil m m' : keeps m m' -> ren m [] [] m'
  | ren_cons m i i' m1 l l' m2 : ren1 m i i' m1 -> ren m1 l l' m2 -> ren m (i :: l) (i' :: l') m2.
  (** the targets of the phis *)
  Inductive renp : names -> list nat -> list nat -> names -> Prop :=
  | renp_nil m m' : keeps m m' -> renp m [] [] m'
  | renp_cons m x d m1 l l' m2 : B d = x -> gives_to m x d m1 -> renp m1 l l' m2 -> renp m (x :: l) (d :: l') m2.
  Lemma src_ext m n f o o' : keeps m n -> src m f o o' -> src n f o o'.
  Proof. intros K. destruct o as [x|]; cbn; [|auto]. destruct (f x || v_global V x); [auto|]. intros (d & A & ->). exists d. rewrite K. auto. Qed.
  Lemma ren_ext m l l' m' : ren m l l' m' -> forall n n', keeps m n -> keeps m' n' -> ren n l l' n'.
  Proof.
    induction 1 as [m m' K|m i i' m1 l l' m2 H1 H2 IH]; intros n n' K1 K2; [constructor; intros y; rewrite K2, K; symmetry; apply K1|].
    econstructor; [|apply (IH m1 n'); [intros y; reflexivity|exact K2]].
    destruct H1 as [A1 A2 A3 A4 A5 A6]. constructor; auto; try (eapply src_ext; eassumption).
    destruct (i_rd (r_insn i)) as [x|]; [destruct (v_global V x)|].
    - destruct A6 as [Q1 Q2]. split; [exact Q1|]. intros y. rewrite Q2. symmetry. apply K1.
    - destruct A6 as (d & Q1 & Q2 & Q3). exists d. split; [exact Q1|]. split; [exact Q2|]. intros y. rewrite Q3, K1. reflexivity.
    - destruct A6 as [Q1 Q2]. split; [exact Q1|]. intros y. rewrite Q2. symmetry. apply K1.
  Qed.
  Lemma renp_ext m l l' m' : renp m l l' m' -> forall n n', keeps m n -> keeps m' n' -> renp n l l' n'.
  Proof.
    induction 1 as [m m' K|m x d m1 l l' m2 H0 H1 H2 IH]; intros n n' K1 K2; [constructor; intros y; rewrite K2, K; symmetry; apply K1|].
    econstructor; [exact H0| |apply (IH m1 n'); [intros y; reflexivity|exact K2]]. intros y. rewrite H1, K1. reflexivity.
  Qed.
End Relations.

Section Versions.
  Variable V : vars.
  Variable nvars : nat.
  Record good (r : rn) : Prop := mkgood {
    g_base : forall x i d, In (i, d) (r_subs r x) -> r_base r d = x /\ (d < r_num r)%nat /\ (i < r_cnt r x)%nat;
    g_uniq : forall x, NoDup (map fst (r_subs r x));
    g_stack : forall x i, In i (r_stack r x) -> In i (map fst (r_subs r x));
    g_low : (nvars <= r_num r)%nat /\ forall x, (x < nvars)%nat -> r_base r x = x }.
  Record ext (r r' : rn) : Prop := mkext {
    e_num : (r_num r <= r_num r')%nat;
    e_base : forall d, (d < r_num r)%nat -> r_base r' d = r_base r d;
    e_subs : forall x p, In p (r_subs r x) -> In p (r_subs r' x) }.
  Lemma ext_refl r : ext r r.
  Proof. constructor; auto. Qed.
  Lemma ext_trans a b c : ext a b -> ext b c -> ext a c.
  Proof. intros [A1 A2 A3] [B1 B2 B3]. constructor; [lia| |auto]. intros d L. rewrite B2 by lia. auto. Qed.
  Definition agree (B : nat -> nat) (r : rn) : Prop := forall d, (d < r_num r)%nat -> B d = r_base r d.
  Lemma agree_ext B r r' : ext r r' -> agree B r' -> agree B r.
  Proof. intros [A1 A2 _] H d L. rewrite H by lia. auto. Qed.
  Definition tops (r : rn) : names := fun x => top x r.
  Lemma top_iff r x d : good r -> (top x r = Some d <-> exists i l, r_stack r x = i :: l /\ In (i, d) (r_subs r x)).
  Proof.
    intros G. unfold top. destruct (r_stack r x) as [|i l] eqn:E.
    - split; [discriminate|]. intros (i & l & Q & _). discriminate.
    - destruct (find _ _) as [[j c]|] eqn:F.
      + apply find_some in F as [I Q]. cbn in Q. apply Nat.eqb_eq in Q. subst j. split.
        * intros Q. injection Q as <-. exists i, l. auto.
        * intros (j & l' & Q & I'). injection Q as <- <-. f_equal.
          pose proof (g_uniq _ G x) as U. clear - U I I'. induction (r_subs r x) as [|[a e] s IH]; [destruct I|].
          cbn in U. apply NoDup_cons_iff in U as [N U]. destruct I as [I|I]; destruct I' as [I'|I'].
          -- congruence.
          -- injection I as -> ->. destruct N. apply in_map_iff. exists (i, d). auto.
          -- injection I' as -> ->. destruct N. apply in_map_iff. exists (i, c). auto.
          -- auto.
      + split; [discriminate|]. intros (j & l' & Q & I). injection Q as <- <-. apply (find_none _ _ F) in I. cbn in I. rewrite Nat.eqb_refl in I. discriminate.
  Qed.
  Lemma top_some r x i l : good r -> r_stack r x = i :: l -> exists d, top x r = Some d.
  Proof.
    intros G E. assert (I : In i (map fst (r_subs r x))) by (apply (g_stack _ G); rewrite E; left; reflexivity).
    apply in_map_iff in I as ([j d] & Q & I). cbn in Q. subst j. exists d. apply top_iff; [exact G|]. eauto.
  Qed.
  Lemma top_none r x : r_stack r x = [] -> top x r = None.
  Proof. intros E. unfold top. rewrite E. reflexivity. Qed.
  Lemma top_same r r' x : good r -> good r' -> ext r r' -> r_stack r' x = r_stack r x -> top x r' = top x r.
  Proof.
    intros G G' X E. destruct (r_stack r x) as [|i l] eqn:Q; [rewrite !top_none by assumption; reflexivity|].
    destruct (top_some r x i l G Q) as [d D]. rewrite D. apply top_iff; [exact G'|]. apply top_iff in D; [|exact G].
    destruct D as (j & k & D1 & D2). exists j, k. split; [congruence|]. apply (e_subs _ _ X). exact D2.
  Qed.
  Lemma top_base r x d : good r -> top x r = Some d -> r_base r d = x /\ (d < r_num r)%nat.
  Proof. intros G H. apply top_iff in H; [|exact G]. destruct H as (i & l & _ & I). destruct (g_base _ G _ _ _ I) as (A & C & _). auto. Qed.

  (** the versions in l were made between r and r', once each; the other members are variables *)
  Record newly (r r' : rn) (l : list nat) : Prop := mknewly {
    nw_once : NoDup (filter (fun d => (nvars <=? d)%nat) l);
    nw_below : forall d, In d l -> (d < r_num r')%nat;
    nw_above : forall d, In d l -> (nvars <= d)%nat -> (r_num r <= d)%nat;
    nw_global : forall d, In d l -> (d < nvars)%nat -> v_global V d = true }.
  Lemma NoDup_app {A} (l m : list A) : NoDup l -> NoDup m -> (forall x, In x l -> ~ In x m) -> NoDup (l ++ m).
  Proof.
    induction l as [|a l IH]; intros H1 H2 D; [exact H2|]. apply NoDup_cons_iff in H1 as [N H1]. cbn [app]. apply NoDup_cons.
    - intros J. apply in_app_or in J as [J|J]; [exact (N J)|exact (D a (or_introl eq_refl) J)].
    - apply IH; auto. intros x J. apply D. right. exact J.
  Qed.
  Lemma newly_nil r r' : newly r r' [].
  Proof. constructor; [constructor|intros d []..]. Qed.
  Lemma newly_app a b c l1 l2 : (r_num a <= r_num b)%nat -> (r_num b <= r_num c)%nat -> newly a b l1 -> newly b c l2 -> newly a c (l1 ++ l2).
  Proof.
    intros L1 L2 [A1 A2 A3 A4] [B1 B2 B3 B4]. constructor.
    - rewrite filter_app. apply NoDup_app; [exact A1|exact B1|]. intros d J1 J2. apply filter_In in J1 as [J1 Q]. apply filter_In in J2 as [J2 _]. apply Nat.leb_le in Q.
      pose proof (A2 d J1). pose proof (B3 d J2 Q). lia.
    - intros d J. apply in_app_or in J as [J|J]; [pose proof (A2 d J); lia|auto].
    - intros d J Q. apply in_app_or in J as [J|J]; [auto|pose proof (B3 d J Q); lia].
    - intros d J. apply in_app_or in J as [J|J]; auto.
  Qed.
  Lemma newly_low r r' x : v_global V x = true -> (x < nvars)%nat -> (nvars <= r_num r')%nat -> newly r r' [x].
  Proof. intros Gx L1 L2. constructor; [cbn; destruct (Nat.leb_spec nvars x); [lia|constructor]|intros d [<-|[]]; lia|intros d [<-|[]] Q; lia|intros d [<-|[]] _; exact Gx]. Qed.
  Lemma newly_one r r' : (nvars <= r_num r)%nat -> r_num r' = S (r_num r) -> newly r r' [r_num r].
  Proof. intros L E. constructor; [cbn; destruct (nvars <=? r_num r)%nat; repeat constructor; intros []|intros d [<-|[]]; lia|intros d [<-|[]] Q; lia|intros d [<-|[]] Q; lia]. Qed.

  Lemma new_version_ok x i r d r' : good r -> i = r_cnt r x -> new_version x i r = Some (d, r') ->
    good r' /\ ext r r' /\ ((d < r_num r')%nat /\ newly r r' [d]) /\ r_base r' d = x /\ gives_to (tops r) x d (tops r') /\
    (forall y, r_stack r' y = if Nat.eqb y x then r_cnt r x :: r_stack r x else r_stack r y).
  Proof.
    intros G -> H. unfold new_version in H. destruct (_ && _); [|discriminate]. injection H as <- <-.
    set (r' := mkrn _ _ _ _ _). set (d := r_num r).
    assert (N : ~ In (r_cnt r x) (map fst (r_subs r x))).
    { intros I. apply in_map_iff in I as ([j e] & Q & I). cbn in Q. subst j. destruct (g_base _ G _ _ _ I) as (_ & _ & L). lia. }
    assert (G' : good r').
    { constructor; cbn [r' r_subs r_base r_num r_cnt r_stack].
      - intros y j e. unfold upd at 1. destruct (Nat.eqb_spec y x) as [->|Ny].
        + intros I. apply in_app_or in I as [I|[I|[]]].
          * destruct (g_base _ G _ _ _ I) as (Q1 & Q2 & Q3). unfold upd. rewrite Nat.eqb_refl. destruct (Nat.eqb_spec e (r_num r)); [lia|]. repeat split; auto; lia.
          * injection I as <- <-. unfold upd. rewrite !Nat.eqb_refl. repeat split; lia.
        + intros I. destruct (g_base _ G _ _ _ I) as (Q1 & Q2 & Q3). unfold upd. destruct (Nat.eqb_spec e (r_num r)); [lia|]. destruct (Nat.eqb_spec y x); [contradiction|]. repeat split; auto; lia.
      - intros y. unfold upd. destruct (Nat.eqb_spec y x) as [->|Ny]; [|apply (g_uniq _ G)]. rewrite map_app. cbn [map fst].
        apply NoDup_Add with (a := r_cnt r x) (l := map fst (r_subs r x)); [|split; [apply (g_uniq _ G)|exact N]].
        rewrite <- (app_nil_r (map fst (r_subs r x))) at 1. apply Add_app.
      - intros y j. unfold upd. destruct (Nat.eqb_spec y x) as [->|Ny]; [|apply (g_stack _ G)]. rewrite map_app, in_app_iff. cbn [map fst In].
        intros [Q|I]; [auto|left; apply (g_stack _ G); exact I].
      - destruct (g_low _ G) as [L1 L2]. split; [lia|]. intros y L. unfold upd. destruct (Nat.eqb_spec y (r_num r)); [lia|auto]. }
    assert (E : ext r r').
    { constructor; cbn [r' r_subs r_base r_num]; [lia| |].
      - intros e L. unfold upd. destruct (Nat.eqb_spec e (r_num r)); [lia|reflexivity].
      - intros y p I. unfold upd. destruct (Nat.eqb_spec y x) as [->|Ny]; [apply in_or_app; auto|exact I]. }
    split; [exact G'|]. split; [exact E|]. split; [split; [cbn; lia|apply newly_one; [apply (g_low _ G)|reflexivity]]|]. split; [cbn [r' r_base]; apply upd_same|].
    assert (St : forall y, r_stack r' y = if Nat.eqb y x then r_cnt r x :: r_stack r x else r_stack r y) by (intros y; cbn [r' r_stack]; unfold upd; reflexivity).
    split; [|exact St]. intros y. unfold tops. destruct (Nat.eqb_spec y x) as [->|Ny].
    - apply top_iff; [exact G'|]. exists (r_cnt r x), (r_stack r x). split; [rewrite St, Nat.eqb_refl; reflexivity|]. cbn [r' r_subs]. rewrite upd_same. apply in_or_app. right. left. reflexivity.
    - apply top_same; auto. rewrite St. destruct (Nat.eqb_spec y x); [contradiction|reflexivity].
  Qed.
  (** how many of the targets are versions of x *)
  Definition count (B : nat -> nat) (x : nat) (l : list nat) : nat := length (filter (fun d => Nat.eqb (B d) x) l).
  Definition pushed (B : nat -> nat) (ts : list nat) (r r' : rn) : Prop := forall x,
    exists l, r_stack r' x = l ++ r_stack r x /\ length l = if v_global V x then 0%nat else count B x ts.
  Lemma pushed_nil B r r' : (forall x, r_stack r' x = r_stack r x) -> pushed B [] r r'.
  Proof. intros H x. exists []. split; [apply H|]. destruct (v_global V x); reflexivity. Qed.
  Lemma pushed_app B t1 t2 a b c : pushed B t1 a b -> pushed B t2 b c -> pushed B (t1 ++ t2) a c.
  Proof.
    intros H1 H2 x. destruct (H1 x) as (l1 & E1 & L1). destruct (H2 x) as (l2 & E2 & L2). exists (l2 ++ l1). rewrite E2, E1, app_assoc. split; [reflexivity|].
    rewrite app_length, L1, L2. unfold count. rewrite filter_app, app_length. destruct (v_global V x); lia.
  Qed.
  Lemma count_one B x d : count B x [d] = if Nat.eqb (B d) x then 1%nat else 0%nat.
  Proof. unfold count. cbn [filter]. destruct (Nat.eqb (B d) x); reflexivity. Qed.
  Lemma rename_opt_ok f o r o' : good r -> (forall x, o = Some x -> (x < nvars)%nat) -> rename_opt V f o r = Some o' -> src V (tops r) f o o'.
  Proof.
    intros G L H. destruct o as [x|]; cbn [rename_opt src] in *; [|congruence]. destruct (f x); cbn [orb]; [congruence|].
    unfold rename_var in H. destruct (v_global V x); [congruence|]. destruct (g_low _ G) as [_ Lw]. rewrite (Lw x (L x eq_refl)) in H.
    destruct (top x r) as [d|] eqn:E; [|discriminate]. injection H as <-. exists d. auto.
  Qed.
  Lemma rename_insn_ok i r i' r' : good r -> (forall x, i_rd (r_insn i) = Some x \/ reads (r_insn i) x -> (x < nvars)%nat) ->
    rename_insn V i r = Some (i', r') ->
    good r' /\ ext r r' /\ newly r r' (opt_list (i_rd (r_insn i'))) /\
    forall B, agree B r' -> ren1 V B (tops r) i i' (tops r') /\ pushed B (opt_list (i_rd (r_insn i'))) r r'.
  Proof.
    intros G L H. unfold rename_insn in H. destruct (rename_opt V (fun _ => false) (i_rs1 (r_insn i)) r) as [a|] eqn:E1; [|discriminate].
    destruct (rename_opt V (is_func V) (i_rs2 (r_insn i)) r) as [b|] eqn:E2; [|discriminate].
    pose proof (rename_opt_ok _ _ _ _ G (fun x Q => L x (or_intror (or_introl Q))) E1) as S1.
    pose proof (rename_opt_ok _ _ _ _ G (fun x Q => L x (or_intror (or_intror Q))) E2) as S2.
    destruct (g_low _ G) as [L1 L2].
    destruct (i_rd (r_insn i)) as [x|] eqn:Ed.
    - destruct (new_name V x r) as [[d r1]|] eqn:E3; [|discriminate]. injection H as <- <-. cbn [r_insn i_rd opt_list]. unfold new_name in E3. destruct (v_global V x) eqn:Eg.
      + injection E3 as <- <-. split; [exact G|]. split; [apply ext_refl|]. assert (Lx : (x < nvars)%nat) by (apply L; auto). split; [apply newly_low; assumption|].
        intros B A. split; [constructor; cbn; auto; rewrite Ed, Eg; split; [reflexivity|intros y; reflexivity]|].
        intros y. exists []. split; [reflexivity|]. rewrite count_one, A, L2 by lia. destruct (v_global V y) eqn:Ey; [reflexivity|]. destruct (Nat.eqb_spec x y); [congruence|reflexivity].
      + destruct (new_version_ok _ _ _ _ _ G eq_refl E3) as (G' & X & [Ld Nw] & Bd & Gt & St). split; [exact G'|]. split; [exact X|]. split; [exact Nw|].
        intros B A. split; [constructor; cbn; auto; rewrite Ed, Eg; exists d; split; [reflexivity|]; split; [rewrite A; assumption|exact Gt]|].
        intros y. rewrite St, count_one, A, Bd by exact Ld. destruct (Nat.eqb_spec y x) as [->|Ny].
        * exists [r_cnt r x]. rewrite Eg, Nat.eqb_refl. auto.
        * exists []. split; [reflexivity|]. destruct (v_global V y); [reflexivity|]. destruct (Nat.eqb_spec x y); [congruence|reflexivity].
    - injection H as <- <-. cbn [r_insn i_rd opt_list]. split; [exact G|]. split; [apply ext_refl|]. split; [apply newly_nil|]. intros B A. split.
      + constructor; cbn; auto. rewrite Ed. split; [reflexivity|intros y; reflexivity].
      + apply pushed_nil. reflexivity.
  Qed.
  Lemma rename_insns_ok : forall l r l' r', good r -> (forall i x, In i (map r_insn l) -> i_rd i = Some x \/ reads i x -> (x < nvars)%nat) ->
    rename_insns V l r = Some (l', r') ->
    good r' /\ ext r r' /\ newly r r' (targets l') /\
    forall B, agree B r' -> ren V B (tops r) l l' (tops r') /\ pushed B (targets l') r r'.
  Proof.
    induction l as [|i l IH]; intros r l' r' G L H; cbn [rename_insns] in H.
    - injection H as <- <-. split; [exact G|]. split; [apply ext_refl|]. split; [apply newly_nil|]. intros B A. split; [constructor; intros y; reflexivity|apply pushed_nil; reflexivity].
    - destruct (rename_insn V i r) as [[i1 r1]|] eqn:E1; [|discriminate]. destruct (rename_insns V l r1) as [[l1 r2]|] eqn:E2; [|discriminate]. injection H as <- <-.
      destruct (rename_insn_ok _ _ _ _ G (fun x => L _ x (or_introl eq_refl)) E1) as (G1 & X1 & D1 & K1).
      destruct (IH _ _ _ G1 (fun j x I => L j x (or_intror I)) E2) as (G2 & X2 & D2 & K2).
      split; [exact G2|]. split; [eapply ext_trans; eassumption|]. split.
      + cbn [targets flat_map]. apply (newly_app r r1); [apply (e_num _ _ X1)|apply (e_num _ _ X2)|exact D1|exact D2].
      + intros B A. destruct (K2 B A) as [R2 P2]. destruct (K1 B (agree_ext _ _ _ X2 A)) as [R1 P1]. split; [econstructor; eassumption|].
        cbn [targets flat_map]. eapply pushed_app; eassumption.
  Qed.
  Lemma rename_phis_ok : forall l r l' r', good r -> (forall f, In f l -> (ph_rd f < nvars)%nat /\ v_global V (ph_rd f) = false) ->
    rename_phis V l r = Some (l', r') ->
    good r' /\ ext r r' /\ (newly r r' (map ph_rd l') /\ forall f, In f l' -> (nvars <= ph_rd f)%nat) /\ map (fun f => r_base r' (ph_rd f)) l' = map ph_rd l /\ map ph_ops l' = map ph_ops l /\
    forall B, agree B r' -> renp B (tops r) (map ph_rd l) (map ph_rd l') (tops r') /\ pushed B (map ph_rd l') r r'.
  Proof.
    induction l as [|f l IH]; intros r l' r' G L H; cbn [rename_phis] in H.
    - injection H as <- <-. split; [exact G|]. split; [apply ext_refl|]. split; [split; [apply newly_nil|intros f []]|]. split; [reflexivity|]. split; [reflexivity|].
      intros B A. split; [constructor; intros y; reflexivity|apply pushed_nil; reflexivity].
    - destruct (L f (or_introl eq_refl)) as [Lf Gf]. unfold new_name in H. rewrite Gf in H.
      destruct (new_version (ph_rd f) _ r) as [[d r1]|] eqn:E1; [|discriminate].
      destruct (rename_phis V l r1) as [[l1 r2]|] eqn:E2; [|discriminate]. injection H as <- <-.
      destruct (new_version_ok _ _ _ _ _ G eq_refl E1) as (G1 & X1 & [Ld Nw] & Bd & Gt & St).
      destruct (IH _ _ _ G1 (fun j I => L j (or_intror I)) E2) as (G2 & X2 & [D2 D2'] & M2 & O2 & K2).
      assert (Lo : (nvars <= d)%nat). { unfold new_version in E1. destruct (_ && _); [|discriminate]. injection E1 as <- _. apply (g_low _ G). }
      assert (Bd2 : r_base r2 d = ph_rd f) by (rewrite (e_base _ _ X2) by exact Ld; exact Bd). pose proof (e_num _ _ X2) as N2.
      split; [exact G2|]. split; [eapply ext_trans; eassumption|]. split; [split; [|intros h [<-|I]; [exact Lo|auto]]; cbn [map ph_rd]; apply (newly_app r r1 r2 [d]); [apply (e_num _ _ X1)|exact N2|exact Nw|exact D2]|].
      split; [cbn [map ph_rd]; rewrite Bd2, M2; reflexivity|]. split; [cbn [map ph_ops]; rewrite O2; reflexivity|].
      intros B A. destruct (K2 B A) as [R2 P2]. split.
      + cbn [map ph_rd]. econstructor; [rewrite A by lia; exact Bd2|exact Gt|exact R2].
      + cbn [map ph_rd]. change (d :: map ph_rd l1) with ([d] ++ map ph_rd l1). eapply pushed_app; [|exact P2].
        intros y. rewrite St, count_one, A, Bd2 by lia. destruct (Nat.eqb_spec y (ph_rd f)) as [->|Ny].
        * exists [r_cnt r (ph_rd f)]. rewrite Gf, Nat.eqb_refl. auto.
        * exists []. split; [reflexivity|]. destruct (v_global V y); [reflexivity|]. destruct (Nat.eqb_spec (ph_rd f) y); [congruence|reflexivity].
  Qed.
  (** popping *)
  Lemma pop_all_ok ts : forall r, let r' := pop_all V ts r in
    r_num r' = r_num r /\ r_cnt r' = r_cnt r /\ r_subs r' = r_subs r /\ r_base r' = r_base r /\
    forall x, r_stack r' x = skipn (if v_global V x then 0 else count (r_base r) x ts) (r_stack r x).
  Proof.
    induction ts as [|t ts IH]; intros r; cbn [pop_all fold_left].
    - repeat split. intros x. unfold count. cbn. destruct (v_global V x); reflexivity.
    - cbv zeta. destruct (IH (pop_name V t r)) as (A1 & A2 & A3 & A4 & A5). unfold pop_all in *.
      assert (Q : r_num (pop_name V t r) = r_num r /\ r_cnt (pop_name V t r) = r_cnt r /\ r_subs (pop_name V t r) = r_subs r /\ r_base (pop_name V t r) = r_base r /\
        forall x, r_stack (pop_name V t r) x = skipn (if v_global V x then 0 else count (r_base r) x [t]) (r_stack r x)).
      { unfold pop_name. destruct (v_global V (r_base r t)) eqn:Eg; cbn [r_num r_cnt r_subs r_base r_stack]; repeat split; intros x; rewrite count_one.
        - destruct (v_global V x) eqn:Ex; [reflexivity|]. destruct (Nat.eqb_spec (r_base r t) x); [congruence|reflexivity].
        - unfold upd. destruct (Nat.eqb_spec x (r_base r t)) as [->|Nx].
          + rewrite Eg, Nat.eqb_refl. destruct (r_stack r (r_base r t)); reflexivity.
          + destruct (v_global V x); [reflexivity|]. destruct (Nat.eqb_spec (r_base r t) x); [congruence|reflexivity]. }
      destruct Q as (B1 & B2 & B3 & B4 & B5). split; [congruence|]. split; [congruence|]. split; [congruence|]. split; [congruence|].
      intros x. rewrite A5, B5, B4. change (t :: ts) with ([t] ++ ts). unfold count at 3. rewrite filter_app, app_length.
      fold (count (r_base r) x [t]) (count (r_base r) x ts). destruct (v_global V x); [reflexivity|].
      generalize (count (r_base r) x [t]) (count (r_base r) x ts) (r_stack r x). clear. intros a. induction a as [|a IH]; intros b l; [reflexivity|].
      destruct l as [|c l]; cbn; [destruct b; reflexivity|apply IH].
  Qed.
  Lemma pop_restores ts r r1 r2 : good r -> good r2 -> ext r r2 -> pushed (r_base r2) ts r r1 -> (forall x, r_stack r2 x = r_stack r1 x) ->
    let r' := pop_all V ts r2 in good r' /\ ext r2 r' /\ forall x, r_stack r' x = r_stack r x.
  Proof.
    intros G G2 X P S r'. destruct (pop_all_ok ts r2) as (A1 & A2 & A3 & A4 & A5). fold r' in A1, A2, A3, A4, A5.
    assert (St : forall x, r_stack r' x = r_stack r x).
    { intros x. rewrite A5, S. destruct (P x) as (l & -> & <-). clear. induction l; cbn; auto. }
    split; [|split; [|exact St]].
    - destruct G2 as [C1 C2 C3 C4]. constructor; rewrite ?A1, ?A2, ?A3, ?A4; auto. intros x i I. rewrite St in I.
      apply (g_stack _ G) in I. apply in_map_iff in I as (p & <- & I). apply in_map. apply (e_subs _ _ X). exact I.
    - constructor; [lia| |]; intros; rewrite ?A4, ?A3; auto.
  Qed.
End Versions.
