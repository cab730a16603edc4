(** A function in which every block is renamed from the names valid at the end of its immediate dominator, with a copy for
    every operand of a phi at the end of the block it comes from, does what the function did before. *)
From Verif.Mid Require Import CfgProofs.
From Verif.Mid Require Export SsaRename.

Section Sim.
  Variable V : vars.
  Variable in_scope : nat -> nat -> bool.
  Variable declared : nat -> list nat.
  Variable temp : nat -> bool.
  Variable g : cfg.
  Variables entry exit : nat.
  Variable params : list nat.
  Variable nvars : nat.
  Variable code : nat -> list rinsn.
  Notation R := (reach (succs g) entry).
  Notation plain := (plain_code code).
  Notation live_in := (live_in g code).
  Hypothesis I : ssa_input V in_scope declared temp g entry exit params nvars code.
  Variable B : nat -> nat.
  Variable code' : nat -> list rinsn.
  Variable ps : list nat.
  Variables Nin Nout : nat -> names.
  Variables O P : nat -> list nat.                 (* the variables of the phis of a block, their targets *)
  Variable cs : nat -> list (nat * nat).           (* the copies at the end of a block *)
  Definition named (m : names) : Prop := forall x d, m x = Some d -> B d = x.
  Record form0 : Prop := mkform0 {
    fo_low : forall x, (x < nvars)%nat -> B x = x;
    fo_start : forall x d, Nin entry x = Some d -> exists j, nth_error params j = Some x /\ nth_error ps j = Some d;
    fo_named : forall c, R c -> named (Nin c);
    fo_local : forall c x, In x (O c) -> v_global V x = false;
    fo_entry : O entry = [];
    fo_block : forall c, R c -> exists m1 before after, renp B (Nin c) (O c) (P c) m1 /\ ren V B m1 (code c) (before ++ after) (Nout c) /\
      code' c = before ++ map (fun e => copy (fst e) (snd e)) (cs c) ++ after /\ (forall i, In i before -> is_branch i = false) /\
      (after = [] \/ exists i, after = [i] /\ is_branch i = true);
    fo_copies : forall p d n, R p -> In (d, n) (cs p) -> Nout p (B d) = Some n /\ v_global V (B d) = false;
    fo_phi : forall p c, R p -> In c (succs g p) -> Forall2 (fun x d => exists n, In (d, n) (cs p) /\ Nout p x = Some n) (O c) (P c) }.
  Record form : Prop := mkform {
    fo_form0 :> form0;
    fo_same : forall p c x, R p -> In c (succs g p) -> v_global V x = false -> live_in x c -> ~ In x (O c) -> Nin c x = Nout p x }.
  Hypothesis F : form.

  Context {val world : Type}.
  Variable M : meaning val world.
  Variable goff : nat -> Z.
  Variable place : nat -> val.
  Notation V' := (versions V B).
  Notation place' := (fun d => place (B d)).
  Notation step := (sstep M V goff place).
  Notation step' := (sstep M V' goff place').
  Notation blk := (sblock M V goff place).
  Notation blk' := (sblock M V' goff place').

  (** the instructions l, at the end of b, or what comes later, need the value of x *)
  Definition live_at (l : list insn) (b x : nat) : Prop := exposed l x \/ untouched l x /\ needed (succs g) plain x b.
  Record rel (m : names) (l : list rinsn) (b : nat) (s s' : @senv val world) : Prop := mkrel {
    re_world : s_world s' = s_world s; re_args : s_args s' = s_args s; re_ret : s_ret s' = s_ret s;
    re_named : named m;
    re_env : forall x d, v_global V x = false -> live_at (map r_insn l) b x -> m x = Some d -> s_env s' d = s_env s x }.
  Definition fine (i : rinsn) : Prop :=
    (forall x, i_rd (r_insn i) = Some x \/ reads (r_insn i) x -> (x < nvars)%nat) /\
    (In (i_op (r_insn i)) [OP_write; OP_push; OP_call; OP_indirect; OP_branch; OP_return] -> i_rd (r_insn i) = None) /\
    i_op (r_insn i) <> OP_unwound_phi /\
    (forall y, i_rs2 (r_insn i) = Some y -> v_func V y <> None -> i_op (r_insn i) = OP_write).
  Lemma live_read i l b x : reads (r_insn i) x -> live_at (map r_insn (i :: l)) b x.
  Proof. intros H. left. exists [], (r_insn i), (map r_insn l). split; [reflexivity|]. split; [exact H|]. intros j []. Qed.
  Lemma live_step i l b x : i_op (r_insn i) <> OP_unwound_phi -> i_rd (r_insn i) <> Some x -> live_at (map r_insn l) b x -> live_at (map r_insn (i :: l)) b x.
  Proof.
    intros Np Nx [(l1 & j & l2 & E & Rd & U)|[U N]].
    - left. exists (r_insn i :: l1), j, l2. cbn [map]. split; [rewrite E; reflexivity|]. split; [exact Rd|]. intros k [<-|Ik] [W Q]; [congruence|]. exact (U k Ik (conj W Q)).
    - right. split; [|exact N]. intros k [<-|Ik] [W Q]; [congruence|]. exact (U k Ik (conj W Q)).
  Qed.
  (** operands *)
  Lemma get_src m i l b s s' f o o' x : fine i -> rel m (i :: l) b s s' -> src V m f o o' -> o = Some x -> reads (r_insn i) x -> f x = false ->
    exists x', o' = Some x' /\ get M V' goff s' x' = get M V goff s x /\ B x' = x /\ (v_global V x = true -> x' = x).
  Proof.
    intros Fi Rl S -> Rd Fx. cbn [src] in S. rewrite Fx in S. cbn [orb] in S. assert (Bx : B x = x) by (apply (fo_low F), Fi; auto).
    destruct (v_global V x) eqn:Eg.
    - exists x. split; [exact S|]. split; [|auto]. unfold get. cbn [versions v_global]. rewrite Bx, Eg, (re_world _ _ _ _ _ Rl). reflexivity.
    - destruct S as (d & Em & ->). exists d. split; [reflexivity|]. pose proof (re_named _ _ _ _ _ Rl _ _ Em) as Bd.
      split; [|split; [exact Bd|congruence]]. unfold get. cbn [versions v_global]. rewrite Bd, Eg. apply (re_env _ _ _ _ _ Rl); [exact Eg|apply live_read; exact Rd|exact Em].
  Qed.
  (** results *)
  Lemma set_rd m i i' m1 l b s s' x v s1 : fine i -> rel m (i :: l) b s s' -> ren1 V B m i i' m1 -> i_rd (r_insn i) = Some x -> set M V goff s x v = Some s1 ->
    exists d s1', i_rd (r_insn i') = Some d /\ B d = x /\ set M V' goff s' d v = Some s1' /\ rel m1 l b s1 s1'.
  Proof.
    intros Fi Rl Rn Ex Es. pose proof (n_rd _ _ _ _ _ _ Rn) as D. rewrite Ex in D. assert (Bx : B x = x) by (apply (fo_low F), Fi; auto).
    assert (Np : i_op (r_insn i) <> OP_unwound_phi) by apply Fi. unfold set in *. destruct (v_global V x) eqn:Eg.
    - destruct D as [D K]. exists x. destruct v as [v|]; [|discriminate]. injection Es as <-. eexists. split; [exact D|]. split; [exact Bx|].
      cbn [versions v_global]. rewrite Bx, Eg. split; [reflexivity|]. constructor; cbn [s_world s_args s_ret s_env]; auto.
      + rewrite (re_world _ _ _ _ _ Rl). reflexivity.
      + intros y d. rewrite K. apply (re_named _ _ _ _ _ Rl).
      + intros y d Ey Ly. rewrite K. apply (re_env _ _ _ _ _ Rl); [exact Ey|]. apply live_step; auto. congruence.
    - destruct D as (d & D & Bd & K). exists d. injection Es as <-. eexists. split; [exact D|]. split; [exact Bd|].
      cbn [versions v_global]. rewrite Bd, Eg. split; [reflexivity|]. constructor; cbn [s_world s_args s_ret s_env]; auto.
      + apply (re_world _ _ _ _ _ Rl).
      + intros y e. rewrite K. destruct (Nat.eqb_spec y x) as [->|Ny]; [congruence|apply (re_named _ _ _ _ _ Rl)].
      + intros y e Ey Ly. rewrite K. unfold upd. destruct (Nat.eqb_spec y x) as [->|Ny]; intros Q.
        * injection Q as <-. rewrite Nat.eqb_refl. reflexivity.
        * pose proof (re_named _ _ _ _ _ Rl _ _ Q) as Be. destruct (Nat.eqb_spec e d) as [->|Ne]; [congruence|].
          apply (re_env _ _ _ _ _ Rl); [exact Ey| |exact Q]. apply live_step; auto. congruence.
  Qed.
  (** no result *)
  Lemma rel_none m i i' m1 l b s s' w a rt : fine i -> rel m (i :: l) b s s' -> ren1 V B m i i' m1 -> i_rd (r_insn i) = None ->
    i_rd (r_insn i') = None /\ rel m1 l b (mks (s_env s) w a rt) (mks (s_env s') w a rt).
  Proof.
    intros Fi Rl Rn Ex. pose proof (n_rd _ _ _ _ _ _ Rn) as D. rewrite Ex in D. destruct D as [D K]. split; [exact D|].
    constructor; cbn [s_world s_args s_ret s_env]; auto.
    - intros y d. rewrite K. apply (re_named _ _ _ _ _ Rl).
    - intros y d Ey Ly. rewrite K. apply (re_env _ _ _ _ _ Rl); [exact Ey|]. apply live_step; auto; [apply Fi|congruence].
  Qed.
  Lemma step_sim m i i' m1 l b s s' s1 : fine i -> rel m (i :: l) b s s' -> ren1 V B m i i' m1 -> step i s s1 -> exists s1', step' i' s' s1' /\ rel m1 l b s1 s1'.
  Proof.
    intros Fi Rl Rn H. pose proof (re_args _ _ _ _ _ Rl) as Ea. pose proof (re_world _ _ _ _ _ Rl) as Ew. pose proof (re_ret _ _ _ _ _ Rl) as Er.
    pose proof Rn as [N1 N2 N3 N4 N5 _]. destruct i' as [[o' d' x' y'] sz' str']. cbn [r_insn r_sz r_str i_op i_rd i_rs1 i_rs2] in N1, N2, N3, N4, N5.
    Local Ltac dest := match goal with E : set _ _ _ _ _ _ = Some _, Fi : fine _, Rl : rel _ _ _ _ _, Rn : ren1 _ _ _ _ _ _ |- _ =>
      destruct (set_rd _ _ _ _ _ _ _ _ _ _ _ Fi Rl Rn eq_refl E) as (d1 & t1 & Ed1 & Bd1 & Es1 & Rl1); cbn [r_insn i_rd] in Ed1; subst end.
    Local Ltac rd1 x1 G1 := match goal with N : src _ _ _ (i_rs1 _) _, Fi : fine _, Rl : rel _ _ _ _ _ |- _ =>
      destruct (get_src _ _ _ _ _ _ _ _ _ _ Fi Rl N eq_refl (or_introl eq_refl) eq_refl) as (x1 & ? & G1 & ?Bs1 & ?Gs1) end.
    destruct H; cbn [r_insn r_sz r_str i_op i_rd i_rs1 i_rs2] in N1, N2, N3; try subst o' sz' str'.
    - destruct Fi as (_ & _ & Np & _). destruct Np. reflexivity.
    - dest. exists t1. split; [|exact Rl1]. apply s_decl; solve [congruence|auto|exact Es1|cbn [versions v_global]; congruence].
    - dest. exists t1. split; [|exact Rl1]. apply s_storage; solve [congruence|auto|exact Es1|cbn [versions v_global]; congruence].
    - dest. exists t1. split; [|exact Rl1]. apply s_const; solve [congruence|auto|exact Es1|cbn [versions v_global]; congruence].
    - dest. exists t1. split; [|exact Rl1]. apply s_data; solve [congruence|auto|exact Es1|cbn [versions v_global]; congruence].
    - rd1 x1 G1. pose proof (Gs1 H0) as Q. subst x1. subst x'. clear Gs1 G1. assert (Gx : v_global V' x = true) by (cbn [versions v_global]; congruence). clear Bs1. dest.
      exists t1. split; [|exact Rl1]. apply s_addr; solve [congruence|exact Gx|exact Es1].
    - rd1 x1 G1. dest. exists t1. split; [|exact Rl1]. apply s_assign; try congruence.
    - rd1 x1 G1. dest. exists t1. split; [|exact Rl1]. eapply s_read; try congruence; [rewrite G1; eassumption|rewrite Ew; eassumption|assumption].
    - rd1 x1 G1.
      assert (Fy : is_func V y = false) by (unfold is_func; rewrite H0; reflexivity).
      destruct (get_src _ _ _ _ _ _ _ _ _ _ Fi Rl N5 eq_refl (or_intror eq_refl) Fy) as (y1 & ? & G2 & B2 & _).
      assert (d = None) by (apply Fi; left; reflexivity). destruct (rel_none _ _ _ _ _ _ _ _ w [] None Fi Rl Rn) as [D R1]; [cbn; assumption|].
      cbn in D. subst. eexists. split; [|exact R1]. eapply s_write; try congruence; [cbn [versions v_func]; congruence| rewrite G1; eassumption|rewrite G2; eassumption|rewrite Ew; assumption].
    - rd1 x1 G1.
      assert (Fy : is_func V y = true) by (unfold is_func; rewrite H0; reflexivity).
      cbn [src r_insn i_rs2] in N5. rewrite Fy in N5. cbn [orb] in N5.
      assert (d = None) by (apply Fi; left; reflexivity). destruct (rel_none _ _ _ _ _ _ _ _ w [] None Fi Rl Rn) as [D R1]; [cbn; assumption|].
      cbn in D. subst. eexists. split; [|exact R1]. eapply s_writef; try congruence; [cbn [versions v_func]; rewrite (fo_low F); [eassumption|apply Fi; right; right; reflexivity]|rewrite G1; eassumption|rewrite Ew; assumption].
    - rd1 x1 G1. assert (d = None) by (apply Fi; right; left; reflexivity). destruct (rel_none _ _ _ _ _ _ _ _ (s_world s) (s_args s ++ [a]) None Fi Rl Rn) as [D R1]; [cbn; assumption|].
      cbn in D. subst. eexists. split; [|exact R1]. rewrite <- Ew, <- Ea. apply s_push. rewrite G1. assumption.
    - assert (d = None) by (apply Fi; right; right; left; reflexivity). destruct (rel_none _ _ _ _ _ _ _ _ w [] (Some r) Fi Rl Rn) as [D R1]; [cbn; assumption|].
      cbn in D. subst. eexists. split; [|exact R1]. apply s_call. rewrite Ea, Ew. assumption.
    - rd1 x1 G1. assert (d = None) by (apply Fi; right; right; right; left; reflexivity). destruct (rel_none _ _ _ _ _ _ _ _ w [] (Some r) Fi Rl Rn) as [D R1]; [cbn; assumption|].
      cbn in D. subst. eexists. split; [|exact R1]. eapply s_calli; [rewrite G1; eassumption|]. rewrite Ea, Ew. assumption.
    - dest. exists t1. split; [|exact Rl1]. eapply s_result; try congruence. rewrite Er. eassumption. eassumption.
    - rd1 x1 G1.
      assert (Fy : is_func V y = false).
      { unfold is_func. destruct (v_func V y) eqn:Ey; [|reflexivity]. exfalso. destruct Fi as (_ & _ & _ & Q). specialize (Q y eq_refl). cbn in Q. rewrite Q in H by congruence. discriminate. }
      destruct (get_src _ _ _ _ _ _ _ _ _ _ Fi Rl N5 eq_refl (or_intror eq_refl) Fy) as (y1 & ? & G2 & B2 & _).
      dest. exists t1. split; [|exact Rl1]. eapply s_binary; try congruence; [rewrite G1; eassumption|rewrite G2; eassumption|eassumption|assumption].
    - rd1 x1 G1. dest. exists t1. split; [|exact Rl1]. eapply s_unary; try congruence; [rewrite G1; eassumption|eassumption|assumption].
  Qed.
  (** ** blocks *)
  Lemma step_args i s s1 : step i s s1 -> i_op (r_insn i) <> OP_push -> s_args s1 = [].
  Proof.
    intros H Np. assert (S : forall s x v s1, set M V goff s x v = Some s1 -> s_args s1 = []).
    { intros t x v t1. unfold set. destruct (v_global V x); [destruct v; [|discriminate]|]; intros Q; injection Q as <-; reflexivity. }
    destruct H; try (eapply S; eassumption); try reflexivity. destruct Np. reflexivity.
  Qed.
  Lemma block_args l : forall s s1, blk l s (SFall s1) -> (l = [] -> s_args s = []) -> (forall l1 i, l = l1 ++ [i] -> i_op (r_insn i) <> OP_push) -> s_args s1 = [].
  Proof.
    induction l as [|i l IH]; intros s s1 H Ha Hl.
    - inversion H; subst. auto.
    - inversion H; subst. apply (IH s' s1); [assumption| |intros l1 k E; apply (Hl (i :: l1) k); cbn; rewrite E; reflexivity].
      intros ->. eapply step_args; [eassumption|]. apply (Hl [] i). reflexivity.
  Qed.
  Lemma branch_op i : is_branch i = true <-> i_op (r_insn i) = OP_branch.
  Proof. unfold is_branch, op_is. destruct (opcode_eq_dec _ _); split; congruence. Qed.
  Lemma step_not_end i s s1 : step i s s1 -> i_op (r_insn i) <> OP_branch.
  Proof. intros H E. destruct H; cbn in E; try discriminate; subst; discriminate. Qed.
  (** the part of a block before the copies *)
  Lemma before_sim b after m' : forall before l m s s' e, (forall i, In i l -> fine i) -> rel m l b s s' -> ren V B m l (before ++ after) m' ->
    (forall i, In i before -> is_branch i = false) -> blk l s e ->
    (exists r w, e = SRet r w /\ forall X, blk' (before ++ X) s' (SRet r w)) \/
    exists l0 l1 m1 s1 s1', l = l0 ++ l1 /\ ren V B m1 l1 after m' /\ rel m1 l1 b s1 s1' /\ blk l1 s1 e /\
      forall X e', blk' X s1' e' -> blk' (before ++ X) s' e'.
  Proof.
    induction before as [|i' before IH]; intros l m s s' e Fi Rl Rn Nb H.
    - right. exists [], l, m, s, s'. auto.
    - cbn [app] in Rn. inversion Rn as [|m0 i i0 m1 l0 l0' m2 Rn1 Rn2]; subst. clear Rn.
      pose proof (Nb i' (or_introl eq_refl)) as Bi. assert (Nbr : i_op (r_insn i) <> OP_branch).
      { intros Q. rewrite <- (n_op _ _ _ _ _ _ Rn1) in Q. apply branch_op in Q. congruence. }
      pose proof Rn1 as [N1 _ _ N4 _ _]. inversion H; subst.
      + match goal with Q : step _ _ _, Q' : blk _ _ _ |- _ => rename Q into Hs; rename Q' into Hb end.
        destruct (step_sim _ _ _ _ _ _ _ _ _ (Fi i (or_introl eq_refl)) Rl Rn1 Hs) as (t & St & Rt).
        destruct (IH _ _ _ _ _ (fun j J => Fi j (or_intror J)) Rt Rn2 (fun j J => Nb j (or_intror J)) Hb) as [(r & w & -> & Q)|(q0 & q1 & n1 & u1 & u1' & -> & Q1 & Q2 & Q3 & Q4)].
        * left. exists r, w. split; [reflexivity|]. intros X. cbn [app]. eapply sb_cons; [exact St|apply Q].
        * right. exists (i :: q0), q1, n1, u1, u1'. split; [reflexivity|]. split; [exact Q1|]. split; [exact Q2|]. split; [exact Q3|].
          intros X e' Z. cbn [app]. eapply sb_cons; [exact St|apply Q4; exact Z].
      + destruct Nbr. reflexivity.
      + left. exists (Some a), (s_world s). split; [reflexivity|]. intros X.
        destruct (get_src _ _ _ _ _ _ _ _ _ _ (Fi _ (or_introl eq_refl)) Rl N4 eq_refl (or_introl eq_refl) eq_refl) as (x1 & E1 & G1 & _ & _).
        destruct i' as [[o d' x' y'] sz' str']. cbn in N1, E1. subst. rewrite <- (re_world _ _ _ _ _ Rl). cbn [app]. apply sb_return; [rewrite G1; assumption|rewrite (re_args _ _ _ _ _ Rl); assumption].
      + left. exists None, (s_world s). split; [reflexivity|]. intros X.
        destruct i' as [[o d' x' y'] sz' str']. cbn in N1, N4. subst. rewrite <- (re_world _ _ _ _ _ Rl). cbn [app]. apply sb_return_void. rewrite (re_args _ _ _ _ _ Rl); assumption.
  Qed.
  (** the copies *)
  Lemma copies_sim N : named N -> forall l, (forall d n, In (d, n) l -> N (B d) = Some n /\ v_global V (B d) = false) -> forall s : @senv val world, s_args s = [] ->
    exists t, (forall X e, blk' X t e -> blk' (map (fun e => copy (fst e) (snd e)) l ++ X) s e) /\ s_world t = s_world s /\ s_args t = [] /\
      (forall x n, v_global V x = false -> N x = Some n -> s_env t n = s_env s n) /\
      (forall d n, In (d, n) l -> s_env t d = s_env s n) /\
      (forall d, (forall n, ~ In (d, n) l) -> s_env t d = s_env s d).
  Proof.
    intros Nm l. induction l as [|[d n] l IH]; intros Hl s Ha.
    - exists s. repeat split; auto. intros d n [].
    - destruct (Hl d n (or_introl eq_refl)) as [Nd Gd]. pose proof (Nm _ _ Nd) as Bn.
      set (s1 := mks (upd (s_env s) d (s_env s n)) (s_world s) [] None : @senv val world).
      destruct (IH (fun a b I => Hl a b (or_intror I)) s1 eq_refl) as (t & T1 & T2 & T3 & T4 & T5 & T6).
      assert (Keep : forall x e, v_global V x = false -> N x = Some e -> s_env s1 e = s_env s e).
      { intros x e Gx Ne. unfold s1. cbn [s_env]. unfold upd. destruct (Nat.eqb_spec e d) as [->|Q]; [|reflexivity]. pose proof (Nm _ _ Ne) as Bd. subst x. congruence. }
      exists t. split; [|split; [exact T2|split; [exact T3|split; [|split]]]].
      + intros X e Z. cbn [map app fst snd]. apply sb_cons with (s' := s1); [|apply T1; exact Z]. apply s_phi; [exact Ha|exact Gd|].
        unfold set, get. cbn [versions v_global]. rewrite Gd, Bn, Gd. reflexivity.
      + intros x e Gx Ne. rewrite (T4 x e Gx Ne). eapply Keep; eassumption.
      + intros a e [Q|Q].
        * injection Q as <- <-. destruct (in_dec Nat.eq_dec d (map fst l)) as [J|J].
          -- apply in_map_iff in J as ([d0 n0] & Q & J). cbn in Q. subst d0. destruct (Hl d n0 (or_intror J)) as [Q _]. assert (n0 = n) by congruence. subst n0.
             rewrite (T5 _ _ J). eapply Keep; eassumption.
          -- rewrite T6; [unfold s1; cbn [s_env]; apply upd_same|]. intros e Q. apply J. apply in_map_iff. exists (d, e). auto.
        * rewrite (T5 _ _ Q). destruct (Hl _ _ (or_intror Q)) as [Z1 Z2]. eapply Keep; eassumption.
      + intros a Na. rewrite T6 by (intros e Q; apply (Na e); right; exact Q). unfold s1. cbn [s_env]. unfold upd. destruct (Nat.eqb_spec a d) as [->|Q]; [|reflexivity].
        destruct (Na n). left. reflexivity.
  Qed.
  Lemma renp_inv : forall m l l' m1, renp B m l l' m1 -> forall x d, m1 x = Some d -> ~ In x l /\ m x = Some d \/ exists k, nth_error l k = Some x /\ nth_error l' k = Some d.
  Proof.
    induction 1 as [m m' K|m x0 d0 m1 l l' m2 H0 H1 H2 IH]; intros x d Q; [left; rewrite <- K; auto|].
    destruct (IH x d Q) as [[N E]|(k & E1 & E2)]; [|right; exists (S k); auto]. rewrite H1 in E. destruct (Nat.eqb_spec x x0) as [->|Nx].
    - right. exists 0%nat. cbn. split; [reflexivity|congruence].
    - left. split; [|exact E]. intros [Z|Z]; [congruence|contradiction].
  Qed.
  Lemma renp_named m l l' m1 : renp B m l l' m1 -> named m -> named m1.
  Proof.
    induction 1 as [m m' K|m x0 d0 m1 l l' m2 H0 H1 H2 IH]; intros Nm; [intros x d; rewrite K; apply Nm|]. apply IH. intros x d. rewrite H1.
    destruct (Nat.eqb_spec x x0) as [->|Nx]; [congruence|apply Nm].
  Qed.
  Lemma fine_code b i : R b -> In i (code b) -> fine i.
  Proof.
    intros Rb J. apply (in_map r_insn) in J. split; [|split; [|split]].
    - intros x. apply (si_vars _ _ _ _ _ _ _ I b); assumption.
    - apply (si_dest _ _ _ _ _ _ _ I b); assumption.
    - apply (si_plain _ _ _ _ _ _ _ I b); assumption.
    - intros y. apply (si_func _ _ _ _ _ _ _ I b); assumption.
  Qed.
  (** from the end of p into c *)
  Lemma enter p c m (s s1' : @senv val world) : R p -> In c (succs g p) -> keeps m (Nout p) -> 
    (forall x d, v_global V x = false -> needed (succs g) plain x p -> m x = Some d -> s_env s1' d = s_env s x) -> named m ->
    forall t : @senv val world, s_world t = s_world s -> 
      (forall x n, v_global V x = false -> m x = Some n -> s_env t n = s_env s1' n) -> (forall d n, In (d, n) (cs p) -> s_env t d = s_env s1' n) ->
    forall m1, renp B (Nin c) (O c) (P c) m1 -> rel m1 (code c) c (mks (s_env s) (s_world s) [] None) (mks (s_env t) (s_world t) [] None).
  Proof.
    intros Rp Ec K Env Nm t Tw T4 T5 m1 Rn. assert (Rc : R c) by (eapply reach_step; eassumption).
    constructor; cbn [s_world s_args s_ret s_env]; auto.
    - eapply renp_named; [exact Rn|]. apply (fo_named F c Rc).
    - intros x d Gx Lx Q. assert (Nx : needed (succs g) plain x p).
      { destruct Lx as [Lx|[Lx1 Lx2]]; [eapply needed_next|eapply needed_later]; eassumption. }
      destruct (renp_inv _ _ _ _ Rn x d Q) as [[Nin0 E]|(k & E1 & E2)].
      + rewrite (fo_same F p c x Rp Ec Gx Lx Nin0), (K x) in E. rewrite (T4 x d Gx E). apply Env; assumption.
      + pose proof (fo_phi F p c Rp Ec) as Fp. assert (Z : exists n, In (d, n) (cs p) /\ Nout p x = Some n).
        { clear - Fp E1 E2. revert k E1 E2. induction Fp as [|a b l l' H Fp IH]; intros [|k] E1 E2; try discriminate; cbn in *; [injection E1 as ->; injection E2 as ->; exact H|eauto]. }
        destruct Z as (n & Jn & En). rewrite (T5 _ _ Jn). rewrite K in En. apply Env; assumption.
  Qed.
  Variable void : bool.
  Notation runs := (sruns M V goff place code (g_next g) (g_then g) (g_else g) exit void).
  Notation runs' := (sruns M V' goff place' code' (g_next g) (g_then g) (g_else g) exit void).
  Definition start (b : nat) (s s' : senv) : Prop := forall m1, renp B (Nin b) (O b) (P b) m1 -> rel m1 (code b) b s s'.
  Lemma block_sim b s s' e : R b -> start b s s' -> s_args s = [] -> blk (code b) s e ->
    match e with
    | SRet r w => blk' (code' b) s' (SRet r w)
    | SFall s1 => exists t, blk' (code' b) s' (SFall t) /\ s_world t = s_world s1 /\
        forall c, In c (succs g b) -> start c (mks (s_env s1) (s_world s1) [] None) (mks (s_env t) (s_world t) [] None)
    | SBranch x s1 => exists t, blk' (code' b) s' (SBranch x t) /\
        forall c, In c (succs g b) -> start c (mks (s_env s1) (s_world s1) [] None) (mks (s_env t) (s_world t) [] None)
    end.
  Proof.
    intros Rb St Ha H. destruct (fo_block F b Rb) as (m1 & before & after & Rp & Rn & -> & Nbr & Aft).
    destruct (before_sim b after (Nout b) before (code b) m1 s s' e (fun i => fine_code b i Rb) (St m1 Rp) Rn Nbr H) as [(r & w & -> & Q)|(l0 & l1 & m2 & s1 & s1' & El & Rn2 & Rl & H2 & Go)]; [apply Q|].
    assert (Cs : forall d n, In (d, n) (cs b) -> Nout b (B d) = Some n /\ v_global V (B d) = false) by (intros d n; apply (fo_copies F b); exact Rb).
    destruct Aft as [->|(br' & -> & Br)].
    - inversion Rn2 as [ma mb K|]; subst. inversion H2; subst. rewrite app_nil_r in El. subst l0.
      assert (A1 : s_args s1 = []).
      { apply (block_args _ _ _ H); [auto|]. intros l1 i E. apply (si_push _ _ _ _ _ _ _ I b (map r_insn l1) (r_insn i) Rb). unfold plain_code. rewrite E, map_app. reflexivity. }
      assert (Nm : named (Nout b)) by (intros x d; rewrite K; apply (re_named _ _ _ _ _ Rl)).
      destruct (copies_sim (Nout b) Nm (cs b) Cs s1') as (t & T1 & T2 & T3 & T4 & T5 & T6); [rewrite (re_args _ _ _ _ _ Rl); exact A1|].
      exists t. split; [apply Go, T1, sb_nil|]. split; [rewrite T2; apply (re_world _ _ _ _ _ Rl)|].
      intros c Ec mc Rc. apply (enter b c m2 s1 s1' Rb Ec K); auto.
      + intros x d Gx Nx. apply (re_env _ _ _ _ _ Rl); [exact Gx|]. right. split; [intros i []|exact Nx].
      + apply (re_named _ _ _ _ _ Rl).
      + rewrite T2. apply (re_world _ _ _ _ _ Rl).
      + intros x n Gx E. apply (T4 x n Gx). rewrite K. exact E.
    - inversion Rn2 as [|ma i ib mb la lb mc Rn3 Rn4]; subst. inversion Rn4 as [md me K1|]; subst. clear Rn2 Rn4.
      apply branch_op in Br. pose proof (n_op _ _ _ _ _ _ Rn3) as Op. rewrite Br in Op. symmetry in Op.
      inversion H2; subst; cbn in Op; try discriminate.
      { match goal with Q : step _ _ _ |- _ => destruct (step_not_end _ _ _ Q Op) end. }
      assert (Ji : In (mkr (mkinsn OP_branch d (Some x) y) sz str) (code b)) by (rewrite El; apply in_or_app; right; left; reflexivity).
      pose proof (fine_code b _ Rb Ji) as Fi. assert (Dn : d = None) by (apply Fi; cbn; tauto). subst d.
      pose proof (n_rd _ _ _ _ _ _ Rn3) as D. cbn in D. destruct D as [D K0].
      assert (K : keeps m2 (Nout b)) by (intros z; rewrite K1, K0; reflexivity).
      assert (Nm : named (Nout b)) by (intros z d; rewrite K; apply (re_named _ _ _ _ _ Rl)).
      destruct (copies_sim (Nout b) Nm (cs b) Cs s1') as (t & T1 & T2 & T3 & T4 & T5 & T6); [rewrite (re_args _ _ _ _ _ Rl); assumption|].
      exists t. split.
      + apply Go, T1. pose proof (n_rs1 _ _ _ _ _ _ Rn3) as N4.
        destruct (get_src _ _ _ _ _ _ _ _ _ _ Fi Rl N4 eq_refl (or_introl eq_refl) eq_refl) as (x1 & E1 & G1 & B1 & U1).
        destruct br' as [[o dd x' yy] sz' str']. cbn in Br, E1, D. subst o x' dd. apply sb_branch; [|exact T3]. rewrite <- H3, <- G1.
        unfold get. cbn [versions v_global]. rewrite B1. destruct (v_global V x) eqn:Gx; [rewrite T2; reflexivity|].
        cbn [src r_insn i_rs1] in N4. rewrite Gx in N4. cbn [orb] in N4. destruct N4 as (dx & Z1 & Z2). injection Z2 as ->. apply (T4 x dx Gx). rewrite K. exact Z1.
      + intros c Ec mc Rc. apply (enter b c m2 s1 s1' Rb Ec K); auto.
        * intros z d Gx Nx. apply (re_env _ _ _ _ _ Rl); [exact Gx|]. right. split; [|exact Nx]. intros j [<-|[]] [Z _]. discriminate Z.
        * apply (re_named _ _ _ _ _ Rl).
        * rewrite T2. apply (re_world _ _ _ _ _ Rl).
        * intros z n Gx E. apply (T4 z n Gx). rewrite K. exact E.
  Qed.
  Theorem runs_sim b s w r : runs b s w r -> R b -> s_args s = [] -> forall s', start b s s' -> runs' b s' w r.
  Proof.
    induction 1 as [b s w r H|b s s1 H E Hv|b s s1 c w r H E Nc H2 IH|b s s1 x t e w r H Et Ee H2 IH]; intros Rb Ha s' St.
    - apply sr_return. exact (block_sim b s s' _ Rb St Ha H).
    - destruct (block_sim b s s' _ Rb St Ha H) as (t & T1 & T2 & _). rewrite <- T2. eapply sr_end; eassumption.
    - destruct (block_sim b s s' _ Rb St Ha H) as (t & T1 & T2 & T3). assert (Ec : In c (succs g b)) by (unfold succs; rewrite E; left; reflexivity).
      eapply sr_next; [exact T1|exact E|exact Nc|]. apply IH; [eapply reach_step; eassumption|reflexivity|]. apply T3. exact Ec.
    - destruct (block_sim b s s' _ Rb St Ha H) as (u & T1 & T3).
      assert (Ec : In (if m_truth M x then t else e) (succs g b)) by (unfold succs; rewrite Et, Ee; destruct (m_truth M x); rewrite !in_app_iff; cbn; auto).
      eapply sr_branch; [exact T1|exact Et|exact Ee|]. apply IH; [eapply reach_step; eassumption|reflexivity|]. apply T3. exact Ec.
  Qed.
End Sim.
