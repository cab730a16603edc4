(** C49: the code ssa_build produces is in static single assignment form, and so meets what the passes that follow rely on. *)
From Verif.Front Require Import StmtEval.
From Verif.Properties Require Import StmtProps SsaProps.
From Verif.Mid Require Import Graph Insn AllocSpec CseSpec Ssa SsaSpec SsaOnce SsaCheck.

(** SsaSpec.v: ssa_form.  Other than in C48, nothing is assumed about where variables are visible or needed. *)
Theorem C49_ssa_form : forall V in_scope declared temp g entry exit params nvars code,
  ssa_shape V g entry exit params nvars code ->
  forall blocks fuel n a, (forall b, reach (succs g) entry b -> In b blocks) ->
  (2 * length blocks < fuel)%nat -> (length blocks * (length blocks + 1) < n)%nat ->
  ssa_build fuel n V in_scope declared temp g entry exit params nvars code = Some a ->
  ssa_form (versions V (ss_base a)) g entry (ss_params a) (ss_code a).
Proof. intros V in_scope declared temp g entry exit params nvars code I blocks fuel n a HU F1 F2 H. eapply build_once; eassumption. Qed.
Print Assumptions C49_ssa_form.

(** ** What the passes that follow rely on *)
Section Rely.
  Variable V : vars.
  Variable g : cfg.
  Variable entry : nat.
  Variable params : list nat.
  Variable code : nat -> list rinsn.
  Notation R := (reach (succs g) entry).
  Hypothesis Hf : ssa_form V g entry params code.

  (** Constant folding (C16), common subexpression and dead code elimination (C46, C41) number the instructions: [ids b] are the
      numbers of the instructions of b. *)
  Section Numbered.
    Variable ins : nat -> insn.
    Variable ids : nat -> list nat.
    Hypothesis Hins : forall b, R b -> map ins (ids b) = plain_code code b.
    Hypothesis Hids : forall b c k j i, R b -> R c -> nth_error (ids b) k = Some i -> nth_error (ids c) j = Some i -> b = c /\ k = j.
    Lemma ids_nth b k i : R b -> nth_error (ids b) k = Some i -> nth_error (plain_code code b) k = Some (ins i).
    Proof. intros Rb H. rewrite <- Hins by exact Rb. apply map_nth_error. exact H. Qed.
    Lemma numbered_single b c i j v : R b -> R c -> In i (ids b) -> In j (ids c) -> i_rd (ins i) = Some v -> i_rd (ins j) = Some v -> v_global V v = false ->
      i = j \/ i_op (ins i) = OP_unwound_phi /\ i_op (ins j) = OP_unwound_phi.
    Proof.
      intros Rb Rc Ji Jj Ei Ej Gv. apply In_nth_error in Ji as (k & Ki), Jj as (m & Kj).
      destruct (sf_single _ _ _ _ _ Hf b c k m _ _ v Rb Rc (ids_nth b k i Rb Ki) (ids_nth c m j Rc Kj) Ei Ej Gv) as [[-> ->]|H]; [left; congruence|right; exact H].
    Qed.
    Lemma numbered_before b c i j v : R b -> R c -> In i (ids b) -> In j (ids c) -> v_global V v = false -> reads (ins i) v ->
      i_rd (ins j) = Some v -> i_op (ins j) <> OP_unwound_phi -> executed_before ids g entry j i.
    Proof.
      intros Rb Rc Ji Jj Gv Rv Ej Np b' l1 l2 l E W. assert (Rb' : R b') by (eapply walk_reach; exact W).
      assert (K : nth_error (ids b') (length l1) = Some i) by (rewrite E, nth_error_app2, Nat.sub_diag by lia; reflexivity).
      assert (Jp : In (ins j) (plain_code code c)) by (rewrite <- Hins by exact Rc; apply in_map; exact Jj).
      destruct (sf_strict _ _ _ _ _ Hf b' (length l1) (ins i) v Rb' (ids_nth _ _ _ Rb' K) Rv Gv) as [H|(_ & _ & _ & H)]; [|destruct (H c (ins j) Rc Jp Ej)].
      destruct (H l W) as [H1|(x & Jx & Ex)]; [destruct (proj2 (sf_params _ _ _ _ _ Hf) c (ins j) v Rc Jp Ej H1)|].
      apply in_app_or in Jx as [Jx|Jx].
      - right. apply in_flat_map in Jx as (d & Jd & Jx). assert (Rd : R d) by (eapply walk_R; eassumption). rewrite <- Hins in Jx by exact Rd. apply in_map_iff in Jx as (y & <- & Jy).
        destruct (numbered_single d c y j v Rd Rc Jy Jj Ex Ej Gv) as [->|[_ Z]]; [|contradiction]. exists d. auto.
      - left. rewrite <- Hins, E, map_app, firstn_app, map_length, Nat.sub_diag in Jx by exact Rb'. cbn [firstn] in Jx. rewrite app_nil_r, firstn_all2 in Jx by (rewrite map_length; lia).
        apply in_map_iff in Jx as (y & <- & Jy). destruct (numbered_single b' c y j v Rb' Rc) as [->|[_ Z]]; [rewrite E; apply in_or_app; auto|exact Jj|exact Ex|exact Ej|exact Gv|exact Jy|contradiction].
    Qed.
    (** f_single of DceSpec.v, strict of FoldSpec.v, strict_reads of CseSpec.v *)
    Theorem C49_optimizers :
      (forall b c i j v, R b -> R c -> In i (ids b) -> In j (ids c) -> i_rd (ins i) = Some v -> i_rd (ins j) = Some v -> v_global V v = false ->
        i = j \/ i_op (ins i) = OP_unwound_phi /\ i_op (ins j) = OP_unwound_phi) /\
      strict ins ids g entry (v_global V) /\ strict_reads ins ids g entry (v_global V).
    Proof.
      split; [exact numbered_single|]. split; intros b c i j v Rb Rc Ji Jj Gv Rv Ej Op; apply (numbered_before b c i j v); auto; intros Q; rewrite Q in Op; discriminate.
    Qed.
  End Numbered.

  (** Register allocation (C40), where a declaration without storage gives no value: v_strict and part of v_storage of AllocSpec.v *)
  Theorem C49_allocator :
    (forall b k i v, R b -> nth_error (plain_code code b) k = Some i -> reads i v -> v_global V v = false ->
      (forall l, walk (succs g) entry (l ++ [b]) b -> assigned_or_param V params (flat_map (plain_code code) l ++ firstn k (plain_code code b)) v) \/
      (~ In v params /\ forall c j, R c -> In j (plain_code code c) -> ~ gives V j v)) /\
    (forall b i d, R b -> In i (plain_code code b) -> i_rd i = Some d -> i_op i = OP_allocat -> v_global V d = false ->
      ~ In d params /\ forall c j k1 k2, R c -> nth_error (plain_code code c) k2 = Some j -> i_rd j = Some d -> nth_error (plain_code code b) k1 = Some i -> c = b /\ k1 = k2).
  Proof.
    assert (Rl : forall l b j, walk (succs g) entry (l ++ [b]) b -> forall k, In j (flat_map (plain_code code) l ++ firstn k (plain_code code b)) -> exists c, R c /\ In j (plain_code code c)).
    { intros l b j W k J. apply in_app_or in J as [J|J].
      - apply in_flat_map in J as (c & Jc & J). exists c. split; [eapply walk_R; eassumption|exact J].
      - exists b. split; [eapply walk_reach; exact W|]. rewrite <- (firstn_skipn k (plain_code code b)). apply in_or_app. left. exact J. }
    assert (Same : forall b c i j v, R b -> R c -> In i (plain_code code b) -> In j (plain_code code c) -> i_rd i = Some v -> i_rd j = Some v -> v_global V v = false ->
      i = j \/ i_op i = OP_unwound_phi /\ i_op j = OP_unwound_phi).
    { intros b c i j v Rb Rc Ji Jj Ei Ej Gv. apply In_nth_error in Ji as (k & Ki), Jj as (m & Kj).
      destruct (sf_single _ _ _ _ _ Hf b c k m i j v Rb Rc Ki Kj Ei Ej Gv) as [[-> ->]|H]; [left; congruence|right; exact H]. }
    split.
    - intros b k i v Rb K Rv Gv. destruct (sf_strict _ _ _ _ _ Hf b k i v Rb K Rv Gv) as [H|(_ & _ & H1 & H2)]; [|right; split; [exact H1|]; intros c j Rc J [E _]; exact (H2 c j Rc J E)].
      destruct (in_dec Nat.eq_dec v params) as [Jp|Np].
      + left. intros l W. right. split; [exact Jp|]. intros j J [E _]. destruct (Rl l b j W k J) as (c & Rc & Jc). exact (proj2 (sf_params _ _ _ _ _ Hf) c j v Rc Jc E Jp).
      + destruct (reach_walk _ _ _ Rb) as [l0 W0]. destruct (walk_final _ _ _ _ W0) as [l1 ->]. destruct (H l1 W0) as [Z|(x & Jx & Ex)]; [contradiction|].
        destruct (Rl l1 b x W0 k Jx) as (c & Rc & Jc).
        destruct (opcode_eq_dec (i_op x) OP_allocat) as [Op|Op]; [destruct (no_storage V v) eqn:Ns|].
        * right. split; [exact Np|]. intros d j Rd J [E Nf]. destruct (Same d c j x v Rd Rc J Jc E Ex Gv) as [->|[Z1 Z2]]; [apply Nf; auto|congruence].
        * left. intros l W. left. destruct (H l W) as [Z|(y & Jy & Ey)]; [contradiction|]. apply in_split in Jy as (t1 & t2 & Et). exists t1, y, t2. split; [exact Et|]. split.
          -- split; [exact Ey|]. intros [_ Z]. congruence.
          -- intros j _ (_ & _ & Z). congruence.
        * left. intros l W. left. destruct (H l W) as [Z|(y & Jy & Ey)]; [contradiction|]. destruct (Rl l b y W k Jy) as (d & Rd & Jd).
          assert (Ny : forall j d, R d -> In j (plain_code code d) -> i_rd j = Some v -> i_op j <> OP_allocat).
          { intros j e Re J E Z. destruct (Same e c j x v Re Rc J Jc E Ex Gv) as [->|[Z1 Z2]]; congruence. }
          pose proof (fun j J => Rl l b j W k J) as Rt. apply in_split in Jy as (t1 & t2 & Et). exists t1, y, t2. split; [exact Et|]. split.
          -- split; [exact Ey|]. intros [Z _]. exact (Ny y d Rd Jd Ey Z).
          -- intros j J (E & Z & _). destruct (Rt j) as (e & Re & Je); [rewrite Et; apply in_or_app; right; right; exact J|]. exact (Ny j e Re Je E Z).
    - intros b i d Rb J E Op Gd. split; [exact (proj2 (sf_params _ _ _ _ _ Hf) b i d Rb J E)|]. intros c j k1 k2 Rc Kj Ej Ki.
      destruct (sf_single _ _ _ _ _ Hf b c k1 k2 i j d Rb Rc Ki Kj E Ej Gd) as [[-> ->]|[Z _]]; [auto|congruence].
  Qed.
End Rely.
Print Assumptions C49_optimizers.
Print Assumptions C49_allocator.

(** ** The function of C48_example: 32 is the n of the loop, with copies in the blocks 0 and 13, which lead to 4 *)
Theorem C49_example : exists F e a, loop_F = Some (F, e) /\ loop_ssa = Some a /\
  ssa_shape (demo_V F e) (graph_of F) 0 1 [1%nat] (p_var F) (p_code F) /\
  ssa_form (versions (demo_V F e) (ss_base a)) (graph_of F) 0 (ss_params a) (ss_code a) /\
  (forall p, reach (succs (graph_of F)) 0 p -> (In 4%nat (succs (graph_of F) p) <-> exists j, In j (plain_code (ss_code a) p) /\ i_rd j = Some 32%nat)).
Proof.
  destruct C48_example as (F & e & a & E1 & E2 & S & U & _). exists F, e, a. split; [exact E1|]. split; [exact E2|]. split; [apply S|].
  assert (Z : ssa_form (versions (demo_V F e) (ss_base a)) (graph_of F) 0 (ss_params a) (ss_code a)).
  { eapply C49_ssa_form with (blocks := loop_blocks) (fuel := 20%nat) (n := 100%nat); [apply S|exact U|cbn; lia|cbn; lia|]. rewrite loop_ssa_is, E1 in E2. exact E2. }
  split; [exact Z|].
  assert (X : match loop_F, loop_ssa with Some (F, _), Some a => forallb (fun p => Bool.eqb (mem 4 (succs (graph_of F) p)) (existsb (fun i => match i_rd i with Some v => Nat.eqb v 32 | None => false end) (plain_code (ss_code a) p))) loop_blocks | _, _ => false end = true)
    by (vm_compute; reflexivity).
  rewrite E1, E2, forallb_forall in X. intros p Rp. specialize (X p (U p Rp)). apply Bool.eqb_prop in X. rewrite <- mem_In. rewrite X, existsb_exists. split; intros (j & J & Q); exists j; (split; [exact J|]).
  - destruct (i_rd j) as [v|]; [|discriminate]. apply Nat.eqb_eq in Q. congruence.
  - rewrite Q. reflexivity.
Qed.
Print Assumptions C49_example.
