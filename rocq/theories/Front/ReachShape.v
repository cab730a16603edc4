(** Which blocks of a parsed function can be reached: without for, do and ?:, all those that lead somewhere. *)
From Coq Require Import Permutation.
From Verif.Front Require Export StmtParse.
From Verif.Front Require Import ExprGroups StmtSpec.
From Verif.Front Require StmtEval.
Open Scope Z_scope.

(** the graph part of the state *)
Record gra := mkgra { g_blk : nat; g_slot : nat -> edge -> option nat }.
Definition gr (st : pst) : gra := mkgra (p_blk st) (fun a t => match t with NEXT => p_next st a | THEN => p_then st a | ELSE => p_else st a end).
Definition geq (g h : gra) : Prop := g_blk g = g_blk h /\ forall a t, g_slot g a t = g_slot h a t.
Definition free (g : gra) (a : nat) : Prop := forall t, g_slot g a t = None.
Inductive rch (g : gra) : nat -> Prop :=
| rch_entry : rch g 0%nat
| rch_step a t c : rch g a -> g_slot g a t = Some c -> rch g c.
(** L: the blocks that can be reached and lead nowhere yet; U: other blocks that lead nowhere yet *)
Record M (g : gra) (L U : list nat) : Prop := mkM {
  m_src : forall a t c, g_slot g a t = Some c -> rch g a;
  m_fresh : forall a, (g_blk g <= a)%nat -> free g a;
  m_live : forall b, In b L -> rch g b;
  m_free : forall b, In b (L ++ U) -> free g b /\ (b < g_blk g)%nat;
  m_nodup : NoDup (L ++ U) }.
(** b can be reached, its edge t is not yet there *)
Definition half (g : gra) (b : nat) (t : edge) (L U : list nat) : Prop :=
  M g L U /\ rch g b /\ g_slot g b t = None /\ ~ In b (L ++ U) /\ (b < g_blk g)%nat.
Definition conn (g : gra) (a d : nat) (t : edge) (h : gra) : Prop :=
  g_blk h = g_blk g /\ g_slot h a t = Some d /\ (forall x u, (x <> a \/ u <> t) -> g_slot h x u = g_slot g x u).
Definition crea (g h : gra) : Prop := g_blk h = S (g_blk g) /\ forall a t, g_slot h a t = g_slot g a t.

Definition edge_eq_dec (a b : edge) : {a = b} + {a <> b}. Proof. decide equality. Defined.
Lemma rch_mono g h : (forall a t c, g_slot g a t = Some c -> g_slot h a t = Some c) -> forall b, rch g b -> rch h b.
Proof. intros H b R. induction R as [|a t c R IH E]; [constructor|]. econstructor; [exact IH|apply H; exact E]. Qed.
Lemma M_geq g h L U : geq g h -> M g L U -> M h L U.
Proof.
  intros [E1 E2] [H1 H2 H3 H4 H5]. assert (R : forall b, rch g b -> rch h b) by (apply rch_mono; intros a t c Q; rewrite <- E2; exact Q).
  constructor; auto.
  - intros a t c Q. apply R, (H1 a t c). rewrite E2. exact Q.
  - intros a La t. rewrite <- E2. apply H2. lia.
  - intros b J. destruct (H4 b J) as [F Lb]. split; [intros t; rewrite <- E2; apply F|lia].
Qed.
Lemma half_geq g h b t L U : geq g h -> half g b t L U -> half h b t L U.
Proof.
  intros E (H1 & H2 & H3 & H4 & H5). pose proof (M_geq _ _ _ _ E H1). destruct E as [E1 E2].
  split; [assumption|]. split; [apply (rch_mono g); [intros a u c Q; rewrite <- E2; exact Q|exact H2]|]. split; [rewrite <- E2; exact H3|]. split; [exact H4|lia].
Qed.
Lemma M_create g h L U : crea g h -> M g L U -> M h L (g_blk g :: U).
Proof.
  intros [E1 E2] K. pose proof K as [H1 H2 H3 H4 H5]. assert (R : forall b, rch g b -> rch h b) by (apply rch_mono; intros a t c Q; rewrite E2; exact Q).
  constructor.
  - intros a t c Q. apply R, (H1 a t c). rewrite <- E2. exact Q.
  - intros a La t. rewrite E2. apply H2. lia.
  - auto.
  - intros b J. assert (Q : b = g_blk g \/ In b (L ++ U)) by (rewrite in_app_iff in *; cbn in J; intuition).
    destruct Q as [->|Q]; [split; [intros t; rewrite E2; apply H2; lia|lia]|]. destruct (H4 b Q) as [F Lb]. split; [intros t; rewrite E2; apply F|lia].
  - apply NoDup_Add with (a := g_blk g) (l := L ++ U); [apply Add_app|]. split; [exact H5|]. intros J. destruct (H4 _ J). lia.
Qed.
Lemma half_create g h b t L U : crea g h -> half g b t L U -> half h b t L (g_blk g :: U).
Proof.
  intros C (H1 & H2 & H3 & H4 & H5). pose proof (M_create _ _ _ _ C H1) as K. destruct C as [E1 E2].
  split; [exact K|]. split; [apply (rch_mono g); [intros a u c Q; rewrite E2; exact Q|exact H2]|]. split; [rewrite E2; exact H3|]. split; [|lia].
  intros J. apply H4. rewrite in_app_iff in *. cbn in J. intuition lia.
Qed.
(** any block may be led to *)
Lemma half_connect g h b d t L U : conn g b d t h -> half g b t L U -> M h L U /\ rch h d /\ rch h b /\ ~ In b (L ++ U) /\ (b < g_blk h)%nat.
Proof.
  intros (E1 & E2 & E3) (K & Rb & Sb & Nb & Lb). pose proof K as [H1 H2 H3 H4 H5].
  assert (Sl : forall a u c, g_slot g a u = Some c -> g_slot h a u = Some c).
  { intros a u c Q. destruct (Nat.eq_dec a b) as [->|Na]; [|rewrite E3; auto]. destruct (edge_eq_dec u t) as [->|Nu]; [congruence|rewrite E3; auto]. }
  assert (R : forall x, rch g x -> rch h x) by (apply rch_mono; exact Sl).
  assert (Rd : rch h d) by (econstructor; [apply R; exact Rb|exact E2]).
  split; [|split; [exact Rd|]; split; [auto|]; split; [exact Nb|lia]]. constructor.
  - intros a u c Q. destruct (Nat.eq_dec a b) as [->|Na]; [auto|]. apply R, (H1 a u c). rewrite <- E3 by auto. exact Q.
  - intros a La u. rewrite E3 by (left; lia). apply H2. lia.
  - auto.
  - intros x J. destruct (H4 x J) as [F Lx]. split; [|lia]. intros u. rewrite E3; [apply F|left; intros ->; contradiction].
  - exact H5.
Qed.
Lemma M_half g b t L U : M g (b :: L) U -> half g b t L U.
Proof.
  intros [H1 H2 H3 H4 H5]. cbn in H5. inversion H5 as [|x l Nb Nd]; subst. destruct (H4 b (or_introl eq_refl)) as [F Lb].
  split; [constructor; auto; [intros c J; apply H3; right; exact J|intros c J; apply H4; right; exact J]|]. split; [apply H3; left; reflexivity|]. split; [apply F|]. split; assumption.
Qed.
(** a block that now can be reached *)
Lemma M_reached g d L U : M g L (d :: U) -> rch g d -> M g (d :: L) U.
Proof.
  intros [H1 H2 H3 H4 H5] Rd. assert (P : Permutation (L ++ d :: U) ((d :: L) ++ U)) by (symmetry; apply Permutation_middle). constructor; auto.
  - intros b [<-|J]; auto.
  - intros b J. apply H4. eapply Permutation_in; [symmetry; exact P|exact J].
  - eapply Permutation_NoDup; eassumption.
Qed.
Lemma M_close g h b d t L U : conn g b d t h -> M g (b :: L) U -> M h L U.
Proof. intros C K. apply (half_connect _ _ _ _ _ _ _ C (M_half _ _ t _ _ K)). Qed.
Lemma M_goto g h b d t L U : conn g b d t h -> M g (b :: L) (d :: U) -> M h (d :: L) U.
Proof. intros C K. apply M_reached; apply (half_connect _ _ _ _ _ _ _ C (M_half _ _ t _ _ K)). Qed.
Lemma M_fork g h b d t u L U : conn g b d t h -> t <> u -> M g (b :: L) U -> half h b u L U /\ rch h d.
Proof.
  intros C Nt K. destruct (half_connect _ _ _ _ _ _ _ C (M_half _ _ t _ _ K)) as (K1 & R1 & R2 & N1 & L1). split; [|exact R1].
  split; [exact K1|]. split; [exact R2|]. split; [|split; assumption]. destruct C as (_ & _ & E). rewrite E by auto. apply (m_free _ _ _ K b (or_introl eq_refl)).
Qed.
Lemma half_reached g b t d L U : half g b t L (d :: U) -> rch g d -> half g b t (d :: L) U.
Proof.
  intros (K & H1 & H2 & H3 & H4) Rd. split; [apply M_reached; assumption|]. split; [exact H1|]. split; [exact H2|]. split; [|exact H4].
  intros J. apply H3. rewrite in_app_iff in *. cbn in *. intuition.
Qed.
Lemma half_goto g h b d t L U : conn g b d t h -> half g b t L (d :: U) -> M h (d :: L) U.
Proof. intros C K. apply M_reached; apply (half_connect _ _ _ _ _ _ _ C K). Qed.
Lemma half_close g h b d t L U : conn g b d t h -> half g b t L U -> M h L U.
Proof. intros C K. apply (half_connect _ _ _ _ _ _ _ C K). Qed.
Lemma M_perm g L U L' U' : M g L U -> Permutation L L' -> Permutation U U' -> M g L' U'.
Proof.
  intros [H1 H2 H3 H4 H5] P Q. assert (R : Permutation (L ++ U) (L' ++ U')) by (apply Permutation_app; assumption). constructor; auto.
  - intros b J. apply H3. eapply Permutation_in; [symmetry; exact P|exact J].
  - intros b J. apply H4. eapply Permutation_in; [symmetry; exact R|exact J].
  - eapply Permutation_NoDup; eassumption.
Qed.
Lemma half_perm g b t L U L' U' : half g b t L U -> Permutation L L' -> Permutation U U' -> half g b t L' U'.
Proof.
  intros (K & H1 & H2 & H3 & H4) P Q. split; [eapply M_perm; eassumption|]. split; [exact H1|]. split; [exact H2|]. split; [|exact H4].
  intros J. apply H3. eapply Permutation_in; [symmetry; apply Permutation_app; eassumption|exact J].
Qed.
Lemma M_drop g d L U : M g L (d :: U) -> M g L U.
Proof.
  intros [H1 H2 H3 H4 H5]. constructor; auto.
  - intros b J. apply H4. rewrite in_app_iff in *. cbn. intuition.
  - apply NoDup_remove_1 in H5. exact H5.
Qed.
Lemma M_swap g a b L U : M g (a :: b :: L) U -> M g (b :: a :: L) U.
Proof. intros K. eapply M_perm; [exact K|apply perm_swap|reflexivity]. Qed.
Lemma M_swap_u g a b L U : M g L (a :: b :: U) -> M g L (b :: a :: U).
Proof. intros K. eapply M_perm; [exact K|reflexivity|apply perm_swap]. Qed.

Lemma conn_rch g h a d t x : conn g a d t h -> g_slot g a t = None -> rch g x -> rch h x.
Proof.
  intros (E1 & E2 & E3) N. apply rch_mono. intros b u c Q. destruct (Nat.eq_dec b a) as [->|Na]; [|rewrite E3; auto]. destruct (edge_eq_dec u t) as [->|Nu]; [congruence|rewrite E3; auto].
Qed.
Lemma M_slot g b t L U : M g (b :: L) U -> g_slot g b t = None.
Proof. intros K. apply (m_free _ _ _ K b (or_introl eq_refl)). Qed.

(** ** the primitives *)
Lemma geq_refl g : geq g g. Proof. split; auto. Qed.
Lemma geq_trans a b c : geq a b -> geq b c -> geq a c.
Proof. intros [E1 E2] [F1 F2]. split; [congruence|]. intros x t. rewrite E2. apply F2. Qed.
Lemma geq_sym a b : geq a b -> geq b a.
Proof. intros [E1 E2]. split; [congruence|]. intros x t. symmetry. apply E2. Qed.
Lemma Q_require lim st v st' : require_var lim st = Some (v, st') -> geq (gr st) (gr st').
Proof. unfold require_var. destruct (_ <? _)%nat; [|discriminate]. intros Q. injection Q as _ <-. split; reflexivity. Qed.
Lemma Q_label lim st st' : label lim st = Some st' -> geq (gr st) (gr st').
Proof. unfold label. destruct (require_var lim st) as [[v s]|] eqn:E; [|discriminate]. intros Q. apply some_inj in Q. subst. eapply Q_require; eassumption. Qed.
Lemma Q_push v st st' : opstack_push v st = Some st' -> geq (gr st) (gr st').
Proof. unfold opstack_push. destruct (_ <? _)%nat; [|discriminate]. intros Q. apply some_inj in Q. subst. split; reflexivity. Qed.
Lemma Q_pop st v st' : opstack_pop st = Some (v, st') -> geq (gr st) (gr st').
Proof. unfold opstack_pop. destruct (p_stack st); [discriminate|]. intros Q. injection Q as _ <-. split; reflexivity. Qed.
Lemma Q_insn b o rd r1 r2 sz str st : geq (gr st) (gr (add_insn b o rd r1 r2 sz str st)).
Proof. split; reflexivity. Qed.
Lemma Q_init v c st : geq (gr st) (gr (set_init v c st)).
Proof. split; reflexivity. Qed.
Lemma Q_create st k st' : bb_create st = (k, st') -> crea (gr st) (gr st') /\ k = g_blk (gr st).
Proof. unfold bb_create. intros Q. injection Q as <- <-. split; [split; reflexivity|reflexivity]. Qed.
Lemma Q_connect a d t st st' : bb_connect a d t st = Some st' -> conn (gr st) a d t (gr st').
Proof.
  unfold bb_connect. destruct (_ <? _)%nat; [|discriminate]. intros Q. apply some_inj in Q. subst. split; [reflexivity|]. split.
  - destruct t; cbn; unfold upd; rewrite Nat.eqb_refl; reflexivity.
  - intros x u [N|N]; destruct t, u; cbn; try reflexivity; try congruence; unfold upd; destruct (Nat.eqb_spec x a); congruence.
Qed.
Lemma Q_push_args b l : forall st, geq (gr st) (gr (push_args b l st)).
Proof. induction l as [|v l IH]; intros st; [apply geq_refl|]. cbn [push_args]. eapply geq_trans; [apply Q_insn|apply IH]. Qed.

Ltac mv K := lazymatch goal with
  | E : geq ?g ?h |- _ => lazymatch type of K with
     | M _ _ _ => let K' := fresh "K" in pose proof (M_geq _ _ _ _ E K) as K'; clear K E; rename K' into K
     | half _ _ _ _ _ => let K' := fresh "K" in pose proof (half_geq _ _ _ _ _ _ E K) as K'; clear K E; rename K' into K
     end
  end.
(* one step that leaves the graph alone, or makes a block *)
Ltac q H K :=
  lazymatch type of H with
  | match ?x with Some _ => _ | None => None end = Some _ =>
    let E := fresh "E" in
    lazymatch x with
    | require_var _ _ => destruct x as [[? ?]|] eqn:E; [|discriminate H]; apply Q_require in E; mv K
    | label _ _ => destruct x as [?|] eqn:E; [|discriminate H]; apply Q_label in E; mv K
    | opstack_push _ _ => destruct x as [?|] eqn:E; [|discriminate H]; apply Q_push in E; mv K
    | opstack_pop _ => destruct x as [[? ?]|] eqn:E; [|discriminate H]; apply Q_pop in E; mv K
    end
  | (let '(_, _) := bb_create ?s in _) = Some _ => let E := fresh "E" in destruct (bb_create s) eqn:E; apply Q_create in E; destruct E as [E ->];
      lazymatch type of K with
      | M _ _ _ => let K' := fresh "K" in pose proof (M_create _ _ _ _ E K) as K'; clear K E; rename K' into K
      | half _ _ _ _ _ => let K' := fresh "K" in pose proof (half_create _ _ _ _ _ _ E K) as K'; clear K E; rename K' into K
      end
  end.
Ltac cn H := lazymatch type of H with match ?x with Some _ => _ | None => None end = Some _ =>
    lazymatch x with bb_connect _ _ _ _ => let E := fresh "C" in destruct x as [?|] eqn:E; [|discriminate H]; apply Q_connect in E end end.
Ltac same E := unfold load_constant, unary_op, binary_op in E;
  repeat match type of E with
  | match require_var _ _ with _ => _ end = _ => let F := fresh "F" in destruct (require_var _ _) as [[? ?]|] eqn:F; [|discriminate E]; apply Q_require in F
  | match opstack_push _ _ with _ => _ end = _ => let F := fresh "F" in destruct (opstack_push _ _) as [?|] eqn:F; [|discriminate E]; apply Q_push in F
  | match opstack_pop _ with _ => _ end = _ => let F := fresh "F" in destruct (opstack_pop _) as [[? ?]|] eqn:F; [|discriminate E]; apply Q_pop in F
  end; apply some_inj in E; subst.
Ltac chain := repeat match goal with A : geq ?g ?h |- geq ?g' ?k => first [exact A|let Z := fresh in pose proof (geq_trans _ _ _ A) as Z; eapply Z; clear A Z] end; try apply geq_refl.

Section Expr.
  Variable lim : nat.
  Lemma Q_const c b st st' : load_constant lim c b st = Some st' -> geq (gr st) (gr st').
  Proof. intros E. unfold load_constant in E. destruct (require_var _ _) as [[v s]|] eqn:F; [|discriminate]. apply Q_require in F. destruct (opstack_push _ _) eqn:G; [|discriminate]. apply Q_push in G. apply some_inj in E. subst. exact (geq_trans _ _ _ F G). Qed.
  Lemma Q_unary o b st st' : unary_op lim o b st = Some st' -> geq (gr st) (gr st').
  Proof.
    intros E. unfold unary_op in E. destruct (opstack_pop _) as [[v s]|] eqn:F; [|discriminate]. apply Q_pop in F. destruct (require_var _ _) as [[w s2]|] eqn:G; [|discriminate]. apply Q_require in G.
    destruct (opstack_push _ _) eqn:I; [|discriminate]. apply Q_push in I. apply some_inj in E. subst. exact (geq_trans _ _ _ F (geq_trans _ _ _ G I)).
  Qed.
  Lemma Q_binary o b st st' : binary_op lim o b st = Some st' -> geq (gr st) (gr st').
  Proof.
    intros E. unfold binary_op in E. destruct (opstack_pop _) as [[v s]|] eqn:F; [|discriminate]. apply Q_pop in F. destruct (opstack_pop s) as [[w s2]|] eqn:G; [|discriminate]. apply Q_pop in G. destruct (require_var _ _) as [[x s3]|] eqn:I; [|discriminate]. apply Q_require in I.
    destruct (opstack_push _ _) eqn:J; [|discriminate]. apply Q_push in J. apply some_inj in E. subst. exact (geq_trans _ _ _ F (geq_trans _ _ _ G (geq_trans _ _ _ I J))).
  Qed.
  Lemma Q_reduce p b ops : forall st ops' st', reduce lim p b ops st = Some (ops', st') -> geq (gr st) (gr st').
  Proof.
    induction ops as [|o r IH]; cbn [reduce]; intros st ops' st' H; [apply some_inj in H; injection H as _ <-; apply geq_refl|].
    destruct (_ >=? p); [|apply some_inj in H; injection H as _ <-; apply geq_refl]. destruct (binary_op lim o b st) eqn:E; [|discriminate]. eapply geq_trans; [eapply Q_binary; exact E|eapply IH; exact H].
  Qed.
  Lemma Q_unwind b ops : forall st st', unwind lim b ops st = Some st' -> geq (gr st) (gr st').
  Proof.
    induction ops as [|o r IH]; cbn [unwind]; intros st st' H; [apply some_inj in H; subst; apply geq_refl|].
    destruct (binary_op lim o b st) eqn:E; [|discriminate]. eapply geq_trans; [eapply Q_binary; exact E|eapply IH; exact H].
  Qed.
  Lemma R_logical o st b L U st' b' : half (gr st) b (if is_and o then THEN else ELSE) L U -> read_logical lim o st b = Some (st', b') -> M (gr st') (b' :: L) U.
  Proof.
    intros K H. unfold read_logical in H. q H K. q H K. q H K. q H K. q H K. cn H. apply some_inj in H. injection H as <- <-. eapply half_goto; [exact C|exact K].
  Qed.
  Lemma R_finalize o st b sh L U st' b' : M (gr st) (b :: L) (sh :: U) -> finalize_logical lim o st b sh = Some (st', b') -> M (gr st') (b' :: L) U.
  Proof.
    intros K H. unfold finalize_logical in H. q H K. q H K. set (e := g_blk (gr st)) in *. set (n := g_blk (gr p)) in *. clearbody e n.
    set (x := if is_and o then n else sh) in *. set (y := if is_and o then sh else n) in *.
    assert (P : Permutation (n :: e :: sh :: U) (x :: y :: e :: U)).
    { unfold x, y. destruct (is_and o); [constructor; apply perm_swap|]. apply Permutation_sym, (Permutation_middle [n; e] U sh). }
    assert (K' := M_perm _ _ _ _ _ K (Permutation_refl _) P). clear K. rename K' into K. clear P. clearbody x y.
    cn H. destruct (M_fork _ _ _ _ _ ELSE _ _ C ltac:(discriminate) K) as [K1 R1]. clear K. apply half_reached in K1; [|exact R1]. rename K1 into K.
    cn H. apply (half_goto _ _ _ _ _ _ _ C0), M_swap in K.
    cn H. apply (M_goto _ _ _ _ _ _ _ C1), M_swap in K.
    cn H. apply (M_close _ _ _ _ _ _ _ C2) in K.
    q H K. q H K. q H K. q H K. q H K. q H K. q H K. q H K. q H K. q H K. q H K. apply some_inj in H. injection H as <- <-. exact K.
  Qed.
  Lemma R_test o st b l L U st' b' : M (gr st) (b :: L) U -> test_operand lim o st b l = Some (st', b') -> M (gr st') (b' :: L) U.
  Proof.
    intros K H. unfold test_operand in H. cn H. eapply R_logical; [|exact H]. destruct (is_and o); eapply M_fork; try exact C; try exact K; discriminate.
  Qed.
  (* the shared blocks of && and || *)
  Definition lgok (l : lg) : Prop := (l_pprev l = OP_generic \/ l_prev l = OP_log_and /\ l_pprev l = OP_log_or) /\ In (l_prev l) [OP_generic; OP_log_and; OP_log_or].
  Definition two (l : lg) (U : list nat) : list nat := l_and l :: l_or l :: U.
  Lemma R_next o st b l L U st' b' l' : is_logical o = true -> lgok l -> M (gr st) (b :: L) (two l U) -> next_logical lim o st b l = Some (st', b', l') ->
    lgok l' /\ M (gr st') (b' :: L) (two l' U).
  Proof.
    intros Lo [O1 O2] K H. unfold next_logical in H. destruct l as [h p pp a r]. unfold two in *. cbn [l_has l_prev l_pprev l_and l_or] in *.
    assert (Oo : o = OP_log_and \/ o = OP_log_or) by (destruct o; try discriminate Lo; auto).
    destruct (op_eqb p OP_generic || op_eqb p o) eqn:Ep.
    - destruct (test_operand lim o st b _) as [[s c]|] eqn:E; [|discriminate]. apply some_inj in H. injection H as <- <- <-. apply (R_test _ _ _ _ _ _ _ _ K) in E. split.
      + unfold lgok. cbn. destruct O2 as [<-|[<-|[<-|[]]]], Oo as [->| ->]; try discriminate Ep; intuition (subst; try discriminate; auto).
      + exact E.
    - assert (Np : p <> OP_generic /\ p <> o) by (split; intros ->; destruct Oo as [->| ->]; discriminate Ep). destruct (is_and p) eqn:Ap.
      + assert (p = OP_log_and /\ o = OP_log_or) as [-> ->] by (destruct O2 as [<-|[<-|[<-|[]]]], Oo as [->| ->]; try discriminate Ap; intuition congruence).
        destruct (finalize_logical lim OP_log_and st b a) as [[s c]|] eqn:E; [|discriminate]. apply (R_finalize _ _ _ _ _ _ _ _ K) in E. clear K. rename E into K.
        q H K. cn H. destruct (M_fork _ _ _ _ _ ELSE _ _ C ltac:(discriminate) K) as [K1 _].
        destruct (read_logical lim OP_log_or _ _) as [[s3 c3]|] eqn:E3; [|discriminate]. apply some_inj in H. injection H as <- <- <-. apply (R_logical OP_log_or _ _ _ _ _ _ K1) in E3.
        split; [unfold lgok; cbn; auto|]. exact E3.
      + assert (p = OP_log_or /\ o = OP_log_and) as [-> ->] by (destruct O2 as [<-|[<-|[<-|[]]]], Oo as [->| ->]; try discriminate Ap; intuition congruence).
        cn H. destruct (M_fork _ _ _ _ _ THEN _ _ C ltac:(discriminate) K) as [K1 _].
        destruct (read_logical lim OP_log_and _ _) as [[s3 c3]|] eqn:E3; [|discriminate]. apply some_inj in H. injection H as <- <- <-. apply (R_logical OP_log_and _ _ _ _ _ _ K1) in E3.
        split; [unfold lgok; cbn; auto|]. exact E3.
  Qed.
  Lemma M_shared p l g b L U : M g (b :: L) (two l U) -> exists x, M g (b :: L) (shared p l :: x :: U) /\ two l U = (if is_and p then [shared p l; x] else [x; shared p l]) ++ U.
  Proof.
    intros K. unfold two, shared in *. destruct (is_and p); [exists (l_or l); split; [exact K|reflexivity]|exists (l_and l); split; [apply M_swap_u; exact K|reflexivity]].
  Qed.
  Lemma lgok_pop l a r : lgok l -> lgok (mklg (negb (op_eqb (l_pprev l) OP_generic)) (l_pprev l) OP_generic a r).
  Proof. intros [O1 O2]. unfold lgok. cbn. destruct O1 as [->|[_ ->]]; auto. Qed.
  Lemma R_leave n : forall o st b l L U st' b' l', lgok l -> M (gr st) (b :: L) (two l U) -> leave_logical lim n o st b l = Some (st', b', l') ->
    lgok l' /\ M (gr st') (b' :: L) (two l' U).
  Proof.
    induction n as [|n IH]; cbn [leave_logical]; intros o st b l L U st' b' l' O K H; destruct (_ && _); try discriminate;
      try (apply some_inj in H; injection H as <- <- <-; auto).
    destruct (finalize_logical lim _ _ _ _) as [[s c]|] eqn:E; [|discriminate]. destruct (M_shared (l_prev l) _ _ _ _ _ K) as (x & K1 & X). apply (R_finalize _ _ _ _ _ _ _ _ K1) in E. clear K K1. rename E into K.
    q H K. eapply IH; [| |exact H].
    - apply lgok_pop. exact O.
    - unfold two in *. cbn [l_and l_or]. destruct (is_and (l_prev l)); cbn in X; injection X as X1 X2; subst; [exact K|apply M_swap_u; exact K].
  Qed.
  Lemma R_end st b l L U st' b' : lgok l -> M (gr st) (b :: L) (two l U) -> end_logical lim 3 st b l = Some (st', b') -> M (gr st') (b' :: L) U.
  Proof.
    intros [O1 O2] K H. cbn [end_logical] in H. destruct (l_has l).
    2:{ apply some_inj in H. injection H as <- <-. apply M_drop, M_drop in K. exact K. }
    destruct (finalize_logical lim _ _ _ _) as [[s c]|] eqn:E; [|discriminate]. destruct (M_shared (l_prev l) _ _ _ _ _ K) as (x & K1 & X). apply (R_finalize _ _ _ _ _ _ _ _ K1) in E. clear K K1. rename E into K.
    destruct O1 as [Op|[Op1 Op2]].
    - rewrite Op in H. cbn -[finalize_logical] in H. apply some_inj in H. injection H as <- <-. apply M_drop in K. exact K.
    - rewrite Op2 in H. rewrite Op1 in X. cbn in X. injection X as X. cbn -[finalize_logical] in H. destruct (finalize_logical lim _ _ _ _) as [[s2 c2]|] eqn:E2; [|discriminate]. apply some_inj in H. injection H as <- <-.
      subst x. exact (R_finalize _ _ _ _ _ _ _ _ K E2).
  Qed.
  (* no for, do or ?: *)
  Definition clean (ts : toks) : Prop := forall t w, In (t, w) ts -> t <> T_for /\ t <> T_do /\ t <> T_question.
  Lemma clean_tl p ts : clean (p :: ts) -> clean ts.
  Proof. intros H t w J. apply (H t w). right. exact J. Qed.
  Lemma clean_accept t ts ts' : clean ts -> lex_accept t ts = Some ts' -> clean ts'.
  Proof. intros C. unfold lex_accept. destruct ts as [|[u w] r]; [discriminate|]. destruct (token_eqb u t); [|discriminate]. intros Q. apply some_inj in Q. subst. eapply clean_tl; exact C. Qed.
  Lemma clean_no_q ts : clean ts -> lex_accept T_question ts = None.
  Proof.
    intros C. unfold lex_accept. destruct ts as [|[u w] r]; [reflexivity|]. destruct (C u w (or_introl eq_refl)) as (_ & _ & N). destruct u; try reflexivity. destruct (N eq_refl).
  Qed.
  Lemma clean_op ts o ts' : clean ts -> get_operator ts = (o, ts') -> clean ts'.
  Proof.
    intros C H. destruct ts as [|[t w] r]; [injection H as _ <-; exact C|]. pose proof (clean_tl _ _ C). destruct t; injection H as _ <-; assumption.
  Qed.

  (** ** the readers *)
  Section Readers.
  Variable find_constant : text -> option Z.
  Variable find_var : text -> option vinfo.
  Variable find_func : text -> option Z.
  Variable special : text -> bool.
  Notation rop := (read_operand find_constant find_var find_func special lim).
  Notation rexp := (read_expr find_constant find_var find_func special lim).
  Notation rtern := (read_ternary find_constant find_var find_func special lim).
  Notation rargs := (read_args find_constant find_var find_func special lim).
  Notation rcall := (read_call find_constant find_var find_func special lim).
  Notation rlval := (read_lvalue find_constant find_var find_func special lim).
  Notation rsubs := (read_subscripts find_constant find_var find_func special lim).
  Notation rplus := (read_plus find_constant find_var find_func special lim).
  Notation eloop := (expr_loop find_constant find_var find_func special lim).
  Definition keeps (L U : list nat) (ts : toks) (st : pst) (b : nat) : Prop := clean ts /\ M (gr st) (b :: L) U.
  Definition all_reach (n : nat) : Prop := forall L U ts st b, keeps L U ts st b ->
    (forall ts' st' b', rop n ts st b = Some (ts', st', b') -> keeps L U ts' st' b') /\
    (forall f ts' st' b', rcall n f ts st b = Some (ts', st', b') -> keeps L U ts' st' b') /\
    (forall l ts' st' b' l', rargs n l ts st b = Some (ts', st', b', l') -> keeps L U ts' st' b') /\
    (forall v ts' st' b', rlval n v ts st b = Some (ts', st', b') -> keeps L U ts' st' b') /\
    (forall v s m ts' st' b' s' r, rsubs n v s m ts st b = Some (ts', st', b', s', r) -> keeps L U ts' st' b') /\
    (forall v s r ts' st' b', rplus n v s r ts st b = Some (ts', st', b') -> keeps L U ts' st' b') /\
    (forall ts' st' b', rexp n ts st b = Some (ts', st', b') -> keeps L U ts' st' b') /\
    (forall o ops l ts' st' b' U0, U = two l U0 -> lgok l -> eloop n o ts st b ops l = Some (ts', st', b') -> keeps L U0 ts' st' b') /\
    (forall ts' st' b', rtern n ts st b = Some (ts', st', b') -> keeps L U ts' st' b').
  Lemma reaches : forall n, all_reach n.
  Proof.
    induction n as [|n IH].
    { intros L U ts st b _. repeat split; intros; discriminate. }
    Ltac rd H K C IH :=
      lazymatch type of H with match ?x with Some _ => _ | None => None end = Some _ =>
        lazymatch type of K with M _ (_ :: ?L) ?U =>
        let E := fresh "E" in let KK := fresh "KK" in
        lazymatch x with
        | read_operand _ _ _ _ _ _ ?ts ?s ?b => assert (KK : keeps L U ts s b) by exact (conj C K); destruct x as [[[? ?] ?]|] eqn:E; [|discriminate H]; apply (proj1 (IH _ _ _ _ _ KK)) in E; clear K C KK; destruct E as [C K]
        | read_call _ _ _ _ _ _ _ ?ts ?s ?b => assert (KK : keeps L U ts s b) by exact (conj C K); destruct x as [[[? ?] ?]|] eqn:E; [|discriminate H]; apply (proj1 (proj2 (IH _ _ _ _ _ KK))) in E; clear K C KK; destruct E as [C K]
        | read_args _ _ _ _ _ _ _ ?ts ?s ?b => assert (KK : keeps L U ts s b) by exact (conj C K); destruct x as [[[[? ?] ?] ?]|] eqn:E; [|discriminate H]; apply (proj1 (proj2 (proj2 (IH _ _ _ _ _ KK)))) in E; clear K C KK; destruct E as [C K]
        | read_lvalue _ _ _ _ _ _ _ ?ts ?s ?b => assert (KK : keeps L U ts s b) by exact (conj C K); destruct x as [[[? ?] ?]|] eqn:E; [|discriminate H]; apply (proj1 (proj2 (proj2 (proj2 (IH _ _ _ _ _ KK))))) in E; clear K C KK; destruct E as [C K]
        | read_subscripts _ _ _ _ _ _ _ _ _ ?ts ?s ?b => assert (KK : keeps L U ts s b) by exact (conj C K); destruct x as [[[[[? ?] ?] ?] ?]|] eqn:E; [|discriminate H]; apply (proj1 (proj2 (proj2 (proj2 (proj2 (IH _ _ _ _ _ KK)))))) in E; clear K C KK; destruct E as [C K]
        | read_expr _ _ _ _ _ _ ?ts ?s ?b => assert (KK : keeps L U ts s b) by exact (conj C K); destruct x as [[[? ?] ?]|] eqn:E; [|discriminate H]; apply (proj1 (proj2 (proj2 (proj2 (proj2 (proj2 (proj2 (IH _ _ _ _ _ KK)))))))) in E; clear K C KK; destruct E as [C K]
        | read_ternary _ _ _ _ _ _ ?ts ?s ?b => assert (KK : keeps L U ts s b) by exact (conj C K); destruct x as [[[? ?] ?]|] eqn:E; [|discriminate H]; apply (proj2 (proj2 (proj2 (proj2 (proj2 (proj2 (proj2 (proj2 (IH _ _ _ _ _ KK))))))))) in E; clear K C KK; destruct E as [C K]
        end end end.
    (* steps that leave the graph alone *)
    Ltac pl H K := first [q H K|lazymatch type of H with match ?x with Some _ => _ | None => None end = Some _ =>
        let E := fresh "E" in lazymatch x with
        | load_constant _ _ _ _ => destruct x as [?|] eqn:E; [|discriminate H]; apply Q_const in E; mv K
        | unary_op _ _ _ _ => destruct x as [?|] eqn:E; [|discriminate H]; apply Q_unary in E; mv K
        | binary_op _ _ _ _ => destruct x as [?|] eqn:E; [|discriminate H]; apply Q_binary in E; mv K
        | unwind _ _ _ _ => destruct x as [?|] eqn:E; [|discriminate H]; apply Q_unwind in E; mv K
        | reduce _ _ _ _ _ => destruct x as [[? ?]|] eqn:E; [|discriminate H]; apply Q_reduce in E; mv K
        end end].
    Ltac ex H C := lazymatch type of H with match ?x with Some _ => _ | None => None end = Some _ => let E := fresh "E" in destruct x as [?|] eqn:E; [|discriminate H]; apply (clean_accept _ _ _ C) in E; clear C; rename E into C end.
    Ltac dn H K C := apply some_inj in H; injection H; clear H; intros; subst; exact (conj C K).
    intros L U ts st b [C K]. repeat match goal with |- _ /\ _ => split end; intros; match goal with Q : _ = Some _ |- _ => revert Q end; intros Hx.
    - (* read_operand *) rewrite read_operand_S in Hx. cbv zeta in Hx.
      destruct (match lex_accept T_minus ts with Some r => (true, r) | None => (false, ts) end) as [neg ts1] eqn:En. destruct (_ && _); [discriminate|].
      assert (C1 : clean ts1) by (destruct (lex_accept T_minus ts) eqn:Ea; injection En as _ <-; [eapply clean_accept; eassumption|exact C]). clear C. rename C1 into C.
      destruct ts1 as [|[t w] r]; [discriminate|]. apply clean_tl in C. destruct t; try discriminate.
      + destruct (read_numeric_param w neg); [|discriminate]. pl Hx K. dn Hx K C.
      + destruct (special w); [discriminate|].
        match type of Hx with match ?x with _ => _ end = _ => destruct x as [[[ts2 st2] b2]|] eqn:E; [|discriminate Hx] end.
        assert (Q : keeps L U ts2 st2 b2).
        { destruct (find_constant w); [pl E K; dn E K C|]. destruct (find_var w) as [v|] eqn:Fv.
          - rd E K C IH. destruct (peek _ _); [discriminate|]. dn E K C.
          - destruct (find_func w); [|discriminate]. destruct (peek _ _); [|discriminate]. apply (proj1 (proj2 (IH _ _ _ _ _ (conj C K)))) in E. exact E. }
        clear K C. destruct Q as [C K]. destruct neg; [pl Hx K|]; dn Hx K C.
      + pl Hx K. dn Hx K C.
      + rd Hx K C IH. rd Hx K C IH. ex Hx C. dn Hx K C.
      + rd Hx K C IH. pl Hx K. dn Hx K C.
      + rd Hx K C IH. pl Hx K. dn Hx K C.
    - (* read_call *) rewrite read_call_S in Hx. cbv zeta in Hx. ex Hx C. rd Hx K C IH. cbv zeta in Hx.
      assert (E : forall f b l s, geq (gr s) (gr (add_insn b OP_call None None None 0 f (push_args b l s)))) by (intros; eapply geq_trans; [apply Q_push_args|apply Q_insn]).
      match type of Hx with context [add_insn ?b OP_call None None None 0 ?f (push_args ?b ?l ?s)] => pose proof (E f b l s) as Eq end. clear E. mv K. pl Hx K. pl Hx K. dn Hx K C.
    - (* read_args *) rewrite read_args_S in Hx. destruct (lex_accept T_close_bracket ts) eqn:Ea.
      + pose proof (clean_accept _ _ _ C Ea) as C1. apply some_inj in Hx. injection Hx as <- <- <- <-. exact (conj C1 K).
      + rd Hx K C IH. rd Hx K C IH. pl Hx K. destruct (_ <? _)%nat; [|discriminate]. eapply (proj1 (proj2 (proj2 (IH _ _ _ _ _ (conj _ K))))); exact Hx.
        Unshelve. destruct (lex_accept T_comma _) eqn:Ec; [eapply clean_accept; eassumption|exact C].
    - (* read_lvalue *) rewrite read_lvalue_S in Hx. pl Hx K. rd Hx K C IH. destruct (_ && _).
      + exact (proj1 (proj2 (proj2 (proj2 (proj2 (proj2 (IH _ _ _ _ _ (conj C K))))))) _ _ _ _ _ _ Hx).
      + destruct (_ || _); [discriminate|]. match type of Hx with (if ?x then _ else _) = _ => destruct x end; [|dn Hx K C]. pl Hx K. pl Hx K. pl Hx K. dn Hx K C.
    - (* read_subscripts *) rewrite read_subscripts_S in Hx. destruct (_ || _); [discriminate|]. destruct (lex_accept T_open_square ts) eqn:Ea; [|dn Hx K C]. apply (clean_accept _ _ _ C) in Ea. clear C. rename Ea into C.
      match type of Hx with match ?x with _ => _ end = _ => destruct x as [st1|] eqn:E; [|discriminate Hx] end.
      assert (Q : M (gr st1) (b :: L) U). { destruct (negb (vi_ptr v =? 0) && m); [pl E K; pl E K; pl E K|]; (apply some_inj in E; subst st1); exact K. }
      clear K. rename Q into K. cbv zeta in Hx. destruct ((vi_ptr v =? 0) && (vi_array v =? 0)); [discriminate|]. rd Hx K C IH.
      match type of Hx with match ?x with _ => _ end = _ => destruct x as [st2|] eqn:E2; [|discriminate Hx] end.
      assert (Q : M (gr st2) (n0 :: L) U). { destruct (_ =? 1); [apply some_inj in E2; subst; exact K|]. pl E2 K. apply Q_binary in E2. mv K. exact K. }
      clear K. rename Q into K. pl Hx K. ex Hx C. exact (proj1 (proj2 (proj2 (proj2 (proj2 (IH _ _ _ _ _ (conj C K)))))) _ _ _ _ _ _ _ _ Hx).
    - (* read_plus *) rewrite read_plus_S in Hx. destruct (lex_accept T_plus ts) eqn:Ea; [|dn Hx K C]. apply (clean_accept _ _ _ C) in Ea. clear C. rename Ea into C.
      match type of Hx with match ?x with _ => _ end = _ => destruct x as [st1|] eqn:E; [|discriminate Hx] end.
      assert (Q : M (gr st1) (b :: L) U). { destruct r; [pl E K; pl E K; pl E K|]; (apply some_inj in E; subst st1); exact K. }
      clear K. rename Q into K. rd Hx K C IH. cbv zeta in Hx.
      match type of Hx with match ?x with _ => _ end = _ => destruct x as [st2|] eqn:E2; [|discriminate Hx] end.
      assert (Q : M (gr st2) (n0 :: L) U). { destruct (1 <? _); [|apply some_inj in E2; subst; exact K]. pl E2 K. apply Q_binary in E2. mv K. exact K. }
      clear K. rename Q into K. pl Hx K. exact (proj1 (proj2 (proj2 (proj2 (proj2 (proj2 (IH _ _ _ _ _ (conj C K))))))) _ _ _ _ _ _ Hx).
    - (* read_expr *) rewrite read_expr_S in Hx. pl Hx K. pl Hx K. cbv zeta in Hx. set (a := g_blk (gr st)) in *. set (o := g_blk (gr p)) in *. clearbody a o. rd Hx K C IH. destruct (get_operator _) as [op ts1] eqn:Eo. apply (clean_op _ _ _ C) in Eo. clear C. rename Eo into C.
      destruct (stops op) eqn:So; [apply M_drop, M_drop in K; dn Hx K C|].
      apply M_swap_u in K. destruct (is_logical op) eqn:Lo.
      + match type of Hx with match ?x with _ => _ end = _ => destruct x as [[st1 b1]|] eqn:E; [|discriminate Hx] end. apply (R_test _ _ _ _ _ _ _ _ K) in E. clear K. rename E into K.
        rd Hx K C IH. match type of Hx with context [get_operator ?x] => destruct (get_operator x) as [op' ts2] eqn:Eo' end. apply (clean_op _ _ _ C) in Eo'. clear C. rename Eo' into C.
        refine (proj1 (proj2 (proj2 (proj2 (proj2 (proj2 (proj2 (proj2 (IH _ _ _ _ _ (conj C K))))))))) _ _ _ _ _ _ _ _ _ Hx); [reflexivity|]. destruct op; try discriminate Lo; unfold lgok; cbn; auto.
      + rd Hx K C IH. match type of Hx with context [get_operator ?x] => destruct (get_operator x) as [op' ts2] eqn:Eo' end. apply (clean_op _ _ _ C) in Eo'. clear C. rename Eo' into C.
        refine (proj1 (proj2 (proj2 (proj2 (proj2 (proj2 (proj2 (proj2 (IH _ _ _ _ _ (conj C K))))))))) _ _ _ _ _ _ _ _ _ Hx); [reflexivity|]. unfold lgok; cbn; auto.
    - (* expr_loop *) rewrite expr_loop_S in Hx. subst U. destruct (stops o) eqn:So.
      + pl Hx K. destruct (end_logical _ _ _ _ _) as [[st2 b2]|] eqn:E2; [|discriminate]. apply (R_end _ _ _ _ _ _ _ ltac:(eassumption) K) in E2. clear K. rename E2 into K. dn Hx K C.
      + pl Hx K. match type of Hx with match ?x with _ => _ end = _ => destruct x as [[[st2 b2] l2]|] eqn:E2; [|discriminate Hx] end.
        assert (Q : lgok l2 /\ M (gr st2) (b2 :: L) (two l2 U0)) by (destruct (is_logical o) eqn:Lo; [eapply R_next|eapply R_leave]; eassumption).
        clear K. destruct Q as [O2 K]. rd Hx K C IH.
        match type of Hx with match ?x with _ => _ end = _ => destruct x as [ops2|] eqn:E4; [|discriminate Hx] end.
        match type of Hx with context [get_operator ?x] => destruct (get_operator x) as [op' ts2] eqn:Eo' end. apply (clean_op _ _ _ C) in Eo'. clear C. rename Eo' into C.
        exact (proj1 (proj2 (proj2 (proj2 (proj2 (proj2 (proj2 (proj2 (IH _ _ _ _ _ (conj C K))))))))) _ _ _ _ _ _ _ eq_refl O2 Hx).
    - (* read_ternary *) rewrite read_ternary_S, (clean_no_q _ C) in Hx. dn Hx K C.
  Qed.
  End Readers.
End Expr.

Section Stmt.
  Variable find_constant : text -> option Z.
  Variable find_global : text -> option vinfo.
  Variable find_type : text -> option Z.
  Variable find_func : text -> option Z.
  Variable special : text -> bool.
  Variable lim exit : nat.
  Notation fvar := (StmtParse.find_var find_global).
  Notation expr e := (read_expr find_constant (fvar e) find_func special lim).
  Notation ternary e := (read_ternary find_constant (fvar e) find_func special lim).
  Notation args e := (read_args find_constant (fvar e) find_func special lim).
  Notation subs e := (read_subscripts find_constant (fvar e) find_func special lim).
  Lemma clean_update ts o i r : clean ts -> update_op ts = Some (o, i, r) -> clean r.
  Proof. intros C H. destruct ts as [|[t w] ts]; [discriminate|]. pose proof (clean_tl _ _ C). destruct t; try discriminate; apply some_inj in H; injection H as _ _ <-; assumption. Qed.
  Lemma clean_stars ts : forall k r, clean ts -> read_stars ts = (k, r) -> clean r.
  Proof.
    induction ts as [|[t w] ts IH]; intros k r C H; [injection H as _ <-; exact C|]. pose proof (clean_tl _ _ C) as C'. destruct t; try (injection H as _ <-; exact C).
    cbn [read_stars] in H. destruct (read_stars ts) as [j r'] eqn:E. injection H as _ <-. eapply IH; [exact C'|reflexivity].
  Qed.
  Lemma clean_declarator id size ts ts' x v : clean ts -> read_declarator id size ts = Some (ts', x, v) -> clean ts'.
  Proof.
    intros C H. unfold read_declarator in H. destruct (read_stars ts) as [k r] eqn:E. apply (clean_stars _ _ _ C) in E. clear C. rename E into C.
    destruct r as [|[t w] r]; [discriminate|]. apply clean_tl in C. destruct t; try discriminate. destruct (lex_accept T_open_square r) eqn:Ea.
    - apply (clean_accept _ _ _ C) in Ea. clear C. rename Ea into C.
      assert (G : forall y, (match lex_expect T_close_square t with Some ts => Some (ts, w, y) | None => None end) = Some (ts', x, v) -> clean ts').
      { intros y Q. destruct (lex_expect T_close_square t) eqn:Ee; [|discriminate]. apply some_inj in Q. injection Q as <- _ _. eapply clean_accept; eassumption. }
      destruct t as [|[u z] t]; [discriminate|]. destruct u; try discriminate; try solve [eapply G; exact H]. destruct (_ <? _)%nat; [|discriminate]. apply clean_tl in C.
      destruct (lex_expect T_close_square t) eqn:Ee; [|discriminate]. apply some_inj in H. injection H as <- _ _. eapply clean_accept; eassumption.
    - apply some_inj in H. injection H as <- _ _. exact C.
  Qed.
  Notation got L U r st b := (clean r /\ M (gr st) (b :: L) U).
  Lemma E_expr e n L U ts st b ts' st' b' : clean ts -> M (gr st) (b :: L) U -> expr e n ts st b = Some (ts', st', b') -> got L U ts' st' b'.
  Proof. intros C K. apply (reaches lim find_constant (fvar e) find_func special n L U ts st b (conj C K)). Qed.
  Lemma E_ternary e n L U ts st b ts' st' b' : clean ts -> M (gr st) (b :: L) U -> ternary e n ts st b = Some (ts', st', b') -> got L U ts' st' b'.
  Proof. intros C K. apply (reaches lim find_constant (fvar e) find_func special n L U ts st b (conj C K)). Qed.
  Lemma E_args e n l L U ts st b ts' st' b' l' : clean ts -> M (gr st) (b :: L) U -> args e n l ts st b = Some (ts', st', b', l') -> got L U ts' st' b'.
  Proof. intros C K. apply (reaches lim find_constant (fvar e) find_func special n L U ts st b (conj C K)). Qed.
  Lemma E_subs e n v s m L U ts st b ts' st' b' s' r : clean ts -> M (gr st) (b :: L) U -> subs e n v s m ts st b = Some (ts', st', b', s', r) -> got L U ts' st' b'.
  Proof. intros C K. apply (reaches lim find_constant (fvar e) find_func special n L U ts st b (conj C K)). Qed.
  Ltac rd H K C :=
    lazymatch type of H with match ?x with Some _ => _ | None => None end = Some _ =>
      lazymatch type of K with M _ (_ :: ?L) ?U =>
      let E := fresh "E" in
      lazymatch x with
      | read_expr _ _ _ _ _ _ ?ts ?s ?b => destruct x as [[[? ?] ?]|] eqn:E; [|discriminate H]; apply (E_expr _ _ L U _ s b _ _ _ C K) in E; clear K C; destruct E as [C K]
      | read_ternary _ _ _ _ _ _ ?ts ?s ?b => destruct x as [[[? ?] ?]|] eqn:E; [|discriminate H]; apply (E_ternary _ _ L U _ s b _ _ _ C K) in E; clear K C; destruct E as [C K]
      | read_args _ _ _ _ _ _ _ ?ts ?s ?b => destruct x as [[[[? ?] ?] ?]|] eqn:E; [|discriminate H]; apply (E_args _ _ _ L U _ s b _ _ _ _ C K) in E; clear K C; destruct E as [C K]
      | read_subscripts _ _ _ _ _ _ _ _ _ ?ts ?s ?b => destruct x as [[[[[? ?] ?] ?] ?]|] eqn:E; [|discriminate H]; apply (E_subs _ _ _ _ _ L U _ s b _ _ _ _ _ C K) in E; clear K C; destruct E as [C K]
      end end end.
  Ltac pl H K := first [q H K|lazymatch type of H with match ?x with Some _ => _ | None => None end = Some _ =>
      let E := fresh "E" in lazymatch x with
      | load_constant _ _ _ _ => destruct x as [?|] eqn:E; [|discriminate H]; apply Q_const in E; mv K
      | binary_op _ _ _ _ => destruct x as [?|] eqn:E; [|discriminate H]; apply Q_binary in E; mv K
      end end].
  Ltac ex H C := lazymatch type of H with match ?x with Some _ => _ | None => None end = Some _ => let E := fresh "E" in destruct x as [?|] eqn:E; [|discriminate H]; apply (clean_accept _ _ _ C) in E; clear C; rename E into C end.

  Lemma Q_new ref size t d b st : geq (gr st) (gr (new_value ref size t d b st)).
  Proof. unfold new_value. destruct ref; split; reflexivity. Qed.
  Lemma Q_old ref size b st t st' : old_value lim ref size b st = Some (t, st') -> geq (gr st) (gr st').
  Proof.
    unfold old_value. destruct ref.
    - destruct (opstack_pop st) as [[a s]|] eqn:E; [|discriminate]. destruct (require_var lim s) as [[v s2]|] eqn:E2; [|discriminate]. destruct (opstack_push v s2) eqn:E3; [|discriminate].
      intros Q. apply some_inj in Q. injection Q as _ <-. exact (geq_trans _ _ _ (Q_pop _ _ _ E) (geq_trans _ _ _ (Q_require _ _ _ _ E2) (Q_push _ _ _ E3))).
    - destruct (p_stack st); [discriminate|]. intros Q. apply some_inj in Q. injection Q as _ <-. apply geq_refl.
  Qed.
  Notation assignment := (read_assignment find_constant find_global find_func special lim).
  Lemma S_assignment n e prefix L U ts st b ts' st' b' : clean ts -> M (gr st) (b :: L) U -> assignment n e prefix ts st b = Some (ts', st', b') -> got L U ts' st' b'.
  Proof.
    intros C K H. unfold read_assignment in H. destruct ts as [|[t x] ts]; [discriminate|]. apply clean_tl in C. destruct t; try discriminate.
    destruct (fvar e x) as [v|]; [|discriminate]. pl H K. rd H K C. destruct (peek _ _); [discriminate|]. cbv zeta in H.
    match type of H with match ?x with _ => _ end = _ => assert (Ho : forall o i r, x = Some (o, i, r) -> clean r) end.
    { intros o i r Q. destruct (update_op t) as [[[o1 i1] r1]|] eqn:U1; [apply some_inj in Q; injection Q as -> -> ->; eapply clean_update; eassumption|].
      destruct prefix; [apply some_inj in Q; injection Q as _ _ <-; exact C|discriminate]. }
    match type of H with match ?x with _ => _ end = _ => destruct x as [[[o i] r]|] end.
    - specialize (Ho o i r eq_refl). clear C. rename Ho into C. destruct i.
      + match type of H with match ?x with _ => _ end = _ => destruct x as [[t1 st1]|] eqn:E; [|discriminate H] end. apply Q_old in E. mv K.
        pl H K. pl H K. pl H K. apply some_inj in H. injection H as <- <- <-. split; [exact C|]. eapply M_geq; [apply Q_new|exact K].
      + match type of H with match ?x with _ => _ end = _ => destruct x as [[t1 st1]|] eqn:E; [|discriminate H] end. apply Q_old in E. mv K.
        rd H K C. pl H K. pl H K. pl H K. pl H K. pl H K. apply some_inj in H. injection H as <- <- <-. split; [exact C|]. eapply M_geq; [apply Q_new|exact K].
    - ex H C. rd H K C. rd H K C. pl H K. pl H K. apply some_inj in H. injection H as <- <- <-. split; [exact C|]. eapply M_geq; [apply Q_new|exact K].
  Qed.
  Notation declarators := (read_declarators find_constant find_global find_func special lim).
  Lemma S_declarators n : forall first size e L U ts st b ts' st' b' e', clean ts -> M (gr st) (b :: L) U -> declarators n first size e ts st b = Some (ts', st', b', e') -> got L U ts' st' b'.
  Proof.
    induction n as [|n IH]; intros first size e L U ts st b ts' st' b' e' C K H; [discriminate|]. cbn [read_declarators] in H. cbv zeta in H.
    pl H K. destruct (read_declarator n0 size ts) as [[[ts1 x] v]|] eqn:Ed; [|discriminate]. apply (clean_declarator _ _ _ _ _ _ C) in Ed. clear C. rename Ed into C.
    match type of H with match ?x with _ => _ end = _ => destruct x as [[[ts2 st2] b2]|] eqn:E; [|discriminate H] end.
    assert (Q : got L U ts2 st2 b2).
    { destruct (lex_accept T_assign ts1) eqn:Ea.
      - apply (clean_accept _ _ _ C) in Ea. clear C. rename Ea into C. rd E K C. destruct first.
        + rd E K C. pl E K. apply some_inj in E. injection E as <- <- <-. exact (conj C K).
        + pl E K. apply some_inj in E. injection E as <- <- <-. exact (conj C K).
      - apply some_inj in E. injection E as <- <- <-. exact (conj C K). }
    clear K C. destruct Q as [C K]. destruct (lex_accept T_comma ts2) eqn:Ec.
    - eapply IH; [eapply clean_accept; eassumption|exact K|exact H].
    - ex H C. apply some_inj in H. injection H as <- <- <- <-. exact (conj C K).
  Qed.

  Notation stmt := (read_stmt find_constant find_global find_type find_func special lim exit).
  Notation blk := (read_block find_constant find_global find_type find_func special lim exit).
  Definition cur (o : option nat) : list nat := match o with Some b => [b] | None => [] end.
  Notation goto L U r st o := (clean r /\ M (gr st) (cur o ++ L) U).
  Lemma S_simple n e prefix L U ts st b ts' st' o e' : clean ts -> M (gr st) (b :: L) U ->
    match ts with
    | (T_identifier, x) :: r =>
        match find_type x with
        | Some size => do (ts, st, b, e) <- declarators n true size e r st b; Some (ts, st, Some b, e)
        | None =>
            if special x then None else
            match find_func x with
            | Some f =>
                do ts <- lex_expect T_open_bracket r;
                do (ts, st, b, l) <- args e n [] ts st b;
                do ts <- lex_expect T_semicolon ts;
                Some (ts, add_insn b OP_call None None None 0 f (push_args b l st), Some b, e)
            | None =>
                do (ts, st, b) <- assignment n e prefix ts st b;
                do ts <- lex_expect T_semicolon ts; Some (ts, st, Some b, e)
            end
        end
    | _ => None
    end = Some (ts', st', o, e') -> goto L U ts' st' o.
  Proof.
    intros C K H. destruct ts as [|[t x] r]; [discriminate|]. destruct t; try discriminate. destruct (find_type x).
    - match type of H with match ?x with _ => _ end = _ => destruct x as [[[[ts1 st1] b1] e1]|] eqn:E; [|discriminate H] end. apply (S_declarators _ _ _ _ _ _ _ _ _ _ _ _ _ (clean_tl _ _ C) K) in E. apply some_inj in H. injection H as <- <- <- <-. exact E.
    - destruct (special x); [discriminate|]. destruct (find_func x).
      + apply clean_tl in C. ex H C. rd H K C. ex H C. apply some_inj in H. injection H as <- <- <- <-. split; [exact C|]. cbn [cur app]. eapply M_geq; [|exact K]. eapply geq_trans; [apply Q_push_args|apply Q_insn].
      + match type of H with match ?x with _ => _ end = _ => destruct x as [[[ts1 st1] b1]|] eqn:E; [|discriminate H] end. apply (S_assignment _ _ _ _ _ _ _ _ _ _ _ C K) in E. clear C K. destruct E as [C K]. ex H C. apply some_inj in H. injection H as <- <- <- <-. exact (conj C K).
  Qed.
  Lemma S_branch b L U st st' : M (gr st) (b :: L) U -> add_branch lim b st = Some st' -> M (gr st') (b :: L) U.
  Proof. intros K H. unfold add_branch in H. q H K. q H K. q H K. apply some_inj in H. subst. exact K. Qed.
  Lemma S_after o L U st p st' : M (gr st) (cur o ++ L) U -> after_body o st = Some (p, st') -> M (gr st') (cur p ++ L) U.
  Proof.
    intros K H. unfold after_body in H. destruct o as [c|]; [|apply some_inj in H; injection H as <- <-; exact K]. cbn [cur app] in K. q H K. cn H. apply some_inj in H. injection H as <- <-. exact (M_goto _ _ _ _ _ _ _ C K).
  Qed.
  Lemma S_opt o k L U st st' : M (gr st) (cur o ++ L) U -> connect_opt o k st = Some st' -> M (gr st') L U.
  Proof.
    intros K H. unfold connect_opt in H. destruct o as [c|]; [|apply some_inj in H; subst; exact K]. apply Q_connect in H. exact (M_close _ _ _ _ _ _ _ H K).
  Qed.
  Definition reach_stmt (n : nat) : Prop := forall L U brk cnt e ts st b ts' st' o e', clean ts -> M (gr st) (b :: L) U -> stmt n brk cnt e ts st b = Some (ts', st', o, e') -> goto L U ts' st' o.
  Definition reach_block (n : nat) : Prop := forall L U brk cnt e ts st o0 ts' st' o e', clean ts -> M (gr st) (cur o0 ++ L) U -> blk n brk cnt e ts st o0 = Some (ts', st', o, e') -> goto L U ts' st' o.
  Lemma fork g g1 g2 c t f L U : conn g c t THEN g1 -> conn g1 c f ELSE g2 -> M g (c :: L) (f :: t :: U) -> M g2 (t :: f :: L) U.
  Proof.
    intros C1 C2 K. apply M_swap_u in K. destruct (M_fork _ _ _ _ _ ELSE _ _ C1 ltac:(discriminate) K) as [K1 R1]. apply half_reached in K1; [|exact R1]. apply (half_goto _ _ _ _ _ _ _ C2) in K1. apply M_swap. exact K1.
  Qed.
  Lemma cur_swap o x L : Permutation (cur o ++ x :: L) (x :: cur o ++ L).
  Proof. destruct o; [apply perm_swap|reflexivity]. Qed.
  Lemma reach_stmts : forall n, reach_stmt n /\ reach_block n.
  Proof.
    induction n as [|n [IHs IHb]]; [split; intros L U; intros; discriminate|]. split.
    - intros L U brk cnt e ts st b ts' st' o e' C K H. rewrite StmtEval.read_stmt_S in H. cbv zeta in H.
      destruct ts as [|[t w] r]; [discriminate|]. pose proof (clean_tl _ _ C) as C'.
      Ltac rst H K C IHs :=
        lazymatch type of H with match ?x with Some _ => _ | None => None end = Some _ =>
          lazymatch type of K with M _ (_ :: ?L) ?U =>
          lazymatch x with read_stmt _ _ _ _ _ _ _ _ _ _ _ ?ts ?s ?b =>
          let E := fresh "E" in
          destruct x as [[[[? ?] ?] ?]|] eqn:E; [|discriminate H]; apply (IHs L U _ _ _ _ _ _ _ _ _ _ C K) in E; clear K C; destruct E as [C K] end end end.
      Ltac brn H K := lazymatch type of H with match ?x with Some _ => _ | None => None end = Some _ =>
        let E := fresh "E" in destruct x as [?|] eqn:E; [|discriminate H]; apply (S_branch _ _ _ _ _ K) in E; clear K; rename E into K end.
      Ltac aft H K := lazymatch type of H with match ?x with Some _ => _ | None => None end = Some _ =>
        let E := fresh "E" in destruct x as [[? ?]|] eqn:E; [|discriminate H]; apply (S_after _ _ _ _ _ _ K) in E; clear K; rename E into K end.
      Ltac dn H K C := apply some_inj in H; injection H; clear H; intros; subst; exact (conj C K).
      destruct t; try discriminate;
        try solve [exact (S_simple _ _ None _ _ ((T_identifier, w) :: r) _ _ _ _ _ _ C K H)
                  |exact (S_simple _ _ (Some OP_add) _ _ r _ _ _ _ _ _ C' K H)|exact (S_simple _ _ (Some OP_sub) _ _ r _ _ _ _ _ _ C' K H)];
        try (destruct (C _ _ (or_introl eq_refl)) as (N1 & N2 & N3); first [destruct (N1 eq_refl)|destruct (N2 eq_refl)|destruct (N3 eq_refl)]);
        clear C; rename C' into C.
      + (* { *) match type of H with match ?x with _ => _ end = _ => destruct x as [[[[ts1 st1] o1] e1]|] eqn:E; [|discriminate H] end.
        apply (IHb L U _ _ _ _ _ (Some b) _ _ _ _ C K) in E. apply some_inj in H. injection H as <- <- <- <-. exact E.
      + (* ; *) dn H K C.
      + (* return *) destruct (lex_accept T_semicolon r) eqn:Ea.
        * apply (clean_accept _ _ _ C) in Ea. cn H. apply some_inj in H. injection H as <- <- <- <-. split; [exact Ea|]. exact (M_close _ _ _ _ _ _ _ C0 K).
        * unfold read_return in H. match type of H with match ?x with _ => _ end = _ => destruct x as [[ts1 st1]|] eqn:E; [|discriminate H] end. apply some_inj in H. injection H as <- <- <- <-.
          rd E K C. rd E K C. ex E C. pl E K. cn E. apply some_inj in E. injection E as <- <-. split; [exact C|]. exact (M_close _ _ _ _ _ _ _ C0 K).
      + (* if *) pl H K. cn H. apply (M_goto _ _ _ _ _ _ _ C0) in K. ex H C. rd H K C. ex H C. brn H K. pl H K. pl H K. pl H K. cn H. cn H. apply (fork _ _ _ _ _ _ _ _ C1 C2) in K.
        rst H K C IHs. aft H K. destruct (lex_accept T_else _) eqn:Ea.
        * apply (clean_accept _ _ _ C) in Ea. clear C. rename Ea into C. pl H K. pl H K. eapply M_perm in K; [|apply cur_swap|reflexivity]. rst H K C IHs. aft H K. pl H K.
          destruct o1 as [kp|], o3 as [kq|]; cbn [cur app] in K; try dn H K C.
          pl H K. apply M_swap in K. cn H. apply (M_goto _ _ _ _ _ _ _ C3), M_swap in K. cn H. apply (M_close _ _ _ _ _ _ _ C4) in K. dn H K C.
        * pl H K. destruct o1 as [kp|]; cbn [cur app] in K; [|dn H K C]. apply M_swap in K. cn H. apply (M_close _ _ _ _ _ _ _ C3) in K. dn H K C.
      + (* while *) pl H K. cn H. apply (M_goto _ _ _ _ _ _ _ C0) in K. pl H K. pl H K. pl H K. apply M_drop in K. ex H C. rd H K C. ex H C. brn H K. pl H K. pl H K. pl H K. cn H. cn H. apply (fork _ _ _ _ _ _ _ _ C1 C2) in K.
        rst H K C IHs. pl H K. match type of H with match ?x with _ => _ end = _ => destruct x as [st9|] eqn:E9; [|discriminate H] end. apply (S_opt _ _ _ _ _ _ K) in E9. clear K. rename E9 into K. dn H K C.
      + (* break *) destruct brk as [kb|]; [|discriminate H]. cn H. apply (M_close _ _ _ _ _ _ _ C0) in K. ex H C. dn H K C.
      + (* continue *) destruct cnt as [kb|]; [|discriminate H]. cn H. apply (M_close _ _ _ _ _ _ _ C0) in K. ex H C. dn H K C.
    - intros L U brk cnt e ts st o0 ts' st' o e' C K H. rewrite StmtEval.read_block_S in H.
      destruct (lex_accept T_close_curly ts) eqn:Ea; [apply (clean_accept _ _ _ C) in Ea; apply some_inj in H; injection H as <- <- <- <-; exact (conj Ea K)|].
      destruct o0 as [b|]; [|discriminate]. cbn [cur app] in K. rst H K C IHs. exact (IHb L U _ _ _ _ _ _ _ _ _ _ C K H).
  Qed.
End Stmt.

(** the function as a whole *)
Lemma func_reach find_constant find_global find_type find_func special lim params k ts nvars ts' F e :
  clean ts -> read_func_body find_constant find_global find_type find_func special lim params k ts nvars = Some (ts', F, e) ->
  forall a t c, g_slot (gr F) a t = Some c -> rch (gr F) a.
Proof.
  intros C H. unfold read_func_body in H. cbv zeta in H. destruct (lex_expect T_open_curly ts) as [ts0|] eqn:Ea; [|discriminate]. apply (clean_accept _ _ _ C) in Ea.
  set (st := mkp nvars 2 _ _ _ _ _ _ _) in H.
  destruct (read_block _ _ _ _ _ _ _ _ _ _ _ _ _ _) as [[[[ts1 st1] o] e1]|] eqn:E; [|discriminate].
  assert (K : M (gr st) (cur (Some 0%nat) ++ []) []).
  { constructor.
    - intros a t c Q. destruct t; discriminate.
    - intros a _ t. destruct t; reflexivity.
    - intros b [<-|[]]. constructor.
    - intros b [<-|[]]. split; [intros t; destruct t; reflexivity|cbn; lia].
    - constructor; [intros []|constructor]. }
  apply (proj2 (reach_stmts find_constant find_global find_type find_func special lim 1%nat k) [] [] _ _ _ _ _ _ _ _ _ _ Ea K) in E as [_ K1].
  destruct (connect_opt o 1 st1) as [st2|] eqn:E2; [|discriminate]. apply some_inj in H. injection H as <- <- <-. apply (S_opt _ _ _ _ _ _ K1) in E2. apply (m_src _ _ _ E2).
Qed.
