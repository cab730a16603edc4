(** Reading an expression never takes predecessors away from a block, and a block it moves to has some. *)
From Verif.Front Require Export ExprGroups.
Open Scope Z_scope.

Definition pl (st st' : pst) : Prop := forall c, (p_pred st c <= p_pred st' c)%nat.
Definition moves (st : pst) (b : nat) (st' : pst) (b' : nat) : Prop := pl st st' /\ (b' = b \/ (0 < p_pred st' b')%nat).
Lemma pl_refl st : pl st st.
Proof. intros c. apply Nat.le_refl. Qed.
Lemma pl_trans st st1 st2 : pl st st1 -> pl st1 st2 -> pl st st2.
Proof. intros A B c. specialize (A c). specialize (B c). lia. Qed.
Lemma pl_eq st st' : p_pred st' = p_pred st -> pl st st'.
Proof. intros E c. rewrite E. apply Nat.le_refl. Qed.
Lemma mv_refl st b : moves st b st b.
Proof. split; [apply pl_refl|left; reflexivity]. Qed.
Lemma mv_mv st b st1 b1 st2 b2 : moves st b st1 b1 -> moves st1 b1 st2 b2 -> moves st b st2 b2.
Proof.
  intros [P1 C1] [P2 C2]. split; [eapply pl_trans; eauto|]. destruct C2 as [->|C2]; [|auto]. destruct C1 as [->|C1]; [auto|]. right. specialize (P2 b1). lia.
Qed.
Lemma mv_pl st b st1 st2 b2 : pl st st1 -> moves st1 b st2 b2 -> moves st b st2 b2.
Proof. intros P1 [P2 C2]. split; [eapply pl_trans; eauto|exact C2]. Qed.
Lemma mv_then st b st1 b1 st2 : moves st b st1 b1 -> pl st1 st2 -> moves st b st2 b1.
Proof. intros H P. eapply mv_mv; [exact H|]. split; [exact P|left; reflexivity]. Qed.
Lemma pl_set st l : pl st (set_stack l st). Proof. apply pl_eq. reflexivity. Qed.
Lemma pl_init st v c : pl st (set_init v c st). Proof. apply pl_eq. reflexivity. Qed.
Lemma pl_insn st b o d x y sz str : pl st (add_insn b o d x y sz str st). Proof. apply pl_eq. reflexivity. Qed.
Lemma pl_push v st st' : opstack_push v st = Some st' -> pl st st'.
Proof. unfold opstack_push. destruct (_ <? _)%nat; [|discriminate]. intros E. apply some_inj in E. subst. apply pl_set. Qed.
Lemma pl_pop v st st' : opstack_pop st = Some (v, st') -> pl st st'.
Proof. unfold opstack_pop. destruct (p_stack st); [discriminate|]. intros E. injection E as _ <-. apply pl_set. Qed.
Lemma pl_connect p d t st st' : bb_connect p d t st = Some st' -> pl st st' /\ (0 < p_pred st' d)%nat.
Proof.
  unfold bb_connect. destruct (_ <? _)%nat; [|discriminate]. intros E. apply some_inj in E. subst. cbn. unfold upd. split.
  - intros c. cbn. unfold upd. destruct (Nat.eqb_spec c d); [subst; lia|lia].
  - rewrite Nat.eqb_refl. lia.
Qed.
Lemma pl_create st k st' : bb_create st = (k, st') -> pl st st'.
Proof. unfold bb_create. intros E. injection E as <- <-. apply pl_eq. reflexivity. Qed.

Section Pred.
  Variable find_constant : text -> option Z.
  Variable find_var : text -> option vinfo.
  Variable find_func : text -> option Z.
  Variable special : text -> bool.
  Variable lim : nat.
  Lemma pl_require st v st' : require_var lim st = Some (v, st') -> pl st st'.
  Proof. unfold require_var. destruct (_ <? _)%nat; [|discriminate]. intros E. injection E as _ <-. apply pl_eq. reflexivity. Qed.
  Lemma pl_label st st' : label lim st = Some st' -> pl st st'.
  Proof. unfold label. destruct (require_var lim st) as [[v s]|] eqn:E; [|discriminate]. intros Q. apply some_inj in Q. subst. eapply pl_require; eauto. Qed.
  Lemma pl_const c b st st' : load_constant lim c b st = Some st' -> pl st st'.
  Proof.
    unfold load_constant. destruct (require_var lim st) as [[v s]|] eqn:E; [|discriminate]. destruct (opstack_push v _) as [s2|] eqn:E2; [|discriminate].
    intros Q. apply some_inj in Q. subst. eapply pl_trans; [eapply pl_require; eauto|]. eapply pl_trans; [apply pl_init|]. eapply pl_trans; [eapply pl_push; eauto|]. apply pl_insn.
  Qed.
  Lemma pl_unary o b st st' : unary_op lim o b st = Some st' -> pl st st'.
  Proof.
    unfold unary_op. destruct (opstack_pop st) as [[x s]|] eqn:E; [|discriminate]. destruct (require_var lim s) as [[v s1]|] eqn:E1; [|discriminate]. destruct (opstack_push v _) as [s2|] eqn:E2; [|discriminate].
    intros Q. apply some_inj in Q. subst. eapply pl_trans; [eapply pl_pop; eauto|]. eapply pl_trans; [eapply pl_require; eauto|]. eapply pl_trans; [eapply pl_push; eauto|]. apply pl_insn.
  Qed.
  Lemma pl_binary o b st st' : binary_op lim o b st = Some st' -> pl st st'.
  Proof.
    unfold binary_op. destruct (opstack_pop st) as [[x s]|] eqn:E; [|discriminate]. destruct (opstack_pop s) as [[y s0]|] eqn:E0; [|discriminate].
    destruct (require_var lim s0) as [[v s1]|] eqn:E1; [|discriminate]. destruct (opstack_push v _) as [s2|] eqn:E2; [|discriminate].
    intros Q. apply some_inj in Q. subst. eapply pl_trans; [eapply pl_pop; eauto|]. eapply pl_trans; [eapply pl_pop; eauto|]. eapply pl_trans; [eapply pl_require; eauto|]. eapply pl_trans; [eapply pl_push; eauto|]. apply pl_insn.
  Qed.
  Ltac back := repeat match goal with
    | |- pl ?a ?a => apply pl_refl
    | H : pl ?x ?y |- pl _ ?y => apply (pl_trans _ x _); [|exact H]; clear H
    | |- pl _ (add_insn _ _ _ _ _ _ _ _) => eapply pl_trans; [|apply pl_insn]
    | |- pl _ (set_init _ _ _) => eapply pl_trans; [|apply pl_init]
    end.
  Ltac step_label H := match type of H with match label lim ?x with Some _ => _ | None => None end = Some _ =>
    let E := fresh "L" in destruct (label lim x) eqn:E; [|discriminate H]; apply pl_label in E end.
  Ltac step_var H := match type of H with match require_var lim ?x with Some _ => _ | None => None end = Some _ =>
    let E := fresh "R" in destruct (require_var lim x) as [[? ?]|] eqn:E; [|discriminate H]; apply pl_require in E end.
  Lemma mv_read_logical o st b st' b' : read_logical lim o st b = Some (st', b') -> moves st b st' b'.
  Proof.
    unfold read_logical. intros H. destruct (opstack_pop st) as [[x s]|] eqn:E; [|discriminate]. apply pl_pop in E. step_label H. step_label H. step_label H.
    match type of H with (let '(_, _) := bb_create ?x in _) = _ => destruct (bb_create x) as [n s4] eqn:E4 end. apply pl_create in E4.
    destruct (bb_connect _ _ _ s4) as [s5|] eqn:E5; [|discriminate]. injection H as <- <-. destruct (pl_connect _ _ _ _ _ E5) as [P5 C5]. split; [|right; exact C5].
    eapply pl_trans; [exact E|]. eapply pl_trans; [exact L|]. eapply pl_trans; [exact L0|]. eapply pl_trans; [apply pl_insn|].
    eapply pl_trans; [exact L1|]. eapply pl_trans; [exact E4|]. exact P5.
  Qed.
  Lemma mv_finalize o st b sh st' b' : finalize_logical lim o st b sh = Some (st', b') -> moves st b st' b'.
  Proof.
    intros H. unfold finalize_logical in H. destruct (bb_create st) as [k s0] eqn:C0. destruct (bb_create s0) as [k1 s1] eqn:C1.
    destruct (bb_connect b _ THEN s1) as [s2|] eqn:E2; [|discriminate]. destruct (bb_connect b _ ELSE s2) as [s3|] eqn:E3; [|discriminate].
    destruct (bb_connect _ k NEXT s3) as [s4|] eqn:E4; [|discriminate]. destruct (bb_connect _ k NEXT s4) as [s5|] eqn:E5; [|discriminate].
    apply pl_connect in E2, E3, E4, E5. destruct (opstack_pop s5) as [[x s6]|] eqn:E6; [|discriminate]. apply pl_pop in E6.
    step_label H. step_label H. step_label H. step_var H. step_var H. step_label H. step_label H. step_var H. step_label H.
    match type of H with match opstack_push ?r ?x with _ => _ end = _ => destruct (opstack_push r x) as [s16|] eqn:E16; [|discriminate] end. apply pl_push in E16. injection H as <- <-.
    assert (P : pl s5 s16).
    { back. }
    split; [|right; destruct E5 as [_ Q]; specialize (P k); lia].
    eapply pl_trans; [eapply pl_create; eauto|]. eapply pl_trans; [eapply pl_create; eauto|]. eapply pl_trans; [apply E2|]. eapply pl_trans; [apply E3|]. eapply pl_trans; [apply E4|]. eapply pl_trans; [apply E5|]. exact P.
  Qed.
  Lemma mv_test o st b l st' b' : test_operand lim o st b l = Some (st', b') -> moves st b st' b'.
  Proof.
    unfold test_operand. destruct (bb_connect _ _ _ _) as [s|] eqn:E; [|discriminate]. intros H. eapply mv_pl; [apply (pl_connect _ _ _ _ _ E)|]. eapply mv_read_logical; eauto.
  Qed.
  Lemma pl_reduce p b ops : forall st ops' st', reduce lim p b ops st = Some (ops', st') -> pl st st'.
  Proof.
    induction ops as [|o r IH]; cbn [reduce]; intros st ops' st' H; [injection H as _ <-; apply pl_refl|]. destruct (_ >=? p); [|injection H as _ <-; apply pl_refl].
    destruct (binary_op lim o b st) as [s|] eqn:E; [|discriminate]. eapply pl_trans; [eapply pl_binary; eauto|]. eapply IH; eauto.
  Qed.
  Lemma pl_unwind b ops : forall st st', unwind lim b ops st = Some st' -> pl st st'.
  Proof.
    induction ops as [|o r IH]; cbn [unwind]; intros st st' H; [apply some_inj in H; subst; apply pl_refl|].
    destruct (binary_op lim o b st) as [s|] eqn:E; [|discriminate]. eapply pl_trans; [eapply pl_binary; eauto|]. eapply IH; eauto.
  Qed.
  Lemma mv_next o st b l st' b' l' : next_logical lim o st b l = Some (st', b', l') -> moves st b st' b'.
  Proof.
    unfold next_logical. destruct (_ || _).
    - destruct (test_operand lim o st b l) as [[s c]|] eqn:E; [|discriminate]. intros H. injection H as <- <- _. eapply mv_test; eauto.
    - destruct (is_and (l_prev l)).
      + destruct (finalize_logical lim OP_log_and st b (l_and l)) as [[s c]|] eqn:E; [|discriminate]. destruct (bb_create s) as [a s1] eqn:E1. destruct (bb_connect c _ _ _) as [s2|] eqn:E2; [|discriminate].
        destruct (read_logical lim o s2 c) as [[s3 c3]|] eqn:E3; [|discriminate]. intros H. injection H as <- <- _. eapply mv_mv; [eapply mv_finalize; eauto|].
        eapply mv_pl; [eapply pl_create; eauto|]. eapply mv_pl; [apply (pl_connect _ _ _ _ _ E2)|]. eapply mv_read_logical; eauto.
      + destruct (bb_connect b _ _ _) as [s2|] eqn:E2; [|discriminate].
        destruct (read_logical lim o s2 b) as [[s3 c3]|] eqn:E3; [|discriminate]. intros H. injection H as <- <- _. eapply mv_pl; [apply (pl_connect _ _ _ _ _ E2)|]. eapply mv_read_logical; eauto.
  Qed.
  Lemma mv_leave n : forall o st b l st' b' l', leave_logical lim n o st b l = Some (st', b', l') -> moves st b st' b'.
  Proof.
    induction n as [|n IH]; cbn [leave_logical]; intros o st b l st' b' l' H; destruct (_ && _); try discriminate; try (injection H as <- <- _; apply mv_refl).
    destruct (finalize_logical lim _ _ _ _) as [[s c]|] eqn:E; [|discriminate]. destruct (bb_create s) as [a s1] eqn:E1. eapply mv_mv; [eapply mv_finalize; eauto|].
    eapply mv_pl; [eapply pl_create; eauto|]. eapply IH; eauto.
  Qed.
  Lemma mv_end n : forall st b l st' b', end_logical lim n st b l = Some (st', b') -> moves st b st' b'.
  Proof.
    induction n as [|n IH]; cbn [end_logical]; intros st b l st' b' H; destruct (l_has l); try discriminate; try (injection H as <- <-; apply mv_refl).
    destruct (finalize_logical lim _ _ _ _) as [[s c]|] eqn:E; [|discriminate]. eapply mv_mv; [eapply mv_finalize; eauto|]. eapply IH; eauto.
  Qed.
  Lemma pl_push_args b l : forall st, pl st (push_args b l st).
  Proof. induction l as [|v l IH]; intros st; cbn [push_args]; [apply pl_refl|]. eapply pl_trans; [|apply IH]. apply pl_insn. Qed.

  Notation rop := (read_operand find_constant find_var find_func special lim).
  Notation rexp := (read_expr find_constant find_var find_func special lim).
  Notation rtern := (read_ternary find_constant find_var find_func special lim).
  Notation rargs := (read_args find_constant find_var find_func special lim).
  Notation rcall := (read_call find_constant find_var find_func special lim).
  Notation rlval := (read_lvalue find_constant find_var find_func special lim).
  Notation rsubs := (read_subscripts find_constant find_var find_func special lim).
  Notation rplus := (read_plus find_constant find_var find_func special lim).
  Notation eloop := (expr_loop find_constant find_var find_func special lim).
  Definition all_move (n : nat) : Prop :=
    (forall ts st b ts' st' b', rop n ts st b = Some (ts', st', b') -> moves st b st' b') /\
    (forall f ts st b ts' st' b', rcall n f ts st b = Some (ts', st', b') -> moves st b st' b') /\
    (forall l ts st b ts' st' b' l', rargs n l ts st b = Some (ts', st', b', l') -> moves st b st' b') /\
    (forall v ts st b ts' st' b', rlval n v ts st b = Some (ts', st', b') -> moves st b st' b') /\
    (forall v z m ts st b ts' st' b' z' r, rsubs n v z m ts st b = Some (ts', st', b', z', r) -> moves st b st' b') /\
    (forall v z r ts st b ts' st' b', rplus n v z r ts st b = Some (ts', st', b') -> moves st b st' b') /\
    (forall ts st b ts' st' b', rexp n ts st b = Some (ts', st', b') -> moves st b st' b') /\
    (forall o ts st b ops l ts' st' b', eloop n o ts st b ops l = Some (ts', st', b') -> moves st b st' b') /\
    (forall ts st b ts' st' b', rtern n ts st b = Some (ts', st', b') -> moves st b st' b').
  Ltac pieces H :=
    repeat match type of H with
    | match ?x with Some _ => _ | None => None end = Some _ =>
        let E := fresh "E" in destruct x eqn:E; [|discriminate H]; repeat match goal with p : (_ * _)%type |- _ => destruct p end
    | (let '(_, _) := bb_create ?x in _) = Some _ => let E := fresh "E" in destruct (bb_create x) eqn:E
    | (let '(_, _) := ?x in _) = Some _ => destruct x
    | (if ?x then _ else _) = Some _ => destruct x; try discriminate H
    | match ?x with (_, _) => _ end = Some _ => destruct x
    end.
  Lemma all_moves : forall n, all_move n.
  Proof.
    induction n as [|n (Hop & Hcall & Hargs & Hlval & Hsubs & Hplus & Hexp & Hloop & Htern)].
    { repeat split; intros; discriminate. }
    Ltac fin := repeat match goal with
      | H : Some _ = Some _ |- _ => apply some_inj in H; try (injection H; clear H; intros); subst
      | H : load_constant _ _ _ _ = Some _ |- _ => apply pl_const in H
      | H : unary_op _ _ _ _ = Some _ |- _ => apply pl_unary in H
      | H : binary_op _ _ _ _ = Some _ |- _ => apply pl_binary in H
      | H : opstack_push _ _ = Some _ |- _ => apply pl_push in H
      | H : opstack_pop _ = Some _ |- _ => apply pl_pop in H
      | H : require_var _ _ = Some _ |- _ => apply pl_require in H
      | H : label _ _ = Some _ |- _ => apply pl_label in H
      | H : bb_connect _ _ _ _ = Some _ |- _ => apply pl_connect in H; destruct H
      | H : bb_create _ = _ |- _ => apply pl_create in H
      | H : reduce _ _ _ _ _ = Some _ |- _ => apply pl_reduce in H
      | H : unwind _ _ _ _ = Some _ |- _ => apply pl_unwind in H
      | H : end_logical _ _ _ _ _ = Some _ |- _ => apply mv_end in H
      | H : next_logical _ _ _ _ _ = Some _ |- _ => apply mv_next in H
      | H : leave_logical _ _ _ _ _ _ = Some _ |- _ => apply mv_leave in H
      | H : test_operand _ _ _ _ _ = Some _ |- _ => apply mv_test in H
      end.
    Ltac chain := repeat match goal with
      | |- moves ?s ?b ?s ?b => apply mv_refl
      | H : moves ?x ?b1 ?y ?c |- moves _ _ ?y ?c => apply (mv_mv _ _ x b1 _ _); [|exact H]; clear H
      | H : pl ?x ?y |- moves _ _ ?y _ => apply (mv_then _ _ x); [|exact H]; clear H
      | |- moves _ _ (add_insn _ _ _ _ _ _ _ _) _ => eapply mv_then; [|apply pl_insn]
      | |- moves _ _ (set_init _ _ _) _ => eapply mv_then; [|apply pl_init]
      | |- moves _ _ (push_args _ _ _) _ => eapply mv_then; [|apply pl_push_args]
      end.
    unfold all_move. repeat match goal with |- _ /\ _ => split end.
    all: intros; match goal with H : _ = Some _ |- _ => rename H into Hx end.
    - rewrite read_operand_S in Hx; cbv zeta in Hx. destruct (match lex_accept T_minus ts with Some r => (true, r) | None => (false, ts) end) as [ng ts1].
      destruct (ng && _ && _ && _); [discriminate|]. destruct ts1 as [|[t w] r]; [discriminate|].
      destruct t; try discriminate Hx; pieces Hx; fin; try (chain; fail).
      all: try (apply Hop in E; chain; fail).
      all: try (apply Hexp in E; apply Htern in E0; chain; fail).
      all: repeat match goal with E : match ?x with Some _ => _ | None => _ end = Some _ |- _ => let Q := fresh "Q" in destruct x eqn:Q; try discriminate E; repeat match goal with p : (_ * _)%type |- _ => destruct p end end.
      all: repeat match goal with E : (if ?x then _ else _) = Some _ |- _ => destruct x; try discriminate E end; fin.
      all: try match goal with E : rlval _ _ _ _ _ = Some _ |- _ => apply Hlval in E end.
      all: try match goal with E : rcall _ _ _ _ _ = Some _ |- _ => apply Hcall in E end.
      all: try (chain; fail).
    - rewrite read_call_S in Hx; cbv zeta in Hx. pieces Hx. apply Hargs in E0. fin. chain.
    - rewrite read_args_S in Hx; cbv zeta in Hx. destruct (lex_accept T_close_bracket ts); [fin; apply mv_refl|]. pieces Hx. apply Hexp in E. apply Htern in E0. apply Hargs in Hx. fin. chain.
    - rewrite read_lvalue_S in Hx; cbv zeta in Hx. pieces Hx; apply Hsubs in E0; fin; try (chain; fail). apply Hplus in Hx. chain.
    - rewrite read_subscripts_S in Hx; cbv zeta in Hx. destruct (_ || _); [discriminate|]. destruct (lex_accept T_open_square ts); [|fin; apply mv_refl].
      pieces Hx; apply Hexp in E0; apply Hsubs in Hx.
      all: repeat match goal with E : (if ?x then _ else _) = Some _ |- _ => destruct x end; try (pieces E); try (pieces E1); fin; chain.
    - rewrite read_plus_S in Hx; cbv zeta in Hx. destruct (lex_accept T_plus ts); [|fin; apply mv_refl]. pieces Hx. apply Hop in E0. apply Hplus in Hx.
      repeat match goal with E : (if ?x then _ else _) = Some _ |- _ => destruct x end; try (pieces E); try (pieces E1); fin; chain.
    - rewrite read_expr_S in Hx; cbv zeta in Hx. destruct (bb_create st) as [a s] eqn:B1. destruct (bb_create s) as [o s1] eqn:B2. pieces Hx; repeat match goal with E : rop _ _ _ _ = Some _ |- _ => apply Hop in E end; try (apply Hloop in Hx); fin; chain.
    - rewrite expr_loop_S in Hx; cbv zeta in Hx. destruct (stops o).
      + pieces Hx. fin. chain.
      + pieces Hx; repeat match goal with E : rop _ _ _ _ = Some _ |- _ => apply Hop in E end; repeat match goal with E : (if ?x then _ else _) = Some _ |- _ => destruct x end; fin; try (apply Hloop in Hx); chain.
    - rewrite read_ternary_S in Hx; cbv zeta in Hx. destruct (lex_accept T_question ts); [|fin; apply mv_refl].
      pieces Hx. repeat match goal with E : rexp _ _ _ _ = Some _ |- _ => apply Hexp in E; destruct E as [E _] end. fin.
      assert (Q : pl p6 st') by (clear H3 H5; back). split; [clear Q; back|right; specialize (Q b'); lia].
  Qed.
End Pred.
