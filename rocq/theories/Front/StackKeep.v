(** Reading an expression leaves one variable more on the operand stack, reading a statement leaves the stack as it was: for all
    tokens the reader of ExprParse.v and StmtParse.v accepts. *)
From Verif.Front Require Export StmtParse StmtPred.
Open Scope Z_scope.

(** [k] variables on top of [B] *)
Definition ht (B : list nat) (k : nat) (st : pst) : Prop := exists l, length l = k /\ p_stack st = l ++ B.
Lemma ht_eq B k st st' : p_stack st' = p_stack st -> ht B k st -> ht B k st'.
Proof. intros E (l & A & Q). exists l. split; [exact A|congruence]. Qed.
Lemma ht_none B st : ht B 0 st <-> p_stack st = B.
Proof. split; [intros ([|] & L & Q); [exact Q|discriminate L]|intros Q; exists []; auto]. Qed.
Lemma ht_push v B k st st' : opstack_push v st = Some st' -> ht B k st -> ht B (S k) st'.
Proof. unfold opstack_push. destruct (_ <? _)%nat; [|discriminate]. intros E (l & A & Q). apply some_inj in E. subst st'. exists (v :: l). cbn. rewrite Q. auto. Qed.
Lemma ht_pop v B k st st' : opstack_pop st = Some (v, st') -> ht B (S k) st -> ht B k st'.
Proof.
  unfold opstack_pop. intros E (l & A & Q). destruct (p_stack st) as [|x r] eqn:Es; [discriminate|]. injection E as _ <-. destruct l as [|y l]; [discriminate A|]. injection A as A. injection Q as _ Q. exists l. auto.
Qed.
Lemma ht_insn B k st b o d x y sz str : ht B k st -> ht B k (add_insn b o d x y sz str st).
Proof. apply ht_eq. reflexivity. Qed.
Lemma ht_init B k st v c : ht B k st -> ht B k (set_init v c st).
Proof. apply ht_eq. reflexivity. Qed.
Lemma ht_connect B k p d t st st' : bb_connect p d t st = Some st' -> ht B k st -> ht B k st'.
Proof. unfold bb_connect. destruct (_ <? _)%nat; [|discriminate]. intros E. apply some_inj in E. subst. apply ht_eq. reflexivity. Qed.
Lemma ht_create B k c st st' : bb_create st = (c, st') -> ht B k st -> ht B k st'.
Proof. unfold bb_create. intros E. injection E as _ <-. apply ht_eq. reflexivity. Qed.
Lemma ht_push_args B k b l : forall st, ht B k st -> ht B k (push_args b l st).
Proof. induction l as [|v l IH]; intros st H; cbn [push_args]; [exact H|]. apply IH, ht_insn, H. Qed.

Section Keep.
  Variable find_constant : text -> option Z.
  Variable find_var : text -> option vinfo.
  Variable find_func : text -> option Z.
  Variable special : text -> bool.
  Variable lim : nat.
  Lemma ht_require B k v st st' : require_var lim st = Some (v, st') -> ht B k st -> ht B k st'.
  Proof. unfold require_var. destruct (_ <? _)%nat; [|discriminate]. intros E. injection E as _ <-. apply ht_eq. reflexivity. Qed.
  Lemma ht_label B k st st' : label lim st = Some st' -> ht B k st -> ht B k st'.
  Proof. unfold label. destruct (require_var lim st) as [[v s]|] eqn:E; [|discriminate]. intros Q. apply some_inj in Q. subst. eapply ht_require; eauto. Qed.
  Ltac pieces H :=
    repeat match type of H with
    | match ?x with Some _ => _ | None => None end = Some _ =>
        let E := fresh "E" in destruct x eqn:E; [|discriminate H]; repeat match goal with p : (_ * _)%type |- _ => destruct p end
    | (let '(_, _) := bb_create ?x in _) = Some _ => let E := fresh "E" in destruct (bb_create x) eqn:E
    | (let '(_, _) := ?x in _) = Some _ => destruct x
    | (if ?x then _ else _) = Some _ => destruct x; try discriminate H
    | match ?x with (_, _) => _ end = Some _ => destruct x
    end.
  Ltac inj := repeat match goal with H : Some _ = Some _ |- _ => apply some_inj in H; try (injection H; clear H; intros); subst end.
  Ltac prim := repeat first [assumption|match goal with
    | E : opstack_pop _ = Some (_, ?s) |- ht _ _ ?s => apply (ht_pop _ _ _ _ _ E)
    | E : opstack_push _ _ = Some ?s |- ht _ (S _) ?s => apply (ht_push _ _ _ _ _ E)
    | E : require_var _ _ = Some (_, ?s) |- ht _ _ ?s => apply (ht_require _ _ _ _ _ E)
    | E : label _ _ = Some ?s |- ht _ _ ?s => apply (ht_label _ _ _ _ E)
    | E : bb_connect _ _ _ _ = Some ?s |- ht _ _ ?s => apply (ht_connect _ _ _ _ _ _ _ E)
    | E : bb_create _ = (_, ?s) |- ht _ _ ?s => apply (ht_create _ _ _ _ _ E)
    | |- ht _ _ (add_insn _ _ _ _ _ _ _ _) => apply ht_insn
    | |- ht _ _ (set_init _ _ _) => apply ht_init
    | |- ht _ _ (push_args _ _ _) => apply ht_push_args
    end].
  Lemma ht_const B k c b st st' : load_constant lim c b st = Some st' -> ht B k st -> ht B (S k) st'.
  Proof. unfold load_constant. intros H G. pieces H. inj. prim. Qed.
  Lemma ht_unary B k o b st st' : unary_op lim o b st = Some st' -> ht B (S k) st -> ht B (S k) st'.
  Proof. unfold unary_op. intros H G. pieces H. inj. prim. Qed.
  Lemma ht_binary B k o b st st' : binary_op lim o b st = Some st' -> ht B (S (S k)) st -> ht B (S k) st'.
  Proof. unfold binary_op. intros H G. pieces H. inj. prim. Qed.
  Lemma ht_read_logical B k o st b st' b' : read_logical lim o st b = Some (st', b') -> ht B (S k) st -> ht B k st'.
  Proof. unfold read_logical. intros H G. pieces H. inj. prim. Qed.
  Lemma ht_finalize B k o st b sh st' b' : finalize_logical lim o st b sh = Some (st', b') -> ht B (S k) st -> ht B (S k) st'.
  Proof. unfold finalize_logical. intros H G. pieces H; inj; prim. Qed.
  Lemma ht_test B k o st b l st' b' : test_operand lim o st b l = Some (st', b') -> ht B (S k) st -> ht B k st'.
  Proof. unfold test_operand. intros H G. pieces H. eapply ht_read_logical; [exact H|]. prim. Qed.
  Lemma ht_reduce B k p b ops : forall st ops' st', reduce lim p b ops st = Some (ops', st') -> ht B (S (length ops + k)) st -> ht B (S (length ops' + k)) st'.
  Proof.
    induction ops as [|o r IH]; cbn [reduce]; intros st ops' st' H G; [injection H as <- <-; exact G|]. destruct (_ >=? p); [|injection H as <- <-; exact G].
    pieces H. eapply IH; [exact H|]. eapply ht_binary; [eassumption|exact G].
  Qed.
  Lemma ht_unwind B k b ops : forall st st', unwind lim b ops st = Some st' -> ht B (S (length ops + k)) st -> ht B (S k) st'.
  Proof.
    induction ops as [|o r IH]; cbn [unwind]; intros st st' H G; [apply some_inj in H; subst; exact G|]. pieces H. eapply IH; [exact H|]. eapply ht_binary; [eassumption|exact G].
  Qed.
  Lemma ht_next B k o st b l st' b' l' : next_logical lim o st b l = Some (st', b', l') -> ht B (S k) st -> ht B k st'.
  Proof.
    unfold next_logical. intros H G. destruct (_ || _); [|destruct (is_and (l_prev l))]; pieces H; inj.
    - eapply ht_test; eauto.
    - eapply ht_read_logical; [eassumption|]. prim. eapply ht_finalize; eassumption.
    - eapply ht_read_logical; [eassumption|]. prim.
  Qed.
  Lemma ht_leave B k n : forall o st b l st' b' l', leave_logical lim n o st b l = Some (st', b', l') -> ht B (S k) st -> ht B (S k) st'.
  Proof.
    induction n as [|n IH]; cbn [leave_logical]; intros o st b l st' b' l' H G; destruct (_ && _); try discriminate; try (injection H as <- _ _; exact G).
    pieces H. eapply IH; [exact H|]. prim. eapply ht_finalize; eassumption.
  Qed.
  Lemma ht_end B k n : forall st b l st' b', end_logical lim n st b l = Some (st', b') -> ht B (S k) st -> ht B (S k) st'.
  Proof.
    induction n as [|n IH]; cbn [end_logical]; intros st b l st' b' H G; destruct (l_has l); try discriminate; try (injection H as <- _; exact G).
    pieces H. eapply IH; [exact H|]. eapply ht_finalize; eassumption.
  Qed.

  Notation rop := (read_operand find_constant find_var find_func special lim).
  Notation rexp := (read_expr find_constant find_var find_func special lim).
  Notation rtern := (read_ternary find_constant find_var find_func special lim).
  Notation rargs := (read_args find_constant find_var find_func special lim).
  Notation rcall := (read_call find_constant find_var find_func special lim).
  Notation rlval := (read_lvalue find_constant find_var find_func special lim).
  Notation rsubs := (read_subscripts find_constant find_var find_func special lim).
  Notation rplus := (read_plus find_constant find_var find_func special lim).
  Notation eloop := (expr_loop find_constant find_var find_func special lim).
  Definition all_keep (n : nat) : Prop := forall B k,
    (forall ts st b ts' st' b', rop n ts st b = Some (ts', st', b') -> ht B k st -> ht B (S k) st') /\
    (forall f ts st b ts' st' b', rcall n f ts st b = Some (ts', st', b') -> ht B k st -> ht B (S k) st') /\
    (forall l ts st b ts' st' b' l', rargs n l ts st b = Some (ts', st', b', l') -> ht B k st -> ht B k st') /\
    (forall v ts st b ts' st' b', rlval n v ts st b = Some (ts', st', b') -> ht B k st -> ht B (S k) st') /\
    (forall v z m ts st b ts' st' b' z' r, rsubs n v z m ts st b = Some (ts', st', b', z', r) -> ht B (S k) st -> ht B (S k) st') /\
    (forall v z r ts st b ts' st' b', rplus n v z r ts st b = Some (ts', st', b') -> ht B (S k) st -> ht B (S k) st') /\
    (forall ts st b ts' st' b', rexp n ts st b = Some (ts', st', b') -> ht B k st -> ht B (S k) st') /\
    (forall o ts st b ops l ts' st' b', eloop n o ts st b ops l = Some (ts', st', b') -> ht B (S (length ops + k)) st -> ht B (S k) st') /\
    (forall ts st b ts' st' b', rtern n ts st b = Some (ts', st', b') -> ht B (S k) st -> ht B (S k) st').
  Lemma all_keeps : forall n, all_keep n.
  Proof.
    induction n as [|n IH]. { repeat split; intros; discriminate. }
    assert (Hop : forall B k ts st b ts' st' b', rop n ts st b = Some (ts', st', b') -> ht B k st -> ht B (S k) st') by (intros B k; apply (IH B k)).
    assert (Hcall : forall B k f ts st b ts' st' b', rcall n f ts st b = Some (ts', st', b') -> ht B k st -> ht B (S k) st') by (intros B k; apply (IH B k)).
    assert (Hargs : forall B k l ts st b ts' st' b' l', rargs n l ts st b = Some (ts', st', b', l') -> ht B k st -> ht B k st') by (intros B k; apply (IH B k)).
    assert (Hlval : forall B k v ts st b ts' st' b', rlval n v ts st b = Some (ts', st', b') -> ht B k st -> ht B (S k) st') by (intros B k; apply (IH B k)).
    assert (Hsubs : forall B k v z m ts st b ts' st' b' z' r, rsubs n v z m ts st b = Some (ts', st', b', z', r) -> ht B (S k) st -> ht B (S k) st') by (intros B k; apply (IH B k)).
    assert (Hplus : forall B k v z r ts st b ts' st' b', rplus n v z r ts st b = Some (ts', st', b') -> ht B (S k) st -> ht B (S k) st') by (intros B k; apply (IH B k)).
    assert (Hexp : forall B k ts st b ts' st' b', rexp n ts st b = Some (ts', st', b') -> ht B k st -> ht B (S k) st') by (intros B k; apply (IH B k)).
    assert (Hloop : forall B k o ts st b ops l ts' st' b', eloop n o ts st b ops l = Some (ts', st', b') -> ht B (S (length ops + k)) st -> ht B (S k) st') by (intros B k; apply (IH B k)).
    assert (Htern : forall B k ts st b ts' st' b', rtern n ts st b = Some (ts', st', b') -> ht B (S k) st -> ht B (S k) st') by (intros B k; apply (IH B k)).
    clear IH.
    Ltac big Hop Hcall Hargs Hlval Hsubs Hplus Hexp Hloop Htern := repeat (prim; first [assumption|match goal with
      | E : load_constant _ _ _ _ = Some ?s |- ht _ (S _) ?s => apply (ht_const _ _ _ _ _ _ E)
      | E : unary_op _ _ _ _ = Some ?s |- ht _ (S _) ?s => apply (ht_unary _ _ _ _ _ _ E)
      | E : binary_op _ _ _ _ = Some ?s |- ht _ (S _) ?s => apply (ht_binary _ _ _ _ _ _ E)
      | E : unwind _ _ _ _ = Some ?s |- ht _ (S _) ?s => apply (ht_unwind _ _ _ _ _ _ E)
      | E : end_logical _ _ _ _ _ = Some (?s, _) |- ht _ (S _) ?s => apply (ht_end _ _ _ _ _ _ _ _ E)
      | E : next_logical _ _ _ _ _ = Some (?s, _, _) |- ht _ _ ?s => apply (ht_next _ _ _ _ _ _ _ _ _ E)
      | E : leave_logical _ _ _ _ _ _ = Some (?s, _, _) |- ht _ (S _) ?s => apply (ht_leave _ _ _ _ _ _ _ _ _ _ E)
      | E : test_operand _ _ _ _ _ = Some (?s, _) |- ht _ _ ?s => apply (ht_test _ _ _ _ _ _ _ _ E)
      | E : rop _ _ _ _ = Some (_, ?s, _) |- ht _ (S _) ?s => apply (Hop _ _ _ _ _ _ _ _ E)
      | E : rcall _ _ _ _ _ = Some (_, ?s, _) |- ht _ (S _) ?s => apply (Hcall _ _ _ _ _ _ _ _ _ E)
      | E : rargs _ _ _ _ _ = Some (_, ?s, _, _) |- ht _ _ ?s => apply (Hargs _ _ _ _ _ _ _ _ _ _ E)
      | E : rlval _ _ _ _ _ = Some (_, ?s, _) |- ht _ (S _) ?s => apply (Hlval _ _ _ _ _ _ _ _ _ E)
      | E : rsubs _ _ _ _ _ _ _ = Some (_, ?s, _, _, _) |- ht _ (S _) ?s => apply (Hsubs _ _ _ _ _ _ _ _ _ _ _ _ _ E)
      | E : rplus _ _ _ _ _ _ _ = Some (_, ?s, _) |- ht _ (S _) ?s => apply (Hplus _ _ _ _ _ _ _ _ _ _ _ E)
      | E : rexp _ _ _ _ = Some (_, ?s, _) |- ht _ (S _) ?s => apply (Hexp _ _ _ _ _ _ _ _ E)
      | E : eloop _ _ _ _ _ _ _ = Some (_, ?s, _) |- ht _ (S _) ?s => apply (Hloop _ _ _ _ _ _ _ _ _ _ _ E); cbn [length Nat.add]
      | E : rtern _ _ _ _ = Some (_, ?s, _) |- ht _ (S _) ?s => apply (Htern _ _ _ _ _ _ _ _ E)
      end]).
    unfold all_keep. intros B k. repeat match goal with |- _ /\ _ => split end.
    all: intros; match goal with H : _ = Some _ |- _ => rename H into Hx end.
    - rewrite read_operand_S in Hx; cbv zeta in Hx. destruct (match lex_accept T_minus ts with Some r => (true, r) | None => (false, ts) end) as [ng ts1].
      destruct (ng && _ && _ && _); [discriminate|]. destruct ts1 as [|[t w] r]; [discriminate|].
      destruct t; try discriminate Hx; pieces Hx; inj.
      all: repeat match goal with E : match ?x with Some _ => _ | None => _ end = Some _ |- _ => let Q := fresh "Q" in destruct x eqn:Q; try discriminate E; repeat match goal with p : (_ * _)%type |- _ => destruct p end end.
      all: repeat match goal with E : (if ?x then _ else _) = Some _ |- _ => destruct x; try discriminate E end; inj.
      all: big Hop Hcall Hargs Hlval Hsubs Hplus Hexp Hloop Htern.
    - rewrite read_call_S in Hx; cbv zeta in Hx. pieces Hx. inj. big Hop Hcall Hargs Hlval Hsubs Hplus Hexp Hloop Htern.
    - rewrite read_args_S in Hx; cbv zeta in Hx. destruct (lex_accept T_close_bracket ts); [inj; assumption|]. pieces Hx. big Hop Hcall Hargs Hlval Hsubs Hplus Hexp Hloop Htern.
    - rewrite read_lvalue_S in Hx; cbv zeta in Hx. pieces Hx; inj; big Hop Hcall Hargs Hlval Hsubs Hplus Hexp Hloop Htern.
    - rewrite read_subscripts_S in Hx; cbv zeta in Hx. destruct (_ || _); [discriminate|]. destruct (lex_accept T_open_square ts); [|inj; assumption].
      pieces Hx.
      all: repeat match goal with E : (if ?x then _ else _) = Some _ |- _ => destruct x end; try (pieces E); try (pieces E1); inj; big Hop Hcall Hargs Hlval Hsubs Hplus Hexp Hloop Htern.
    - rewrite read_plus_S in Hx; cbv zeta in Hx. destruct (lex_accept T_plus ts); [|inj; assumption]. pieces Hx.
      repeat match goal with E : (if ?x then _ else _) = Some _ |- _ => destruct x end; try (pieces E); try (pieces E1); inj; big Hop Hcall Hargs Hlval Hsubs Hplus Hexp Hloop Htern.
    - rewrite read_expr_S in Hx; cbv zeta in Hx. destruct (bb_create st) as [a s] eqn:B1. destruct (bb_create s) as [o s1] eqn:B2. pieces Hx; inj; big Hop Hcall Hargs Hlval Hsubs Hplus Hexp Hloop Htern.
    - rewrite expr_loop_S in Hx; cbv zeta in Hx. destruct (stops o).
      + pieces Hx. inj. big Hop Hcall Hargs Hlval Hsubs Hplus Hexp Hloop Htern.
      + destruct (reduce lim (get_operator_prio o) b ops st) as [[ops1 st1]|] eqn:Er; [|discriminate]. pose proof (ht_reduce _ _ _ _ _ _ _ _ Er H0) as G1. clear Er H0.
        pieces Hx; repeat match goal with E : (if ?x then _ else _) = Some _ |- _ => destruct x end; try discriminate; inj; big Hop Hcall Hargs Hlval Hsubs Hplus Hexp Hloop Htern.
    - rewrite read_ternary_S in Hx; cbv zeta in Hx. destruct (lex_accept T_question ts); [|inj; assumption].
      pieces Hx. inj. big Hop Hcall Hargs Hlval Hsubs Hplus Hexp Hloop Htern.
  Qed.
End Keep.
