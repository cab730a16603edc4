(** Reading a statement leaves the operand stack as it was, for all tokens StmtParse.v accepts. *)
From Verif.Front Require Export StackKeep.
From Verif.Front Require Import StmtEval.
Open Scope Z_scope.
Section KeepStmt.
  Variable find_constant : text -> option Z.
  Variable find_global : text -> option vinfo.
  Variable find_type : text -> option Z.
  Variable find_func : text -> option Z.
  Variable special : text -> bool.
  Variable lim : nat.
  Variable exit : nat.
  Notation fv e := (find_var find_global e).
  Notation rop e := (read_operand find_constant (fv e) find_func special lim).
  Notation rexp e := (read_expr find_constant (fv e) find_func special lim).
  Notation rtern e := (read_ternary find_constant (fv e) find_func special lim).
  Notation rargs e := (read_args find_constant (fv e) find_func special lim).
  Notation rsubs e := (read_subscripts find_constant (fv e) find_func special lim).
  Notation stmt := (StmtParse.read_stmt find_constant find_global find_type find_func special lim exit).
  Notation blk := (StmtParse.read_block find_constant find_global find_type find_func special lim exit).
  Ltac pieces H :=
    repeat match type of H with
    | match ?x with Some _ => _ | None => None end = Some _ =>
        let E := fresh "E" in destruct x eqn:E; [|discriminate H]; repeat match goal with p : (_ * _)%type |- _ => destruct p end
    | (let '(_, _) := bb_create ?x in _) = Some _ => let E := fresh "E" in destruct (bb_create x) eqn:E
    | (let '(_, _) := ?x in _) = Some _ => destruct x
    | (if ?x then _ else _) = Some _ => destruct x; try discriminate H
    | match ?x with (_, _) => _ end = Some _ => destruct x
    end.
  Ltac inj := repeat match goal with H : Some _ = Some _ |- _ => apply some_inj in H; try (injection H; clear H; intros); subst end.
  Lemma K_exp e n B k ts st b ts' st' b' : rexp e n ts st b = Some (ts', st', b') -> ht B k st -> ht B (S k) st'.
  Proof. apply (all_keeps find_constant (fv e) find_func special lim n B k). Qed.
  Lemma K_tern e n B k ts st b ts' st' b' : rtern e n ts st b = Some (ts', st', b') -> ht B (S k) st -> ht B (S k) st'.
  Proof. apply (all_keeps find_constant (fv e) find_func special lim n B k). Qed.
  Lemma K_args e n B k l ts st b ts' st' b' l' : rargs e n l ts st b = Some (ts', st', b', l') -> ht B k st -> ht B k st'.
  Proof. apply (all_keeps find_constant (fv e) find_func special lim n B k). Qed.
  Lemma K_subs e n B k v z m ts st b ts' st' b' z' r : rsubs e n v z m ts st b = Some (ts', st', b', z', r) -> ht B (S k) st -> ht B (S k) st'.
  Proof. apply (all_keeps find_constant (fv e) find_func special lim n B k). Qed.
  Ltac prim := repeat first [assumption|match goal with
    | E : opstack_pop _ = Some (_, ?s) |- ht _ _ ?s => apply (ht_pop _ _ _ _ _ E)
    | E : opstack_push _ _ = Some ?s |- ht _ (S _) ?s => apply (ht_push _ _ _ _ _ E)
    | E : require_var _ _ = Some (_, ?s) |- ht _ _ ?s => apply (ht_require _ _ _ _ _ _ E)
    | E : label _ _ = Some ?s |- ht _ _ ?s => apply (ht_label _ _ _ _ _ E)
    | E : bb_connect _ _ _ _ = Some ?s |- ht _ _ ?s => apply (ht_connect _ _ _ _ _ _ _ E)
    | E : bb_create _ = (_, ?s) |- ht _ _ ?s => apply (ht_create _ _ _ _ _ E)
    | |- ht _ _ (add_insn _ _ _ _ _ _ _ _) => apply ht_insn
    | |- ht _ _ (set_init _ _ _) => apply ht_init
    | |- ht _ _ (push_args _ _ _) => apply ht_push_args
    | E : load_constant _ _ _ _ = Some ?s |- ht _ (S _) ?s => apply (ht_const _ _ _ _ _ _ _ E)
    | E : binary_op _ _ _ _ = Some ?s |- ht _ (S _) ?s => apply (ht_binary _ _ _ _ _ _ _ E)
    | E : rexp _ _ _ _ _ = Some (_, ?s, _) |- ht _ (S _) ?s => apply (K_exp _ _ _ _ _ _ _ _ _ _ E)
    | E : rtern _ _ _ _ _ = Some (_, ?s, _) |- ht _ (S _) ?s => apply (K_tern _ _ _ _ _ _ _ _ _ _ E)
    | E : rargs _ _ _ _ _ _ = Some (_, ?s, _, _) |- ht _ _ ?s => apply (K_args _ _ _ _ _ _ _ _ _ _ _ _ E)
    | E : rsubs _ _ _ _ _ _ _ _ = Some (_, ?s, _, _, _) |- ht _ (S _) ?s => apply (K_subs _ _ _ _ _ _ _ _ _ _ _ _ _ _ _ E)
    end].
  Lemma K_old B k ref size b st t st' : old_value lim ref size b st = Some (t, st') -> ht B (S k) st -> ht B (S k) st'.
  Proof.
    unfold old_value. intros H G. destruct ref; [pieces H; inj; prim|]. destruct (p_stack st); [discriminate|]. inj. exact G.
  Qed.
  Lemma K_new B k ref size t d b st : ht B k st -> ht B k (new_value ref size t d b st).
  Proof. unfold new_value. intros G. destruct ref; apply ht_insn; exact G. Qed.
  Lemma K_assignment B k n e prefix ts st b ts' st' b' : read_assignment find_constant find_global find_func special lim n e prefix ts st b = Some (ts', st', b') -> ht B k st -> ht B k st'.
  Proof.
    unfold read_assignment. intros H G. destruct ts as [|[[] w] r]; try discriminate H.
    match type of H with match ?x with Some _ => _ | None => None end = Some _ => destruct x as [v|] eqn:E; [|discriminate H] end. pieces H.
    match type of H with match ?x with Some _ => _ | None => _ end = Some _ => destruct x as [[[o1 i1] l1]|] eqn:E2; [|] end.
    - destruct i1; pieces H; inj. all: apply K_new; apply ht_insn; prim.
      + eapply K_old; [eassumption|]. prim.
      + eapply K_old; [eassumption|]. prim.
    - pieces H. inj. apply K_new. prim.
  Qed.
  Lemma K_declarators B k n : forall first size e ts st b ts' st' b' e', read_declarators find_constant find_global find_func special lim n first size e ts st b = Some (ts', st', b', e') -> ht B k st -> ht B k st'.
  Proof.
    induction n as [|n IH]; intros first size e ts st b ts' st' b' e' H G; [discriminate|]. cbn [read_declarators] in H. cbv zeta in H.
    match type of H with match ?x with Some _ => _ | None => None end = Some _ => destruct x as [[id s1]|] eqn:E; [|discriminate H] end.
    match type of H with match ?x with Some _ => _ | None => None end = Some _ => destruct x as [[[ts1 y1] v]|] eqn:E2; [|discriminate H] end.
    match type of H with match ?x with Some _ => _ | None => None end = Some _ => destruct x as [[[ts3 s3] b3]|] eqn:E3; [|discriminate H] end.
    assert (G3 : ht B k s3).
    { destruct (lex_accept T_assign ts1).
      - match type of E3 with match ?x with Some _ => _ | None => None end = Some _ => destruct x as [[[ts4 s4] b4]|] eqn:E4; [|discriminate E3] end.
        match type of E3 with match ?x with Some _ => _ | None => None end = Some _ => destruct x as [[[ts5 s5] b5]|] eqn:E5; [|discriminate E3] end.
        pieces E3. inj. prim. destruct first; [|inj]; prim.
      - inj. prim. }
    destruct (lex_accept T_comma ts3); [eapply IH; [exact H|exact G3]|]. pieces H. inj. exact G3.
  Qed.
  Definition keep_stmt (n : nat) : Prop := forall B k brk cnt e ts st b ts' st' o e', stmt n brk cnt e ts st b = Some (ts', st', o, e') -> ht B k st -> ht B k st'.
  Definition keep_block (n : nat) : Prop := forall B k brk cnt e ts st o0 ts' st' o e', blk n brk cnt e ts st o0 = Some (ts', st', o, e') -> ht B k st -> ht B k st'.
  Lemma K_branch B k b st st' : add_branch lim b st = Some st' -> ht B (S k) st -> ht B k st'.
  Proof. unfold add_branch. intros H G. pieces H. inj. prim. Qed.
  Lemma K_after B k o st p st' : after_body o st = Some (p, st') -> ht B k st -> ht B k st'.
  Proof. unfold after_body. intros H G. destruct o; pieces H; inj; prim. Qed.
  Lemma K_opt B k o c st st' : connect_opt o c st = Some st' -> ht B k st -> ht B k st'.
  Proof. unfold connect_opt. intros H G. destruct o; inj; prim. Qed.
  Ltac more IHs IHb := repeat (prim; first [assumption|match goal with
    | E : add_branch _ _ _ = Some ?s |- ht _ _ ?s => apply (K_branch _ _ _ _ _ E)
    | E : after_body _ _ = Some (_, ?s) |- ht _ _ ?s => apply (K_after _ _ _ _ _ _ E)
    | E : connect_opt _ _ _ = Some ?s |- ht _ _ ?s => apply (K_opt _ _ _ _ _ _ E)
    | E : read_assignment _ _ _ _ _ _ _ _ _ _ _ = Some (_, ?s, _) |- ht _ _ ?s => apply (K_assignment _ _ _ _ _ _ _ _ _ _ _ E)
    | E : read_declarators _ _ _ _ _ _ _ _ _ _ _ _ = Some (_, ?s, _, _) |- ht _ _ ?s => apply (K_declarators _ _ _ _ _ _ _ _ _ _ _ _ _ E)
    | E : stmt _ _ _ _ _ _ _ = Some (_, ?s, _, _) |- ht _ _ ?s => apply (IHs _ _ _ _ _ _ _ _ _ _ _ _ E)
    | E : blk _ _ _ _ _ _ _ = Some (_, ?s, _, _) |- ht _ _ ?s => apply (IHb _ _ _ _ _ _ _ _ _ _ _ _ E)
    end]).
  Lemma all_keep_stmts n : keep_stmt n /\ keep_block n.
  Proof.
    induction n as [|n [IHs IHb]]; [split; intros B k; intros; discriminate|]. split.
    - intros B k brk cnt e ts st b ts' st' o e' H G. rewrite StmtEval.read_stmt_S in H. cbv zeta in H. destruct ts as [|[t w] r]; [discriminate|].
      Ltac plain H IHs IHb :=
        match type of H with match ?y with Some _ => _ | None => _ end = _ => destruct y; [pieces H; inj; more IHs IHb|] end;
        match type of H with (if ?y then _ else _) = _ => destruct y; [discriminate H|] end;
        match type of H with match ?y with Some _ => _ | None => _ end = _ => destruct y end; pieces H; inj; more IHs IHb.
      destruct t; try discriminate H; cbv beta iota in H.
      all: try solve [match type of H with match find_type _ with _ => _ end = _ => idtac end; plain H IHs IHb|destruct r as [|[[] xx] r]; try discriminate H; plain H IHs IHb].
      + (* { *) pieces H. inj. more IHs IHb.
      + (* ; *) inj. exact G.
      + (* return *) destruct (lex_accept T_semicolon r); [pieces H; inj; more IHs IHb|]. unfold read_return in H. pieces H. inj. pieces E. inj. more IHs IHb.
      + (* if *) pieces H. destruct (lex_accept T_else _); pieces H; repeat (match type of H with match ?y with Some _ => _ | None => _ end = _ => is_var y; destruct y end; pieces H); inj; more IHs IHb.
      + (* while *) pieces H. inj. more IHs IHb.
      + (* for *)
        match type of H with match ?x with Some _ => _ | None => None end = Some _ => destruct x eqn:E; [|discriminate H] end. destruct (bb_create st) as [k0 s0] eqn:E0.
        match type of H with match ?x with Some _ => _ | None => None end = Some _ => destruct x as [s1|] eqn:E1; [|discriminate H] end.
        match type of H with match ?x with Some _ => _ | None => None end = Some _ => destruct x as [[[[ts2 s2] k2] e2]|] eqn:E2; [|discriminate H] end.
        assert (G1 : ht B k s1) by prim.
        assert (G2 : ht B k s2).
        { destruct (lex_accept T_semicolon t); [inj; exact G1|]. destruct t as [|[[] xx] t]; try discriminate E2. destruct (find_type xx); [more IHs IHb|]. pieces E2. inj. more IHs IHb. }
        destruct (bb_create s2) as [c0 s3] eqn:E3. destruct (bb_create s3) as [f s4] eqn:E4.
        match type of H with match ?x with Some _ => _ | None => None end = Some _ => destruct x as [s5|] eqn:E5; [|discriminate H] end.
        match type of H with match ?x with Some _ => _ | None => None end = Some _ => destruct x as [s6|] eqn:E6; [|discriminate H] end.
        match type of H with match ?x with Some _ => _ | None => None end = Some _ => destruct x as [[[ts7 s7] c7]|] eqn:E7; [|discriminate H] end.
        assert (G6 : ht B k s6) by prim.
        assert (G7 : ht B (S k) s7). { destruct (lex_accept T_semicolon ts2); pieces E7; inj; more IHs IHb. }
        match type of H with match ?x with Some _ => _ | None => None end = Some _ => destruct x as [s8|] eqn:E8; [|discriminate H] end.
        match type of H with match ?x with Some _ => _ | None => None end = Some _ => destruct x as [s9|] eqn:E9; [|discriminate H] end.
        match type of H with match ?x with Some _ => _ | None => None end = Some _ => destruct x as [s10|] eqn:E10; [|discriminate H] end.
        destruct (bb_create s10) as [i0 s11] eqn:E11.
        match type of H with match ?x with Some _ => _ | None => None end = Some _ => destruct x as [s12|] eqn:E12; [|discriminate H] end.
        assert (G12 : ht B k s12) by more IHs IHb.
        match type of H with match ?x with Some _ => _ | None => None end = Some _ => destruct x as [[[ts13 s13] i13]|] eqn:E13; [|discriminate H] end.
        assert (G13 : ht B k s13). { destruct (lex_accept T_close_bracket ts7); [inj; exact G12|]. match type of E13 with (let '(_, _) := ?x in _) = _ => destruct x end. pieces E13. inj. more IHs IHb. }
        match type of H with match ?x with Some _ => _ | None => None end = Some _ => destruct x as [s14|] eqn:E14; [|discriminate H] end.
        match type of H with match ?x with Some _ => _ | None => None end = Some _ => destruct x as [s15|] eqn:E15; [|discriminate H] end.
        destruct (bb_create s15) as [t0 s16] eqn:E16.
        match type of H with match ?x with Some _ => _ | None => None end = Some _ => destruct x as [s17|] eqn:E17; [|discriminate H] end.
        match type of H with match ?x with Some _ => _ | None => None end = Some _ => destruct x as [[[[ts18 s18] o18] e18]|] eqn:E18; [|discriminate H] end.
        assert (G18 : ht B k s18) by more IHs IHb.
        match type of H with match ?x with Some _ => _ | None => None end = Some _ => destruct x as [s19|] eqn:E19; [|discriminate H] end.
        assert (G19 : ht B k s19). { destruct o18; [pieces E19; prim|]. destruct (p_code s18 i13); [inj; exact G18|prim]. }
        pieces H. inj. prim.
      + (* do *) pieces H. inj. match goal with E : (if ?x then _ else _) = Some _ |- _ => destruct x; pieces E; inj end; more IHs IHb.
      + (* break *) pieces H. inj. more IHs IHb.
      + (* continue *) pieces H. inj. more IHs IHb.
    - intros B k brk cnt e ts st o0 ts' st' o e' H G. rewrite StmtEval.read_block_S in H. destruct (lex_accept T_close_curly ts); [inj; exact G|]. pieces H. more IHs IHb.
  Qed.
  (** the stack after a statement is the stack before it *)
  Lemma stmt_keeps n brk cnt e ts st b ts' st' o e' : stmt n brk cnt e ts st b = Some (ts', st', o, e') -> p_stack st' = p_stack st.
  Proof. intros H. apply ht_none. eapply (proj1 (all_keep_stmts n)); [exact H|]. apply ht_none. reflexivity. Qed.
End KeepStmt.
