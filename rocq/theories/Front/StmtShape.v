(** The form of what the statement reader produces (see ParseShape.v), for any tokens. *)
From Verif.Front Require Export ParseShape.
From Verif.Front Require Import StmtSpec.
From Verif.Front Require StmtEval.
Open Scope Z_scope.

Section Stmt.
  Variable find_constant : text -> option Z.
  Variable find_global : text -> option vinfo.
  Variable find_type : text -> option Z.
  Variable find_func : text -> option Z.
  Variable special : text -> bool.
  Variable lim : nat.
  Variable ng : nat.
  Hypothesis Hglobal : forall x v, find_global x = Some v -> (vi_id v < ng)%nat.
  Notation exit := 1%nat.
  Notation fvar := (StmtParse.find_var find_global).
  (* the variables that are found are below n *)
  Definition env_ok (e : cenv) (n : nat) : Prop := (ng <= n)%nat /\ forall l, In l (c_scopes e) -> forall x v, In (x, v) l -> (vi_id v < n)%nat.
  Lemma env_le e n m : (n <= m)%nat -> env_ok e n -> env_ok e m.
  Proof. intros L [H1 H2]. split; [lia|]. intros l J x v Jv. specialize (H2 l J x v Jv). lia. Qed.
  Lemma find_in_in {T} x : forall (l : list (text * T)) v, find_in x l = Some v -> exists y, In (y, v) l.
  Proof.
    induction l as [|[y a] l IH]; cbn; intros v H; [discriminate|]. destruct (list_eq_dec Z.eq_dec x y).
    - apply some_inj in H. subst. exists y. left. reflexivity.
    - destruct (IH v H) as [w J]. exists w. right. exact J.
  Qed.
  Lemma env_find e n x v : env_ok e n -> fvar e x = Some v -> (vi_id v < n)%nat.
  Proof.
    intros [H1 H2]. unfold StmtParse.find_var. destruct (find_scopes x (c_scopes e)) as [w|] eqn:E.
    - intros Q. apply some_inj in Q. subst w. assert (G : exists l y, In l (c_scopes e) /\ In (y, v) l).
      { clear H2. induction (c_scopes e) as [|l r IH]; cbn in E; [discriminate|]. destruct (find_in x l) as [a|] eqn:F.
        - apply some_inj in E. subst a. apply find_in_in in F as [y J]. exists l, y. split; [left; reflexivity|exact J].
        - destruct (IH E) as (l' & y & J1 & J2). exists l', y. split; [right; exact J1|exact J2]. }
      destruct G as (l & y & J1 & J2). apply (H2 l J1 y v J2).
    - intros Q. specialize (Hglobal x v Q). lia.
  Qed.
  Lemma env_declare e n x v ls : env_ok e n -> (vi_id v < n)%nat -> env_ok (mkce (declare x v (c_scopes e)) ls) n.
  Proof.
    intros [H1 H2] L. split; [exact H1|]. cbn [c_scopes]. intros l J y w Jw. unfold declare in J. destruct (c_scopes e) as [|l0 r] eqn:E.
    - destruct J.
    - destruct J as [J|J]; [subst l; apply in_app_or in Jw as [Jw|[Q|[]]]; [apply (H2 l0 (or_introl eq_refl) y w Jw)|injection Q as <- <-; exact L]|apply (H2 l (or_intror J) y w Jw)].
  Qed.
  Lemma env_open e n : env_ok e n -> env_ok (open_scope e) n.
  Proof. intros [H1 H2]. split; [exact H1|]. intros l [<-|J] x v Jv; [destruct Jv|apply (H2 l J x v Jv)]. Qed.
  Lemma env_close e e1 n : env_ok e n -> env_ok (close_scope e e1) n.
  Proof. intros H. exact H. Qed.

  Notation expr e := (read_expr find_constant (fvar e) find_func special lim).
  Notation ternary e := (read_ternary find_constant (fvar e) find_func special lim).
  Notation args e := (read_args find_constant (fvar e) find_func special lim).
  Notation subs e := (read_subscripts find_constant (fvar e) find_func special lim).
  Lemma E_expr z P e nv st b n ts ts' st' b' : env_ok e nv -> A z P st (Some b) -> (nv <= p_var st)%nat -> expr e n ts st b = Some (ts', st', b') -> A z P st' (Some b') /\ le2 st st'.
  Proof.
    intros EV K N H. assert (Hv : forall x v, fvar e x = Some v -> (vi_id v < nv)%nat) by (intros x v; apply env_find; exact EV).
    apply (proj1 (proj2 (proj2 (proj2 (proj2 (proj2 (proj2 (shapes lim find_constant (fvar e) find_func special nv Hv n z P st b (conj K N))))))))) in H. destruct H as [[K' _] L]. auto.
  Qed.
  Lemma E_ternary z P e nv st b n ts ts' st' b' : env_ok e nv -> A z P st (Some b) -> (nv <= p_var st)%nat -> ternary e n ts st b = Some (ts', st', b') -> A z P st' (Some b') /\ le2 st st'.
  Proof.
    intros EV K N H. assert (Hv : forall x v, fvar e x = Some v -> (vi_id v < nv)%nat) by (intros x v; apply env_find; exact EV).
    apply (proj2 (proj2 (proj2 (proj2 (proj2 (proj2 (proj2 (proj2 (shapes lim find_constant (fvar e) find_func special nv Hv n z P st b (conj K N)))))))))) in H. destruct H as [[K' _] L]. auto.
  Qed.
  Lemma E_args z P e nv st b n ts ts' st' b' l : env_ok e nv -> A z P st (Some b) -> (nv <= p_var st)%nat -> args e n [] ts st b = Some (ts', st', b', l) ->
    A z P st' (Some b') /\ le2 st st' /\ forall v, In v l -> (v < p_var st')%nat.
  Proof.
    intros EV K N H. assert (Hv : forall x v, fvar e x = Some v -> (vi_id v < nv)%nat) by (intros x v; apply env_find; exact EV).
    apply (proj1 (proj2 (proj2 (shapes lim find_constant (fvar e) find_func special nv Hv n z P st b (conj K N))))) in H; [|intros v []]. destruct H as [[[K' _] L] Hl]. auto.
  Qed.
  Lemma E_subs z P e nv st b n v s m ts ts' st' b' s' r : env_ok e nv -> A z P st (Some b) -> (nv <= p_var st)%nat -> subs e n v s m ts st b = Some (ts', st', b', s', r) -> A z P st' (Some b') /\ le2 st st'.
  Proof.
    intros EV K N H. assert (Hv : forall x v, fvar e x = Some v -> (vi_id v < nv)%nat) by (intros x w; apply env_find; exact EV).
    apply (proj1 (proj2 (proj2 (proj2 (proj2 (shapes lim find_constant (fvar e) find_func special nv Hv n z P st b (conj K N))))))) in H. destruct H as [[K' _] L]. auto.
  Qed.
  Ltac reader H K EV :=
    lazymatch type of EV with env_ok _ ?nv =>
    lazymatch type of H with match ?x with Some _ => _ | None => None end = Some _ =>
      let E := fresh "E" in let L := fresh "L" in let NN := fresh "NN" in
      lazymatch x with
      | read_expr _ _ _ _ _ _ ?ts ?s ?b => ready K s; assert (NN : (nv <= p_var s)%nat) by arith; destruct x as [[[? ?] ?]|] eqn:E; [|discriminate H]; apply (E_expr _ _ _ _ _ _ _ _ _ _ _ EV K NN) in E; clear K NN; destruct E as (K & L)
      | read_ternary _ _ _ _ _ _ ?ts ?s ?b => ready K s; assert (NN : (nv <= p_var s)%nat) by arith; destruct x as [[[? ?] ?]|] eqn:E; [|discriminate H]; apply (E_ternary _ _ _ _ _ _ _ _ _ _ _ EV K NN) in E; clear K NN; destruct E as (K & L)
      | read_args _ _ _ _ _ _ _ ?ts ?s ?b => ready K s; assert (NN : (nv <= p_var s)%nat) by arith; destruct x as [[[[? ?] ?] ?]|] eqn:E; [|discriminate H]; apply (E_args _ _ _ _ _ _ _ _ _ _ _ _ EV K NN) in E; clear K NN; destruct E as (K & L & ?)
      | read_subscripts _ _ _ _ _ _ _ _ _ ?ts ?s ?b => ready K s; assert (NN : (nv <= p_var s)%nat) by arith; destruct x as [[[[[? ?] ?] ?] ?]|] eqn:E; [|discriminate H]; apply (E_subs _ _ _ _ _ _ _ _ _ _ _ _ _ _ _ _ EV K NN) in E; clear K NN; destruct E as (K & L)
      end end end.
  Ltac pure H := lazymatch type of H with match ?x with Some _ => _ | None => None end = Some _ => let E := fresh "P" in destruct x eqn:E; [|discriminate H] end.
  Ltac const H K := lazymatch type of H with match ?x with Some _ => _ | None => None end = Some _ => let E := fresh "E" in destruct x as [?|] eqn:E; [|discriminate H]; apply (A_const _ _ _ _ _ _ _ K) in E; clear K; destruct E as [K ?] end.
  Ltac binary H K := lazymatch type of H with match ?x with Some _ => _ | None => None end = Some _ => let E := fresh "E" in destruct x as [?|] eqn:E; [|discriminate H];
      apply (fun Ho => A_binary _ _ _ _ _ _ _ Ho K) in E; [clear K; destruct E as [K ?]|split; [cbn; intuition discriminate|discriminate]] end.

  Lemma A_old z P ref size b st t st' : A z P st (Some b) -> old_value lim ref size b st = Some (t, st') -> A z P st' (Some b) /\ (t < p_var st')%nat /\ le2 st st'.
  Proof.
    intros K H. unfold old_value in H. destruct ref.
    - stp H K. stp H K. stp H K. finish H K. split; [exact K|]. split; arith.
    - destruct (p_stack st) as [|v l] eqn:E; [discriminate|]. finish H K. split; [exact K|]. split; [apply (in_stack _ (a_inv _ _ _ _ K)); rewrite E; left; reflexivity|arith].
  Qed.
  Lemma A_new z P ref size t d b st : A z P st (Some b) -> (t < p_var st)%nat -> (d < p_var st)%nat -> A z P (new_value ref size t d b st) (Some b) /\ le2 st (new_value ref size t d b st).
  Proof. intros K L1 L2. unfold new_value. destruct ref; match goal with |- A _ _ ?s _ /\ _ => ready K s end; (split; [exact K|arith]). Qed.
  Lemma A_insn_op z P st b o rd r1 r2 : arith_op o -> A z P st (Some b) -> (rd < p_var st)%nat -> (r1 < p_var st)%nat -> (r2 < p_var st)%nat ->
    A z P (add_insn b o (Some rd) (Some r1) (Some r2) 0 0 st) (Some b).
  Proof.
    intros Ho K L1 L2 L3. pose proof (arith_op_neq o Ho) as [N1 N2]. destruct Ho as [N3 N4]. eapply A_insn; [exact K|target K|iside..| | | |]; auto. intros J. contradiction.
  Qed.
  Lemma update_arith ts o i r : update_op ts = Some (o, i, r) -> arith_op o.
  Proof.
    intros H. unfold update_op in H. destruct ts as [|[t w] ts]; [discriminate|]. destruct t; try discriminate; apply some_inj in H; injection H as <- _ _; (split; [cbn; intuition discriminate|discriminate]).
  Qed.
  Notation assignment := (read_assignment find_constant find_global find_func special lim).
  Lemma S_assignment z P e nv n prefix ts st b ts' st' b' : (forall o, prefix = Some o -> arith_op o) -> env_ok e nv -> A z P st (Some b) -> (nv <= p_var st)%nat ->
    assignment n e prefix ts st b = Some (ts', st', b') -> A z P st' (Some b') /\ le2 st st'.
  Proof.
    intros Hp EV K N H. unfold read_assignment in H. destruct ts as [|[t x] ts]; [discriminate|]. destruct t; try discriminate.
    destruct (fvar e x) as [v|] eqn:Fv; [|discriminate]. pose proof (env_find _ _ _ _ EV Fv). stp H K. reader H K EV. destruct (peek _ _); [discriminate|]. cbv zeta in H.
    match type of H with match ?x with _ => _ end = _ => assert (Ho : forall o i r, x = Some (o, i, r) -> arith_op o) end.
    { intros o i r Q. destruct (update_op t) as [[[o1 i1] r1]|] eqn:U; [apply some_inj in Q; injection Q as -> -> ->; eapply update_arith; eassumption|].
      destruct prefix; [apply some_inj in Q; injection Q as -> _ _; auto|discriminate]. }
    match type of H with match ?x with _ => _ end = _ => destruct x as [[[o i] r]|] end.
    - specialize (Ho o i r eq_refl). destruct i.
      + match type of H with match ?x with _ => _ end = _ => destruct x as [[t1 st1]|] eqn:E; [|discriminate H] end. apply (A_old _ _ _ _ _ _ _ _ K) in E. clear K. destruct E as (K & ? & ?).
        stp H K. stp H K. stp H K. apply some_inj in H. injection H as <- <- <-.
        match goal with |- A _ _ (new_value _ _ _ _ _ (add_insn _ _ (Some ?d) (Some ?y) (Some ?c) _ _ ?s)) _ /\ _ => assert (K' : A z P (add_insn n0 o (Some d) (Some y) (Some c) 0 0 s) (Some n0)) by (apply A_insn_op; auto; arith) end.
        eapply A_new in K'; [destruct K' as [K' L']; split; [exact K'|arith]|arith|arith].
      + match type of H with match ?x with _ => _ end = _ => destruct x as [[t1 st1]|] eqn:E; [|discriminate H] end. apply (A_old _ _ _ _ _ _ _ _ K) in E. clear K. destruct E as (K & ? & ?).
        reader H K EV. const H K. binary H K. stp H K. stp H K. stp H K. apply some_inj in H. injection H as <- <- <-.
        match goal with |- A _ _ (new_value _ _ _ _ ?b (add_insn _ _ (Some ?d) (Some ?y) (Some ?c) _ _ ?s)) _ /\ _ => assert (K' : A z P (add_insn b o (Some d) (Some y) (Some c) 0 0 s) (Some b)) by (apply A_insn_op; auto; arith) end.
        eapply A_new in K'; [destruct K' as [K' L']; split; [exact K'|arith]|arith|arith].
    - pure H. reader H K EV. reader H K EV. stp H K. stp H K. apply some_inj in H. injection H as <- <- <-.
      eapply A_new in K; [destruct K as [K' L']; split; [exact K'|arith]|arith|arith].
  Qed.
  Lemma declarator_id id size ts ts' x v : read_declarator id size ts = Some (ts', x, v) -> vi_id v = id.
  Proof.
    unfold read_declarator. destruct (read_stars ts) as [k r]. destruct r as [|[t w] r]; [discriminate|]. destruct t; try discriminate. intros H.
    repeat match type of H with
    | match ?x with _ => _ end = _ => destruct x; try discriminate H
    | Some _ = Some _ => apply some_inj in H; injection H as _ _ <-; reflexivity
    end.
  Qed.
  Notation declarators := (read_declarators find_constant find_global find_func special lim).
  Lemma S_declarators z P n : forall first size e nv ts st b ts' st' b' e', env_ok e nv -> A z P st (Some b) -> (nv <= p_var st)%nat ->
    declarators n first size e ts st b = Some (ts', st', b', e') -> A z P st' (Some b') /\ le2 st st' /\ env_ok e' (p_var st').
  Proof.
    induction n as [|n IH]; intros first size e nv ts st b ts' st' b' e' EV K N H; [discriminate|]. cbn [read_declarators] in H. cbv zeta in H.
    stp H K. destruct (read_declarator n0 size ts) as [[[ts1 x] v]|] eqn:Ed; [|discriminate]. apply declarator_id in Ed.
    set (e1 := mkce (declare x v (c_scopes e)) (v :: c_locals e)) in *.
    assert (EV1 : env_ok e1 (p_var p)) by (apply env_declare; [eapply env_le; [|exact EV]; arith|rewrite Ed; assumption]). clearbody e1. clear EV.
    match type of H with match ?x with _ => _ end = _ => destruct x as [[[ts2 st2] b2]|] eqn:E; [|discriminate H] end.
    assert (Q : A z P st2 (Some b2) /\ le2 p st2).
    { destruct (lex_accept T_assign ts1).
      - reader E K EV1. destruct first.
        + reader E K EV1. stp E K. apply some_inj in E. injection E as <- <- <-. match goal with |- A _ _ ?s _ /\ _ => ready K s end. split; [exact K|arith].
        + stp E K. apply some_inj in E. injection E as <- <- <-. match goal with |- A _ _ ?s _ /\ _ => ready K s end. split; [exact K|arith].
      - apply some_inj in E. injection E as <- <- <-. match goal with |- A _ _ ?s _ /\ _ => ready K s end. split; [exact K|arith]. }
    clear K. destruct Q as [K L]. destruct (lex_accept T_comma ts2).
    - assert (NN : (p_var p <= p_var st2)%nat) by arith. destruct (IH _ _ _ _ _ _ _ _ _ _ _ EV1 K NN H) as (K' & L' & EV'). split; [exact K'|]. split; [arith|exact EV'].
    - pure H. apply some_inj in H. injection H as <- <- <- <-. split; [exact K|]. split; [arith|]. eapply env_le; [|exact EV1]. arith.
  Qed.

  Notation stmt := (read_stmt find_constant find_global find_type find_func special lim exit).
  Notation blk := (read_block find_constant find_global find_type find_func special lim exit).
  Definition result (z : bool) (P : list nat) (st st' : pst) (o : option nat) (e' : cenv) : Prop := A z P st' o /\ le2 st st' /\ env_ok e' (p_var st').
  Lemma S_simple z P n e nv prefix ts st b ts' st' o e' : (forall o, prefix = Some o -> arith_op o) -> env_ok e nv -> A z P st (Some b) -> (nv <= p_var st)%nat ->
    match ts with
    | (T_identifier, x) :: r =>
        match find_type x with
        | Some size => do (ts, st, b, e) <- declarators n true size e r st b; Some (ts, st, Some b, e)
        | None =>
            if special x then None else
            match find_func x with
            | Some f =>
                do ts <- lex_expect T_open_bracket r;
                do (ts, st, b, l) <- args e n [] ts st b;
                do ts <- lex_expect T_semicolon ts;
                Some (ts, add_insn b OP_call None None None 0 f (push_args b l st), Some b, e)
            | None =>
                do (ts, st, b) <- assignment n e prefix ts st b;
                do ts <- lex_expect T_semicolon ts; Some (ts, st, Some b, e)
            end
        end
    | _ => None
    end = Some (ts', st', o, e') -> result z P st st' o e'.
  Proof.
    intros Hp EV K N H. destruct ts as [|[t x] r]; [discriminate|]. destruct t; try discriminate. destruct (find_type x) as [size|].
    - destruct (declarators n true size e r st b) as [[[[ts2 st2] b2] e2]|] eqn:E; [|discriminate]. apply some_inj in H. injection H as <- <- <- <-. exact (S_declarators _ _ _ _ _ _ _ _ _ _ _ _ _ _ EV K N E).
    - destruct (special x); [discriminate|]. destruct (find_func x) as [f|].
      + pure H. reader H K EV. pure H. apply some_inj in H. injection H as <- <- <- <-.
        match goal with Q : forall v, In v ?l -> _ |- result _ _ _ (add_insn ?b _ _ _ _ _ _ _) _ _ => destruct (A_push_args _ _ b l _ _ K (A_cur _ _ _ _ K) Q f) as (K1 & L1 & E1) end.
        split; [exact K1|]. split; [arith|]. eapply env_le; [|exact EV]. arith.
      + destruct (assignment n e prefix _ st b) as [[[ts2 st2] b2]|] eqn:E; [|discriminate]. apply (S_assignment _ _ _ _ _ _ _ _ _ _ _ _ Hp EV K N) in E as [K1 L1]. pure H. apply some_inj in H. injection H as <- <- <- <-.
        split; [exact K1|]. split; [exact L1|]. eapply env_le; [|exact EV]. arith.
  Qed.
  Definition jump_ok (k : option nat) (st : pst) : Prop := forall c, k = Some c -> (0 < c < p_blk st)%nat.
  Lemma jump_le k st st' : le2 st st' -> jump_ok k st -> jump_ok k st'.
  Proof. intros L H c E. specialize (H c E). arith. Qed.
  Lemma S_branch z P st b st' : A z P st (Some b) -> add_branch lim b st = Some st' -> A z P st' None /\ le2 st st'.
  Proof. intros K H. unfold add_branch in H. stp H K. stp H K. stp H K. finish H K. split; [exact K|arith]. Qed.
  Lemma S_connect_opt z P st o k st' : A z P st o -> (0 < k < p_blk st)%nat -> connect_opt o k st = Some st' -> A z P st' o /\ le2 st st'.
  Proof.
    intros K L H. unfold connect_opt in H. destruct o as [c|]; [|finish H K; split; [exact K|arith]]. pose proof (A_cur _ _ _ _ K) as (L1 & N1 & _). eapply A_connect; eassumption.
  Qed.
  Lemma S_after z P st o p st' : A z P st o -> after_body o st = Some (p, st') -> A z P st' p /\ le2 st st'.
  Proof.
    intros K H. unfold after_body in H. destruct o as [c|].
    - pose proof (A_cur _ _ _ _ K). stp H K. stp H K. finish H K. split; [eapply A_switch; exact K|arith].
    - finish H K. split; [exact K|arith].
  Qed.
  Definition stmt_ok (n : nat) : Prop := forall z P e nv brk cnt ts st b ts' st' o e', env_ok e nv -> A z P st (Some b) -> (nv <= p_var st)%nat -> jump_ok brk st -> jump_ok cnt st ->
    stmt n brk cnt e ts st b = Some (ts', st', o, e') -> result z P st st' o e'.
  Definition block_ok (n : nat) : Prop := forall z P e nv brk cnt ts st o0 ts' st' o e', env_ok e nv -> A z P st o0 -> (nv <= p_var st)%nat -> jump_ok brk st -> jump_ok cnt st ->
    blk n brk cnt e ts st o0 = Some (ts', st', o, e') -> result z P st st' o e'.
  Lemma A_z z P st o : A false P st o -> A z P st o.
  Proof. intros [H1 H2 H3 H4]. constructor; auto. intros b E. destruct (H2 b E) as [T Z]. split; [exact T|]. intros E0. discriminate (Z E0). Qed.
  Lemma A_stash z' P st k p : A false (k :: P) st (Some p) -> A z' (p :: P) st (Some k).
  Proof.
    intros [H1 H2 H3 H4]. inversion H4 as [|k' P' Nk Nd]; subst. destruct (H2 p eq_refl) as [Tp Zp]. destruct (H3 k (or_introl eq_refl)) as (Tk & N0 & Nkp). constructor; auto.
    - intros b E. injection E as <-. split; [exact Tk|]. intros Q. destruct (N0 Q).
    - intros c [<-|J].
      + split; [exact Tp|]. split; [intros Q; discriminate (Zp Q)|congruence].
      + destruct (H3 c (or_intror J)) as (Tc & N1 & _). split; [exact Tc|]. split; [exact N1|]. intros E. injection E as <-. contradiction.
    - constructor; [|exact Nd]. intros J. destruct (H3 p (or_intror J)) as (_ & _ & Q). congruence.
  Qed.
  Lemma stmts_ok : forall n, stmt_ok n /\ block_ok n.
  Proof.
    induction n as [|n [IHs IHb]]; [split; intros z P e nv brk cnt; intros; discriminate|]. split.
    - intros z P e nv brk cnt ts st b ts' st' o e' EV K N Jb Jc H. rewrite StmtEval.read_stmt_S in H. cbv zeta in H.
      assert (Plain : forall o, @None opcode = Some o -> arith_op o) by discriminate.
      assert (Inc : forall o, Some OP_add = Some o -> arith_op o) by (intros o0 Q; injection Q as <-; split; [cbn; intuition discriminate|discriminate]).
      assert (Dec : forall o, Some OP_sub = Some o -> arith_op o) by (intros o0 Q; injection Q as <-; split; [cbn; intuition discriminate|discriminate]).
      destruct ts as [|[t w] r]; [discriminate|]. pose proof (A_cur _ _ _ _ K) as Cb.
      assert (E2 : (2 <= p_blk st)%nat) by apply (in_exit _ (a_inv _ _ _ _ K)).
      Ltac rstmt H K EV lem J1 J2 :=
        lazymatch type of EV with env_ok _ ?nv =>
        lazymatch type of H with match ?x with Some _ => _ | None => None end = Some _ =>
        lazymatch x with read_stmt _ _ _ _ _ _ _ ?m ?br ?cn ?e ?ts ?s ?b =>
          let E := fresh "E" in let L := fresh "L" in let NN := fresh "NN" in let X1 := fresh "X" in let X2 := fresh "Y" in let EV' := fresh "EV" in
          assert (NN : (nv <= p_var s)%nat) by arith;
          assert (X1 : jump_ok br s) by J1; assert (X2 : jump_ok cn s) by J2;
          destruct x as [[[[? ?] ?] ?]|] eqn:E; [|discriminate H]; apply (lem _ _ _ _ _ _ _ _ _ _ _ _ _ EV K NN X1 X2) in E; clear K NN X1 X2; destruct E as (K & L & EV')
        end end end.
      Ltac after H K := lazymatch type of H with match ?x with Some _ => _ | None => None end = Some _ =>
        let E := fresh "E" in destruct x as [[? ?]|] eqn:E; [|discriminate H]; apply (S_after _ _ _ _ _ _ K) in E; clear K; destruct E as (K & ?) end.
      Ltac branch H K := lazymatch type of H with match ?x with Some _ => _ | None => None end = Some _ =>
        let E := fresh "E" in destruct x as [?|] eqn:E; [|discriminate H]; apply (S_branch _ _ _ _ _ K) in E; clear K; destruct E as (K & ?) end.
      Ltac old J := let c := fresh "c" in let Q := fresh "Q" in intros c Q; first [specialize (J c Q); arith|injection Q as <-; arith].
      Ltac envend EV := eapply env_le; [|exact EV]; arith.
      destruct t; try discriminate;
        try solve [exact (S_simple _ _ _ _ _ None ((T_identifier, w) :: r) _ _ _ _ _ _ Plain EV K N H)
                  |exact (S_simple _ _ _ _ _ (Some OP_add) r _ _ _ _ _ _ Inc EV K N H)|exact (S_simple _ _ _ _ _ (Some OP_sub) r _ _ _ _ _ _ Dec EV K N H)].
      + (* { *) match type of H with match ?x with _ => _ end = _ => destruct x as [[[[ts1 st1] o1] e1]|] eqn:E; [|discriminate H] end.
        apply (IHb _ _ _ _ _ _ _ _ _ _ _ _ _ (env_open _ _ EV) K N Jb Jc) in E. destruct E as (K1 & L1 & EV1). apply some_inj in H. injection H as <- <- <- <-. split; [exact K1|]. split; [exact L1|]. apply env_close. envend EV.
      + (* ; *) apply some_inj in H. injection H as <- <- <- <-. split; [exact K|]. split; [arith|]. envend EV.
      + (* return *) destruct (lex_accept T_semicolon r).
        * stp H K. apply some_inj in H. injection H as <- <- <- <-. apply A_drop in K. split; [exact K|]. split; [arith|]. envend EV.
        * unfold read_return in H. match type of H with match ?x with _ => _ end = _ => destruct x as [[ts1 st1]|] eqn:E; [|discriminate H] end. apply some_inj in H. injection H as <- <- <- <-.
          reader E K EV. reader E K EV. pure E. stp E K. pose proof (A_cur _ _ _ _ K). stp E K. apply some_inj in E. injection E as <- <-. apply A_drop in K. split; [exact K|]. split; [arith|]. envend EV.
      + (* if *) stp H K. stp H K. pure H. apply A_switch with (z' := false) in K. reader H K EV. pure H. pose proof (A_cur _ _ _ _ K) as Cc. branch H K. stp H K. stp H K. stp H K. stp H K. stp H K.
        apply A_swap, A_switch with (z' := false) in K. rstmt H K EV IHs ltac:(old Jb) ltac:(old Jc). after H K.
        destruct (lex_accept T_else _).
        * stp H K. stp H K. destruct o1 as [kp|].
          -- pose proof (A_nonzero _ _ _ K) as Np. apply A_stash with (z' := false) in K. rstmt H K EV0 IHs ltac:(old Jb) ltac:(old Jc). after H K. stp H K. destruct o2 as [kq|].
             ++ pose proof (A_nonzero _ _ _ K) as Nq. stp H K. stp H K. stp H K. apply A_swap, A_forget, A_switch with (z' := z) in K. apply some_inj in H. injection H as <- <- <- <-. split; [exact K|]. split; [arith|]. envend EV1.
             ++ apply A_switch with (z' := z) in K. apply some_inj in H. injection H as <- <- <- <-. split; [exact K|]. split; [arith|]. envend EV1.
          -- apply A_switch with (z' := false) in K. rstmt H K EV0 IHs ltac:(old Jb) ltac:(old Jc). after H K. stp H K.
             apply (A_z z) in K. apply some_inj in H. injection H as <- <- <- <-. split; [exact K|]. split; [arith|]. envend EV1.
        * stp H K. destruct o1 as [kp|].
          -- pose proof (A_nonzero _ _ _ K) as Np. stp H K. apply A_forget, (A_z z) in K. apply some_inj in H. injection H as <- <- <- <-. split; [exact K|]. split; [arith|]. envend EV0.
          -- apply A_switch with (z' := z) in K. apply some_inj in H. injection H as <- <- <- <-. split; [exact K|]. split; [arith|]. envend EV0.
      + (* while *) stp H K. stp H K. stp H K. stp H K. stp H K. pure H. apply A_forget, A_switch with (z' := false) in K. reader H K EV. pure H. pose proof (A_cur _ _ _ _ K) as Cc. branch H K. stp H K. stp H K. stp H K. stp H K. stp H K.
        apply A_swap, A_switch with (z' := false) in K. rstmt H K EV IHs ltac:(old Jb) ltac:(old Jc). stp H K.
        match type of H with match ?x with _ => _ end = _ => destruct x as [st9|] eqn:E9; [|discriminate H] end. apply (fun L => S_connect_opt _ _ _ _ _ _ K L) in E9; [|arith]. clear K. destruct E9 as [K L9].
        apply A_switch with (z' := z) in K. apply some_inj in H. injection H as <- <- <- <-. split; [exact K|]. split; [arith|]. envend EV0.
      + (* for *) pure H. cbv zeta in H. stp H K. stp H K. apply A_switch with (z' := false) in K. apply env_open in EV. set (eo := open_scope e) in *.
        match type of H with match ?x with _ => _ end = _ => destruct x as [[[[ts1 st1] k1] e1]|] eqn:Ei; [|discriminate H] end.
        assert (Q : A false P st1 (Some k1) /\ le2 p0 st1 /\ env_ok e1 (p_var st1)).
        { destruct (lex_accept T_semicolon t); [apply some_inj in Ei; injection Ei as <- <- <- <-; split; [exact K|]; split; [arith|envend EV]|].
          destruct t as [|[tt x] t]; [discriminate|]. destruct tt; try discriminate. assert (NN : (nv <= p_var p0)%nat) by arith. destruct (find_type x).
          - exact (S_declarators _ _ _ _ _ _ _ _ _ _ _ _ _ _ EV K NN Ei).
          - match type of Ei with match ?x with _ => _ end = _ => destruct x as [[[ts2 st2] b2]|] eqn:E3; [|discriminate Ei] end. apply (S_assignment _ _ _ _ _ _ _ _ _ _ _ _ Plain EV K NN) in E3 as [K3 L3]. pure Ei. apply some_inj in Ei. injection Ei as <- <- <- <-.
            split; [exact K3|]. split; [exact L3|]. envend EV. }
        clear K. destruct Q as (K & L1 & EV1). pose proof (A_cur _ _ _ _ K) as Ck. stp H K. stp H K. stp H K. stp H K. apply A_swap, A_switch with (z' := false) in K.
        match type of H with match ?x with _ => _ end = _ => destruct x as [[[ts2 st2] c2]|] eqn:Ec; [|discriminate H] end.
        lazymatch type of K with A _ _ ?s _ => assert (Q : A false (n2 :: P) st2 (Some c2) /\ le2 s st2) end.
        { destruct (lex_accept T_semicolon ts1).
          - const Ec K. apply some_inj in Ec. injection Ec as <- <- <-. split; [exact K|arith].
          - reader Ec K EV1. pure Ec. apply some_inj in Ec. injection Ec as <- <- <-. split; [exact K|arith]. }
        clear K. destruct Q as (K & L2). pose proof (A_cur _ _ _ _ K) as Cc. stp H K. branch H K. stp H K. stp H K. stp H K. apply A_switch with (z' := false) in K.
        match type of H with match ?x with _ => _ end = _ => destruct x as [[[ts3 st3] i3]|] eqn:Ej; [|discriminate H] end.
        lazymatch type of K with A _ _ ?s _ => assert (Q : A false (n2 :: P) st3 (Some i3) /\ le2 s st3) end.
        { destruct (lex_accept T_close_bracket ts2); [apply some_inj in Ej; injection Ej as <- <- <-; split; [exact K|arith]|].
          destruct (match ts2 with (T_increment, _) :: r => (Some OP_add, r) | (T_decrement, _) :: r => (Some OP_sub, r) | _ => (None, ts2) end) as [pf ts4] eqn:Ep.
          match type of Ej with match ?x with _ => _ end = _ => destruct x as [[[ts5 st5] b5]|] eqn:E5; [|discriminate Ej] end. lazymatch type of K with A _ _ ?s _ => assert (NN : (p_var st1 <= p_var s)%nat) by arith end.
          apply (fun Hp => S_assignment _ _ _ _ _ _ _ _ _ _ _ _ Hp EV1 K NN) in E5.
          - destruct E5 as [K5 L5]. pure Ej. apply some_inj in Ej. injection Ej as <- <- <-. split; [exact K5|arith].
          - intros o0 ->. destruct ts2 as [|[tt x] ts2]; [discriminate|]. destruct tt; injection Ep as Ep _; try discriminate; [apply Inc|apply Dec]; congruence. }
        clear K. destruct Q as (K & L3). pose proof (A_nonzero _ _ _ K) as Ni. stp H K. stp H K. stp H K. stp H K. apply A_switch with (z' := false) in K.
        rstmt H K EV1 IHs ltac:(old Jb) ltac:(old Jc).
        match type of H with match ?x with _ => _ end = _ => destruct x as [st9|] eqn:E9; [|discriminate H] end.
        lazymatch type of K with A _ ?PP ?s ?oo => assert (Q : A false PP st9 oo /\ le2 s st9) end.
        { destruct o0 as [a|].
          - pose proof (A_cur _ _ _ _ K) as Ca. stp E9 K. eapply A_connect in E9; [|exact K|arith|arith]. destruct E9 as [K9 L9]. split; [exact K9|arith].
          - destruct (p_code _ i3); [apply some_inj in E9; subst st9; split; [exact K|arith]|]. eapply A_connect in E9; [|exact K|arith|arith]. exact E9. }
        clear K. destruct Q as (K & L9). stp H K.
        apply A_switch with (z' := z) in K. apply some_inj in H. injection H as <- <- <- <-. split; [exact K|]. split; [arith|]. apply env_close. apply env_le with (n := nv); [arith|]. destruct EV as [EVa EVb]. split; [exact EVa|]. intros l J. apply EVb. right. exact J.
      + (* do *) stp H K. stp H K. stp H K. stp H K. stp H K. stp H K. stp H K. apply (A_pick z [n2; n1] n0 P), A_switch with (z' := false) in K. cbn [app] in K.
        rstmt H K EV IHs ltac:(old Jb) ltac:(old Jc).
        match type of H with match ?x with _ => _ end = _ => destruct x as [st9|] eqn:E9; [|discriminate H] end. apply (fun L => S_connect_opt _ _ _ _ _ _ K L) in E9; [|arith]. clear K. destruct E9 as [K L9].
        pure H. pure H. stp H K. apply A_swap, A_switch with (z' := false) in K. reader H K EV0. pure H. pose proof (A_cur _ _ _ _ K) as Cc. branch H K. pure H.
        match type of H with match ?x with _ => _ end = _ => destruct x as [st8|] eqn:E8; [|discriminate H] end.
        lazymatch type of K with A _ ?PP ?s ?oo => assert (Q : A false PP st8 oo /\ le2 s st8) end.
        { destruct (_ =? 0)%nat; [apply some_inj in E8; subst st8; split; [exact K|arith]|]. stp E8 K. eapply A_connect in E8; [|exact K|arith|arith]. destruct E8 as [K8 L8]. split; [exact K8|arith]. }
        clear K. destruct Q as (K & L8).
        apply A_switch with (z' := z) in K. apply some_inj in H. injection H as <- <- <- <-. split; [exact K|]. split; [arith|]. envend EV0.
      + (* break *) destruct brk as [kb|]; [|discriminate H]. pose proof (Jb kb eq_refl). stp H K. pure H. apply A_drop in K. apply some_inj in H. injection H as <- <- <- <-. split; [exact K|]. split; [arith|]. envend EV.
      + (* continue *) destruct cnt as [kb|]; [|discriminate H]. pose proof (Jc kb eq_refl). stp H K. pure H. apply A_drop in K. apply some_inj in H. injection H as <- <- <- <-. split; [exact K|]. split; [arith|]. envend EV.
    - intros z P e nv brk cnt ts st o0 ts' st' o e' EV K N Jb Jc H. rewrite StmtEval.read_block_S in H.
      destruct (lex_accept T_close_curly ts); [apply some_inj in H; injection H as <- <- <- <-; split; [exact K|]; split; [arith|]; envend EV|].
      destruct o0 as [b|]; [|discriminate]. match type of H with match ?x with _ => _ end = _ => destruct x as [[[[ts1 st1] o1] e1]|] eqn:E; [|discriminate H] end.
      apply (IHs _ _ _ _ _ _ _ _ _ _ _ _ _ EV K N Jb Jc) in E. destruct E as (K1 & L1 & EV1).
      apply (IHb _ _ _ _ _ _ _ _ _ _ _ _ _ EV1 K1 (le_n _) (jump_le _ _ _ L1 Jb) (jump_le _ _ _ L1 Jc)) in H. destruct H as (K2 & L2 & EV2). split; [exact K2|]. split; [arith|exact EV2].
  Qed.
End Stmt.

(** the function as a whole *)
Lemma func_inv find_constant find_global find_type find_func special lim params k ts nvars ts' F e :
  (forall x v, find_global x = Some v -> (vi_id v < nvars)%nat) -> (forall p, In p params -> (vi_id (snd p) < nvars)%nat) ->
  read_func_body find_constant find_global find_type find_func special lim params k ts nvars = Some (ts', F, e) -> inv F /\ (nvars <= p_var F)%nat.
Proof.
  intros Hg Hp H. unfold read_func_body in H. cbv zeta in H. destruct (lex_expect T_open_curly ts) as [ts0|]; [|discriminate].
  set (st := mkp nvars 2 _ _ _ _ _ _ _) in H.
  destruct (read_block _ _ _ _ _ _ _ _ _ _ _ _ _ _) as [[[[ts1 st1] o] e1]|] eqn:E; [|discriminate].
  assert (K : A true [] st (Some 0%nat)).
  { constructor; [|intros b Q; injection Q as <-; split; [|auto]; split; [cbn; lia|]; split; [lia|apply open_nil]|intros c []|constructor].
    constructor; cbn; auto; [intros; apply list_ok_nil|intros v []|intros a c [Q|[Q|Q]]; discriminate]. }
  assert (EV : env_ok nvars (mkce [[]; params] []) nvars).
  { split; [lia|]. cbn. intros l [<-|[<-|[]]] x v J; [destruct J|]. apply (Hp (x, v) J). }
  assert (J0 : jump_ok None st) by (intros c Q; discriminate).
  apply (proj2 (stmts_ok find_constant find_global find_type find_func special lim nvars Hg k) _ _ _ _ _ _ _ _ _ _ _ _ _ EV K (le_n _) J0 J0) in E. destruct E as (K1 & L1 & _).
  destruct (connect_opt o 1 st1) as [st2|] eqn:E2; [|discriminate]. apply some_inj in H. injection H as <- <- <-.
  assert (L2 : (0 < 1 < p_blk st1)%nat) by (pose proof (proj2 (in_exit _ (a_inv _ _ _ _ K1))); lia).
  destruct (S_connect_opt _ _ _ _ _ _ K1 L2 E2) as [K2 L3]. split; [apply (a_inv _ _ _ _ K2)|]. destruct L1, L3. cbn in *. lia.
Qed.
