(** An interpreter for code with variables (AllocSpec.v: sruns), to show what concrete code does.  Calls are not interpreted. *)
From Verif.Front Require Export ExprEval.
Open Scope Z_scope.

Section Interp.
  Context {world : Type}.
  Variable M : meaning Z world.
  Variable V : vars.
  Variable goff : nat -> Z.
  Variable place : nat -> Z.
  Variable exit : nat.
  Variable void : bool.
  Variable F : pst.
  Notation state := (@senv Z world).
  Notation get := (get M V goff).
  Notation set := (set M V goff).
  Definition known (i : rinsn) : bool := match i_op (r_insn i) with OP_call | OP_indirect => false | _ => true end.
  Definition no_args (s : state) : bool := match s_args s with [] => true | _ => false end.
  Definition xstep (i : rinsn) (s : state) : option state :=
    match i with
    | mkr (mkinsn o d x y) sz str =>
        match o, d, x, y with
        | OP_push, _, Some x, _ => match get s x with Some a => Some (mks (s_env s) (s_world s) (s_args s ++ [a]) None) | None => None end
        | _, _, _, _ =>
            if no_args s then
              match o, d, x, y with
              | OP_unwound_phi, Some d, Some x, _ => if v_global V d then None else set s d (get s x)
              | OP_allocat, Some d, _, _ => if v_global V d then None else set s d (if no_storage V d then None else Some (place d))
              | OP_load_constant, Some d, _, _ => set s d (Some (m_const M (v_init V d)))
              | OP_load_data_address, Some d, _, _ => set s d (Some (m_data M (v_init V d)))
              | OP_address_of, Some d, Some x, _ => if v_global V x then set s d (Some (m_gaddr M (goff x))) else None
              | OP_assign, Some d, Some x, _ => set s d (get s x)
              | OP_read, Some d, Some x, _ =>
                  match get s x with Some a => match m_read M sz a (s_world s) with Some r => set s d (Some r) | None => None end | None => None end
              | OP_write, _, Some x, Some y =>
                  match get s x with
                  | Some a =>
                      match v_func V y with
                      | Some f => match m_writef M a f (s_world s) with Some w => Some (mks (s_env s) w [] None) | None => None end
                      | None => match get s y with
                                | Some r => match m_write M sz a r (s_world s) with Some w => Some (mks (s_env s) w [] None) | None => None end
                                | None => None
                                end
                      end
                  | None => None
                  end
              | OP_func_ret, Some d, _, _ => match s_ret s with Some r => set s d (Some r) | None => None end
              | _, Some d, Some x, _ =>
                  if binary o then
                    match y with
                    | Some y => match get s x, get s y with Some a, Some c => match m_alu2 M o a c with Some r => set s d (Some r) | None => None end | _, _ => None end
                    | None => None
                    end
                  else if unary o then match get s x with Some a => match m_alu1 M o a with Some r => set s d (Some r) | None => None end | None => None end
                  else None
              | _, _, _, _ => None
              end
            else None
        end
    end.
  Lemma no_args_spec s : no_args s = true <-> s_args s = [].
  Proof. unfold no_args. destruct (s_args s); split; congruence. Qed.
  Ltac rw := repeat match goal with H : ?x = Some _ |- context [match ?x with _ => _ end] => rewrite H | H : ?x = None |- context [match ?x with _ => _ end] => rewrite H
    | H : ?x = true |- context [if ?x then _ else _] => rewrite H | H : ?x = false |- context [if ?x then _ else _] => rewrite H end; cbn iota.
  Lemma xstep_complete i s s' : known i = true -> sstep M V goff place i s s' -> xstep i s = Some s'.
  Proof.
    intros K H. inversion H; subst; try discriminate K; try (match goal with A : s_args s = [] |- _ => apply no_args_spec in A end).
    all: try (match goal with G : binary ?o = true |- _ => destruct o; try discriminate G end); try (match goal with G : unary ?o = true |- _ => destruct o; try discriminate G end).
    all: cbn [xstep binary unary]; rw; auto; destruct d; reflexivity.
  Qed.
  Lemma xstep_sound i s s' : known i = true -> xstep i s = Some s' -> sstep M V goff place i s s'.
  Proof.
    intros K H. destruct i as [[o d x y] sz str]. unfold xstep in H.
    destruct (no_args s) eqn:A; [apply no_args_spec in A|]; destruct o; try discriminate K; cbv iota in H;
      repeat (match type of H with (match ?x with _ => _ end) = Some _ => let Q := fresh "Q" in destruct x eqn:Q; try discriminate H end; cbv iota in H);
      try discriminate H; try (injection H as <-); try (econstructor; eauto; fail).
    destruct (no_storage V n) eqn:Ns; [eapply s_decl|eapply s_storage]; eassumption.
  Qed.

  Fixpoint xblock (l : list rinsn) (s : state) : option (send Z world) :=
    match l with
    | [] => Some (SFall s)
    | i :: l =>
        match i with
        | mkr (mkinsn OP_branch _ x _) _ _ => match x with Some x => if no_args s then match get s x with Some a => Some (SBranch a s) | None => None end else None | None => None end
        | mkr (mkinsn OP_return _ x _) _ _ =>
            if no_args s then
              match x with
              | Some x => match get s x with Some a => Some (SRet (Some a) (s_world s)) | None => None end
              | None => Some (SRet None (s_world s))
              end
            else None
        | _ => match xstep i s with Some s => xblock l s | None => None end
        end
    end.
  Lemma xblock_complete l : forallb known l = true -> forall s e, sblock M V goff place l s e -> xblock l s = Some e.
  Proof.
    induction l as [|i l IH]; intros K s e H; [inversion H; reflexivity|]. cbn [forallb] in K. apply andb_true_iff in K. destruct K as [K Kl].
    inversion H; subst; clear H.
    - match goal with G : sstep _ _ _ _ _ _ _ |- _ => pose proof (xstep_complete _ _ _ K G) as X; assert (NB : i_op (r_insn i) <> OP_branch /\ i_op (r_insn i) <> OP_return) by (inversion G; subst; cbn; try (split; discriminate);
        match goal with B : binary ?o = true |- _ => destruct o; try discriminate B; split; discriminate | B : unary ?o = true |- _ => destruct o; try discriminate B; split; discriminate end) end.
      cbn [xblock]. destruct i as [[o d x y] sz str]. cbn [r_insn i_op] in NB. destruct NB as [N1 N2]. destruct o; try congruence; rewrite X; apply IH; assumption.
    - cbn [xblock]. apply no_args_spec in H6 || idtac. match goal with A : s_args s = [] |- _ => apply no_args_spec in A; rewrite A end. match goal with G : get s _ = _ |- _ => rewrite G end. reflexivity.
    - cbn [xblock]. match goal with A : s_args s = [] |- _ => apply no_args_spec in A; rewrite A end. match goal with G : get s _ = _ |- _ => rewrite G end. reflexivity.
    - cbn [xblock]. match goal with A : s_args s = [] |- _ => apply no_args_spec in A; rewrite A end. reflexivity.
  Qed.
  Lemma xblock_sound l : forallb known l = true -> forall s e, xblock l s = Some e -> sblock M V goff place l s e.
  Proof.
    induction l as [|i l IH]; intros K s e H; [injection H as <-; constructor|]. cbn [forallb] in K. apply andb_true_iff in K. destruct K as [K Kl].
    assert (St : match xstep i s with Some s => xblock l s | None => None end = Some e -> sblock M V goff place (i :: l) s e).
    { intros G. destruct (xstep i s) as [s1|] eqn:X; [|discriminate]. eapply sb_cons; [apply xstep_sound; eassumption|]. apply IH; assumption. }
    cbn [xblock] in H. destruct i as [[o d x y] sz str]. destruct o; try (apply St; exact H); clear St.
    - destruct (no_args s) eqn:A; [|discriminate]. apply no_args_spec in A. destruct x; [|injection H as <-; apply sb_return_void; exact A]. destruct (get s n) eqn:G; [|discriminate]. injection H as <-. apply sb_return; assumption.
    - destruct x; [|discriminate]. destruct (no_args s) eqn:A; [|discriminate]. destruct (get s n) eqn:G; [|discriminate]. injection H as <-. apply sb_branch; [exact G|apply no_args_spec; exact A].
  Qed.

  (** the function from block b on, if it takes at most n blocks: it ends, it is stuck, or it has not been found out *)
  Inductive verdict := Ends (w : world) (r : option Z) | Stuck | Unknown.
  Fixpoint xrun (n : nat) (b : nat) (s : state) : verdict :=
    match n with
    | O => Unknown
    | S n =>
        if forallb known (p_code F b) then
          match xblock (p_code F b) s with
          | Some (SRet r w) => Ends w r
          | Some (SFall s') =>
              match p_next F b with
              | Some c => if (c =? exit)%nat then if void then Ends (s_world s') None else Stuck else xrun n c (mks (s_env s') (s_world s') [] None)
              | None => Stuck
              end
          | Some (SBranch x s') =>
              match p_then F b, p_else F b with
              | Some t, Some e => xrun n (if m_truth M x then t else e) (mks (s_env s') (s_world s') [] None)
              | _, _ => Stuck
              end
          | None => Stuck
          end
        else Unknown
    end.
  Notation runs := (sruns M V goff place (p_code F) (p_next F) (p_then F) (p_else F) exit void).
  Lemma xrun_ends n : forall b s w r, xrun n b s = Ends w r -> runs b s w r /\ forall w' r', runs b s w' r' -> w' = w /\ r' = r.
  Proof.
    induction n as [|n IH]; [discriminate|]. intros b s w r H. cbn [xrun] in H. destruct (forallb known (p_code F b)) eqn:K; [|discriminate].
    destruct (xblock (p_code F b) s) as [[s'|x s'|r' w']|] eqn:X; [| | |discriminate].
    - pose proof (xblock_sound _ K _ _ X) as B. destruct (p_next F b) as [c|] eqn:Nx; [|discriminate]. destruct (Nat.eqb_spec c exit) as [->|Nc].
      + destruct void eqn:Hv; [|discriminate]. injection H as <- <-. split; [eapply sr_end; eauto|]. intros w' r' R. inversion R; subst;
          match goal with B' : sblock _ _ _ _ _ _ _ |- _ => apply (xblock_complete _ K) in B'; rewrite X in B'; try discriminate B'; injection B' as -> || idtac end; try (auto; fail). congruence.
      + apply IH in H. destruct H as [R U]. split; [eapply sr_next; eauto|]. intros w' r' R'. inversion R'; subst;
          match goal with B' : sblock _ _ _ _ (p_code F b) _ _ |- _ => apply (xblock_complete _ K) in B'; rewrite X in B'; try discriminate B'; injection B' as <- || idtac end.
        * congruence.
        * assert (c0 = c) by congruence. subst. auto.
    - pose proof (xblock_sound _ K _ _ X) as B. destruct (p_then F b) as [t|] eqn:Nt; [|discriminate]. destruct (p_else F b) as [e|] eqn:Ne; [|discriminate].
      apply IH in H. destruct H as [R U]. split; [eapply sr_branch; eauto|]. intros w' r' R'. inversion R'; subst;
          match goal with B' : sblock _ _ _ _ (p_code F b) _ _ |- _ => apply (xblock_complete _ K) in B'; rewrite X in B'; try discriminate B'; injection B' as <- <- || idtac end.
      assert (t0 = t) by congruence. assert (e0 = e) by congruence. subst. auto.
    - injection H as <- <-. pose proof (xblock_sound _ K _ _ X) as B. split; [apply sr_return; exact B|]. intros w'' r'' R'. inversion R'; subst;
          match goal with B' : sblock _ _ _ _ (p_code F b) _ _ |- _ => apply (xblock_complete _ K) in B'; rewrite X in B'; try discriminate B'; injection B' as <- <- || idtac end. auto.
  Qed.
  Lemma xrun_stuck n : forall b s, xrun n b s = Stuck -> forall w r, ~ runs b s w r.
  Proof.
    induction n as [|n IH]; [discriminate|]. intros b s H w r R. cbn [xrun] in H. destruct (forallb known (p_code F b)) eqn:K; [|discriminate].
    inversion R; subst; match goal with B' : sblock _ _ _ _ (p_code F b) _ _ |- _ => apply (xblock_complete _ K) in B'; rewrite B' in H end; try discriminate H.
    - match goal with N : p_next F b = _ |- _ => rewrite N in H end. rewrite Nat.eqb_refl in H. match goal with N : void = true |- _ => rewrite N in H end. discriminate H.
    - match goal with N : p_next F b = _ |- _ => rewrite N in H end. rewrite (proj2 (Nat.eqb_neq c exit)) in H by assumption. eapply IH; eauto.
    - match goal with N : p_then F b = _, N' : p_else F b = _ |- _ => rewrite N, N' in H end. eapply IH; eauto.
  Qed.
End Interp.
Arguments Ends {world}. Arguments Stuck {world}. Arguments Unknown {world}.
