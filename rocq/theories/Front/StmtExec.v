(** An interpreter for the specification of statements (StmtSpec.v), to show that concrete programs meet it.  Nothing here comes
    from /repo. *)
From Verif.Front Require Export StmtSpec.
Open Scope Z_scope.

Notation "'run' p <- e ; k" := (match e with Some p => k | None => None end) (at level 60, p strict pattern, e at level 200, k at level 200, right associativity).
Section Interp.
  Context {world : Type}.
  Variable constant : text -> option Z.
  Variable tsize : text -> option Z.
  Variable gtype : text -> option vtype.
  Variable gget : text -> world -> Z.
  Variable gput : text -> Z -> world -> world.
  Variable load : Z -> Z -> world -> option Z.
  Variable store : Z -> Z -> Z -> world -> option world.
  Variable calls : text -> list Z -> world -> Z -> world -> Prop.
  Variable icall : text -> list Z -> world -> option (Z * world).
  Hypothesis Hcall : forall f vs w v w', icall f vs w = Some (v, w') -> calls f vs w v w'.

  Notation value := (value constant gtype gget).
  Notation size_of := (size_of gtype).
  Notation cexp := (cexp constant gtype gget load calls).
  Fixpoint iexpr (n : nat) (E : env) (e : rexpr) (w : world) : option (Z * world) :=
    match n with
    | O => None
    | S n =>
        match e with
        | RLit l => Some (wrap (literal_value l), w)
        | RChr c => Some (c, w)
        | RVar x => run v <- value E x w; Some (v, w)
        | RIdx x i => run a <- value E x w; run (k, w) <- iexpr n E i w; run v <- load (size_of E x) (wrap (a + k * size_of E x)) w; Some (v, w)
        | RUn u e => run (v, w) <- iexpr n E e w; Some (cun u v, w)
        | RBin LAnd a b => run (v, w) <- iexpr n E a w; if v =? 0 then Some (0, w) else run (u, w) <- iexpr n E b w; Some (b2z (negb (u =? 0)), w)
        | RBin LOr a b => run (v, w) <- iexpr n E a w; if v =? 0 then run (u, w) <- iexpr n E b w; Some (b2z (negb (u =? 0)), w) else Some (1, w)
        | RBin o a b => run (x, w) <- iexpr n E a w; run (y, w) <- iexpr n E b w; run v <- cbin o x y; Some (v, w)
        | RCond c a b => run (v, w) <- iexpr n E c w; if v =? 0 then iexpr n E b w else iexpr n E a w
        | RPar e => iexpr n E e w
        | RCall f args => run (vs, w) <- iargs n E args w; icall f vs w
        end
    end
  with iargs (n : nat) (E : env) (l : list rexpr) (w : world) : option (list Z * world) :=
    match n with
    | O => None
    | S n => match l with [] => Some ([], w) | e :: l => run (v, w) <- iexpr n E e w; run (vs, w) <- iargs n E l w; Some (v :: vs, w) end
    end.
  Ltac go H := repeat (match type of H with
    | (match ?x with _ => _ end) = Some _ => let Q := fresh "Q" in destruct x eqn:Q; try discriminate H
    | (let '(_, _) := ?x in _) = Some _ => let Q := fresh "Q" in destruct x eqn:Q
    end; cbv beta iota in H).
  Lemma iexpr_sound n : (forall E e w v w', iexpr n E e w = Some (v, w') -> cexp E e w v w') /\
    (forall E l w vs w', iargs n E l w = Some (vs, w') -> cevals (value E) (size_of E) load calls l w vs w').
  Proof.
    induction n as [|n [IH IHl]]; [split; intros; discriminate|]. split.
    - intros E e w v w' H. unfold StmtSpec.cexp in *. destruct e as [l|c|x|x i|u e|o a b|c a b|e|f args]; cbn [iexpr] in H.
      + injection H as <- <-. constructor.
      + injection H as <- <-. constructor.
      + go H. injection H as <- <-. constructor. assumption.
      + go H. injection H as <- <-. econstructor; eauto.
      + go H. injection H as <- <-. constructor. eauto.
      + assert (P : forall o', o = o' -> o' <> LAnd -> o' <> LOr -> (run (x, w) <- iexpr n E a w; run (y, w) <- iexpr n E b w; run v <- cbin o' x y; Some (v, w)) = Some (v, w') -> ceval (value E) (size_of E) load calls (RBin o' a b) w v w').
        { clear H. intros o' _ N1 N2 H. go H. injection H as <- <-. econstructor; eauto. }
        destruct o; try (eapply P; [reflexivity|discriminate|discriminate|exact H]); clear P; go H.
        * injection H as <- <-. apply E_and_false. apply IH. match goal with G : (_ =? 0) = true |- _ => apply Z.eqb_eq in G; subst end. assumption.
        * injection H as <- <-. eapply E_and_true; eauto. match goal with G : (_ =? 0) = false |- _ => apply Z.eqb_neq in G end. assumption.
        * injection H as <- <-. eapply E_or_false; eauto. match goal with G : (_ =? 0) = true |- _ => apply Z.eqb_eq in G; subst end. eauto.
        * injection H as <- <-. eapply E_or_true; eauto. match goal with G : (_ =? 0) = false |- _ => apply Z.eqb_neq in G end. assumption.
      + go H.
        * eapply E_cond_false; eauto. match goal with G : (_ =? 0) = true |- _ => apply Z.eqb_eq in G; subst end. eauto.
        * eapply E_cond_true; eauto. match goal with G : (_ =? 0) = false |- _ => apply Z.eqb_neq in G end. assumption.
      + constructor. eauto.
      + go H. econstructor; eauto.
    - intros E l w vs w' H. cbn [iargs] in H. go H; injection H as <- <-; econstructor; eauto. apply IH. eassumption.
  Qed.

  Definition isimple (n : nat) (p : simple) (E : env) (w : world) : option (env * world) :=
    match p with
    | Assign (LVar x) e => run (v, w) <- iexpr n E e w; Some (set_var gtype gput E x v w)
    | Assign (LIdx x i) e =>
        run a <- value E x w; run (k, w) <- iexpr n E i w; run (v, w) <- iexpr n E e w;
        run w <- store (size_of E x) (addr gtype E x a k) v w; Some (E, w)
    | Update (LVar x) o e =>
        run t <- type_of gtype (types E) x; run u <- value E x w; run (v, w) <- iexpr n E e w;
        run r <- cbin o u (wrap (v * var_step t)); Some (set_var gtype gput E x r w)
    | Update (LIdx x i) o e =>
        run t <- type_of gtype (types E) x; run a <- value E x w; run (k, w) <- iexpr n E i w;
        run u <- load (size_of E x) (addr gtype E x a k) w; run (v, w) <- iexpr n E e w;
        run r <- cbin o u (wrap (v * elem_step t)); run w <- store (size_of E x) (addr gtype E x a k) r w; Some (E, w)
    | Post (LVar x) o | Pre (LVar x) o =>
        run t <- type_of gtype (types E) x; run u <- value E x w; run r <- cbin o u (var_step t); Some (set_var gtype gput E x r w)
    | Post (LIdx x i) o | Pre (LIdx x i) o =>
        run t <- type_of gtype (types E) x; run a <- value E x w; run (k, w) <- iexpr n E i w;
        run u <- load (size_of E x) (addr gtype E x a k) w; run r <- cbin o u (elem_step t);
        run w <- store (size_of E x) (addr gtype E x a k) r w; Some (E, w)
    end.
  Notation assigns := (assigns constant gtype gget gput load store calls).
  Lemma isimple_sound n p E w E' w' : isimple n p E w = Some (E', w') -> assigns p E w E' w'.
  Proof.
    pose proof (proj1 (iexpr_sound n)) as IE. intros H.
    destruct p as [[x|x i] e|[x|x i] o e|[x|x i] o|[x|x i] o]; cbn [isimple] in H; go H; try (apply A_pre);
      (apply (f_equal (fun o => match o with Some a => a | None => (E, w) end)) in H; cbn in H); try (injection H as <- <-); econstructor; eauto.
  Qed.
  Fixpoint ideclares (n : nat) (base : Z) (ds : list declarator) (E : env) (w : world) : option (env * world) :=
    match ds with
    | [] => Some (E, w)
    | d :: ds =>
        let t := decl_type base d in
        match d_array d, d_init d with
        | None, None => ideclares n base ds (declare (d_name d) (t, None) E) w
        | None, Some e => run (v, w) <- iexpr n (declare (d_name d) (t, None) E) e w; ideclares n base ds (declare (d_name d) (t, Some (convert t v)) E) w
        | Some _, None => ideclares n base ds (declare (d_name d) (t, Some (d_place d)) E) w
        | Some _, Some _ => None
        end
    end.
  Notation declares := (declares constant gtype gget load calls).
  Lemma ideclares_sound n base ds : forall E w E' w', ideclares n base ds E w = Some (E', w') -> declares base ds E w E' w'.
  Proof.
    pose proof (proj1 (iexpr_sound n)) as IE. induction ds as [|d ds IH]; intros E w E' w' H; cbn [ideclares] in H; [injection H as <- <-; constructor|]. cbv zeta in H.
    destruct (d_array d) eqn:Qa; destruct (d_init d) eqn:Qi; try discriminate H.
    - eapply D_array; eauto.
    - go H. eapply D_init; eauto.
    - eapply D_plain; eauto.
  Qed.
  Definition again (o : outcome) : bool := match o with ONormal | OContinue => true | _ => false end.
  Lemma again_spec o : again o = true -> o = ONormal \/ o = OContinue.
  Proof. destruct o; cbn; auto; discriminate. Qed.
  Fixpoint istmt (n : nat) (s : stmt) (E : env) (w : world) : option (outcome * env * world) :=
    match n with
    | O => None
    | S n =>
        match s with
        | SSkip | SNil => Some (ONormal, E, w)
        | SSimple p => run (E, w) <- isimple n p E w; Some (ONormal, E, w)
        | SCall f args => run (_, w) <- iexpr n E (RCall f args) w; Some (ONormal, E, w)
        | SDecl t ds => run k <- tsize t; run (E, w) <- ideclares n k ds E w; Some (ONormal, E, w)
        | SBlock q => run (o, E, w) <- istmt n q ([] :: E) w; match E with _ :: E => Some (o, E, w) | [] => None end
        | SCons a q => run (o, E, w) <- istmt n a E w; match o with ONormal => istmt n q E w | _ => Some (o, E, w) end
        | SIf c a => run (v, w) <- iexpr n E c w; if v =? 0 then Some (ONormal, E, w) else istmt n a E w
        | SIfElse c a b => run (v, w) <- iexpr n E c w; if v =? 0 then istmt n b E w else istmt n a E w
        | SWhile c a =>
            run (v, w) <- iexpr n E c w;
            if v =? 0 then Some (ONormal, E, w) else
            run (o, E, w) <- istmt n a E w;
            match o with OBreak => Some (ONormal, E, w) | OReturn r => Some (OReturn r, E, w) | _ => istmt n (SWhile c a) E w end
        | SDo a c =>
            run (o, E, w) <- istmt n a E w;
            match o with
            | OBreak => Some (ONormal, E, w) | OReturn r => Some (OReturn r, E, w)
            | _ => run (v, w) <- iexpr n E c w; if v =? 0 then Some (ONormal, E, w) else istmt n (SDo a c) E w
            end
        | SFor i c p a =>
            run (E, w) <- match i with
                          | FNone => Some ([] :: E, w)
                          | FSimple p => isimple n p ([] :: E) w
                          | FDecl t ds => run k <- tsize t; ideclares n k ds ([] :: E) w
                          end;
            run (o, E, w) <- iloop n c p a E w; match E with _ :: E => Some (o, E, w) | [] => None end
        | SBreak => Some (OBreak, E, w)
        | SContinue => Some (OContinue, E, w)
        | SReturn None => Some (OReturn None, E, w)
        | SReturn (Some e) => run (v, w) <- iexpr n E e w; Some (OReturn (Some v), E, w)
        end
    end
  with iloop (n : nat) (c : option rexpr) (p : option simple) (a : stmt) (E : env) (w : world) : option (outcome * env * world) :=
    match n with
    | O => None
    | S n =>
        run (v, w) <- match c with Some c => iexpr n E c w | None => Some (1, w) end;
        if v =? 0 then Some (ONormal, E, w) else
        run (o, E, w) <- istmt n a E w;
        match o with
        | OBreak => Some (ONormal, E, w) | OReturn r => Some (OReturn r, E, w)
        | _ => run (E, w) <- match p with Some p => isimple n p E w | None => Some (E, w) end; iloop n c p a E w
        end
    end.
  Notation exec := (exec constant tsize gtype gget gput load store calls).
  Notation loops := (loops constant tsize gtype gget gput load store calls).
  Lemma istmt_sound n : (forall s E w o E' w', istmt n s E w = Some (o, E', w') -> exec s E w o E' w') /\
    (forall c p a E w o E' w', iloop n c p a E w = Some (o, E', w') -> loops c p a E w o E' w').
  Proof.
    pose proof (fun n => proj1 (iexpr_sound n)) as IE. pose proof isimple_sound as IS. pose proof ideclares_sound as ID.
    induction n as [|n [IH IHl]]; [split; intros; discriminate|]. split.
    - intros s E w o E' w' H. destruct s as [|p|f args|t ds|q| |a q|c a|c a b|c a|a c|i c p a| | |[e|]]; cbn [istmt] in H.
      + injection H as <- <- <-. constructor.
      + go H. injection H as <- <- <-. econstructor. eauto.
      + go H. injection H as <- <- <-. econstructor. eauto.
      + go H. injection H as <- <- <-. econstructor; eauto.
      + go H. injection H as <- <- <-. econstructor. apply IH. eassumption.
      + injection H as <- <- <-. constructor.
      + go H; try (injection H as <- <- <-); subst; solve [eapply X_cons; eauto|eapply X_stop; eauto; discriminate].
      + go H; rewrite ?Z.eqb_eq, ?Z.eqb_neq in *; subst.
        * injection H as <- <- <-. apply X_if_false. eauto.
        * eapply X_if_true; eauto.
      + go H; rewrite ?Z.eqb_eq, ?Z.eqb_neq in *; subst; [eapply X_else; eauto|eapply X_then; eauto].
      + go H; rewrite ?Z.eqb_eq, ?Z.eqb_neq in *; subst; try (injection H as <- <- <-); solve [apply X_while_end; eauto|eapply X_while_again; eauto|eapply X_while_break; eauto|eapply X_while_return; eauto].
      + go H; rewrite ?Z.eqb_eq, ?Z.eqb_neq in *; subst; try (injection H as <- <- <-); solve [eapply X_do_end; eauto|eapply X_do_again; eauto|eapply X_do_break; eauto|eapply X_do_return; eauto].
      + match type of H with (run _ <- ?X; _) = _ => destruct X as [[E1 w1]|] eqn:Q; [|discriminate H] end. go H. injection H as <- <- <-. eapply X_for; [|apply IHl; eassumption].
        destruct i; [injection Q as <- <-; auto|eauto|]. go Q. eauto.
      + injection H as <- <- <-. constructor.
      + injection H as <- <- <-. constructor.
      + go H. injection H as <- <- <-. econstructor. eauto.
      + injection H as <- <- <-. constructor.
    - intros c p a E w o E' w' H. cbn [iloop] in H.
      match type of H with (run _ <- ?X; _) = _ => destruct X as [[v w1]|] eqn:Q; [|discriminate H] end.
      assert (Mt : v <> 0 -> met constant gtype gget load calls c E w w1) by (intros Nv; destruct c; [eapply M_some; eauto|injection Q as <- <-; constructor]).
      destruct (Z.eqb_spec v 0) as [->|Nv]; [destruct c; [|discriminate Q]; injection H as <- <- <-; apply X_for_end; eauto|]. specialize (Mt Nv).
      destruct (istmt n a E w1) as [[[o1 E1] w2]|] eqn:Q2; [|discriminate H]. apply IH in Q2.
      assert (Ag : again o1 = true -> (run (E, w) <- match p with Some p => isimple n p E1 w2 | None => Some (E1, w2) end; iloop n c p a E w) = Some (o, E', w') -> loops c p a E w o E' w').
      { intros A G. match type of G with (run _ <- ?X; _) = _ => destruct X as [[E2 w3]|] eqn:Q3; [|discriminate G] end. eapply X_for_again; [exact Mt|exact Q2|apply again_spec; exact A| |apply IHl; exact G].
        destruct p; [eauto|injection Q3 as <- <-; auto]. }
      destruct o1; try (apply Ag; [reflexivity|exact H]); injection H as <- <- <-; [eapply X_for_break; eauto|eapply X_for_return; eauto].
  Qed.
End Interp.
