From Verif.Front Require Export CExpr Parse Preproc GlobalInitProofs.
Open Scope Z_scope.

(** ** What is covered: operators in order of strictly increasing precedence; a sign only on the last operand *)
Fixpoint katom (e : kexpr) : Prop :=
  match e with
  | KLit l => (length (literal_text l) < 64)%nat
  | KDef _ => True
  | KPar e => katom e
  | _ => False
  end.
Definition uncovered (o : binop) : Prop := o = Shl \/ o = Shr \/ o = BMod.
Fixpoint tower (e : kexpr) : Prop :=
  match e with
  | KBin o a b => katom a /\ tower b /\ ~ uncovered o
  | KUn u e => (u = UNeg \/ u = UPlus) /\ katom e
  | _ => katom e
  end.

(** a source of plain text and conditional groups, one after the other *)
Inductive cond := CIf (e : kexpr) | CIfdef (name : text) | CIfndef (name : text).
Record group := mkgroup { g_if : cond; g_then : toks; g_elifs : list (kexpr * toks); g_else : option toks }.
Inductive item := Text (ts : toks) | Group (g : group).
Definition tok (t : token) : token * text := (t, []).
Definition cond_tokens (c : cond) : toks :=
  match c with
  | CIf e => tok T_cppd_if :: ktokens e
  | CIfdef n => [tok T_cppd_ifdef; (T_identifier, n)]
  | CIfndef n => [tok T_cppd_ifndef; (T_identifier, n)]
  end.
Definition elif_tokens (x : kexpr * toks) : toks := tok T_cppd_elif :: ktokens (fst x) ++ snd x.
Definition else_tokens (o : option toks) : toks := match o with Some b => tok T_cppd_else :: b | None => [] end.
Definition item_tokens (i : item) : toks :=
  match i with
  | Text ts => ts
  | Group g => cond_tokens (g_if g) ++ g_then g ++ flat_map elif_tokens (g_elifs g) ++ else_tokens (g_else g) ++ [tok T_cppd_endif]
  end.
(** what C makes of it: the first branch whose condition is not zero *)
Section Chosen.
  Variable defd : text -> bool.
  Definition truth (e : kexpr) : bool := match kvalue defd e with Some v => negb (v =? 0) | None => false end.
  Definition cond_truth (c : cond) : bool := match c with CIf e => truth e | CIfdef n => defd n | CIfndef n => negb (defd n) end.
  Fixpoint chosen_elif (l : list (kexpr * toks)) (els : option toks) : toks :=
    match l with
    | [] => match els with Some b => b | None => [] end
    | (e, b) :: l => if truth e then b else chosen_elif l els
    end.
  Definition chosen (i : item) : toks :=
    match i with Text ts => ts | Group g => if cond_truth (g_if g) then g_then g else chosen_elif (g_elifs g) (g_else g) end.
End Chosen.
(** text without conditional directives *)
Definition is_directive (t : token) : bool :=
  match t with T_cppd_if | T_cppd_elif | T_cppd_else | T_cppd_endif | T_cppd_ifdef | T_cppd_ifndef => true | _ => false end.
Definition plain (ts : toks) : Prop := Forall (fun x => is_directive (fst x) = false) ts.
(** the line after a condition does not start with an operator *)
Definition no_operator (ts : toks) : Prop := ts = [] \/ fst (get_operator ts) = OP_generic.
Definition good_cond (defd : text -> bool) (e : kexpr) : Prop := gram 4 e /\ tower e /\ kdefined defd e.
Definition good_item (defd : text -> bool) (i : item) : Prop :=
  match i with
  | Text ts => plain ts
  | Group g =>
      match g_if g with CIf e => good_cond defd e /\ no_operator (g_then g) | _ => True end /\ plain (g_then g) /\
      Forall (fun x => good_cond defd (fst x) /\ no_operator (snd x) /\ plain (snd x)) (g_elifs g) /\
      match g_else g with Some b => plain b | None => True end
  end.

(** ** Proofs *)
Section Proofs.
  Variable fa : text -> option text.
  Definition defd (n : text) : bool := match fa n with Some _ => true | None => false end.

  Lemma text_eqb_refl t : text_eqb t t = true.
  Proof. induction t; cbn; [reflexivity|]. rewrite Z.eqb_refl. exact IHt. Qed.
  Lemma atom_generic e k : katom e -> get_operator (ktokens e ++ k) = (OP_generic, ktokens e ++ k).
  Proof. destruct e; cbn; try contradiction; reflexivity. Qed.
  Lemma atom_ok e : forall n p v k, katom e -> gram p e -> kvalue defd e = Some v -> (length (ktokens e) < n)%nat ->
    read_constant_expr_operand fa n (ktokens e ++ k) = Some (v, k).
  Proof.
    induction e as [l|c|x|u e IH|o a IHa b IHb|c IHc a IHa b IHb|e IH]; intros n p v k A G E L; cbn [katom gram kvalue ktokens] in *; try contradiction.
    - injection E as <-. destruct n as [|n]; [cbn in L; lia|]. cbn [read_constant_expr_operand List.app]. teq.
      replace (64 <=? Z.of_nat (length (literal_text l))) with false by lia. rewrite read_const by exact G. reflexivity.
    - injection E as <-. destruct n as [|n]; [cbn in L; lia|]. cbn [read_constant_expr_operand List.app]. teq. cbn [tl].
      change (text_eqb defined_word defined_str) with true. cbn iota. teq. cbn [tl]. teq. unfold defd. destruct (fa x); reflexivity.
    - cbn [length] in L. rewrite app_length in L. cbn [length] in L. destruct n as [|n]; [lia|]. cbn [read_constant_expr_operand List.app]. teq.
      rewrite <- app_assoc. rewrite (IH n 3 v) by (auto; lia). teq. reflexivity.
  Qed.
  Lemma infix_same o v w : ~ uncovered o -> infix_const (opc o) v w = cbin o v w.
  Proof.
    unfold uncovered. intros H. destruct o; try reflexivity; try (exfalso; tauto).
    cbn [opc infix_const cbin b2z]. destruct (v =? w); reflexivity.
  Qed.
  Lemma covered_prio o : ~ uncovered o -> get_operator_prio (opc o) = level o.
  Proof. unfold uncovered. intros H. destruct o; try reflexivity; exfalso; tauto. Qed.
  Lemma infix_S n p ts : read_constant_infix_expr fa (S n) p ts =
    (let '(op, ts) := get_operator ts in
     match (if negb (get_unary_operator_prio op =? 0) && (p <=? get_unary_operator_prio op) then
              match read_constant_infix_expr fa n (get_unary_operator_prio op) ts with
              | Some (lhs, ts) => match unary_const op lhs with Some lhs => Some (lhs, ts) | None => None end
              | None => None
              end
            else read_constant_expr_operand fa n ts) with
     | None => None
     | Some (lhs, ts) => infix_loop fa n p lhs ts
     end).
  Proof. reflexivity. Qed.
  Lemma loop_S n p lhs ts : infix_loop fa (S n) p lhs ts =
    (let '(op, ts) := get_operator ts in
     if (get_operator_prio op =? 0) || (get_operator_prio op <=? p) then Some (lhs, ts)
     else match read_constant_infix_expr fa n (get_operator_prio op) ts with
          | None => None
          | Some (rhs, ts) =>
              match infix_const op lhs rhs with
              | None => None
              | Some lhs => let '(_, ts) := get_operator ts in infix_loop fa n p lhs ts
              end
          end).
  Proof. reflexivity. Qed.
  Definition stops (k : toks) : Prop := get_operator k = (OP_generic, k).
  Lemma loop_stop n p v k : stops k -> infix_loop fa (S n) p v k = Some (v, k).
  Proof. intros H. rewrite loop_S, H. reflexivity. Qed.
  Lemma infix_ok e : forall n p v k, tower e -> 0 <= p <= 13 -> gram (p + 1) e -> kdefined defd e -> kvalue defd e = Some v -> stops k -> (2 * length (ktokens e) + 1 < n)%nat ->
    read_constant_infix_expr fa n p (ktokens e ++ k) = Some (v, k).
  Proof.
    induction e as [l|c|x|u e IH|o a IHa b IHb|c IHc a IHa b IHb|e IH]; intros n p v k T P G D E Sk L; cbn [tower] in T; try contradiction.
    1,2,5: (destruct n as [|[|n]]; [lia|lia|]);
      rewrite infix_S; rewrite atom_generic by exact T; cbn [get_unary_operator_prio Z.eqb negb andb];
      rewrite (atom_ok _ _ _ v) with (2 := G) by (auto; lia); apply loop_stop; exact Sk.
    - (* sign *)
      destruct T as [U A]. cbn [gram kdefined kvalue ktokens length] in *. destruct G as [_ G].
      destruct (kvalue defd e) as [w|] eqn:Ew; [|discriminate]. injection E as <-.
      destruct n as [|[|[|n]]]; try lia. cbn [List.app].
      assert (In14 : read_constant_infix_expr fa (S (S n)) 14 (ktokens e ++ k) = Some (w, k)).
      { rewrite infix_S. rewrite atom_generic by exact A. cbn [get_unary_operator_prio Z.eqb negb andb].
        rewrite (atom_ok _ _ _ w) with (2 := G) by (auto; lia). apply loop_stop. exact Sk. }
      rewrite infix_S.
      destruct U as [-> | ->]; cbn [un_token get_operator get_unary_operator_prio Z.eqb negb andb];
        replace (p <=? 14) with true by lia; rewrite In14; cbn [unary_const cun]; try (change (wrap (- w)) with (ineg w)); apply loop_stop; exact Sk.
    - (* operator *)
      destruct T as (A & Tb & Uo). destruct (kdefined_bin _ _ _ _ D) as (x & y & Ex & Ey & Exy). rewrite Exy in E. clear Exy.
      cbn [gram kdefined ktokens] in *. destruct G as (Gp & Ga & Gb), D as (Da & Db & _).
      rewrite app_length in L. cbn [length] in L. destruct n as [|[|n]]; try lia.
      rewrite <- app_assoc. cbn [List.app].
      rewrite infix_S. rewrite atom_generic by exact A. cbn [get_unary_operator_prio Z.eqb negb andb].
      rewrite (atom_ok _ _ _ x) with (2 := Ga) by (auto; lia). rewrite loop_S. rewrite get_operator_op. rewrite covered_prio by exact Uo.
      replace (level o =? 0) with false by (destruct o; cbn; lia). replace (level o <=? p) with false by lia. cbn [orb].
      rewrite (IHb n (level o) y k); auto; [|destruct o; cbn; lia|lia].
      rewrite infix_same by exact Uo. rewrite E. rewrite Sk. destruct n as [|n]; [lia|]. apply loop_stop. exact Sk.
  Qed.

  (** ** groups *)
  Lemma not_dir ts t w r : plain ts -> ts = (t, w) :: r -> is_directive t = false.
  Proof. intros P ->. exact (Forall_inv P). Qed.
  Lemma skip_plain b k : plain b -> cppd_control_flow_skip_lines (b ++ k) = cppd_control_flow_skip_lines k.
  Proof.
    induction 1 as [|[t w] r H F IH]; [reflexivity|]. cbn [List.app cppd_control_flow_skip_lines fst] in *.
    destruct t; try discriminate H; exact IH.
  Qed.
  Lemma endif_skip b k : Forall (fun x => fst x <> T_cppd_endif) b -> skip_to_endif (b ++ k) = skip_to_endif k.
  Proof.
    induction 1 as [|[t w] r H F IH]; [reflexivity|]. cbn [List.app skip_to_endif fst] in *.
    destruct t; try (exfalso; apply H; reflexivity); exact IH.
  Qed.
  Lemma plain_no_endif b : plain b -> Forall (fun x => fst x <> T_cppd_endif) b.
  Proof. intros P. eapply Forall_impl; [|exact P]. intros [t w] H Q. cbn in *. subst t. discriminate. Qed.
  Lemma ktokens_plain e : plain (ktokens e).
  Proof.
    unfold plain. induction e; cbn [ktokens]; repeat first [apply Forall_app; split | apply Forall_cons | apply Forall_nil]; auto; cbn [fst]; try reflexivity.
    - destruct u; reflexivity.
    - destruct o; reflexivity.
  Qed.
  Lemma visible_plain b : plain b -> forall n fuel m k, visible fa (length b + n) fuel m (b ++ k) =
    match visible fa n fuel m k with Some v => Some (b ++ v) | None => None end.
  Proof.
    induction 1 as [|[t w] r H F IH]; intros n fuel m k; cbn [length List.app Nat.add]; [destruct (visible fa n fuel m k); reflexivity|].
    cbn [visible]. assert (C : conditional fa fuel m ((t, w) :: r ++ k) = None) by (destruct t; try discriminate H; reflexivity).
    rewrite C, IH. destruct (visible fa n fuel m k); reflexivity.
  Qed.
  Lemma visible_mono n : forall n' fuel m ts v, (n <= n')%nat -> visible fa n fuel m ts = Some v -> visible fa n' fuel m ts = Some v.
  Proof.
    induction n as [|n IH]; intros n' fuel m ts v L E; [discriminate|]. destruct n' as [|n']; [lia|]. cbn [visible] in *.
    destruct (conditional fa fuel m ts) as [[[m' r]|]|]; auto; [eapply IH; [|exact E]; lia|].
    destruct ts as [|t r]; auto. destruct (visible fa n fuel m r) as [v'|] eqn:Q; [|discriminate]. rewrite (IH n' fuel m r v'); auto. lia.
  Qed.
  Lemma visible_step n fuel m ts m' r v : conditional fa fuel m ts = Some (Some (m', r)) -> visible fa n fuel m' r = Some v -> visible fa (S n) fuel m ts = Some v.
  Proof. intros C E. cbn [visible]. rewrite C. exact E. Qed.
  Lemma visible_text b n fuel m k v : plain b -> visible fa n fuel m k = Some v -> visible fa (length b + n) fuel m (b ++ k) = Some (b ++ v).
  Proof. intros P E. rewrite visible_plain by exact P. rewrite E. reflexivity. Qed.

  Definition stopper (k : toks) : Prop := get_operator k = (OP_generic, k).
  Lemma no_operator_stop b k : no_operator b -> stopper k -> stopper (b ++ k).
  Proof.
    intros [->|H] Hk; [exact Hk|]. unfold stopper. destruct b as [|[t w] r]; [exact Hk|]. cbn [List.app]. destruct t; cbn in H |- *; try discriminate; reflexivity.
  Qed.
  (* the tail of a group after some branch *)
  Definition gtail (l : list (kexpr * toks)) (els : option toks) (k : toks) : toks := flat_map elif_tokens l ++ else_tokens els ++ tok T_cppd_endif :: k.
  Lemma gtail_stopper l els k : stopper (gtail l els k).
  Proof. unfold stopper, gtail. destruct l as [|x l]; [destruct els; reflexivity|reflexivity]. Qed.
  Lemma cond_value fuel e b k : good_cond defd e -> no_operator b -> stopper k -> (2 * length (ktokens e) + 1 < fuel)%nat ->
    exists v, read_constant_expr fa fuel (ktokens e ++ b ++ k) = Some (v, b ++ k) /\ negb (v =? 0) = truth defd e.
  Proof.
    intros (G & T & D) N Hk L. destruct (kdefined_value _ _ D) as [v E]. exists v. split; [|unfold truth; rewrite E; reflexivity].
    unfold read_constant_expr. apply infix_ok; auto; try lia.
    - destruct e; cbn [gram] in *; intuition lia.
    - apply no_operator_stop; assumption.
  Qed.
  Definition elif_ok (x : kexpr * toks) : Prop := good_cond defd (fst x) /\ no_operator (snd x) /\ plain (snd x).
  Definition else_ok (o : option toks) : Prop := match o with Some b => plain b | None => True end.
  (* after a branch was taken, everything up to #endif disappears *)
  Lemma gtail_endif l els k : Forall elif_ok l -> else_ok els -> skip_to_endif (gtail l els k) = Some (tok T_cppd_endif :: k).
  Proof.
    intros F Eo. unfold gtail. rewrite endif_skip, endif_skip; [reflexivity| |].
    - destruct els as [b|]; cbn [else_tokens]; [|constructor]. apply Forall_cons; [discriminate|]. apply plain_no_endif. exact Eo.
    - induction F as [|[e b] l (H1 & H2 & H3) F IH]; cbn [flat_map]; [constructor|]. apply Forall_app. split; [|exact IH].
      unfold elif_tokens. cbn [fst snd]. apply Forall_cons; [discriminate|]. apply Forall_app. split; apply plain_no_endif; [apply ktokens_plain|exact H3].
  Qed.
  Lemma taken l els k n fuel v : Forall elif_ok l -> else_ok els -> visible fa n fuel false k = Some v ->
    visible fa (2 + n) fuel true (gtail l els k) = Some v.
  Proof.
    intros F Eo H.
    assert (E1 : visible fa (1 + n) fuel true (tok T_cppd_endif :: k) = Some v) by exact H.
    destruct l as [|[e b] l].
    - unfold gtail. cbn [flat_map List.app]. destruct els as [b|]; cbn [else_tokens List.app].
      + eapply visible_step; [|exact E1]. cbn [conditional tok negb]. rewrite skip_plain by exact Eo. reflexivity.
      + eapply visible_mono; [|exact E1]. lia.
    - eapply visible_step; [|exact E1].
      pose proof (gtail_endif ((e, b) :: l) els k F Eo) as Q. unfold gtail in *. cbn [flat_map] in *. unfold elif_tokens at 1 in Q. unfold elif_tokens at 1. cbn [List.app fst snd] in *. unfold tok in *.
      cbn [skip_to_endif] in Q. change (token_eqb T_cppd_elif T_cppd_endif) with false in Q. cbn iota in Q. cbn [conditional]. rewrite Q. reflexivity.
  Qed.
  Lemma gtail_skip l els k : cppd_control_flow_skip_lines (gtail l els k) = Some (gtail l els k).
  Proof. unfold gtail. destruct l as [|x l]; [destruct els; reflexivity|reflexivity]. Qed.
  Definition tokmax (l : list (kexpr * toks)) : nat := fold_right (fun x n => max (length (ktokens (fst x))) n) O l.
  Lemma untaken els k fuel v : else_ok els -> (exists n, visible fa n fuel false k = Some v) ->
    forall l, Forall elif_ok l -> (2 * tokmax l + 1 < fuel)%nat ->
    exists n, visible fa n fuel false (gtail l els k) = Some (chosen_elif defd l els ++ v).
  Proof.
    intros Eo [n0 H]. induction 1 as [|[e b] l (G & N & P) F IH]; intros L; cbn [chosen_elif].
    - unfold gtail. cbn [flat_map List.app]. destruct els as [b|]; cbn [else_tokens List.app].
      + exists (S (length b + S n0)). eapply visible_step; [reflexivity|]. apply visible_text; [exact Eo|]. eapply visible_step; [reflexivity|exact H].
      + exists (S n0). eapply visible_step; [reflexivity|exact H].
    - cbn [fst snd tokmax fold_right] in *. fold (tokmax l) in L.
      assert (T : gtail ((e, b) :: l) els k = tok T_cppd_elif :: ktokens e ++ b ++ gtail l els k).
      { unfold gtail. cbn [flat_map]. unfold elif_tokens at 1. cbn [fst snd List.app]. rewrite <- !app_assoc. reflexivity. }
      rewrite T. destruct (cond_value fuel e b (gtail l els k) G N (gtail_stopper _ _ _) ltac:(lia)) as (x & Ex & Tx).
      destruct (truth defd e).
      + exists (S (length b + (2 + n0))). eapply visible_step with (m' := true) (r := b ++ gtail l els k).
        * cbn [conditional tok]. rewrite Ex, Tx. reflexivity.
        * apply visible_text; [exact P|]. apply taken; assumption.
      + destruct IH as [n1 H1]; [lia|]. exists (S n1). eapply visible_step with (m' := false) (r := gtail l els k); [|exact H1].
        cbn [conditional tok]. rewrite Ex, Tx. rewrite skip_plain by exact P. rewrite gtail_skip. reflexivity.
  Qed.
  Definition item_max (i : item) : nat :=
    match i with Text _ => O | Group g => max (match g_if g with CIf e => length (ktokens e) | _ => O end) (tokmax (g_elifs g)) end.
  Lemma item_ok i k fuel v : good_item defd i -> (2 * item_max i + 1 < fuel)%nat -> (exists n, visible fa n fuel false k = Some v) ->
    exists n, visible fa n fuel false (item_tokens i ++ k) = Some (chosen defd i ++ v).
  Proof.
    intros G L [n H]. destruct i as [ts|[c b l els]]; cbn [good_item item_tokens chosen item_max g_if g_then g_elifs g_else] in *.
    - exists (length ts + n)%nat. apply visible_text; assumption.
    - destruct G as (Gc & P & F & Eo).
      replace ((cond_tokens c ++ b ++ flat_map elif_tokens l ++ else_tokens els ++ [tok T_cppd_endif]) ++ k) with (cond_tokens c ++ b ++ gtail l els k)
        by (unfold gtail; rewrite <- !app_assoc; reflexivity).
      assert (C : conditional fa fuel false (cond_tokens c ++ b ++ gtail l els k) =
                  Some (Some (if cond_truth defd c then (true, b ++ gtail l els k) else (false, gtail l els k)))).
      { destruct c as [e|x|x]; cbn [cond_tokens cond_truth List.app].
        - destruct Gc as [Gc N]. destruct (cond_value fuel e b (gtail l els k) Gc N (gtail_stopper _ _ _) ltac:(lia)) as (y & Ey & Ty).
          cbn [conditional tok]. rewrite Ey, Ty. destruct (truth defd e); [reflexivity|]. rewrite skip_plain by exact P. rewrite gtail_skip. reflexivity.
        - cbn [conditional tok]. unfold defd. destruct (fa x); cbn [Z.eqb negb]; [reflexivity|]. rewrite skip_plain by exact P. rewrite gtail_skip. reflexivity.
        - cbn [conditional tok]. unfold defd. destruct (fa x); cbn [Z.eqb negb]; [|reflexivity]. rewrite skip_plain by exact P. rewrite gtail_skip. reflexivity. }
      destruct (cond_truth defd c).
      + exists (S (length b + (2 + n))). eapply visible_step; [exact C|]. apply visible_text; [exact P|]. apply taken; assumption.
      + destruct (untaken els k fuel v Eo (ex_intro _ n H) l F ltac:(lia)) as [n1 H1]. exists (S n1). eapply visible_step; [exact C|exact H1].
  Qed.
  Lemma items_ok l fuel : Forall (good_item defd) l -> (forall i, In i l -> (2 * item_max i + 1 < fuel)%nat) ->
    exists n, visible fa n fuel false (flat_map item_tokens l) = Some (flat_map (chosen defd) l).
  Proof.
    induction 1 as [|i l G F IH]; intros L; [exists 1%nat; reflexivity|].
    cbn [flat_map]. apply item_ok; auto; [apply L; left; reflexivity|]. apply IH. intros i' Hin. apply L. right. exact Hin.
  Qed.
  Lemma items_bound (l : list item) : exists fuel, forall i, In i l -> (2 * item_max i + 1 < fuel)%nat.
  Proof.
    induction l as [|i l [f IH]]; [exists O; intros ? []|]. exists (max f (2 * item_max i + 2)). intros j [<-|H]; [lia|]. specialize (IH j H). lia.
  Qed.
  Theorem items_seen l : Forall (good_item defd) l ->
    exists fuel0, forall fuel, (fuel0 <= fuel)%nat -> exists n0, forall n, (n0 <= n)%nat ->
      visible fa n fuel false (flat_map item_tokens l) = Some (flat_map (chosen defd) l).
  Proof.
    intros F. destruct (items_bound l) as [f Hf]. exists f. intros f' L.
    destruct (items_ok l f' F) as [n H]; [intros i Hi; specialize (Hf i Hi); lia|].
    exists n. intros n' Ln. eapply visible_mono; [exact Ln|exact H].
  Qed.
End Proofs.
