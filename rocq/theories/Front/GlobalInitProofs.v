(** The stack evaluator of global initialisers against C expressions. *)
From Verif.Front Require Export CExpr Chain Parse GlobalInit.
Open Scope Z_scope.

(** ** What is covered (specification side) *)
(** operands: numbers of at most 9 characters, character constants, a minus sign, parentheses around one operand *)
Fixpoint operand (signed : bool) (e : kexpr) : Prop :=
  match e with
  | KLit l => (length (literal_text l) < 10)%nat
  | KChr _ => True
  | KPar e => operand true e
  | KUn UNeg e => signed = true /\ operand false e
  | _ => False
  end.
Definition bitop (o : binop) : Prop := o = BAnd \/ o = BXor \/ o = BOr.
Definition shift (o : binop) : Prop := o = Shl \/ o = Shr.
(** the operators of an infix chain, and the operands between them *)
Fixpoint chain_ops (e : kexpr) : list binop := match e with KBin o a b => chain_ops a ++ o :: chain_ops b | _ => [] end.
Fixpoint chain (e : kexpr) : Prop := match e with KBin o a b => chain a /\ chain b | _ => operand true e end.
(** no shift next to an operator that binds less tightly *)
Definition shifts_ok (ops : list binop) : Prop :=
  forall o o', In o ops -> shift o -> In o' ops -> 11 <= level o'.
(** the remainder of a negative number by a power of two is not taken *)
Fixpoint rem_ok (e : kexpr) : Prop :=
  match e with
  | KBin o a b => rem_ok a /\ rem_ok b /\
      (o = BMod -> forall v w, kvalue (fun _ => false) a = Some v -> kvalue (fun _ => false) b = Some w ->
                  0 <= v \/ forall k, 0 <= k -> Z.abs w <> 2 ^ k)
  | _ => True
  end.

(** ** Proofs *)
Definition opc (o : binop) : opcode :=
  match o with
  | BMul => OP_mul | BDiv => OP_div | BMod => OP_mod | BAdd => OP_add | BSub => OP_sub | Shl => OP_lshift | Shr => OP_rshift
  | BLt => OP_lt | BGt => OP_gt | BLe => OP_leq | BGe => OP_geq | BEq => OP_eq | BNe => OP_neq
  | BAnd => OP_bit_and | BXor => OP_bit_xor | BOr => OP_bit_or | LAnd => OP_log_and | LOr => OP_log_or
  end.
Lemma get_operator_op o w r : get_operator ((op_token o, w) :: r) = (opc o, r).
Proof. destruct o; reflexivity. Qed.
Lemma opc_plain o : op_eqb (opc o) OP_generic || op_eqb (opc o) OP_ternary = false.
Proof. destruct o; reflexivity. Qed.
Lemma opc_prio o : get_operator_prio (opc o) = if match o with Shl | Shr => true | _ => false end then 0 else level o.
Proof. destruct o; reflexivity. Qed.

Definition nodef : text -> bool := fun _ => false.
Lemma literal_text_cons l : literal_wf l -> literal_text l <> [].
Proof. destruct l as [ds|ds|ds]; cbn; try discriminate. intros [(d & r & -> & _) _]. discriminate. Qed.
Lemma read_const l : literal_wf l -> read_numeric_constant (literal_text l) = wrap (literal_value l).
Proof.
  intros W. destruct l as [ds|ds|ds]; cbn [literal_text literal_value literal_wf] in *; unfold read_numeric_constant; cbn [hd].
  - destruct W as [(d & r & -> & D) F]. cbn [hd]. change (numeric_loop d 0 0 (d :: r)) with (numeric_loop d 0 (wrap 0) (d :: r)).
    rewrite (numeric_digits _ 10 (d :: r)); [|replace (d =? 48) with false by lia; reflexivity|exact F].
    rewrite horner_number. reflexivity.
  - cbn [numeric_loop Z.eqb Pos.eqb andb]. change (isub (iadd (imul 0 8) 48) 48) with (wrap 0).
    rewrite (numeric_digits 48 8 ds); [|reflexivity|eapply Forall_impl; [|exact W]; cbn; lia]. rewrite horner_number. reflexivity.
  - destruct W as [N F]. cbn [numeric_loop]. change ((0 =? 1) && (48 =? 120)) with false. cbn iota.
    change ((0 + 1 =? 1) && (120 =? 120)) with true. cbn [Z.eqb Pos.eqb]. cbn iota.
    change (fold_left hex_digit_step ds 0) with (fold_left hex_digit_step ds (wrap 0)).
    rewrite hex_fold by exact F. rewrite horner_number. reflexivity.
Qed.

Ltac teq := unfold lex_expect, lex_accept, lex_peek; cbn iota beta;
  repeat match goal with |- context [token_eqb ?a ?b] =>
    let v := eval vm_compute in (token_eqb a b) in match v with true => idtac | false => idtac end; change (token_eqb a b) with v; cbn iota beta end.
Lemma operand_gram sg n e : operand sg e -> gram n e -> gram 14 e.
Proof.
  destruct e as [l|c|x|u e|o a b|c a b|e]; cbn [operand gram]; auto; try contradiction.
  destruct u; try contradiction. intros _ [_ G]. split; [lia|exact G].
Qed.
Lemma primary_both : forall n e v k, gram 14 e -> kvalue nodef e = Some v -> (length (ktokens e) <= n)%nat ->
  (operand false e -> lex_accept T_minus (ktokens e ++ k) = None) /\
  (operand true e -> read_primary_constant (S n) (ktokens e ++ k) = Some (v, k)).
Proof.
  induction n as [n IHn] using (well_founded_induction lt_wf). intros e v k G E L.
  split.
  - intros O. destruct e as [l|c|x|u e|o a b|c a b|e]; cbn [operand ktokens] in *; try contradiction; try reflexivity. destruct u; try contradiction. destruct O as [Q _]. discriminate.
  - intros O.
    assert (Len : forall e, operand true e -> (0 < length (ktokens e))%nat) by (intros e'; destruct e'; cbn; try lia; contradiction).
    pose proof (Len _ O).
    assert (IH2 : forall e v k, gram 14 e -> kvalue nodef e = Some v -> (length (ktokens e) < n)%nat -> operand true e -> read_primary_constant n (ktokens e ++ k) = Some (v, k)).
    { intros e' v' k' G' E' L' O'. destruct n as [|m]; [lia|]. apply (IHn m); auto; lia. }
    (* strip the sign *)
    destruct e as [l|c|x|u e|o a b|c a b|e]; cbn [operand] in O; try contradiction.
    + cbn [gram kvalue ktokens] in *. injection E as <-. cbn [read_primary_constant List.app].
      teq.
      cbn iota. replace (10 <=? Z.of_nat (length (literal_text l))) with false by lia. rewrite read_const by exact G. reflexivity.
    + cbn [gram kvalue ktokens] in *. injection E as <-. reflexivity.
    + destruct u; try contradiction. destruct O as [_ O]. cbn [gram kvalue ktokens length] in *. destruct G as [_ G].
      destruct (kvalue nodef e) as [w|] eqn:Ew; [|discriminate]. injection E as <-.
      cbn [read_primary_constant List.app un_token]. teq. cbn iota.
      assert (Q : forall (r : option (Z * toks)), r = Some (w, k) -> match r with Some (v, r) => Some (imul (-1) v, r) | None => None end = Some (cun UNeg w, k)).
      { intros r ->. cbn [cun]. unfold imul. replace (-1 * w) with (- w) by lia. reflexivity. }
      apply Q. clear Q.
      destruct e as [l|c|x|u e|o a b|c a b|e]; cbn [operand gram kvalue ktokens] in *; try contradiction.
      * injection Ew as <-. cbn [List.app]. teq.
        cbn iota. replace (10 <=? Z.of_nat (length (literal_text l))) with false by lia. rewrite read_const by exact G. reflexivity.
      * injection Ew as <-. reflexivity.
      * destruct u; try contradiction. destruct O as [Q _]. discriminate.
      * cbn [List.app length] in *. teq. cbn iota.
        rewrite <- app_assoc. rewrite app_length in L. cbn [length] in L.
        rewrite (IH2 e w) by (eauto using operand_gram; lia). teq. reflexivity.
    + cbn [gram kvalue ktokens] in *. cbn [read_primary_constant List.app length] in *.
      teq. cbn iota.
      rewrite <- app_assoc. rewrite app_length in L. cbn [length] in L.
      rewrite (IH2 e v) by (eauto using operand_gram; lia). teq. reflexivity.
Qed.
Lemma primary_ok n e v k : operand true e -> gram 14 e -> kvalue nodef e = Some v -> (length (ktokens e) < n)%nat ->
  read_primary_constant n (ktokens e ++ k) = Some (v, k).
Proof. intros O G E L. destruct n as [|n]; [lia|]. apply (primary_both n e v k G E); [lia|exact O]. Qed.

(** ** one operator *)
Lemma pow2_land w : is_i32 w -> w <> 0 -> iand w (isub w 1) = 0 -> exists k, 0 <= k <= 31 /\ Z.abs w = 2 ^ k.
Proof.
  intros R N E. unfold iand in E. destruct (Z.eq_dec w (-2147483648)) as [->|NI]; [exists 31; split; [lia|reflexivity]|].
  unfold isub in E. rewrite wrap_id in E by (unfold is_i32 in *; lia).
  destruct (Z.ltb_spec w 0) as [Neg|Pos].
  - assert (Z.land w (w - 1) < 0) by (apply Z.land_neg; lia). lia.
  - exists (Z.log2 w). pose proof (Z.log2_spec w ltac:(lia)) as [L1 L2]. pose proof (Z.log2_nonneg w).
    assert (Z.log2 w < 31). { apply (Z.log2_lt_pow2 w 31); unfold is_i32 in R; lia. }
    split; [lia|]. rewrite Z.abs_eq by lia. destruct (Z.eq_dec w (2 ^ Z.log2 w)) as [Q|Q]; [exact Q|].
    exfalso. assert (B : Z.testbit (Z.land w (w - 1)) (Z.log2 w) = true).
    { rewrite Z.land_spec, Z.bit_log2 by lia. cbn [andb].
      assert (LW : Z.log2 (w - 1) = Z.log2 w). { apply Z.log2_unique; lia. }
      rewrite <- LW. apply Z.bit_log2. lia. }
    rewrite E, Z.bits_0 in B. discriminate.
Qed.
Lemma apply_ok o v w r : is_i32 v -> is_i32 w -> ~ bitop o -> cbin o v w = Some r ->
  (o = BMod -> 0 <= v \/ forall k, 0 <= k -> Z.abs w <> 2 ^ k) -> eval_expression_imm (opc o) v w = Some r.
Proof.
  intros Rv Rw NB E H. unfold bitop in NB.
  destruct o; cbn [opc eval_expression_imm cbin] in *; unfold iadd, isub, imul, ishl, ishr, b2z in *; try exact E; try (exfalso; tauto).
  - (* mod *) destruct (Z.eqb_spec w 0) as [->|N0]; [cbn in E; discriminate|]. cbn [negb andb orb] in *.
    fold (isub w 1). destruct (Z.eqb_spec (iand w (isub w 1)) 0) as [T|T]; [|exact E].
    destruct (pow2_land w Rw N0 T) as (k & Hk & Ek).
    destruct (H eq_refl) as [Hv|Hn]; [|exfalso; apply (Hn k); [lia|exact Ek]].
    destruct (_ && _) in E; [discriminate|]. injection E as <-. f_equal. unfold iand, isub.
    assert (0 < 2 ^ k) by (apply Z.pow_pos_nonneg; lia).
    destruct (Z.ltb_spec w 0) as [Neg|Pos].
    + assert (w = - 2 ^ k) as -> by lia.
      assert (Hlt : k = 31 \/ k < 31) by lia. destruct Hlt as [->|Hlt].
      * change (wrap (- 2 ^ 31 - 1)) with (2 ^ 31 - 1). rewrite land_ones_mod by lia. rewrite Z.mod_small by (unfold is_i32 in *; change (2 ^ 31) with 2147483648; lia).
        rewrite Z.rem_opp_r by lia. rewrite Z.rem_small; [reflexivity|]. unfold is_i32 in *. change (2 ^ 31) with 2147483648. lia.
      * (* a smaller negative power of two has another bit set *)
        exfalso. unfold iand, isub in T. assert (Z.land (- 2 ^ k) (wrap (- 2 ^ k - 1)) < 0); [|lia].
        assert (2 ^ k <= 2 ^ 30) by (apply Z.pow_le_mono_r; lia). change (2 ^ 30) with 1073741824 in *.
        rewrite wrap_id by (unfold is_i32; lia). apply Z.land_neg. lia.
    + assert (w = 2 ^ k) as -> by lia. rewrite wrap_id by (unfold is_i32 in *; lia). rewrite land_ones_mod by lia.
      rewrite Z.rem_mod_nonneg by lia. reflexivity.
  - destruct (v =? w); exact E.
Qed.

(** ** trees of operands *)
Fixpoint ktree (e : kexpr) : tree kexpr binop := match e with KBin o a b => Node o (ktree a) (ktree b) | _ => Leaf e end.
Definition ltoks (l : list (binop * kexpr)) : toks := flat_map (fun x => @cons (token * text) (op_token (fst x), []) (ktokens (snd x))) l.
Lemma ltoks_app a b : ltoks (a ++ b) = ltoks a ++ ltoks b.
Proof. unfold ltoks. apply flat_map_app. Qed.
Lemma ktree_tokens e : ktokens e = ktokens (first (ktree e)) ++ ltoks (rest (ktree e)).
Proof.
  induction e as [l|c|x|u e IH|o a IHa b IHb|c IHc a IHa b IHb|e IH]; cbn [ktree first rest ktokens]; try (cbn [ltoks flat_map]; rewrite app_nil_r; reflexivity).
  rewrite IHa, IHb, ltoks_app. cbn [ltoks flat_map fst snd]. rewrite <- !app_assoc. reflexivity.
Qed.
Lemma ktree_wf e : forall p, gram p e -> twf level p (ktree e).
Proof. induction e; intros p G; cbn [ktree twf gram] in *; auto. destruct G as (H & Ga & Gb). auto. Qed.
Fixpoint tops {A Op} (t : tree A Op) : list Op := match t with Leaf _ => [] | Node o l r => tops l ++ o :: tops r end.
Definition troot {A Op} (t : tree A Op) : option Op := match t with Leaf _ => None | Node o _ _ => Some o end.
Lemma ktree_ops e : tops (ktree e) = chain_ops e.
Proof. induction e; cbn [ktree tops chain_ops]; congruence. Qed.
Lemma twf_mono {A Op} (p1 p2 : Op -> Z) (t : tree A Op) :
  (forall o o', In o (tops t) -> In o' (tops t) -> (p1 o <= p1 o' -> p2 o <= p2 o') /\ (p1 o < p1 o' -> p2 o < p2 o')) ->
  (exists p, twf p1 p t) -> forall q, (forall o, troot t = Some o -> q <= p2 o) -> twf p2 q t.
Proof.
  induction t as [a|o l IHl r IHr]; intros M [p W] q Hq; cbn [twf tops troot] in *; [exact I|].
  destruct W as (_ & Wl & Wr). split; [auto|].
  assert (Ml : forall o', In o' (tops l) -> In o' (tops l ++ o :: tops r)) by (intros; apply in_or_app; auto).
  assert (Mr : forall o', In o' (tops r) -> In o' (tops l ++ o :: tops r)) by (intros; apply in_or_app; right; right; auto).
  assert (Mo : In o (tops l ++ o :: tops r)) by (apply in_or_app; right; left; reflexivity).
  split.
  - apply IHl; [intros; apply M; auto|eauto|]. intros o' R. destruct l as [|o'' l1 l2]; [discriminate|]. cbn in R. injection R as ->.
    cbn [twf] in Wl. apply M; auto; [|lia]. apply Ml. cbn. apply in_or_app. right; left; reflexivity.
  - apply IHr; [intros; apply M; auto|eauto|]. intros o' R. destruct r as [|o'' l1 l2]; [discriminate|]. cbn in R. injection R as ->.
    cbn [twf] in Wr. assert (p2 o < p2 o'); [|lia]. apply M; auto; [|lia]. apply Mr. cbn. apply in_or_app. right; left; reflexivity.
Qed.
Definition cprio (o : binop) : Z := get_operator_prio (opc o).
Lemma shifts_mono ops : shifts_ok ops -> forall o o', In o ops -> In o' ops ->
  (level o <= level o' -> cprio o <= cprio o') /\ (level o < level o' -> cprio o < cprio o').
Proof.
  intros H o o' Ho Ho'. unfold cprio. rewrite !opc_prio.
  assert (S1 : match o with Shl | Shr => true | _ => false end = true -> 11 <= level o') by (intros Q; apply (H o o'); auto; unfold shift; destruct o; auto; discriminate).
  assert (S2 : match o' with Shl | Shr => true | _ => false end = true -> 11 <= level o) by (intros Q; apply (H o' o); auto; unfold shift; destruct o'; auto; discriminate).
  clear H Ho Ho'. destruct o; destruct o'; cbn in *; lia.
Qed.
Lemma ktree_cwf e p : gram p e -> shifts_ok (chain_ops e) -> twf cprio 0 (ktree e).
Proof.
  intros G S. apply (twf_mono level cprio).
  - rewrite ktree_ops. apply shifts_mono. exact S.
  - exists p. apply ktree_wf. exact G.
  - intros o _. unfold cprio. destruct o; cbn; lia.
Qed.
(* the same tree holding values *)
Fixpoint tmap {A B Op} (f : A -> B) (t : tree A Op) : tree B Op := match t with Leaf a => Leaf (f a) | Node o l r => Node o (tmap f l) (tmap f r) end.
Lemma tmap_first {A B Op} (f : A -> B) (t : tree A Op) : first (tmap f t) = f (first t).
Proof. induction t; cbn; auto. Qed.
Lemma tmap_rest {A B Op} (f : A -> B) (t : tree A Op) : rest (tmap f t) = map (fun x => (fst x, f (snd x))) (rest t).
Proof. induction t as [a|o l IHl r IHr]; cbn [rest tmap map]; [reflexivity|]. rewrite map_app. cbn [map fst snd]. rewrite IHl, IHr, tmap_first. reflexivity. Qed.
Lemma tmap_wf {A B Op} prio (f : A -> B) (t : tree A Op) : forall p, twf prio p t -> twf prio p (tmap f t).
Proof. induction t; intros p W; cbn in *; intuition. Qed.

Definition kval (e : kexpr) : Z := match kvalue nodef e with Some v => v | None => 0 end.
Definition capp (o : binop) : Z -> Z -> option Z := eval_expression_imm (opc o).
Lemma chain_simple_value e : kdefined nodef e -> kvalue nodef e = Some (kval e).
Proof. intros D. unfold kval. destruct (kdefined_value _ _ D) as [v ->]. reflexivity. Qed.
Lemma ktree_value e : forall n, gram n e -> kdefined nodef e -> Forall (fun o => ~ bitop o) (chain_ops e) -> rem_ok e ->
  teval capp (tmap kval (ktree e)) = kvalue nodef e.
Proof.
  induction e as [l|c|x|u e IH|o a IHa b IHb|c IHc a IHa b IHb|e IH]; intros n G D B R; try (cbn [ktree tmap teval]; symmetry; apply chain_simple_value; exact D).
  destruct (kdefined_bin nodef o a b D) as (v & w & Ev & Ew & ->).
  cbn [ktree tmap teval]. cbn [gram chain_ops rem_ok kdefined] in *. destruct G as (_ & Ga & Gb). destruct D as (Da & Db & Dn). destruct R as (Ra & Rb & Rm).
  apply Forall_app in B. destruct B as [B1 B2]. inversion B2 as [|? ? B3 B4]; subst.
  rewrite (IHa _ Ga), (IHb _ Gb) by assumption. rewrite Ev, Ew. unfold capp.
  destruct (cbin o v w) as [r|] eqn:Q; [|exfalso; exact (Dn v w Ev Ew Q)].
  apply apply_ok; [exact (kvalue_range _ _ _ _ Ga Ev)|exact (kvalue_range _ _ _ _ Gb Ew)|exact B3|exact Q|intros Q1; apply Rm; auto].
Qed.

(** ** the two stacks *)
Definition okops : list Z := [0; 4; 5; 9; 10; 12; 13].
Lemma cprio_in o : ~ bitop o -> In (cprio o) okops.
Proof. unfold bitop, cprio, okops. destruct o; cbn; tauto. Qed.
Lemma reduce_same o ops : forall vals, (length vals <= 11)%nat ->
  reduce_imm (opc o) (map opc ops) vals = match reduce cprio capp (cprio o) ops vals with Some (ops, vals) => Some (map opc ops, vals) | None => None end.
Proof.
  induction ops as [|o' ops IH]; intros vals L; cbn [map reduce_imm reduce]; [reflexivity|].
  fold (cprio o') (cprio o). destruct (cprio o' >=? cprio o); [|reflexivity].
  destruct vals as [|y [|x vals]]; try reflexivity. change (capp o' x y) with (eval_expression_imm (opc o') x y). destruct (eval_expression_imm (opc o') x y) as [z|]; [|reflexivity].
  cbn [length] in L. unfold push. replace (Z.of_nat (length vals) <? 10) with true by lia. apply IH. cbn [length]. lia.
Qed.
Lemma unwind_same ops : forall vals v, length vals = S (length ops) -> unwind capp ops vals = Some v -> unwind_imm (map opc ops) vals = Some [v].
Proof.
  induction ops as [|o ops IH]; intros vals v L E; cbn [map unwind_imm unwind] in *.
  - destruct vals as [|x [|? ?]]; try discriminate. injection E as ->. reflexivity.
  - destruct vals as [|y [|x vals]]; try discriminate. change (capp o x y) with (eval_expression_imm (opc o) x y) in E. destruct (eval_expression_imm (opc o) x y) as [z|]; [|discriminate].
    apply IH; [cbn [length] in *; lia|exact E].
Qed.
Lemma get_operator_ltoks l stop fo sts : get_operator stop = (fo, sts) ->
  get_operator (ltoks l ++ stop) = match l with [] => (fo, sts) | (o, e) :: l' => (opc o, ktokens e ++ ltoks l' ++ stop) end.
Proof.
  intros H. destruct l as [|[o e] l']; [exact H|]. cbn [ltoks flat_map fst snd List.app]. rewrite get_operator_op. rewrite <- app_assoc. reflexivity.
Qed.
Lemma read_chain_ok stop fo sts : get_operator stop = (fo, sts) -> op_eqb fo OP_generic || op_eqb fo OP_ternary = true ->
  forall l fuel op ops vals ts v,
  get_operator (ltoks l ++ stop) = (op, ts) ->
  (length (ltoks l) < fuel)%nat ->
  increasing cprio ops -> length vals = S (length ops) -> Forall (fun o => ~ bitop o) ops ->
  Forall (fun x => ~ bitop (fst x) /\ operand true (snd x) /\ gram 14 (snd x) /\ kdefined nodef (snd x)) l ->
  run cprio capp ops vals (map (fun x => (fst x, kval (snd x))) l) = Some v ->
  exists ops' vals', read_chain_imm fuel op (map opc ops) vals ts = Some (fo, ops', vals', sts) /\ unwind_imm ops' vals' = Some [v].
Proof.
  intros Hs Hf. induction l as [|[o e] l IH]; intros fuel op ops vals ts v Ho Lf Inc Lv Ok F E; rewrite (get_operator_ltoks _ _ _ _ Hs) in Ho; injection Ho as <- <-.
  - cbn [map run] in E. destruct fuel as [|fuel]; [cbn in Lf; lia|]. cbn [read_chain_imm]. rewrite Hf.
    eexists _, _. split; [reflexivity|]. apply unwind_same; auto.
  - cbn [map run fst snd] in E. inversion F as [|? ? (B & O & G & D) F']; subst. cbn [fst snd] in *.
    destruct fuel as [|fuel]; [lia|]. cbn [read_chain_imm]. rewrite opc_plain.
    assert (Len : forall os, increasing cprio os -> Forall (fun o => ~ bitop o) os -> (length os <= 7)%nat).
    { intros os Io Fo. change 7%nat with (length okops). apply (increasing_short cprio); auto. intros o' Hin. apply cprio_in. rewrite Forall_forall in Fo. auto. }
    pose proof (Len _ Inc Ok) as L7.
    rewrite reduce_same by lia.
    destruct (reduce cprio capp (cprio o) ops vals) as [[ops1 vals1]|] eqn:R; [|discriminate].
    destruct (reduce_inv cprio capp _ _ _ _ _ Inc R) as (I1 & I2 & I3 & I4 & I5).
    cbn [ltoks flat_map fst snd length] in Lf. rewrite app_length in Lf. fold (ltoks l) in Lf. cbn [length] in Lf.
    rewrite (primary_ok _ _ (kval e)); auto; [|apply chain_simple_value; exact D|lia].
    assert (Ok1 : Forall (fun o => ~ bitop o) (o :: ops1)). { constructor; [exact B|]. rewrite Forall_forall in *. auto. }
    assert (Inc1 : increasing cprio (o :: ops1)). { constructor; [exact I1|]. rewrite Forall_forall. auto. }
    pose proof (Len _ Inc1 Ok1) as L8. cbn [length] in L8.
    unfold push. rewrite map_length. replace (Z.of_nat (length vals1) <? 10) with true by lia. replace (Z.of_nat (length ops1) <? 10) with true by lia.
    destruct (get_operator (ltoks l ++ stop)) as [op' ts'] eqn:Go.
    apply (IH fuel op' (o :: ops1) (kval e :: vals1) ts' v); auto; [lia|cbn [length]; lia].
Qed.

(** ** chains, then conditionals *)
Definition good_chain (e : kexpr) : Prop :=
  chain e /\ Forall (fun o => ~ bitop o) (chain_ops e) /\ shifts_ok (chain_ops e) /\ rem_ok e.
Lemma chain_rest_ok e : forall p, gram p e -> chain e -> kdefined nodef e -> Forall (fun o => ~ bitop o) (chain_ops e) ->
  (operand true (first (ktree e)) /\ gram 14 (first (ktree e)) /\ kdefined nodef (first (ktree e))) /\
  Forall (fun x => ~ bitop (fst x) /\ operand true (snd x) /\ gram 14 (snd x) /\ kdefined nodef (snd x)) (rest (ktree e)).
Proof.
  induction e as [l|c|x|u e IH|o a IHa b IHb|c IHc a IHa b IHb|e IH]; intros p G C D B;
    try (cbn [ktree first rest]; split; [split; [exact C|split; [exact (operand_gram true p _ C G)|exact D]]|constructor]).
  cbn [ktree first rest chain gram kdefined chain_ops] in *. destruct G as (_ & Ga & Gb), C as [Ca Cb], D as (Da & Db & _).
  apply Forall_app in B. destruct B as [B1 B2]. inversion B2 as [|? ? B3 B4]; subst.
  destruct (IHa _ Ga Ca Da B1) as [H1 H2], (IHb _ Gb Cb Db B4) as [(H3 & H4 & H5) H6].
  split; [exact H1|]. apply Forall_app. split; [exact H2|]. apply Forall_cons; [|exact H6]. cbn [fst snd]. auto.
Qed.
(* what the front part of read_global_assignment does with a chain *)
Lemma chain_value fuel e p stop fo sts :
  gram p e -> good_chain e -> kdefined nodef e -> get_operator stop = (fo, sts) -> op_eqb fo OP_generic || op_eqb fo OP_ternary = true ->
  (length (ktokens e) < fuel)%nat ->
  forall (T : Type) (fin : opcode -> Z -> toks -> option T) , 
  match read_primary_constant fuel (ktokens e ++ stop) with
  | None => None
  | Some (operand1, ts) =>
      let '(op, ts) := get_operator ts in
      if op_eqb op OP_generic then fin OP_generic operand1 ts
      else if op_eqb op OP_ternary then fin OP_ternary operand1 ts
      else
        match read_primary_constant fuel ts with
        | None => None
        | Some (operand2, ts) =>
            let '(next_op, ts) := get_operator ts in
            if op_eqb next_op OP_generic then
              match eval_expression_imm op operand1 operand2 with Some v => fin OP_generic v ts | None => None end
            else
              match read_chain_imm fuel next_op [op] [operand2; operand1] ts with
              | None => None
              | Some (op, ops, vals, ts) =>
                  match unwind_imm ops vals with
                  | None => None
                  | Some vals => if op_eqb op OP_ternary then fin OP_ternary (last vals 0) ts else fin OP_generic (last vals 0) ts
                  end
              end
        end
  end = fin fo (kval e) sts.
Proof.
  intros G (C & B & Sh & R) D Hs Hf Lf T fin.
  destruct (chain_rest_ok e p G C D B) as [(O0 & G0 & D0) F].
  pose proof (ktree_tokens e) as TK. rewrite TK, <- app_assoc. rewrite TK, app_length in Lf.
  rewrite (primary_ok _ _ (kval (first (ktree e)))) by (auto using chain_simple_value; lia).
  rewrite (get_operator_ltoks _ _ _ _ Hs).
  assert (RUN : run cprio capp [] [kval (first (ktree e))] (map (fun x => (fst x, kval (snd x))) (rest (ktree e))) = Some (kval e)).
  { rewrite <- tmap_first, <- tmap_rest. apply (run_correct _ _ _ 0).
    - apply tmap_wf. eapply ktree_cwf; eauto.
    - erewrite ktree_value by eauto. apply chain_simple_value. exact D. }
  destruct (rest (ktree e)) as [|[o e2] l] eqn:RT.
  - cbn [map run unwind] in RUN. injection RUN as <-.
    assert (Q : forall v, (if op_eqb fo OP_generic then fin OP_generic v sts else if op_eqb fo OP_ternary then fin OP_ternary v sts else None) = fin fo v sts).
    { intros v. destruct (op_eqb fo OP_generic) eqn:Q1; [apply internal_opcode_dec_bl in Q1; subst; reflexivity|].
      destruct (op_eqb fo OP_ternary) eqn:Q2; [apply internal_opcode_dec_bl in Q2; subst; reflexivity|discriminate]. }
    rewrite <- Q. destruct (op_eqb fo OP_generic); [reflexivity|]. destruct (op_eqb fo OP_ternary); [reflexivity|discriminate].
  - pose proof (opc_plain o) as P. apply orb_false_iff in P. destruct P as [-> ->].
    inversion F as [|? ? (Bo & O2 & G2 & D2) F']; subst. cbn [fst snd] in *.
    cbn [ltoks flat_map fst snd length] in Lf. rewrite app_length in Lf. fold (ltoks l) in Lf. cbn [length] in Lf.
    rewrite (primary_ok _ _ (kval e2)) by (auto using chain_simple_value; lia).
    cbn [map run reduce fst snd] in RUN.
    destruct (get_operator (ltoks l ++ stop)) as [nop ts] eqn:Go.
    destruct (op_eqb nop OP_generic) eqn:Qn.
    + rewrite (get_operator_ltoks _ _ _ _ Hs) in Go. destruct l as [|[o3 e3] l]; [|injection Go as <- _; pose proof (opc_plain o3) as P; rewrite Qn in P; discriminate].
      injection Go as <- <-. cbn [map run unwind] in RUN. unfold capp in RUN.
      destruct (eval_expression_imm _ _ _) as [z|]; [|discriminate]. injection RUN as ->. apply internal_opcode_dec_bl in Qn. subst fo. reflexivity.
    + destruct (read_chain_ok stop fo sts Hs Hf l fuel nop [o] [kval e2; kval (first (ktree e))] ts (kval e)) as (ops' & vals' & H1 & H2); auto; try lia.
      * repeat constructor.
      * cbn [map] in H1. rewrite H1, H2. cbn [last]. destruct (op_eqb fo OP_ternary) eqn:Q2; [apply internal_opcode_dec_bl in Q2; subst; reflexivity|].
        rewrite orb_false_r in Hf. apply internal_opcode_dec_bl in Hf. subst. reflexivity.
Qed.

(** conditional expressions whose parts are chains *)
Definition good_init (e : kexpr) : Prop :=
  match e with
  | KCond c a b => good_chain c /\ good_chain a /\ good_chain b
  | _ => good_chain e
  end.
Lemma chain_notok e t : chain e -> (forall w, ~ In (t, w) (ktokens e)) -> forall k, skip_to t (ktokens e ++ k) = skip_to t k.
Proof.
  intros _. induction (ktokens e) as [|[t' w] l IH]; intros H k; [reflexivity|]. cbn [List.app skip_to].
  destruct (token_eqb t' t) eqn:Q.
  - exfalso. unfold token_eqb in Q. destruct (_ : {t' = t} + {t' <> t}) as [->|]; [|discriminate]. apply (H w). left. reflexivity.
  - apply IH. intros w' Hin. apply (H w'). right. exact Hin.
Qed.
Lemma operand_tokens sg e t w : operand sg e -> In (t, w) (ktokens e) -> t <> T_colon /\ t <> T_semicolon.
Proof.
  revert sg. induction e as [l|c|x|u e IH|o a IHa b IHb|c IHc a IHa b IHb|e IH]; intros sg O H; cbn [operand ktokens] in *; try contradiction.
  - destruct H as [H|[]]. inversion H. split; discriminate.
  - destruct H as [H|[]]. inversion H. split; discriminate.
  - destruct u; try contradiction. destruct O as [_ O]. destruct H as [H|H]; [inversion H; split; discriminate|]. eapply IH; eauto.
  - destruct H as [H|H]; [inversion H; split; discriminate|]. apply in_app_or in H. destruct H as [H|[H|[]]]; [eapply IH; eauto|inversion H; split; discriminate].
Qed.
Lemma chain_tokens e t w : chain e -> In (t, w) (ktokens e) -> t <> T_colon /\ t <> T_semicolon.
Proof.
  induction e as [l|c|x|u e IH|o a IHa b IHb|c IHc a IHa b IHb|e IH]; try (intros C H; exact (operand_tokens true _ _ _ C H)).
  cbn [chain ktokens]. intros [Ca Cb] H. apply in_app_or in H. destruct H as [H|[H|H]]; auto.
  inversion H. destruct o; split; discriminate.
Qed.
Lemma good_init_ok fuel e stop : gram 3 e -> good_init e -> kdefined nodef e ->
  (length (ktokens e) < fuel)%nat -> 
  (exists w r, stop = (T_semicolon, w) :: r) \/ (good_chain e /\ get_operator stop = (OP_generic, stop)) ->
  read_global_assignment fuel (ktokens e ++ stop) = Some (kval e, stop).
Proof.
  assert (One : forall fuel e p stop, gram p e -> good_chain e -> kdefined nodef e -> get_operator stop = (OP_generic, stop) -> (length (ktokens e) < fuel)%nat ->
                 read_global_assignment fuel (ktokens e ++ stop) = Some (kval e, stop)).
  { intros f e0 p st G C D Hs L. destruct f as [|f]; [lia|].
    pose proof (chain_value (S f) e0 p st OP_generic st G C D Hs eq_refl L _
      (fun op v ts => if op_eqb op OP_ternary then
          match lex_expect T_question ts with
          | None => None
          | Some ts => if v =? 0 then match skip_to T_colon ts with None => None | Some ts => read_global_assignment f (tl ts) end
                       else match read_global_assignment f ts with
                            | None => None
                            | Some (v, ts) => match lex_expect T_colon ts with None => None | Some ts => match skip_to T_semicolon ts with Some ts => Some (v, ts) | None => None end end
                            end
          end else Some (v, ts))) as H. exact H. }
  intros G GI D L St.
  assert (Chain : good_chain e -> read_global_assignment fuel (ktokens e ++ stop) = Some (kval e, stop)).
  { intros C. apply (One _ _ 3); auto. destruct St as [(w & r & ->)|[_ St]]; [reflexivity|exact St]. }
  destruct e as [l|c|x|u e|o a b|c a b|e]; cbn [good_init] in GI; try (apply Chain; exact GI).
  clear Chain. destruct GI as (Cc & Ca & Cb). destruct St as [(w & r & ->)|[(Q & _) _]]; [|destruct Q].
  cbn [gram kdefined ktokens length] in *. destruct G as (_ & Gc & Ga & Gb), D as (Dc & Da & Db).
  rewrite !app_length in L. cbn [length] in L. rewrite !app_length in L. cbn [length] in L.
  destruct fuel as [|f]; [lia|].
  set (stop := (T_semicolon, w) :: r) in *.
  replace ((ktokens c ++ (T_question, []) :: ktokens a ++ (T_colon, []) :: ktokens b) ++ stop)
    with (ktokens c ++ (T_question, []) :: ktokens a ++ (T_colon, []) :: ktokens b ++ stop)
    by (rewrite <- !app_assoc; cbn [List.app]; rewrite <- !app_assoc; reflexivity).
  set (rest1 := (T_question, []) :: ktokens a ++ (T_colon, []) :: ktokens b ++ stop).
  pose proof (chain_value (S f) c 4 rest1 OP_ternary rest1 Gc Cc Dc eq_refl eq_refl ltac:(lia) _
      (fun op v ts => if op_eqb op OP_ternary then
          match lex_expect T_question ts with
          | None => None
          | Some ts => if v =? 0 then match skip_to T_colon ts with None => None | Some ts => read_global_assignment f (tl ts) end
                       else match read_global_assignment f ts with
                            | None => None
                            | Some (v, ts) => match lex_expect T_colon ts with None => None | Some ts => match skip_to T_semicolon ts with Some ts => Some (v, ts) | None => None end end
                            end
          end else Some (v, ts))) as H.
  transitivity (if kval c =? 0 then match skip_to T_colon (ktokens a ++ (T_colon, []) :: ktokens b ++ stop) with None => None | Some ts => read_global_assignment f (tl ts) end
                       else match read_global_assignment f (ktokens a ++ (T_colon, []) :: ktokens b ++ stop) with
                            | None => None
                            | Some (v, ts) => match lex_expect T_colon ts with None => None | Some ts => match skip_to T_semicolon ts with Some ts => Some (v, ts) | None => None end end
                            end); [exact H|]. clear H.
  pose proof (chain_simple_value c Dc) as Ec. pose proof (chain_simple_value a Da) as Ea. pose proof (chain_simple_value b Db) as Eb.
  assert (Ev : kval (KCond c a b) = if kval c =? 0 then kval b else kval a).
  { unfold kval at 1. cbn [kvalue]. rewrite Ec, Ea, Eb. destruct (kval c =? 0); reflexivity. }
  rewrite Ev. destruct (kval c =? 0).
  - rewrite chain_notok; [|apply Ca|intros w' Hin; destruct (chain_tokens a _ _ (proj1 Ca) Hin); congruence].
    cbn [skip_to]. change (token_eqb T_colon T_colon) with true. cbn [tl]. apply (One _ _ 3); auto. lia.
  - rewrite (One _ _ 3) by (auto; lia). cbn [lex_expect]. unfold lex_expect, lex_accept. change (token_eqb T_colon T_colon) with true. cbn iota.
    rewrite chain_notok; [|apply Cb|intros w' Hin; destruct (chain_tokens b _ _ (proj1 Cb) Hin); congruence]. reflexivity.
Qed.
