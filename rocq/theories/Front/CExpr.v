(** Specification: the integer expressions of C (ISO C 6.5, 6.6), written down with the
    grammar's precedence levels, and their values.  Nothing here comes from /repo. *)
From Verif.Base Require Export Int32.
From Verif.Front Require Export Lexer Numeric.
Open Scope Z_scope.

Inductive binop := BMul | BDiv | BMod | BAdd | BSub | Shl | Shr | BLt | BGt | BLe | BGe | BEq | BNe | BAnd | BXor | BOr | LAnd | LOr.
Inductive unop := UPlus | UNeg | UCompl | UNot.

(** precedence levels of the grammar: 13 multiplicative ... 4 logical or, 3 conditional, 14 unary *)
Definition level (o : binop) : Z :=
  match o with
  | BMul | BDiv | BMod => 13
  | BAdd | BSub => 12
  | Shl | Shr => 11
  | BLt | BGt | BLe | BGe => 10
  | BEq | BNe => 9
  | BAnd => 8
  | BXor => 7
  | BOr => 6
  | LAnd => 5
  | LOr => 4
  end.
Definition op_token (o : binop) : token :=
  match o with
  | BMul => T_asterisk | BDiv => T_divide | BMod => T_mod | BAdd => T_plus | BSub => T_minus
  | Shl => T_lshift | Shr => T_rshift | BLt => T_lt | BGt => T_gt | BLe => T_le | BGe => T_ge
  | BEq => T_eq | BNe => T_noteq | BAnd => T_ampersand | BXor => T_bit_xor | BOr => T_bit_or
  | LAnd => T_log_and | LOr => T_log_or
  end.
Definition un_token (u : unop) : token :=
  match u with UPlus => T_plus | UNeg => T_minus | UCompl => T_bit_not | UNot => T_log_not end.

Definition b2z (b : bool) : Z := if b then 1 else 0.
(** the value of [a o b] for operands of type int; None where C leaves it undefined (division by
    zero or overflowing, shift by a negative or too large count).  Addition, subtraction, multiplication
    and << are taken modulo 2^32, as every implementation does. *)
Definition cbin (o : binop) (a b : Z) : option Z :=
  match o with
  | BMul => Some (wrap (a * b))
  | BAdd => Some (wrap (a + b))
  | BSub => Some (wrap (a - b))
  | BDiv => if (b =? 0) || ((a =? -2147483648) && (b =? -1)) then None else Some (Z.quot a b)
  | BMod => if (b =? 0) || ((a =? -2147483648) && (b =? -1)) then None else Some (Z.rem a b)
  | Shl => if (0 <=? b) && (b <? 32) then Some (wrap (a * 2 ^ b)) else None
  | Shr => if (0 <=? b) && (b <? 32) then Some (a / 2 ^ b) else None
  | BLt => Some (b2z (a <? b)) | BGt => Some (b2z (b <? a))
  | BLe => Some (b2z (a <=? b)) | BGe => Some (b2z (b <=? a))
  | BEq => Some (b2z (a =? b)) | BNe => Some (b2z (negb (a =? b)))
  | BAnd => Some (Z.land a b) | BOr => Some (Z.lor a b) | BXor => Some (Z.lxor a b)
  | LAnd => Some (b2z (negb (a =? 0) && negb (b =? 0)))
  | LOr => Some (b2z (negb (a =? 0) || negb (b =? 0)))
  end.
Definition cun (u : unop) (a : Z) : Z :=
  match u with UPlus => a | UNeg => wrap (- a) | UCompl => -1 - a | UNot => b2z (a =? 0) end.

(** constant expressions *)
Inductive kexpr :=
| KLit (l : literal)
| KChr (c : Z)                    (* character constant *)
| KDef (name : text)              (* defined(name), only in #if *)
| KUn (u : unop) (e : kexpr)
| KBin (o : binop) (a b : kexpr)
| KCond (c a b : kexpr)
| KPar (e : kexpr).

(** [gram n e]: e is an expression of precedence level n or tighter: its tree is the one the C
    grammar gives to its token sequence *)
Fixpoint gram (n : Z) (e : kexpr) : Prop :=
  match e with
  | KLit l => literal_wf l
  | KChr c => 0 <= c < 128
  | KDef name => True
  | KUn u e => n <= 14 /\ gram 14 e
  | KBin o a b => n <= level o /\ gram (level o) a /\ gram (level o + 1) b
  | KCond c a b => n <= 3 /\ gram 4 c /\ gram 3 a /\ gram 3 b
  | KPar e => gram 3 e
  end.

(** the token sequence of an expression; the text of punctuation is immaterial.  100 101 102 105 110 101 100 spells defined. *)
Definition defined_word : text := [100; 101; 102; 105; 110; 101; 100].
Fixpoint ktokens (e : kexpr) : list (token * text) :=
  match e with
  | KLit l => [(T_numeric, literal_text l)]
  | KChr c => [(T_char, [c])]
  | KDef name => [(T_identifier, defined_word); (T_open_bracket, []); (T_identifier, name); (T_close_bracket, [])]
  | KUn u e => (un_token u, []) :: ktokens e
  | KBin o a b => ktokens a ++ (op_token o, []) :: ktokens b
  | KCond c a b => ktokens c ++ (T_question, []) :: ktokens a ++ (T_colon, []) :: ktokens b
  | KPar e => (T_open_bracket, []) :: ktokens e ++ [(T_close_bracket, [])]
  end.

Section Value.
  Variable defd : text -> bool.  (* which names are defined as macros *)
  (** the value C assigns to the expression: && || ?: evaluate only what they need *)
  Fixpoint kvalue (e : kexpr) : option Z :=
    match e with
    | KLit l => Some (wrap (literal_value l))
    | KChr c => Some c
    | KDef name => Some (b2z (defd name))
    | KUn u e => match kvalue e with Some v => Some (cun u v) | None => None end
    | KBin LAnd a b =>
        match kvalue a with
        | None => None
        | Some v => if v =? 0 then Some 0 else match kvalue b with Some w => Some (b2z (negb (w =? 0))) | None => None end
        end
    | KBin LOr a b =>
        match kvalue a with
        | None => None
        | Some v => if v =? 0 then match kvalue b with Some w => Some (b2z (negb (w =? 0))) | None => None end else Some 1
        end
    | KBin o a b =>
        match kvalue a with
        | None => None
        | Some v => match kvalue b with Some w => cbin o v w | None => None end
        end
    | KCond c a b =>
        match kvalue c with
        | None => None
        | Some v => if v =? 0 then kvalue b else kvalue a
        end
    | KPar e => kvalue e
    end.
  (** no subexpression, evaluated or not, is undefined *)
  Fixpoint kdefined (e : kexpr) : Prop :=
    match e with
    | KLit _ | KChr _ | KDef _ => True
    | KUn _ e => kdefined e
    | KBin o a b => kdefined a /\ kdefined b /\ (forall v w, kvalue a = Some v -> kvalue b = Some w -> cbin o v w <> None)
    | KCond c a b => kdefined c /\ kdefined a /\ kdefined b
    | KPar e => kdefined e
    end.
  Lemma kdefined_value e : kdefined e -> exists v, kvalue e = Some v.
  Proof.
    induction e as [l|c|n|u e IH|o a IHa b IHb|c IHc a IHa b IHb|e IH]; cbn [kdefined kvalue]; intros D; eauto.
    - destruct (IH D) as [v ->]. eauto.
    - destruct D as (Da & Db & H). destruct (IHa Da) as [v Ev], (IHb Db) as [w Ew]. rewrite Ev, Ew in *.
      specialize (H v w eq_refl eq_refl).
      destruct o; cbn [cbin] in *; eauto; try (destruct (cbin _ _ _) eqn:Q; [eauto|congruence]);
        try (destruct (_ || _); [congruence|eauto]); try (destruct (_ && _); [eauto|congruence]); destruct (v =? 0); eauto.
    - destruct D as (Dc & Da & Db). destruct (IHc Dc) as [v ->], (IHa Da) as [w ->], (IHb Db) as [x ->]. destruct (v =? 0); eauto.
  Qed.
  Lemma kdefined_bin o a b : kdefined (KBin o a b) -> exists v w, kvalue a = Some v /\ kvalue b = Some w /\ kvalue (KBin o a b) = cbin o v w.
  Proof.
    cbn [kdefined]. intros (Da & Db & H). destruct (kdefined_value a Da) as [v Ev], (kdefined_value b Db) as [w Ew].
    exists v, w. split; [exact Ev|]. split; [exact Ew|]. cbn [kvalue]. rewrite Ev, Ew. destruct o; try reflexivity; cbn [cbin]; destruct (v =? 0), (w =? 0); reflexivity.
  Qed.
End Value.

(** every value lies in the range of int *)
Lemma b2z_range b : is_i32 (b2z b).
Proof. unfold is_i32; destruct b; cbn; lia. Qed.
Lemma bits_range o a b : In o [BAnd; BOr; BXor] -> is_i32 a -> is_i32 b -> forall v, cbin o a b = Some v -> is_i32 v.
Proof.
  unfold is_i32. intros H Ha Hb v E.
  assert (T : forall z, -2147483648 <= z < 2147483648 <-> forall n, 31 <= n -> Z.testbit z n = (z <? 0)).
  { intros z. split.
    - intros Hz n Hn. rewrite Z.testbit_odd. rewrite Z.shiftr_div_pow2 by lia.
      destruct (Z.ltb_spec z 0).
      + assert (z / 2 ^ n = -1) as ->; [|reflexivity]. assert (2 ^ 31 <= 2 ^ n) by (apply Z.pow_le_mono_r; lia). change (2 ^ 31) with 2147483648 in *.
        symmetry. apply Z.div_unique with (z + 2 ^ n); lia.
      + rewrite Z.div_small; [reflexivity|]. assert (2 ^ 31 <= 2 ^ n) by (apply Z.pow_le_mono_r; lia). change (2 ^ 31) with 2147483648 in *. lia.
    - intros Hz. assert (E1 : z / 2 ^ 31 = (if z <? 0 then -1 else 0)).
      { apply Z.bits_inj'. intros n Hn. rewrite <- Z.shiftr_div_pow2 by lia. rewrite Z.shiftr_spec by lia. rewrite Hz by lia.
        destruct (z <? 0); [rewrite Z.bits_m1 by lia; reflexivity|rewrite Z.bits_0; reflexivity]. }
      change (2 ^ 31) with 2147483648 in E1. destruct (Z.ltb_spec z 0); lia. }
  pose proof (proj1 (T a) Ha) as Ta. pose proof (proj1 (T b) Hb) as Tb. apply (proj2 (T v)).
  intros n Hn.
  destruct H as [<-|[<-|[<-|[]]]]; injection E as <-.
  - rewrite Z.land_spec, Ta, Tb by lia. pose proof (Z.land_neg a b). destruct (Z.ltb_spec a 0), (Z.ltb_spec b 0), (Z.ltb_spec (Z.land a b) 0); cbn; lia.
  - rewrite Z.lor_spec, Ta, Tb by lia. pose proof (Z.lor_neg a b). destruct (Z.ltb_spec a 0), (Z.ltb_spec b 0), (Z.ltb_spec (Z.lor a b) 0); cbn; lia.
  - rewrite Z.lxor_spec, Ta, Tb by lia.
    pose proof (Z.lxor_nonneg a b). destruct (Z.ltb_spec a 0), (Z.ltb_spec b 0), (Z.ltb_spec (Z.lxor a b) 0); cbn; lia.
Qed.
Lemma cbin_range o a b v : is_i32 a -> is_i32 b -> cbin o a b = Some v -> is_i32 v.
Proof.
  intros Ha Hb. destruct o; try (apply bits_range; cbn; auto; fail); cbn [cbin]; intros E;
    try (injection E as <-; first [apply wrap_range|apply b2z_range]).
  - destruct (_ || _) eqn:Q; [discriminate|]. injection E as <-. unfold is_i32 in *. apply orb_false_iff in Q. destruct Q as [Q1 Q2].
    assert (b <> 0) by lia. pose proof (Z.quot_abs a b ltac:(lia)) as QA.
    destruct (Z.eq_dec b 1) as [->|N1]; [rewrite Z.quot_1_r; lia|].
    destruct (Z.eq_dec b (-1)) as [->|N2].
    + change (-1) with (- (1)). rewrite Z.quot_opp_r, Z.quot_1_r by lia. assert (a <> -2147483648) by lia. lia.
    + assert (Z.abs (a ÷ b) <= Z.abs a / 2).
      { rewrite <- QA. rewrite Z.quot_div_nonneg by lia. apply Z.div_le_compat_l; lia. }
      assert (Z.abs a / 2 <= 1073741824) by (apply Z.div_le_upper_bound; lia). lia.
  - destruct (_ || _) eqn:Q; [discriminate|]. injection E as <-. unfold is_i32 in *. apply orb_false_iff in Q. destruct Q as [Q1 Q2].
    pose proof (Z.rem_bound_abs a b ltac:(lia)). lia.
  - destruct (_ && _); [|discriminate]. injection E as <-. apply wrap_range.
  - destruct (_ && _) eqn:Q; [|discriminate]. injection E as <-. apply andb_true_iff in Q. destruct Q as [Q1 Q2]. unfold is_i32 in *.
    assert (0 < 2 ^ b) by (apply Z.pow_pos_nonneg; lia). split.
    + apply Z.div_le_lower_bound; nia.
    + apply Z.div_lt_upper_bound; nia.
Qed.
Lemma cun_range u a : is_i32 a -> is_i32 (cun u a).
Proof. intros H. destruct u; cbn [cun]; try assumption; try apply wrap_range; try apply b2z_range. unfold is_i32 in *. lia. Qed.
Lemma kvalue_range d n e v : gram n e -> kvalue d e = Some v -> is_i32 v.
Proof.
  revert n v. induction e as [l|c|x|u e IH|o a IHa b IHb|c IHc a IHa b IHb|e IH]; intros n v G E; cbn [gram kvalue] in *.
  - injection E as <-. apply wrap_range.
  - injection E as <-. unfold is_i32. lia.
  - injection E as <-. apply b2z_range.
  - destruct (kvalue d e) eqn:Q; [|discriminate]. injection E as <-. apply cun_range. destruct G. eauto.
  - destruct G as (_ & Ga & Gb).
    assert (N : match kvalue d a with None => None | Some v => match kvalue d b with Some w => cbin o v w | None => None end end = Some v -> is_i32 v).
    { destruct (kvalue d a) as [x|] eqn:Qa; [|discriminate]. destruct (kvalue d b) as [y|] eqn:Qb; [|discriminate]. apply cbin_range; eauto. }
    destruct o; auto; destruct (kvalue d a) as [x|]; try discriminate; destruct (x =? 0); try (injection E as <-; unfold is_i32; lia);
      destruct (kvalue d b); try discriminate; injection E as <-; apply b2z_range.
  - destruct G as (_ & _ & Ga & Gb). destruct (kvalue d c) as [x|]; [|discriminate]. destruct (x =? 0); eauto.
  - eauto.
Qed.
