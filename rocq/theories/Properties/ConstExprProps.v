(** C33: global initialisers; C34: preprocessor conditions. *)
From Coq Require Import String.
From Verif.Front Require Import LexSpec CExpr Parse GlobalInit GlobalInitProofs Preproc PreprocProofs.
Open Scope Z_scope.

Definition no_macro : text -> bool := fun _ => false.

(** ** C33 *)
(** [int x = e;] gives x the C value of e, for chains of any length of + - * / % << >> == != < <= > >= && || over
    signed numbers, characters and operands in parentheses, and for c ? a : b over such chains; limits as named in [good_chain]. *)
Theorem C33_initialiser_partial : forall e w rest,
  gram 3 e -> good_init e -> kdefined no_macro e ->
  exists v, kvalue no_macro e = Some v /\
    global_initialiser (ktokens e ++ (T_semicolon, w) :: rest) = Some (v, (T_semicolon, w) :: rest).
Proof.
  intros e w rest G C D. exists (kval e). split; [apply chain_simple_value; exact D|]. unfold global_initialiser.
  apply good_init_ok; auto; [rewrite app_length; lia|]. left. eauto.
Qed.
Print Assumptions C33_initialiser_partial.

(** The same in front of a comma (which the caller, src/parser.c:3205, then reports as a syntax error). *)
Theorem C33_declarators_partial : forall e w rest,
  gram 3 e -> good_chain e -> kdefined no_macro e ->
  exists v, kvalue no_macro e = Some v /\
    global_initialiser (ktokens e ++ (T_comma, w) :: rest) = Some (v, (T_comma, w) :: rest).
Proof.
  intros e w rest G C D. exists (kval e). split; [apply chain_simple_value; exact D|]. unfold global_initialiser.
  assert (good_init e) by (destruct e; try exact C; destruct (proj1 C)).
  apply good_init_ok; [exact G|assumption|exact D|rewrite app_length; lia|right; split; [exact C|reflexivity]].
Qed.
Print Assumptions C33_declarators_partial.

(* deciding [gram] for the examples *)
Definition lit_b (l : literal) : bool :=
  match l with
  | Decimal ds => match ds with d :: _ => (49 <=? d) && (d <=? 57) | [] => false end && forallb (fun c => (48 <=? c) && (c <=? 57)) ds
  | Octal ds => forallb (fun c => (48 <=? c) && (c <=? 55)) ds
  | Hex ds => negb (Nat.eqb (List.length ds) 0) && forallb (fun c => ((48 <=? c) && (c <=? 57)) || ((97 <=? c) && (c <=? 102)) || ((65 <=? c) && (c <=? 70))) ds
  end.
Lemma lit_b_ok l : lit_b l = true -> literal_wf l.
Proof.
  destruct l as [ds|ds|ds]; unfold lit_b, literal_wf; rewrite ?andb_true_iff, forallb_forall.
  - intros [H1 H2]. destruct ds as [|d r]; [discriminate|]. split; [exists d, r; split; [reflexivity|lia]|]. rewrite Forall_forall. intros c Hc. specialize (H2 c Hc). lia.
  - intros H. rewrite Forall_forall. intros c Hc. specialize (H c Hc). lia.
  - intros [H1 H2]. split; [destruct ds; discriminate|]. rewrite Forall_forall. intros c Hc. specialize (H2 c Hc). lia.
Qed.
Fixpoint gram_b (n : Z) (e : kexpr) : bool :=
  match e with
  | KLit l => lit_b l
  | KChr c => (0 <=? c) && (c <? 128)
  | KDef name => true
  | KUn u e => (n <=? 14) && gram_b 14 e
  | KBin o a b => (n <=? level o) && gram_b (level o) a && gram_b (level o + 1) b
  | KCond c a b => (n <=? 3) && gram_b 4 c && gram_b 3 a && gram_b 3 b
  | KPar e => gram_b 3 e
  end.
Lemma gram_b_ok e : forall n, gram_b n e = true -> gram n e.
Proof.
  induction e; intros n H; cbn [gram gram_b] in *; rewrite ?andb_true_iff in H; auto using lit_b_ok; try lia; intuition (auto; lia).
Qed.
Definition num (s : string) : kexpr := KLit (Decimal (bytes s)).
Definition semi : toks := [(T_semicolon, [])].

(** The value is wrong when a shift meets an operator that binds less tightly: 8 >> 1 == 4 is 1, the compiler stores 8. *)
Theorem C33_shift_refuted :
  let e := KBin BEq (KBin Shr (num "8") (num "1")) (num "4") in
  gram 3 e /\ kvalue no_macro e = Some 1 /\ global_initialiser (ktokens e ++ semi) = Some (8, semi).
Proof. split; [apply gram_b_ok; reflexivity|vm_compute; auto]. Qed.
Print Assumptions C33_shift_refuted.

(** The remainder of a negative number by a power of two: -3 % 4 is -3, the compiler stores 1. *)
Theorem C33_remainder_refuted :
  let e := KBin BMod (KUn UNeg (num "3")) (num "4") in
  gram 3 e /\ kvalue no_macro e = Some (-3) /\ global_initialiser (ktokens e ++ semi) = Some (1, semi).
Proof. split; [apply gram_b_ok; reflexivity|vm_compute; auto]. Qed.
Print Assumptions C33_remainder_refuted.

(** Well-formed initialisers that are rejected or run into undefined behaviour: parentheses around an operator, bitwise
    operators, a literal of ten characters (it overruns its buffer), an unevaluated division by zero, a nested conditional. *)
Theorem C33_rejected_refuted :
  forall e, In e [KBin BMul (KPar (KBin BAdd (num "1") (num "2"))) (num "3");
                  KBin BOr (num "1") (num "2");
                  num "4294967295";
                  KBin LAnd (num "0") (KBin BDiv (num "1") (KLit (Octal [])));
                  KCond (num "1") (KCond (num "1") (num "2") (num "3")) (num "4")] ->
  kvalue no_macro e <> None /\ global_initialiser (ktokens e ++ semi) = None.
Proof. intros e H. repeat destruct H as [<-|H]; try contradiction; vm_compute; split; congruence. Qed.
Print Assumptions C33_rejected_refuted.

(** After a taken ?: everything up to the semicolon is thrown away: in [int a = 1 ? 2 : 3, b = 4;] the variable b is
    silently not declared, where without ?: a syntax error would be reported. *)
Theorem C33_declarator_lost_refuted :
  let e := KCond (num "1") (num "2") (num "3") in
  let more := [(T_comma, []); (T_identifier, bytes "b"); (T_assign, []); (T_numeric, bytes "4")] in
  global_initialiser (ktokens e ++ more ++ semi) = Some (2, semi).
Proof. vm_compute. reflexivity. Qed.
Print Assumptions C33_declarator_lost_refuted.

(** a non-trivial instance: 2 + 3 * -4 - (5) < 7 && 1 ? '\n' : 100 / 7 % 5, of value 10 *)
Definition sample33 : kexpr :=
  KCond (KBin LAnd (KBin BLt (KBin BSub (KBin BAdd (num "2") (KBin BMul (num "3") (KUn UNeg (num "4")))) (KPar (num "5"))) (num "7")) (num "1"))
        (KChr 10) (KBin BMod (KBin BDiv (num "100") (num "7")) (num "5")).
Ltac lit := split; [eexists _, _; split; [reflexivity|lia]|repeat (apply Forall_cons; [lia|]); apply Forall_nil].
Example C33_sample : gram 3 sample33 /\ good_init sample33 /\ kdefined no_macro sample33 /\ kvalue no_macro sample33 = Some 10.
Proof.
  split; [|split; [|split]].
  - apply gram_b_ok. reflexivity.
  - cbn. repeat split; auto; try lia; try (apply Nat.ltb_lt; reflexivity); repeat (apply Forall_cons; [unfold bitop; intuition congruence|]); try apply Forall_nil;
      unfold shifts_ok, shift, bitop; cbn; try (intuition (subst; try congruence; cbn; try lia)); try (intros; discriminate).
    left. vm_compute in *. injection H0 as <-. congruence.
  - cbn [kdefined sample33]. repeat split; auto; intros v w Ev Ew; vm_compute in Ev, Ew; injection Ev as <-; injection Ew as <-; vm_compute; congruence.
  - vm_compute. reflexivity.
Qed.

(** ** C34 *)
(** In a source made of text and unnested groups #if / #ifdef / #ifndef ... #elif ... #else ... #endif, what the parser
    sees of each group is the branch C demands, for conditions whose operators come in order of increasing precedence. *)
Theorem C34_conditional_partial : forall find_alias l,
  let defined name := match find_alias name with Some _ => true | None => false end in
  Forall (good_item defined) l ->
  exists fuel0, forall fuel, (fuel0 <= fuel)%nat -> exists n0, forall n, (n0 <= n)%nat ->
    visible find_alias n fuel false (flat_map item_tokens l) = Some (flat_map (chosen defined) l).
Proof. intros fa l d F. apply items_seen. exact F. Qed.
Print Assumptions C34_conditional_partial.

(** The condition alone. *)
Theorem C34_value_partial : forall find_alias e k,
  let defined name := match find_alias name with Some _ => true | None => false end in
  good_cond defined e -> fst (get_operator k) = OP_generic ->
  exists v, kvalue defined e = Some v /\
  exists n0, forall n, (n0 <= n)%nat -> read_constant_expr find_alias n (ktokens e ++ k) = Some (v, k).
Proof.
  intros fa e k d (G & T & D) H. destruct (kdefined_value _ _ D) as [v E]. exists v. split; [exact E|].
  exists (2 * List.length (ktokens e) + 2)%nat. intros n L. unfold read_constant_expr. apply infix_ok; auto; try lia.
  - destruct e; cbn [gram] in *; intuition lia.
  - unfold stops. destruct k as [|[t w] r]; [reflexivity|]. destruct t; cbn in H |- *; try discriminate; reflexivity.
Qed.
Print Assumptions C34_value_partial.

Definition fa0 : text -> option text := fun _ => None.
(** Otherwise operators get lost and the value is wrong; the rest of the condition is left in the source:
    1 + 2 == 4, 1 && 1 && 0 and -1 + 1 are 0 in C. *)
Theorem C34_precedence_refuted :
  forall e v k, In (e, v, k)
    [(KBin BEq (KBin BAdd (num "1") (num "2")) (num "4"), 3, ktokens (num "4"));
     (KBin LAnd (KBin LAnd (num "1") (num "1")) (KLit (Octal [])), 1, ktokens (KLit (Octal [])));
     (KBin BAdd (KUn UNeg (num "1")) (num "1"), -1, ktokens (num "1"))] ->
  kvalue no_macro e = Some 0 /\ read_constant_expr fa0 100 (ktokens e ++ semi) = Some (v, (k ++ semi)) /\ v <> 0.
Proof. intros e v k H. repeat destruct H as [H|H]; try contradiction; injection H as <- <- <-; vm_compute; repeat split; congruence. Qed.
Print Assumptions C34_precedence_refuted.

(** !defined(X), % and parentheses around an operator are rejected. *)
Theorem C34_rejected_refuted :
  forall e n, In e [KUn UNot (KDef (bytes "X")); KBin BMod (num "7") (num "4"); KPar (KBin BAdd (num "1") (num "2"))] ->
  kvalue no_macro e <> None /\ read_constant_expr fa0 n (ktokens e ++ semi) = None.
Proof.
  intros e n H. split; [repeat destruct H as [<-|H]; try contradiction; vm_compute; congruence|].
  do 8 (destruct n as [|n]; [repeat destruct H as [<-|H]; try contradiction; vm_compute; reflexivity|]).
  repeat destruct H as [<-|H]; try contradiction; vm_compute; reflexivity.
Qed.
Print Assumptions C34_rejected_refuted.

(** Nesting is wrong: inside a skipped group the first #endif of an inner group ends the skipping, so the
    text [x] of "#if 0 / #if 0 / #endif / x / #endif" is compiled. *)
Definition zero : kexpr := KLit (Octal []).
Definition x_tok : token * text := (T_identifier, bytes "x").
Theorem C34_nested_refuted :
  visible fa0 50 50 false ((tok T_cppd_if :: ktokens zero) ++ (tok T_cppd_if :: ktokens zero) ++ [tok T_cppd_endif; x_tok; tok T_cppd_endif])
  = Some [x_tok].
Proof. vm_compute. reflexivity. Qed.
Print Assumptions C34_nested_refuted.

(** A condition runs on into the next line: "#if 1 / * x" takes the star with it. *)
Theorem C34_next_line_refuted :
  exists e body, kvalue no_macro e = Some 1 /\ plain body /\
    visible fa0 50 50 false (item_tokens (Group (mkgroup (CIf e) body [] None))) <> Some body.
Proof. exists (num "1"), [(T_asterisk, []); x_tok]. repeat split; [repeat constructor|vm_compute; congruence]. Qed.
Print Assumptions C34_next_line_refuted.

(** a non-trivial instance: #if defined(A) || defined(B) && 2 < 1 + 3 * -4 ... #elif ... #else ... #endif *)
Definition faB : text -> option text := fun n => if text_eqb n (bytes "B") then Some [] else None.
Definition sample34 : list item :=
  [Text [x_tok];
   Group (mkgroup (CIf (KBin LOr (KDef (bytes "A")) (KBin LAnd (KDef (bytes "B")) (KBin BLt (num "2") (KBin BAdd (num "1") (KBin BMul (num "3") (KUn UNeg (num "4"))))))))
     [x_tok; x_tok] [(KDef (bytes "B"), [x_tok])] (Some []))].
Example C34_sample :
  Forall (good_item (fun n => match faB n with Some _ => true | None => false end)) sample34 /\
  visible faB 100 100 false (flat_map item_tokens sample34) = Some [x_tok; x_tok].
Proof.
  split; [|vm_compute; reflexivity].
  apply Forall_cons; [apply Forall_cons; [reflexivity|apply Forall_nil]|]. apply Forall_cons; [|apply Forall_nil].
  cbn [good_item g_if g_then g_elifs g_else]. split; [split|split; [|split]].
  - split; [|split].
    + apply gram_b_ok. reflexivity.
    + cbn. repeat split; auto; try (apply Nat.ltb_lt; reflexivity); unfold uncovered; intuition congruence.
    + cbn [kdefined]. repeat split; auto; intros v w Ev Ew; vm_compute in Ev, Ew; injection Ev as <-; injection Ew as <-; vm_compute; congruence.
  - right. reflexivity.
  - repeat (apply Forall_cons; [reflexivity|]). apply Forall_nil.
  - apply Forall_cons; [|apply Forall_nil]. cbn [fst snd]. split; [split; [exact I|split; exact I]|]. split; [right; reflexivity|].
    repeat (apply Forall_cons; [reflexivity|]). apply Forall_nil.
  - apply Forall_nil.
Qed.
