(** C31: integer literals have their C value. *)
From Coq Require Import String.
From Verif.Front Require Import Lexer LexSpec Numeric.
Open Scope Z_scope.

(** In constant expressions (#if, enum values, array sizes, case labels, global initialisers). *)
Theorem C31_constant : forall l, literal_wf l ->
  read_numeric_constant (literal_text l) = wrap (literal_value l).
Proof.
  intros [ds|ds|ds] W; cbn [literal_text literal_value literal_wf] in *; unfold read_numeric_constant; cbn [hd].
  - destruct W as [(d & r & -> & D) F]. cbn [hd]. change (numeric_loop d 0 0 (d :: r)) with (numeric_loop d 0 (wrap 0) (d :: r)).
    rewrite (numeric_digits _ 10 (d :: r)); [|replace (d =? 48) with false by lia; reflexivity|exact F].
    rewrite horner_number. reflexivity.
  - cbn [numeric_loop Z.eqb Pos.eqb andb]. change (isub (iadd (imul 0 8) 48) 48) with (wrap 0).
    rewrite (numeric_digits 48 8 ds); [|reflexivity|eapply Forall_impl; [|exact W]; cbn; lia]. rewrite horner_number. reflexivity.
  - destruct W as [N F]. cbn [numeric_loop]. change ((0 =? 1) && (48 =? 120)) with false. cbn iota.
    change ((0 + 1 =? 1) && (120 =? 120)) with true. cbn [Z.eqb Pos.eqb]. cbn iota.
    change (fold_left hex_digit_step ds 0) with (fold_left hex_digit_step ds (wrap 0)).
    rewrite hex_fold by exact F. rewrite horner_number. reflexivity.
Qed.
Print Assumptions C31_constant.

(** In ordinary expressions, with or without a minus sign in front. *)
Theorem C31_expression : forall l neg, literal_wf l ->
  read_numeric_param (literal_text l) neg = Some (wrap (if neg then - literal_value l else literal_value l)).
Proof.
  intros l neg W.
  assert (E : read_numeric_param (literal_text l) false = Some (wrap (literal_value l)) ->
              read_numeric_param (literal_text l) neg = Some (wrap (if neg then - literal_value l else literal_value l))).
  { unfold read_numeric_param.
    assert (H : hd 0 (literal_text l) =? 45 = false).
    { destruct l as [ds|ds|ds]; cbn [literal_text hd literal_wf] in *; try reflexivity. destruct W as [(d & r & -> & D) _]. cbn. lia. }
    rewrite H. destruct (if hd 0 (literal_text l) =? 48 then _ else _) as [v|]; [|discriminate].
    intros Q. injection Q as ->. destruct neg; [|reflexivity]. f_equal. unfold ineg. apply wrap_eq. unfold wrap.
    destruct (s32_mod (literal_value l)) as [k ->]. unfold w32. replace (- (literal_value l + k * 4294967296)) with (- literal_value l + (-k) * 4294967296) by ring.
    apply Z_mod_plus_full. }
  apply E. clear E. unfold read_numeric_param.
  destruct l as [ds|ds|ds]; cbn [literal_text literal_value literal_wf] in *.
  - destruct W as [(d & r & -> & D) F]. cbn [hd]. replace (d =? 45) with false by lia. replace (d =? 48) with false by lia.
    match goal with |- context [param_loop ?a ?b ?c 0 ?d] => change (param_loop a b c 0 d) with (param_loop a b c (wrap 0) d) end. rewrite param_digits; [rewrite horner_number; reflexivity|discriminate|].
    eapply Forall_impl; [|exact F]. cbn. intros c Hc. unfold param_dec_digit, is_digit. rewrite dec_value by exact Hc. split; [reflexivity|lia].
  - cbn [hd tl]. change (48 =? 45) with false. change (48 =? 48) with true. cbn iota.
    assert (H : hd 0 ds =? 120 = false) by (destruct W as [|c r Hc _]; cbn; [reflexivity|lia]). rewrite H.
    match goal with |- context [param_loop ?a ?b ?c 0 ?d] => change (param_loop a b c 0 d) with (param_loop a b c (wrap 0) d) end. rewrite param_digits; [rewrite horner_number; reflexivity|discriminate|].
    apply Forall_cons; [split; reflexivity|]. eapply Forall_impl; [|exact W]. cbn. intros c Hc.
    unfold param_oct_digit, is_digit. replace (55 <? c) with false by lia. rewrite dec_value by lia. split; [reflexivity|lia].
  - destruct W as [N F]. cbn [hd tl]. change (48 =? 45) with false. change (48 =? 48) with true. change (120 =? 120) with true. cbn iota.
    match goal with |- context [param_loop ?a ?b ?c 0 ?d] => change (param_loop a b c 0 d) with (param_loop a b c (wrap 0) d) end. rewrite param_digits; [rewrite horner_number; reflexivity|exact N|].
    eapply Forall_impl; [|exact F]. cbn. intros c Hc. unfold param_hex_digit, is_digit, is_hex, is_digit, digit_value.
    destruct Hc as [Hc|[Hc|Hc]].
    + replace ((48 <=? c) && (c <=? 57)) with true by lia. split; reflexivity.
    + rewrite lor32_lower by lia. replace ((48 <=? c) && (c <=? 57)) with false by lia. replace ((97 <=? c) && (c <=? 102)) with true by lia.
      split; [f_equal; lia|reflexivity].
    + rewrite lor32_upper by lia. replace ((48 <=? c) && (c <=? 57)) with false by lia. replace ((97 <=? c) && (c <=? 102)) with false by lia.
      replace ((97 <=? c + 32) && (c + 32 <=? 102)) with true by lia. split; [f_equal; lia|]. lia.
Qed.
Print Assumptions C31_expression.

(** The two readers agree. *)
Corollary C31_readers_agree : forall l, literal_wf l ->
  read_numeric_param (literal_text l) false = Some (read_numeric_constant (literal_text l)).
Proof. intros l W. rewrite C31_constant, C31_expression by exact W. reflexivity. Qed.
Print Assumptions C31_readers_agree.

(** An upper-case X is not recognised: 0X1F is silently read as octal rubbish in a constant expression and rejected elsewhere. *)
Open Scope string_scope.
Theorem C31_upper_case_prefix_refuted :
  read_numeric_constant (bytes "0X1F") <> 31 /\ is_numeric (bytes "0X1F") = false.
Proof. split; vm_compute; congruence. Qed.
Print Assumptions C31_upper_case_prefix_refuted.

(** non-trivial instances *)
Example C31_sample :
  literal_wf (Hex (bytes "DEADbeef")) /\ literal_value (Hex (bytes "DEADbeef")) = 3735928559 /\
  read_numeric_constant (bytes "0xDEADbeef") = -559038737 /\
  read_numeric_param (bytes "2147483648") true = Some (-2147483648) /\
  read_numeric_param (bytes "0755") false = Some 493.
Proof.
  split; [|vm_compute; auto]. split; [discriminate|]. vm_compute bytes. repeat (apply Forall_cons; [lia|]). apply Forall_nil.
Qed.
